(** Termination of the functions of the pure parser. *)
From Coq Require Import List NArith ZArith Bool String Ascii Lia Arith.
From Verif Require Import Base Token Scanner Lexer Ast Parser Lexing ScanRefine LexFacts LexSpec LexProofs
  ScanFacts LexerFacts ScanProps Cursor Pure Refine Term Strict GroupSpec Want Closed.
Import ListNotations.
Open Scope N_scope.
Open Scope pure_scope.

Lemma pbind_assoc {A B C} (m : PM A) (f : A -> PM B) (h : B -> PM C) k : pbind (pbind m f) h k = pbind m (fun a => pbind (f a) h) k.
Proof. unfold pbind. destruct (m k); reflexivity. Qed.
(** keywords or not, the same texts *)
Lemma lex_kw0 r : let a := lex ScanKeyword r in let b := lex 0 r in
  lx_gap a = lx_gap b /\ lx_cms a = lx_cms b /\ lx_txt a = lx_txt b /\ lx_raw a = lx_raw b /\ lx_rest a = lx_rest b /\
  (lx_tok b = lx_tok a \/ lx_tok b = TIDENT /\ In (lx_tok a) (map snd keywords)).
Proof.
  induction r as [r IH] using len_ind. destruct r as [|c r]; [cbn; tauto|]. rewrite !lex_cons.
  destruct (isSpace c). { specialize (IH r ltac:(cbn; lia)). cbn zeta in *. unfold skip. cbn [lx_gap lx_cms lx_txt lx_raw lx_rest lx_tok]. destruct IH as (-> & -> & H). tauto. }
  destruct (identStart c) eqn:IS. { destruct (span identChar r) as [x r1] eqn:SP. cbn [lx_gap lx_cms lx_txt lx_raw lx_rest lx_tok]. repeat (split; [reflexivity|]).
    assert (I : is_ident (c :: x)).
    { apply span_spec in SP. destruct SP as (-> & F & _). exists c, x. repeat split; [apply ident_start_iff; exact IS|]. revert F. apply Forall_impl. intros a. apply ident_char_iff. }
    unfold identToken. change (has 0 _) with false. change (has ScanKeyword ScanBoolLit) with false. change (has ScanKeyword ScanNumberLit) with false.
    change (has ScanKeyword ScanKeyword) with true. cbn [andb]. destruct (tok_eqb (asKeywordToken (c :: x)) TILLEGAL) eqn:E; cbn [negb]; [left; reflexivity|right].
    split; [reflexivity|]. assert (E' : asKeywordToken (c :: x) <> TILLEGAL). { intros Q. rewrite Q in E. discriminate. }
    destruct (proj1 (keyword_spec _ _ E') eq_refl) as (n & _ & Hi). apply in_map_iff. exists (n, asKeywordToken (c :: x)). auto. }
  change (has ScanKeyword ScanStrLit) with false. change (has 0 ScanStrLit) with false. change (has ScanKeyword ScanNumberLit) with false. change (has 0 ScanNumberLit) with false.
  destruct (c =? ch "/"); [|rewrite !andb_false_r; cbn; tauto].
  change (has ScanKeyword ScanComment) with false. change (has 0 ScanComment) with false.
  destruct (head_is _ r).
  { destruct (span _ r) as [b r2] eqn:SP. apply span_spec in SP. destruct SP as (-> & _).
    assert (L : (List.length (after_nl r2) < List.length (c :: b ++ r2))%nat). { cbn. rewrite app_length. destruct r2; cbn; lia. }
    specialize (IH _ L). cbn zeta in *. unfold skip. cbn [lx_gap lx_cms lx_txt lx_raw lx_rest lx_tok]. destruct IH as (-> & -> & H). tauto. }
  destruct (head_is _ r); [|destruct r; cbn; tauto]. destruct r as [|d r2]; [cbn; tauto|]. destruct (find_close r2) as [[b r3]|] eqn:FC; [|cbn; tauto].
  assert (L : (List.length r3 < List.length (c :: d :: r2))%nat). { apply find_close_spec in FC. destruct FC as (-> & _). cbn. rewrite app_length. lia. }
  specialize (IH _ L). cbn zeta in *. unfold skip. cbn [lx_gap lx_cms lx_txt lx_raw lx_rest lx_tok]. destruct IH as (-> & -> & H). tauto.
Qed.
Lemma lex_kw_misc r T : T = lx_tok (lex ScanKeyword r) -> T <> TIDENT -> ~ In T (map snd keywords) -> lx_tok (lex 0 r) = T.
Proof. intros E H1 H2. destruct (lex_kw0 r) as (_ & _ & _ & _ & _ & [H|[_ H]]); [congruence|]. rewrite <- E in H. contradiction. Qed.
Lemma kw_find n k : In (n, k) keywords -> find (fun p => tok_eqb (snd p) k) keywords = Some (n, k).
Proof. intros I. unfold keywords in I. cbn [In] in I. repeat (destruct I as [I|I]; [injection I as <- <-; reflexivity|]). destruct I. Qed.
Lemma lex_kw m r k name : nonul r -> lx_tok (lex m r) = k -> In (name, k) keywords -> lx_raw (lex m r) = lit name /\ lx_txt (lex m r) = lit name.
Proof.
  intros N E I. pose proof (lex_kind m r N) as K. rewrite E in K.
  assert (IK : In k (map snd keywords)) by (apply in_map_iff; exists (name, k); auto).
  assert (NK : ~ In k [TEOF; TCOMMENT; TINTLIT; TFLOATLIT; TSTRLIT; TILLEGAL]). { clear -IK. cbn in *. intuition congruence. }
  assert (X : lx_txt (lex m r) = lit name).
  { remember (lx_txt (lex m r)) as x eqn:Ex. clear Ex. inversion K; subst; try (exfalso; apply NK; cbn; tauto).
    - destruct (identToken_spec m x) as (_ & _ & HK & _); [assumption|]. destruct (proj1 (HK _ IK)) as (_ & n & -> & In2); [assumption|].
      apply kw_find in I. apply kw_find in In2. congruence.
    - exfalso. destruct (misc_tokens c) as (_ & _ & _ & _ & _ & _ & _ & H9). apply H9. rewrite H0. exact IK. }
  split; [|exact X]. destruct (lex_raw_cases m r) as [[H _]|[[_ H]|(_ & H & _)]]; [exfalso; apply NK; rewrite <- E, H; cbn; tauto|congruence|exfalso; apply NK; rewrite <- E, H; cbn; tauto].
Qed.
(** texts without NUL and without the heading of a group *)
Definition clean (r : list rune) : Prop := nonul r /\ no_groups r.
Lemma clean_suffix r r0 : suffix r r0 -> clean r0 -> clean r.
Proof.
  intros [w ->] [N G]. apply nonul_app in N. split; [tauto|]. intros a h b H E. apply (G (w ++ a) h b H). rewrite E, app_assoc. reflexivity.
Qed.
(** settled texts without NUL, and what stands in them behind the heading of a group *)
Definition tame (r : list rune) : Prop := nonul r /\ settled r.
Lemma tame_suffix r r0 : suffix r r0 -> tame r0 -> tame r.
Proof. intros [w ->] [N G]. apply nonul_app in N. split; [tauto|]. eapply settled_tail. exact G. Qed.
Lemma clean_tame r : clean r -> tame r.
Proof. intros [N G]. split; [exact N|apply free_settled; exact G]. Qed.
Definition deep (r : list rune) : Prop := nonul r /\ comments_closed r /\ without (lit "extensions") r /\ without (lit "reserved") r.
Lemma deep_suffix r r0 : suffix r r0 -> deep r0 -> deep r.
Proof.
  intros [w ->] (N & C & E & R). apply nonul_app in N. split; [tauto|]. split; [eapply closed_tail; exact C|]. split; eapply without_tail; eassumption.
Qed.
(** a text before an opening brace *)
Definition ready (r : list rune) : Prop := nonul r /\ forall g cs b, Gap g cs -> r = g ++ lit "{" ++ b -> deep b.
Lemma deep_ready r : deep r -> ready r.
Proof. intros D. split; [apply D|]. intros g cs b _ ->. revert D. apply deep_suffix. rewrite app_assoc. eexists. reflexivity. Qed.
Lemma lex_word m r T : nonul r -> has m ScanComment = false -> lx_tok (lex m r) = T -> ~ In T [TEOF; TCOMMENT; TILLEGAL] ->
  exists g cs, Gap g cs /\ r = g ++ lx_txt (lex m r) ++ lx_rest (lex m r) /\ want T (lx_txt (lex m r)) /\ nonul (lx_rest (lex m r)).
Proof.
  intros N M E NI. pose proof (lex_gap_ok m r) as G. unfold gap_ok in G. rewrite M in G. pose proof (lex_app m r) as L. unfold lexed_app in L.
  pose proof (kind_want _ _ _ (lex_kind m r N)) as W. rewrite E in *.
  assert (X : lx_raw (lex m r) = lx_txt (lex m r)).
  { destruct (lex_raw_cases m r) as [[H _]|[[_ H]|(_ & H & _)]]; [exfalso; apply NI; rewrite <- E, H; cbn; tauto|exact H|exfalso; apply NI; rewrite <- E, H; cbn; tauto]. }
  rewrite X in L. exists (lx_gap (lex m r)), (lx_cms (lex m r)). split; [destruct T; try exact G; exfalso; apply NI; cbn; tauto|]. split; [exact L|]. split; [exact W|].
  rewrite L, !nonul_app in N. tauto.
Qed.
Lemma deep_kw r : deep r -> lx_tok (lex ScanKeyword r) <> TRESERVED /\ lx_tok (lex ScanKeyword r) <> TEXTENSIONS.
Proof.
  intros (N & _ & E & R). split; intros Q; destruct (lex_word ScanKeyword r _ N eq_refl Q) as (g & cs & _ & L & W & _); try (cbn; intuition discriminate); cbn [want] in W; rewrite W in L; [exact (R _ _ L)|exact (E _ _ L)].
Qed.
(** the word group ends where its letters end *)
Lemma group_rest r g cs c l : Gap g cs -> r = g ++ lit "group" ++ c :: l -> lx_rest (lex ScanKeyword r) = c :: l -> identChar c = false.
Proof.
  intros G -> E. rewrite (lex_gap ScanKeyword g cs _ eq_refl G) in E. unfold skip in E. cbn [lx_rest] in E.
  change (lit "group" ++ c :: l) with (ch "g" :: lit "roup" ++ c :: l) in E. rewrite lex_cons in E. change (isSpace (ch "g")) with false in E. change (identStart (ch "g")) with true in E. cbv iota in E.
  destruct (span identChar (lit "roup" ++ c :: l)) as [x r1] eqn:SP. cbn [lx_rest] in E. subst r1. apply span_spec in SP. destruct SP as (_ & _ & H). cbn in H. destruct (identChar c); [discriminate H|reflexivity].
Qed.
Lemma pdefer_ok {A} t (q : PM A) k a k' : pdefer t q k = POk a k' -> exists k1, q k = POk a k1.
Proof. unfold pdefer. destruct (q k) as [b k1|? ?|? ?| | | |]; try discriminate. intros E. injection E as -> _. eauto. Qed.
Lemma heading_of r0 r1 r2 r3 r4 : nonul r0 -> lx_tok (lex ScanKeyword r0) = TGROUP -> r1 = lx_rest (lex ScanKeyword r0) ->
  lx_tok (lex 0 r1) = TIDENT -> isCapitalized (lx_txt (lex 0 r1)) = true -> r2 = lx_rest (lex 0 r1) -> lx_tok (lex 0 r2) = TEQUALS -> r3 = lx_rest (lex 0 r2) ->
  lx_tok (lex ScanNumberLit r3) = TINTLIT -> r4 = lx_rest (lex ScanNumberLit r3) ->
  forall g4 c4 b, Gap g4 c4 -> r4 = g4 ++ lit "{" ++ b -> exists a h, GroupHeading h /\ r0 = a ++ h ++ b.
Proof.
  intros N Q1 C1 Q2 CP C2 Q3 C3 Q4 C4 g4 c4 b G4 L4.
  destruct (lex_word ScanKeyword _ _ N eq_refl Q1) as (g0 & c0 & G0 & L0 & W0 & N1); [cbn; intuition discriminate|]. cbn [want] in W0. rewrite W0 in L0. rewrite <- C1 in N1.
  destruct (lex_word 0 _ _ N1 eq_refl Q2) as (g1 & c1 & G1 & L1 & W1 & N2); [cbn; intuition discriminate|]. cbn [want] in W1. rewrite <- C2 in N2.
  destruct (lex_word 0 _ _ N2 eq_refl Q3) as (g2 & c2 & G2 & L2 & W2 & N3); [cbn; intuition discriminate|]. cbn [want] in W2. rewrite W2 in L2. rewrite <- C3 in N3.
  destruct (lex_word ScanNumberLit _ _ N3 eq_refl Q4) as (g3 & c3 & G3 & L3 & W3 & N4); [cbn; intuition discriminate|]. cbn [want] in W3. rewrite <- C4 in N4.
  rewrite <- C1 in L0. rewrite <- C2 in L1. rewrite <- C3 in L2. rewrite <- C4 in L3. set (name := lx_txt (lex 0 r1)) in *. set (num := lx_txt (lex ScanNumberLit r3)) in *.
  destruct name as [|c l]; [discriminate CP|]. cbn [isCapitalized] in CP. apply andb_true_iff in CP. rewrite !N.leb_le in CP.
  assert (GN : g1 <> []).
  { intros ->. cbn [app] in L1. assert (identChar c = false) as IC. { eapply (group_rest r0 g0 c0 c); [exact G0|rewrite <- L1; exact L0|rewrite <- C1; exact L1]. }
    destruct W1 as (c' & l' & EQ & IS & _). injection EQ as <- <-. apply ident_start_iff in IS. unfold identChar in IC. unfold identStart in IS. apply orb_true_iff in IS. destruct IS as [IS|IS]; rewrite IS, ?orb_true_r in IC; discriminate IC. }
  exists g0, (lit "group" ++ g1 ++ (c :: l) ++ g2 ++ lit "=" ++ g3 ++ num ++ g4 ++ lit "{"). split.
  - eapply group_heading; eassumption.
  - rewrite L0, L1, L2, L3, L4 at 1. rewrite <- !app_assoc. reflexivity.
Qed.
Lemma group_tail_heading p0 k k' : nonul (cr k) -> qIsGroup_tail p0 k = POk true k' -> ~ no_groups (cr k).
Proof.
  intros N E NG. unfold qIsGroup_tail in E.
  destruct (tok_info p0 ScanKeyword k) as (t & k1 & E1 & _ & T1 & X1 & _ & C1). unfold pbind at 1 in E. rewrite E1 in E. apply pdefer_ok in E. destruct E as (? & E).
  destruct (tok_eqb (tk t) TGROUP) eqn:Q1; [|discriminate E]. cbn [negb] in E. apply tokb_eq in Q1.
  destruct (tok_info p0 0 k1) as (t2 & k2 & E2 & _ & T2 & X2 & _ & C2). unfold pbind at 1 in E. rewrite E2 in E. apply pdefer_ok in E. destruct E as (? & E).
  destruct (tok_eqb (tk t2) TIDENT) eqn:Q2; [|discriminate E]. cbn [negb] in E. apply tokb_eq in Q2.
  destruct (isCapitalized (tx t2)) eqn:CP; [|discriminate E]. cbn [negb] in E.
  destruct (tok_info p0 0 k2) as (t3 & k3 & E3 & _ & T3 & X3 & _ & C3). unfold pbind at 1 in E. rewrite E3 in E. apply pdefer_ok in E. destruct E as (? & E).
  destruct (tok_eqb (tk t3) TEQUALS) eqn:Q3; [|discriminate E]. cbn [negb] in E. apply tokb_eq in Q3.
  destruct (tok_info p0 ScanNumberLit k3) as (t4 & k4 & E4 & _ & T4 & X4 & _ & C4). unfold pbind at 1 in E. rewrite E4 in E. apply pdefer_ok in E. destruct E as (? & E).
  destruct (tok_eqb (tk t4) TINTLIT) eqn:Q4; [|discriminate E]. cbn [negb] in E. apply tokb_eq in Q4.
  destruct (tok_info p0 0 k4) as (t5 & k5 & E5 & _ & T5 & X5 & _ & C5). unfold pbind at 1 in E. rewrite E5 in E. apply pdefer_ok in E. destruct E as (? & E).
  unfold pret in E. injection E as Q5 _. apply tokb_eq in Q5. rewrite T1 in Q1. rewrite T2 in Q2. rewrite T3 in Q3. rewrite T4 in Q4. rewrite T5 in Q5. rewrite X2 in CP.
  assert (N4 : nonul (cr k4)).
  { assert (K : forall m r, nonul r -> nonul (lx_rest (lex m r))). { intros m r H. pose proof (lex_app m r) as L. unfold lexed_app in L. rewrite L, !nonul_app in H. tauto. }
    rewrite C4. apply K. rewrite C3. apply K. rewrite C2. apply K. rewrite C1. apply K. exact N. }
  destruct (lex_word 0 _ _ N4 eq_refl Q5) as (g4 & c4 & G4 & L4 & W4 & N5); [cbn; intuition discriminate|]. cbn [want] in W4. rewrite W4 in L4.
  destruct (heading_of _ _ _ _ _ N Q1 C1 Q2 CP C2 Q3 C3 Q4 C4 _ _ _ G4 L4) as (a & h & GH & EQ). exact (NG a h _ GH EQ).
Qed.
Create HintDb tl.
Ltac tstep :=
  cbv beta;
  match goal with
  | |- OK _ _ _ _ (pbind (ptok _ _) _ _) => apply OK_tok; intros
  | |- OK _ _ _ _ (pbind (pexpect _ _ _) _ _) => apply OK_expect; [discriminate|solve [tadv]|intros]
  | |- OK _ _ _ _ (pexpect _ _ _ _) => apply OK_expect1; [discriminate|solve [tadv]]
  | |- OK _ _ _ _ (pbind (ppeek _ _) _ _) => apply OK_peek; intros
  | |- OK _ _ _ _ (pbind (pback _) _ _) => apply OK_back
  | |- OK _ _ _ _ (pback _ _) => apply OK_back1; solve [tadv]
  | |- OK _ _ _ _ (pbind pfuel _ _) => apply OK_fuel; intros
  | |- OK _ _ _ _ (pbind plast _ _) => apply OK_last; intros
  | |- OK _ _ _ _ (pret _ _) => apply OK_ret; solve [tadv]
  | |- OK _ _ _ _ (perr _ _) => apply OK_err; solve [tadv]
  | |- OK _ _ _ _ (pbal _ _) => apply OK_bal; solve [auto]
  | |- OK _ _ _ _ (ppanic _) => apply OK_panic
  | |- OK _ _ _ _ (let x := ?v in _) => cbv zeta
  | |- OK _ _ _ _ ((if ?b then _ else _) _) => destruct b eqn:?
  | |- OK _ _ _ _ ((match ?b with _ => _ end) _) => destruct b eqn:?
  | |- OK _ _ _ _ (pbind (if ?b then _ else _) _ _) => destruct b eqn:?
  | |- OK _ _ _ _ (pbind (match ?b with _ => _ end) _ _) => destruct b eqn:?
  | |- OK _ _ _ _ (pbind (pret _) _ _) => unfold pbind at 1, pret at 1
  | |- OK _ _ _ _ (pbind (perr _) _ _) => apply OK_err_bind; solve [tadv]
  | |- OK _ _ _ _ (pbind (pbal _) _ _) => apply OK_bal_bind; solve [auto]
  | |- OK _ _ _ _ (pbind (pbind _ _) _ _) => rewrite pbind_assoc
  | |- OK _ _ _ _ (pbind ?q _ ?k) => eapply (OK_bind _ _ _ _ _ k q); [solve [eauto 3 with tl nocore | eapply OK_any; eauto 3 with tl nocore]|solve [tadv]|intros]
  | |- OK _ _ _ _ (?q ?k) => eapply (OK_call _ _ _ _ _ k q); [solve [eauto 3 with tl nocore]|solve [tadv]|solve [tadv]]
  end.
Section T.
Variable p0 : mpos.
Section A.
Variables g any : bool.
Notation OK := (OK g any).
Ltac tgo := intros; repeat tstep.
Ltac tgi IH := intros; repeat first [tstep | eapply OK_call; [solve [apply IH; tadv]|solve [tadv]|solve [tadv]]].

(** a token read at or behind [k0], with the cursor [k] behind it *)
Definition from (s : bool) (k0 : cur) (y : ti) (k : cur) : Prop := adv s k0 (kb y) /\ suffix (cr k) (cr (kb y)) /\ (tk y <> TEOF -> (len k < len (kb y))%nat).
Lemma t_fi_loop s k0 n : forall acc y k, (len k < n)%nat -> from s k0 y k -> OK s k0 (qFullIdent_loop p0 n acc y k).
Proof.
  induction n as [|n IH]; intros acc y k L [[S1 S2] [S3 S4]]; [lia|]. cbn [qFullIdent_loop]. destruct s; try specialize (S2 eq_refl); clear S4; tgo.
  all: apply IH; [tadv|split; [tadv|split; tadv]].
Qed.
Lemma t_fullIdent k : OK true k (qReadFullIdent p0 k).
Proof.
  unfold qReadFullIdent. tgo. eapply (OK_bind0 _ _ true true); [apply t_fi_loop; [tadv|split; [tadv|split; tadv]]|tgo].
Qed.
Hint Resolve t_fullIdent : tl.
Lemma t_mt_loop s k0 n : forall acc y k, (len k < n)%nat -> from s k0 y k -> OK s k0 (qMessageType_loop p0 n acc y k).
Proof.
  induction n as [|n IH]; intros acc y k L [[S1 S2] [S3 S4]]; [lia|]. cbn [qMessageType_loop]. destruct s; try specialize (S2 eq_refl); clear S4; tgo.
  all: apply IH; [tadv|split; [tadv|split; tadv]].
Qed.
Lemma t_messageType k : OK false k (qReadMessageType p0 k).
Proof.
  unfold qReadMessageType. tgo. all: eapply (OK_bind0 _ _ false false); [apply t_mt_loop; [tadv|split; [tadv|split; tadv]]|tgo].
Qed.
Hint Resolve t_messageType : tl.
Lemma t_merge_loop k0 q n : forall b y k, (len k < n /\ (tk y <> TEOF -> S (len k) < n))%nat -> adv true k0 k ->
  (tk y <> TSTRLIT -> adv true k0 (kb y)) ->
  match qMerge_loop p0 n q b y k with POk (_, y') k' => adv true k0 (kb y') | _ => False end.
Proof.
  induction n as [|n IH]; intros b y k [L L'] S1 S2; [lia|]. cbn [qMerge_loop].
  destruct (tok_eqb (tk y) TSTRLIT) eqn:E.
  - apply tokb_eq in E. destruct (tok_info p0 ScanLit k) as (t & k' & Q & I & _). unfold pbind. rewrite Q.
    assert (L2 : (S (len k) < S n)%nat) by (apply L'; congruence).
    destruct I as (I1 & I2 & I3). destruct S1 as [A1 A2]. specialize (A2 eq_refl). pose proof (suffix_len _ _ I2). apply IH.
    + split; [lia|]. intros T. specialize (I3 T). lia.
    + split; [eapply suffix_trans; eassumption|lia].
    + intros _. split; rewrite I1; [exact A1|lia].
  - apply S2. intros T. rewrite T in E. discriminate.
Qed.
Lemma t_merge k0 x k : adv true k0 k -> tk x = TSTRLIT -> OK true k0 (qMerge p0 x k).
Proof.
  intros H T. unfold qMerge. cbv zeta. apply OK_fuel. intros n L.
  match goal with |- context[qMerge_loop p0 ?n ?q ?b x] => pose proof (t_merge_loop k0 q n b x k) as M; unfold pbind at 1; destruct (qMerge_loop p0 n q b x k) as [[b' y'] k'|? ?|? ?| | | |] end.
  all: try (destruct M; [split; lia|exact H|congruence]).
  tgo. apply M; [split; lia|exact H|congruence].
Qed.
Hint Resolve t_merge : tl.
Lemma t_constant perm k : OK true k (qReadConstant p0 perm k).
Proof.
  unfold qReadConstant. tstep. destruct (tk t) eqn:Tt; try (tgo; fail).
  - destruct perm; tgo. eapply (OK_bind0 _ _ true true); [apply t_merge; [tadv|exact Tt]|tgo].
Qed.
Hint Resolve t_constant : tl.

(** ** Comments *)
Lemma t_comments_loop n : forall acc k, (len k < n)%nat -> OK false k (qComments_loop p0 n acc k).
Proof.
  induction n as [|n IH]; intros acc k L; [lia|]. cbn [qComments_loop]. tgo.
  eapply OK_call; [apply IH; tadv|tadv|tadv].
Qed.
Lemma t_comments k : OK false k (qParseComments p0 k).
Proof. unfold qParseComments. tgo. apply t_comments_loop. assumption. Qed.
Hint Resolve t_comments : tl.
Lemma t_inline k : OK false k (qInline p0 k).
Proof. unfold qInline. tgo. Qed.
Hint Resolve t_inline : tl.
Lemma t_maybe {A} set (x : A) k : OK false k (qMaybeInline p0 set x k).
Proof. unfold qMaybeInline. tgo. Qed.
Hint Resolve t_maybe : tl.

(** ** Options *)
Lemma t_parenName perm name k : OK true k (qParenName p0 perm name k).
Proof. unfold qParenName. tgo. Qed.
Hint Resolve t_parenName : tl.
Lemma t_optionName_loop perm n : forall name k, (len k < n)%nat -> OK false k (qOptionName_loop p0 perm n name k).
Proof.
  induction n as [|n IH]; intros name k L; [lia|]. cbn [qOptionName_loop]. do 2 tstep; [tgo|]. tstep. destruct (tk t0) eqn:?; try (tgo; fail).
  - eapply OK_call; [apply IH; tadv|tadv|tadv].
  - tstep. eapply OK_call; [apply IH; tadv|tadv|tadv].
Qed.
Lemma t_optionName perm k : OK true k (qOptionName p0 perm k).
Proof.
  unfold qOptionName. tstep. destruct (tk t) eqn:?; try (tgo; fail); repeat tstep.
  all: eapply OK_call; [apply t_optionName_loop; tadv|tadv|tadv].
Qed.
Hint Resolve t_optionName : tl.
Lemma t_cloud_loop perm pc L : (forall k, (len k < L)%nat -> OK true k (pc k)) -> forall n r k, (len k < n)%nat -> (n <= L)%nat -> OK true k (qCloud_loop p0 perm pc n r k).
Proof.
  intros P. induction n as [|n IH]; intros r k H1 H2; [lia|]. cbn [qCloud_loop].
  assert (TL : forall r' k1 k2 t2, tk t2 <> TEOF -> cr (kb t2) = cr k1 -> adv true k k1 -> suffix (cr k2) (cr k1) -> (len k2 < len k1)%nat ->
    OK true k (match tk t2 with
       | TRIGHTCURLY => pret (r' ++ tx t2)
       | TSEMICOLON | TCOMMA =>
           pk <-- ppeek p0 0;;
           (if tok_eqb (tk pk) TRIGHTCURLY && perm
            then t4 <-- ptok p0 0;; pret ((r' ++ tx t2) ++ tx t4)
            else qCloud_loop p0 perm pc n (r' ++ tx t2))
       | _ => pback t2;;; qCloud_loop p0 perm pc n (r' ++ [NL])
       end k2)).
  { intros r' k1 k2 t2 NE E A S2 S3. destruct (tk t2) eqn:?; try congruence; tgi IH. }
  assert (TE : forall r' k1 k2 t2, tk t2 = TEOF -> cr (kb t2) = cr k1 -> adv true k k1 -> 
    OK true k (match tk t2 with
       | TRIGHTCURLY => pret (r' ++ tx t2)
       | TSEMICOLON | TCOMMA =>
           pk <-- ppeek p0 0;;
           (if tok_eqb (tk pk) TRIGHTCURLY && perm
            then t4 <-- ptok p0 0;; pret ((r' ++ tx t2) ++ tx t4)
            else qCloud_loop p0 perm pc n (r' ++ tx t2))
       | _ => pback t2;;; qCloud_loop p0 perm pc n (r' ++ [NL])
       end k2)).
  { intros r' k1 k2 t2 NE E A. rewrite NE; tgi IH. }
  do 3 tstep. destruct (tk t0) eqn:?; try (tgo; fail); rewrite ?pbind_assoc.
  all: tgo.
  all: eapply (OK_bind _ _ true true); [apply P; tadv|tadv|intros].
  all: tstep; tstep; [do 3 tstep|tstep]; cbv beta iota.
  all: match goal with |- OK _ _ (match tk ?t with _ => _ end ?k) => destruct (token_eq_dec (tk t) TEOF) as [Q|Q]; 
     [apply (TE _ (kb t))|apply (TL _ (kb t))]; try assumption; try reflexivity; tprep; try tadv end.
Qed.
Lemma t_cloud perm pc L : (forall k, (len k < L)%nat -> OK true k (pc k)) -> forall n k, (len k <= n)%nat -> (n <= L)%nat -> OK true k (qCloud p0 perm pc n k).
Proof. intros P n k H1 H2. unfold qCloud. tgo. eapply OK_call; [apply (t_cloud_loop perm pc L P); tadv|tadv|tadv]. Qed.
Lemma t_constants_loop pc L : (forall k, (len k < L)%nat -> OK true k (pc k)) -> forall n l k, (len k < n)%nat -> (n <= L)%nat -> OK false k (qConstants_loop p0 pc n l k).
Proof.
  intros P. induction n as [|n IH]; intros l k H1 H2; [lia|]. cbn [qConstants_loop]. tgo.
  eapply (OK_bind _ _ false true); [apply P; tadv|tadv|intros]. tgi IH.
Qed.
Lemma t_constants pc L : (forall k, (len k < L)%nat -> OK true k (pc k)) -> forall n k, (len k < n)%nat -> (n <= L)%nat -> OK true k (qConstants p0 pc n k).
Proof.
  intros P n k H1 H2. unfold qConstants. eapply (OK_bind _ _ true true); [apply P; tadv|tadv|intros].
  eapply (OK_bind _ _ true false); [apply (t_constants_loop pc L P); tadv|tadv|tgo].
Qed.
Lemma misc_fatal r T : lx_tok (lex 0 r) = T -> T <> TSEMICOLON -> T <> TEOF -> T <> TILLEGAL -> T <> TIDENT -> forall x, fatal (lx_all (lex 0 r)) x = true.
Proof.
  intros E H1 H2 H3 H4 x. destruct (lex_head r) as [H|[[H _]|(g0 & cs & c & y & -> & G & Sp & Ns & _)]]; try congruence.
  rewrite (lex_gap 0 g0 cs) in * by (reflexivity || exact G). cbn [skip lx_tok] in E.
  apply N.eqb_neq in Ns.
  assert (I : identStart c = false).
  { destruct (identStart c) eqn:I; [|reflexivity]. rewrite lex_cons, Sp, I in E. destruct (span identChar y). cbn in E. congruence. }
  assert (Q : forall z, lex 0 (c :: z) = mkLexed [] [] (asMiscToken c) [c] [c] z).
  { intros z. rewrite lex_cons, Sp, I, Ns. change (has 0 ScanStrLit) with false. change (has 0 ScanNumberLit) with false. rewrite !andb_false_r. reflexivity. }
  rewrite Q in *. unfold lx_all, skip. cbn [lx_gap lx_raw lx_tok] in *. rewrite app_nil_r. unfold fatal.
  rewrite (lex_gap 0 g0 cs) by (reflexivity || exact G). rewrite Q. cbn [skip lx_tok]. rewrite E. destruct T; congruence.
Qed.
Lemma OK_pbalf {A} s k0 k t r : tk t = lx_tok (lex 0 r) -> tw t = lx_all (lex 0 r) -> tk t = TLEFTCURLY \/ tk t = TLEFTSQUARE -> OK s k0 (@pbal A t k).
Proof.
  intros E1 E2 H. right. rewrite E2. apply (misc_fatal r (tk t)); [congruence|..]; destruct H as [-> | ->]; discriminate.
Qed.
Lemma t_peek2 {A} s k0 k (f : ti -> PM A) : (forall t k', cr k' = cr k -> OK s k0 (f t k')) -> OK s k0 (pbind (ppeek2 p0) f k).
Proof.
  intros H. unfold ppeek2. rewrite pbind_assoc. apply OK_tok. intros t k' (I1 & _) _ _ _ _. rewrite pbind_assoc. apply OK_tok. intros.
  unfold pbind. apply H. exact I1.
Qed.
Lemma t_optionConstant perm n : forall k, (len k < n)%nat -> OK true k (qOptionConstant p0 perm n k).
Proof.
  induction n as [|n IH]; intros k L; [lia|]. cbn [qOptionConstant]. tstep. destruct (tk t) eqn:E; try (tgo; fail).
  - destruct perm; cbn [negb]; [|eapply OK_pbalf; rewrite ?E; eauto].
    apply t_peek2. intros t2 k2 E2. tstep.
    + apply OK_tok. intros. tgo.
    + eapply (OK_call _ _ _ true _ k2 (qCloud _ _ _ _)); [apply (t_cloud true (qOptionConstant p0 true n) n IH); tadv|tadv|tadv].
  - destruct perm; cbn [negb]; [|eapply OK_pbalf; rewrite ?E; eauto].
    tgo. eapply (OK_bind _ _ true true); [apply (t_constants (qOptionConstant p0 true n) n IH); tadv|tadv|intros]. tgo.
Qed.
Lemma t_qconstant perm k : OK true k (qConstant p0 perm k).
Proof. unfold qConstant. tstep. apply t_optionConstant. assumption. Qed.
Hint Resolve t_qconstant : tl.
Lemma t_option perm k : OK true k (qParseOption p0 perm k).
Proof. unfold qParseOption. tgo. Qed.
Lemma t_syntax k : OK false k (qParseSyntax p0 k).
Proof. unfold qParseSyntax. tgo. Qed.
Lemma t_edition k : OK false k (qParseEdition p0 k).
Proof. unfold qParseEdition. tgo. Qed.
Lemma t_import k : OK true k (qParseImport p0 k).
Proof. unfold qParseImport. tgo. Qed.
Lemma t_package k : OK true k (qParsePackage p0 k).
Proof. unfold qParsePackage. tgo. Qed.
Hint Resolve t_option t_syntax t_edition t_import t_package : tl.
Lemma t_type k : OK false k (qType p0 k).
Proof. unfold qType. tgo. Qed.
Lemma t_fieldNumber k : OK true k (qFieldNumber p0 k).
Proof. unfold qFieldNumber. tgo. Qed.
Hint Resolve t_type t_fieldNumber : tl.
Lemma t_fieldOption perm k : OK true k (qFieldOption p0 perm k).
Proof. unfold qFieldOption. tgo. Qed.
Hint Resolve t_fieldOption : tl.
Lemma t_fieldOptions_loop perm n : forall l k, (len k < n)%nat -> OK false k (qFieldOptions_loop p0 perm n l k).
Proof. induction n as [|n IH]; intros l k L; [lia|]. cbn [qFieldOptions_loop]. tgi IH. Qed.
Lemma t_fieldOptions perm k : OK true k (qFieldOptions p0 perm k).
Proof. unfold qFieldOptions. tgo. eapply OK_call; [apply t_fieldOptions_loop; tadv|tadv|tadv]. Qed.
Hint Resolve t_fieldOptions : tl.
Lemma t_fieldOptionsOption perm k : OK false k (qFieldOptionsOption p0 perm k).
Proof. unfold qFieldOptionsOption. tgo. Qed.
Lemma t_label k : OK false k (qLabel p0 k).
Proof. unfold qLabel. tgo. Qed.
Hint Resolve t_fieldOptionsOption t_label : tl.
Lemma t_field perm k : OK true k (qParseField p0 perm k).
Proof. unfold qParseField. tgo. Qed.
Lemma t_keyType k : OK false k (qKeyType p0 k).
Proof. unfold qKeyType. tgo. Qed.
Hint Resolve t_keyType : tl.
Lemma t_mapField perm k : OK true k (qParseMapField p0 perm k).
Proof. unfold qParseMapField. tgo. Qed.
Lemma t_blockEnd perm k : OK false k (qBlockEnd p0 perm k).
Proof. unfold qBlockEnd. tgo. Qed.
Hint Resolve t_field t_mapField t_blockEnd : tl.
Lemma t_oneofField perm k : OK true k (qOneofField p0 perm k).
Proof. unfold qOneofField. tgo. Qed.
Hint Resolve t_oneofField : tl.
Lemma t_oneof_loop perm n : forall f o k, (len k < n)%nat -> OK true k (qOneof_loop p0 perm n f o k).
Proof. induction n as [|n IH]; intros f o k L; [lia|]. cbn [qOneof_loop]. tgi IH. Qed.
Lemma t_oneof perm k : OK true k (qParseOneof p0 perm k).
Proof. unfold qParseOneof. tgo. eapply OK_bind; [apply t_oneof_loop; tadv|tadv|tgo]. Qed.
Hint Resolve t_oneof : tl.
Lemma t_enumValueOption perm k : OK true k (qEnumValueOption p0 perm k).
Proof. unfold qEnumValueOption. tgo. Qed.
Hint Resolve t_enumValueOption : tl.
Lemma t_enumValueOptions_loop perm n : forall l k, (len k < n)%nat -> OK false k (qEnumValueOptions_loop p0 perm n l k).
Proof. induction n as [|n IH]; intros l k L; [lia|]. cbn [qEnumValueOptions_loop]. tgi IH. Qed.
Lemma t_enumValueOptions perm k : OK false k (qEnumValueOptions p0 perm k).
Proof. unfold qEnumValueOptions. tgo. eapply OK_bind; [apply t_enumValueOptions_loop; tadv|tadv|tgo]. Qed.
Hint Resolve t_enumValueOptions : tl.
Lemma t_enumField perm k : OK true k (qEnumField p0 perm k).
Proof. unfold qEnumField. tgo. Qed.
End A.
(** message bodies *)
Lemma defer_ok {A} t (q : PM A) k : (exists a k', q k = POk a k') -> exists a k', pdefer t q k = POk a k' /\ cr k' = cr (kb t).
Proof. intros (a & k' & E). unfold pdefer. rewrite E. do 2 eexists. split; [reflexivity|reflexivity]. Qed.
Lemma tok_defer_ok {A} m (q : ti -> PM A) k : (forall t (k1 : cur), exists a k2, q t k1 = POk a k2) -> exists a k', pbind (ptok p0 m) (fun t => pdefer t (q t)) k = POk a k'.
Proof.
  intros H. destruct (tok_info p0 m k) as (t2 & k2 & E2 & _). unfold pbind. rewrite E2. destruct (H t2 k2) as (a & k' & E).
  destruct (defer_ok t2 (q t2) k2) as (a' & k3 & E3 & _); eauto.
Qed.
Lemma if_ok {A} (b : bool) (x y : PM A) k : (exists a k', x k = POk a k') -> (exists a k', y k = POk a k') -> exists a k', (if b then x else y) k = POk a k'.
Proof. destruct b; auto. Qed.
Lemma ret_ok {A} (a : A) k : exists b k', pret a k = POk b k'. Proof. unfold pret. eauto. Qed.
Lemma IsGroup_tail k : exists b k', qIsGroup_tail p0 k = POk b k' /\ cr k' = cr k /\ (clean (cr k) -> b = false).
Proof.
  assert (X : exists b k', qIsGroup_tail p0 k = POk b k' /\ cr k' = cr k).
  { unfold qIsGroup_tail. destruct (tok_info p0 ScanKeyword k) as (t & k1 & E & (I1 & I2 & _) & T & X & W & C). unfold pbind at 1. rewrite E.
    destruct (tok_eqb (tk t) TGROUP) eqn:TG; cbn [negb].
    2:{ unfold pdefer, pret. do 2 eexists. split; [reflexivity|exact I1]. }
    match goal with |- context[pdefer t ?q k1] => destruct (defer_ok t q k1) as (a & k' & Q & CR) end.
    { repeat first [apply ret_ok | apply if_ok | apply tok_defer_ok; intros]. }
    rewrite Q. exists a, k'. split; [reflexivity|congruence]. }
  destruct X as (b & k' & E & CR). exists b, k'. split; [exact E|]. split; [exact CR|]. intros [N CL]. destruct b; [|reflexivity]. destruct (group_tail_heading _ _ _ N E CL).
Qed.
Lemma IsGroup k : exists b k', qIsGroup p0 k = POk b k' /\ cr k' = cr k /\ (clean (cr k) -> b = false).
Proof.
  unfold qIsGroup. destruct (tok_info p0 ScanKeyword k) as (t & k1 & E & (I1 & I2 & _) & T & X & W & C). unfold pbind at 1. rewrite E.
  destruct (IsGroup_tail k1) as (b & k' & Q & CR & CL). destruct (IsGroup_tail (kb t)) as (b2 & k2 & Q2 & CR2 & CL2).
  destruct (tk t); try (unfold pback, pbind; rewrite Q2; exists b2, k2; rewrite I1 in *; auto; fail).
  all: unfold pdefer; rewrite Q; do 2 eexists; split; [reflexivity|]; split; [exact I1|]; intros H; apply CL; eapply clean_suffix; eassumption.
Qed.

(** ** Behind the heading of a group: whatever is un-read twice stays without effect *)
Section D.
Variable g : bool.
Notation OK := (OK g false).
Ltac tgo := intros; repeat tstep.
Hint Resolve t_fullIdent t_messageType t_comments t_inline t_maybe t_optionName t_qconstant t_option t_syntax t_edition t_import t_package t_type
  t_fieldNumber t_fieldOption t_fieldOptionsOption t_label t_field t_mapField t_blockEnd t_oneof : tl.
Ltac dp := match goal with D : deep (cr ?k) |- deep _ => apply (deep_suffix _ (cr k)); [tadv|exact D] end.
Lemma d_precover {A} s (q : PM A) ok k : OK s k (q k) -> deep (cr k) -> OK s k (precover p0 q ok k).
Proof.
  intros H D. unfold precover. destruct (q k) as [a k'|k1 ka|k' w| | | |]; cbn [Term.OK] in *; auto.
  - assert (C : comments_closed (cr k1)) by (apply (deep_suffix (cr k1) (cr k)); [apply H|exact D]). destruct H as [H _]. apply OK_tok. intros t k2 (I1 & I2 & I3) T W _ _.
    destruct (tok_eqb (tk t) TSEMICOLON) eqn:Q.
    + apply tokb_eq in Q. assert (Q' : tk t <> TEOF) by congruence. apply OK_ret. pose proof (suffix_len _ _ H). specialize (I3 Q'). split; [eapply suffix_trans; eassumption|intros; lia].
    + right. rewrite I1, W. apply closed_fatal; [exact C|]. rewrite <- T. intros X. rewrite X in Q. discriminate Q.
  - destruct H as [H|H]; [discriminate|]. rewrite H. exact I.
Qed.
Lemma d_bodyEnd perm bic ilc l cs k : OK false k (qBodyEnd p0 perm bic ilc l cs k).
Proof. unfold qBodyEnd. tgo. Qed.
Lemma d_emptyBody perm k : OK false k (qEmptyBody p0 perm k).
Proof. unfold qEmptyBody. tgo. Qed.
Hint Resolve d_bodyEnd d_emptyBody : tl.
Lemma d_enumBody_loop perm bic ilc n : forall l k, (len k < n)%nat -> deep (cr k) -> OK false k (qEnumBody_loop p0 perm bic ilc n l k).
Proof.
  induction n as [|n IH]; intros l k L D; [lia|]. cbn [qEnumBody_loop]. tstep. tstep.
  assert (X : forall q, OK true k'0 (q k'0) -> OK false k (pbind q (fun stmt => pbind (qMaybeInline p0 set_inline stmt) (fun stmt => qEnumBody_loop p0 perm bic ilc n (l ++ [stmt]))) k'0)).
  { intros q Q. eapply OK_bind; [exact Q|tadv|intros]. tstep. eapply OK_call; [apply IH; [tadv|dp]|tadv|tadv]. }
  assert (D' : deep (cr k')) by dp. pose proof (deep_kw _ D') as (K & _).
  destruct (tk t) eqn:E; try (apply X; apply d_precover; [apply t_enumField|dp]); try (apply X; tgo; fail); try (tgo; fail). congruence.
Qed.
Lemma d_enum perm bic k : deep (cr k) -> OK true k (qParseEnum p0 perm bic k).
Proof.
  intros D. unfold qParseEnum, qEnumBody. do 2 tstep. rewrite pbind_assoc. tstep. rewrite pbind_assoc. tstep. rewrite pbind_assoc. tstep.
  eapply OK_bind; [apply d_enumBody_loop; [tadv|dp]|tadv|tgo].
Qed.
Lemma d_extendBody_loop perm bic ilc n : forall l k, (len k < n)%nat -> deep (cr k) -> OK false k (qExtendBody_loop p0 perm bic ilc n l k).
Proof.
  induction n as [|n IH]; intros l k L D; [lia|]. cbn [qExtendBody_loop]. tstep. tstep.
  assert (X : forall q, OK true k'0 (q k'0) -> OK false k (pbind q (fun stmt => pbind (qMaybeInline p0 set_inline stmt) (fun stmt => qExtendBody_loop p0 perm bic ilc n (l ++ [stmt]))) k'0)).
  { intros q Q. eapply OK_bind; [exact Q|tadv|intros]. tstep. eapply OK_call; [apply IH; [tadv|dp]|tadv|tadv]. }
  destruct (tk t) eqn:E; try (apply X; apply d_precover; [apply t_field|dp]); try (tgo; fail).
Qed.
Lemma d_extendBody perm bic k : deep (cr k) -> OK true k (qExtendBody p0 perm bic k).
Proof. intros D. unfold qExtendBody. tgo. eapply OK_call; [apply d_extendBody_loop; [tadv|dp]|tadv|tadv]. Qed.
Lemma d_extend perm bic k : deep (cr k) -> OK true k (qParseExtend p0 perm bic k).
Proof.
  intros D. unfold qParseExtend. tstep. tstep. eapply OK_bind; [apply d_extendBody; dp|tadv|tgo].
Qed.
Lemma OK_expect_info {A} any s m T k0 k (f : ti -> PM A) : T <> TEOF -> suffix (cr k) (cr k0) ->
  (forall t k', adv true k k' -> T = lx_tok (lex m (cr k)) -> tx t = lx_txt (lex m (cr k)) -> cr k' = lx_rest (lex m (cr k)) -> cr (kb t) = cr k -> Term.OK g any s k0 (f t k')) -> Term.OK g any s k0 (pbind (pexpect p0 m T) f k).
Proof.
  intros NE S H. unfold pexpect. destruct (tok_info p0 m k) as (t & k' & E & (I1 & I2 & I3) & T1 & T2 & _ & T4). unfold pbind at 1 2. rewrite E.
  destruct (tok_eqb (tk t) T) eqn:Q.
  - apply tokb_eq in Q. unfold pret. apply H; try congruence. split; [exact I2|]; intros _; apply I3; congruence.
  - cbn. split; [|discriminate]. rewrite I1. exact S.
Qed.
Lemma d_groupField L (mb : PM body_result) : (forall k, (len k < L)%nat -> ready (cr k) -> OK true k (mb k)) -> forall k, (len k <= L)%nat -> deep (cr k) -> OK true k (qParseGroupField p0 mb k).
Proof. intros P k H D. unfold qParseGroupField. tgo. eapply OK_bind; [apply P; [tadv|apply deep_ready; dp]|tadv|tgo]. Qed.
Lemma d_message_ L (mb : PM body_result) : (forall k, (len k < L)%nat -> ready (cr k) -> OK true k (mb k)) -> forall k, (len k <= L)%nat -> deep (cr k) -> OK true k (qParseMessage_ p0 mb k).
Proof. intros P k H D. unfold qParseMessage_. tgo. eapply OK_bind; [apply P; [tadv|apply deep_ready; dp]|tadv|tgo]. Qed.
Lemma d_messageStmt L perm bic (mb : PM body_result) : (forall k, (len k < L)%nat -> ready (cr k) -> OK true k (mb k)) ->
  forall T cs k, (len k <= L)%nat -> deep (cr k) -> T <> TRESERVED -> T <> TEXTENSIONS -> OK true k (qMessageStmt p0 perm bic mb T cs k).
Proof.
  intros P T cs k H D N1 N2.
  assert (X : OK true k (pbind (qIsGroup p0) (fun b => if b then precover p0 (qParseGroupField p0 mb) (fun g => with_comments cs (VGroupField g))
     else precover p0 (qParseField p0 perm) (fun f => with_comments cs (VField f))) k)).
  { destruct (IsGroup k) as (b & k' & E & CR & _). unfold pbind. rewrite E. assert (D' : deep (cr k')) by (rewrite CR; exact D).
    destruct b; eapply (OK_call _ _ _ true _ k' (precover p0 _ _)); try (apply d_precover; [|exact D']); try (tadv; fail).
    - apply (d_groupField L); [exact P|tadv|exact D'].
    - apply t_field. }
  unfold qMessageStmt. destruct T; try exact X; try congruence; try (tgo; fail).
  all: eapply OK_bind; [first [apply d_extend; exact D|apply d_enum; exact D|apply (d_message_ L); [exact P|tadv|exact D]]|tadv|tgo].
Qed.
Lemma d_messageBody_loop L perm bic mb ilc : (forall k, (len k < L)%nat -> ready (cr k) -> OK true k (mb k)) ->
  forall n l k, (len k < n)%nat -> (len k <= L)%nat -> deep (cr k) -> OK false k (qMessageBody_loop p0 perm bic mb ilc n l k).
Proof.
  intros P. induction n as [|n IH]; intros l k H1 H2 D; [lia|]. cbn [qMessageBody_loop]. tstep. tstep.
  assert (D' : deep (cr k')) by dp. pose proof (deep_kw _ D') as (K1 & K2).
  assert (X : OK false k (pbind (qMessageStmt p0 perm bic mb (tk t) a) (fun stmt => pbind (qMaybeInline p0 set_inline stmt) (fun stmt => qMessageBody_loop p0 perm bic mb ilc n (l ++ [stmt]))) k'0)).
  { eapply OK_bind; [apply (d_messageStmt L); [exact P|tadv|dp|congruence|congruence]|tadv|intros]. tstep. eapply OK_call; [apply IH; [tadv|tadv|dp]|tadv|tadv]. }
  destruct (tk t); try exact X. tgo.
Qed.
Lemma d_messageBody perm bic n : forall k, (len k < n)%nat -> ready (cr k) -> OK true k (qMessageBody p0 perm bic n k).
Proof.
  induction n as [|n IH]; intros k L [N RD]; [lia|]. cbn [qMessageBody]. apply OK_expect_info; [discriminate|tadv|]. intros t k' AD T _ CR _.
  destruct (lex_word 0 _ _ N eq_refl (eq_sym T)) as (g0 & c0 & G0 & L0 & W0 & _); [cbn; intuition discriminate|]. cbn [want] in W0. rewrite W0, <- CR in L0.
  specialize (RD _ _ _ G0 L0). clear L0 CR. tgo. eapply OK_call; [apply (d_messageBody_loop n); [exact IH|tadv|tadv|dp]|tadv|tadv].
Qed.
(** the body of a group in a settled text *)
Lemma d_group L (mb : PM body_result) : (forall k, (len k < L)%nat -> ready (cr k) -> OK true k (mb k)) -> forall k, (len k <= L)%nat -> tame (cr k) -> OK true k (qParseGroupField p0 mb k).
Proof.
  intros P k H TM. unfold qParseGroupField. tstep. destruct a as [sp [[b1 b2] b3]].
  assert (TM' : tame (cr k')) by (apply (tame_suffix _ (cr k)); [tadv|exact TM]). destruct TM' as [N S].
  apply OK_expect_info; [discriminate|tadv|]. intros t1 k1 A1 T1 _ C1 _.
  apply OK_expect_info; [discriminate|tadv|]. intros t2 k2 A2 T2 X2 C2 B2. destruct (isCapitalized (tx t2)) eqn:CP; cbn [negb]; [|tgo].
  apply OK_expect_info; [discriminate|tadv|]. intros t3 k3 A3 T3 _ C3 _. unfold qFieldNumber. rewrite pbind_assoc.
  apply OK_expect_info; [discriminate|tadv|]. intros t4 k4 A4 T4 _ C4 _. unfold pbind at 1, pret at 1.
  rewrite X2 in CP. eapply OK_bind; [apply P; [tadv|]|tadv|tgo]. split.
  - apply (tame_suffix _ (cr k)); [tadv|exact TM].
  - intros g4 c4 b G4 L4. destruct (heading_of _ _ _ _ _ N (eq_sym T1) C1 (eq_sym T2) CP C2 (eq_sym T3) C3 (eq_sym T4) C4 _ _ _ G4 L4) as (x & h & GH & EQ).
    destruct (S x h b GH EQ) as (D1 & D2 & D3). split; [|auto]. rewrite EQ, !nonul_app in N. tauto.
Qed.
End D.
Section B.
Variable g : bool.
Let any := true.
Let eany : any = true := eq_refl.
Notation OK := (OK g any).
Ltac tgo := intros; repeat tstep.
Ltac tgi IH := intros; repeat first [tstep | eapply OK_call; [solve [apply IH; tadv]|solve [tadv]|solve [tadv]]].
Hint Resolve t_fullIdent t_messageType t_comments t_inline t_maybe t_optionName t_qconstant t_option t_syntax t_edition t_import t_package t_type
  t_fieldNumber t_fieldOption t_fieldOptionsOption t_label t_field t_mapField t_blockEnd t_oneof : tl.
Lemma t_empty k : OK true k (qReadEmptyStatement p0 k).
Proof. unfold qReadEmptyStatement. tgo. Qed.
Hint Resolve t_empty : tl.
Lemma t_range k : OK true k (qRange p0 k).
Proof. unfold qRange. tgo. Qed.
Hint Resolve t_range : tl.
Lemma t_ranges_loop n : forall l k, (len k < n)%nat -> OK false k (qRanges_loop p0 n l k).
Proof. induction n as [|n IH]; intros l k L; [lia|]. cbn [qRanges_loop]. tgi IH. Qed.
Lemma t_ranges k : OK true k (qRanges p0 k).
Proof. unfold qRanges. tgo. eapply OK_call; [apply t_ranges_loop; tadv|tadv|tadv]. Qed.
Hint Resolve t_ranges : tl.
Lemma t_fieldName k : OK true k (qFieldName p0 k).
Proof. unfold qFieldName. tgo. Qed.
Hint Resolve t_fieldName : tl.
(** the calls whose errors are caught: the cursor stays at or behind [k0] *)
Definition TRY {A} (s : bool) (k0 : cur) (r : pres A) : Prop :=
  match r with POk _ k => adv s k0 k | PErr _ ka => suffix (cr ka) (cr k0) | PBal k _ => suffix (cr k) (cr k0) | _ => False end.
Lemma TRY_bind {A B} s s1 k0 k (q : PM A) (f : A -> PM B) : TRY s1 k (q k) -> suffix (cr k) (cr k0) ->
  (forall a k', adv s1 k k' -> TRY s k0 (f a k')) -> TRY s k0 (pbind q f k).
Proof.
Ltac yif := match goal with |- TRY _ _ ((if ?b then _ else _) _) => destruct b eqn:? end.
Ltac ycbn := unfold pbal, pret, perr, pback, pbind; cbn [TRY].
  intros H S E. unfold pbind. destruct (q k) as [a k'|kb ka|k' w| | | |]; cbn [TRY] in *; auto; eapply suffix_trans; eassumption.
Qed.
Lemma TRY_tok {A} s m k0 k (f : ti -> PM A) : (forall t k', tinfo t k k' -> TRY s k0 (f t k')) -> TRY s k0 (pbind (ptok p0 m) f k).
Proof. intros H. destruct (tok_info p0 m k) as (t & k' & E & I & T). unfold pbind. rewrite E. apply H; assumption. Qed.
Lemma y_range k : TRY true k (qRange p0 k).
Proof.
  unfold qRange. apply TRY_tok; intros. yif; [ycbn; tadv|]. apply TRY_tok; intros. yif; [ycbn; tadv|].
  apply TRY_tok; intros. yif; ycbn; tadv.
Qed.
Lemma y_ranges_loop n : forall l k, (len k < n)%nat -> TRY false k (qRanges_loop p0 n l k).
Proof.
  induction n as [|n IH]; intros l k L; [lia|]. cbn [qRanges_loop]. apply TRY_tok; intros. yif; [ycbn; tadv|].
  eapply TRY_bind; [apply y_range|tadv|intros]. 
  assert (Q : TRY false k'0 (qRanges_loop p0 n (l ++ [a]) k'0)) by (apply IH; tadv). 
  destruct (qRanges_loop p0 n (l ++ [a]) k'0); cbn [TRY] in *; try tadv; auto.
Qed.
Lemma y_ranges k : TRY true k (qRanges p0 k).
Proof.
  unfold qRanges. eapply TRY_bind; [apply y_range|tadv|intros]. unfold pfuel, pbind.
  assert (Q : TRY false k' (qRanges_loop p0 (S (len k')) [a] k')) by (apply y_ranges_loop; lia). 
  destruct (qRanges_loop p0 (S (len k')) [a] k'); cbn [TRY] in *; try tadv; auto.
Qed.
Lemma y_fieldName k : TRY true k (qFieldName p0 k).
Proof.
  unfold qFieldName. apply TRY_tok; intros. yif; [ycbn; tadv|]. unfold pback, pbind at 1. apply TRY_tok; intros.
  yif; ycbn; tadv.
Qed.
Lemma t_try {A B} (s s1 : bool) k0 k (q : PM A) (f : option A -> PM B) : TRY s1 k (q k) -> suffix (cr k) (cr k0) ->
  (forall a k', adv s1 k k' -> OK s k0 (f (Some a) k')) -> (forall k', suffix (cr k') (cr k) -> OK s k0 (f None k')) -> OK s k0 (ptry q f k).
Proof. intros H S E1 E2. unfold ptry. destruct (q k) as [a k'|kb ka|k' w| | | |]; cbn [TRY] in *; auto; contradiction. Qed.
Lemma t_fieldNames_loop n : forall l k, (len k < n)%nat -> OK false k (qFieldNames_loop p0 n l k).
Proof.
  induction n as [|n IH]; intros l k L; [lia|]. cbn [qFieldNames_loop]. tgi IH. eapply t_try; [apply y_fieldName|tadv|intros|intros]; tgi IH.
Qed.
Lemma t_fieldNames k : OK true k (qFieldNames p0 k).
Proof. unfold qFieldNames. tgo. eapply OK_call; [apply t_fieldNames_loop; tadv|tadv|tadv]. Qed.
Hint Resolve t_fieldNames : tl.
Lemma t_reserved k : OK true k (qParseReserved p0 k).
Proof.
  unfold qParseReserved. tstep. eapply (OK_bind0 _ _ _ true).
  - eapply t_try; [apply y_ranges|tadv|intros|intros]; tgo.
  - tgo.
Qed.
Lemma t_declaration_loop n : forall v k, (len k < n)%nat -> OK true k (qDeclaration_loop p0 n v k).
Proof. induction n as [|n IH]; intros l k L; [lia|]. cbn [qDeclaration_loop]. tgi IH. Qed.
Lemma t_declaration k : OK true k (qParseDeclaration p0 k).
Proof. unfold qParseDeclaration. tgo. eapply OK_bind; [apply t_declaration_loop; tadv|tadv|tgo]. Qed.
Hint Resolve t_declaration t_reserved : tl.
Lemma t_inlineErr {A} s k0 k : suffix (cr k) (cr k0) -> OK s k0 (@qInlineErr p0 A k).
Proof. intros S. unfold qInlineErr. tgo. Qed.
Lemma t_declarations_loop n : forall v k, (len k < n)%nat -> OK true k (qDeclarations_loop p0 n v k).
Proof. induction n as [|n IH]; intros l k L; [lia|]. cbn [qDeclarations_loop]. tgi IH. all: try (apply t_inlineErr; tadv). Qed.
Lemma t_declarations k : OK false k (qDeclarations p0 k).
Proof. unfold qDeclarations. tgo. eapply OK_bind; [apply t_declarations_loop; tadv|tadv|tgo]. Qed.
Hint Resolve t_declarations : tl.
Lemma t_extensions k : OK true k (qParseExtensions p0 k).
Proof. unfold qParseExtensions. tgo. Qed.
Hint Resolve t_extensions : tl.
Lemma t_precover {A} s (q : PM A) ok k : Term.OK g false s k (q k) -> OK s k (precover p0 q ok k).
Proof.
  intros H. unfold precover. destruct (q k) as [a k'|kb ka|k' w| | | |]; cbn [Term.OK] in *; auto.
  - tgo. 
  - destruct H as [H|H]; [discriminate|]. rewrite H. exact I.
Qed.
Hint Resolve t_fieldNames t_reserved t_declaration t_extensions : tl.
Ltac rec H := eapply OK_bind; [solve [H]|solve [tadv]|intros].
Lemma t_bodyEnd perm bic ilc l cs k : OK false k (qBodyEnd p0 perm bic ilc l cs k).
Proof. unfold qBodyEnd. tgo. Qed.
Lemma t_emptyBody perm k : OK false k (qEmptyBody p0 perm k).
Proof. unfold qEmptyBody. tgo. Qed.
Hint Resolve t_bodyEnd t_emptyBody : tl.
Lemma t_pfield perm ok k : OK true k (precover p0 (qParseField p0 perm) ok k).
Proof. apply t_precover. apply t_field. Qed.
Lemma t_penum perm ok k : OK true k (precover p0 (qEnumField p0 perm) ok k).
Proof. apply t_precover. apply t_enumField. Qed.
Hint Resolve t_pfield t_penum : tl.
Lemma t_enumBody_loop perm bic ilc n : forall l k, (len k < n)%nat -> OK false k (qEnumBody_loop p0 perm bic ilc n l k).
Proof. induction n as [|n IH]; intros l k L; [lia|]. cbn [qEnumBody_loop]. tgi IH. Qed.
Lemma t_enumBody perm bic k : OK true k (qEnumBody p0 perm bic k).
Proof. unfold qEnumBody. tgo. eapply OK_call; [apply t_enumBody_loop; tadv|tadv|tadv]. Qed.
Hint Resolve t_enumBody : tl.
Lemma t_enum perm bic k : OK true k (qParseEnum p0 perm bic k).
Proof. unfold qParseEnum. tgo. Qed.
Lemma t_extendBody_loop perm bic ilc n : forall l k, (len k < n)%nat -> OK false k (qExtendBody_loop p0 perm bic ilc n l k).
Proof. induction n as [|n IH]; intros l k L; [lia|]. cbn [qExtendBody_loop]. tgi IH. Qed.
Lemma t_extendBody perm bic k : OK true k (qExtendBody p0 perm bic k).
Proof. unfold qExtendBody. tgo. eapply OK_call; [apply t_extendBody_loop; tadv|tadv|tadv]. Qed.
Hint Resolve t_extendBody : tl.
Lemma t_extend perm bic k : OK true k (qParseExtend p0 perm bic k).
Proof. unfold qParseExtend. tgo. Qed.
Hint Resolve t_enum t_extend : tl.
Lemma t_rpcOptions_loop perm n : forall l k, (len k < n)%nat -> OK true k (qRpcOptions_loop p0 perm n l k).
Proof.
  induction n as [|n IH]; intros l k L; [lia|]. cbn [qRpcOptions_loop]. tstep.
  assert (C : tk t = TRIGHTCURLY \/ tk t <> TRIGHTCURLY) by (destruct (tk t); auto; right; discriminate).
  destruct C as [C|C].
  - rewrite C. tstep. tstep. tgi IH. exfalso. apply (lex_kw_misc (cr k)) in H; [|rewrite C; discriminate|intros I; revert I; rewrite C; cbn; intuition discriminate].
    match goal with X : tok_eqb (tk t0) _ = false |- _ => revert X end. rewrite H5, H3, H, C. discriminate.
  - tgi IH. congruence.
Qed.
Lemma t_rpcOptions perm k : OK true k (qRpcOptions p0 perm k).
Proof. unfold qRpcOptions. tgo. eapply OK_bind; [apply t_rpcOptions_loop; tadv|tadv|tgo]. Qed.
Hint Resolve t_rpcOptions : tl.
Lemma t_rpcParam k : OK true k (qRpcParam p0 k).
Proof. unfold qRpcParam. tgo. Qed.
Hint Resolve t_rpcParam : tl.
Lemma t_embedded {A} s k0 a b (f : list comment -> PM A) k : (forall l, OK s k0 (f l k)) -> OK s k0 (pbind (qEmbedded a b) f k).
Proof. intros H. unfold qEmbedded, pbind. apply H. Qed.
Lemma t_rpc perm k : OK true k (qRPC p0 perm k).
Proof. unfold qRPC. do 6 tstep. apply t_embedded. tgo. Qed.
Hint Resolve t_rpc : tl.
Lemma t_serviceBody_loop perm bic ilc n : forall l k, (len k < n)%nat -> OK false k (qServiceBody_loop p0 perm bic ilc n l k).
Proof. induction n as [|n IH]; intros l k L; [lia|]. cbn [qServiceBody_loop]. tgi IH. Qed.
Lemma t_serviceBody perm bic k : OK true k (qServiceBody p0 perm bic k).
Proof. unfold qServiceBody. tgo. eapply OK_call; [apply t_serviceBody_loop; tadv|tadv|tadv]. Qed.
Hint Resolve t_serviceBody : tl.
Lemma t_service perm bic k : OK true k (qParseService p0 perm bic k).
Proof. unfold qParseService. tgo. Qed.
Hint Resolve t_service : tl.
Definition good (k : cur) : Prop := g = true \/ tame (cr k).
Lemma good_suffix k k' : suffix (cr k') (cr k) -> good k -> good k'.
Proof. intros S [H|H]; [left; exact H|right; eapply tame_suffix; eassumption]. Qed.
Ltac gd := match goal with G : good ?k |- good _ => apply (good_suffix k); [tadv|exact G] end.
Lemma t_groupField L (mb : PM body_result) : (forall k, (len k < L)%nat -> good k -> OK true k (mb k)) -> forall k, (len k <= L)%nat -> good k -> OK true k (qParseGroupField p0 mb k).
Proof. intros P k H G. unfold qParseGroupField. tgo. eapply OK_bind; [apply P; [tadv|gd]|tadv|tgo]. Qed.
Lemma t_message_ L (mb : PM body_result) : (forall k, (len k < L)%nat -> good k -> OK true k (mb k)) -> forall k, (len k <= L)%nat -> good k -> OK true k (qParseMessage_ p0 mb k).
Proof. intros P k H G. unfold qParseMessage_. tgo. eapply OK_bind; [apply P; [tadv|gd]|tadv|tgo]. Qed.
Lemma t_pgroup {A} s (q : PM A) ok k : g = true -> OK s k (q k) -> OK s k (precover p0 q ok k).
Proof.
  intros G H. unfold precover. destruct (q k) as [a k'|kb ka|k' w| | | |]; cbn [Term.OK] in *; auto.
  - tgo.
  - destruct (fatal _ _); [exact I|exact G].
Qed.
Lemma t_messageStmt L perm bic (mb : PM body_result) : (forall k, (len k < L)%nat -> good k -> OK true k (mb k)) ->
  (forall k, (len k < L)%nat -> ready (cr k) -> Term.OK g false true k (mb k)) ->
  forall T cs k, (len k <= L)%nat -> good k -> OK true k (qMessageStmt p0 perm bic mb T cs k).
Proof.
  intros P P2 T cs k H G.
  assert (D : OK true k (pbind (qIsGroup p0) (fun b => if b then precover p0 (qParseGroupField p0 mb) (fun g => with_comments cs (VGroupField g))
     else precover p0 (qParseField p0 perm) (fun f => with_comments cs (VField f))) k)).
  { destruct (IsGroup k) as (b & k' & E & CR & CL). unfold pbind. rewrite E. destruct b; [|tgo].
    destruct G as [G|G]; [|eapply (OK_call _ _ _ true _ k' (precover p0 _ _)); [apply t_precover; apply (d_group _ L); [exact P2|tadv|rewrite CR; exact G]|tadv|tadv]].
    eapply (OK_call _ _ _ true _ k' (precover p0 _ _)); [apply t_pgroup; [exact G|apply (t_groupField L); [exact P|tadv|left; exact G]]|tadv|tadv]. }
  unfold qMessageStmt. destruct T; try exact D; try (tgo; fail).
  eapply OK_bind; [apply (t_message_ L); [exact P|tadv|gd]|tadv|tgo].
Qed.
Lemma t_messageBody_loop L perm bic mb ilc : (forall k, (len k < L)%nat -> good k -> OK true k (mb k)) ->
  (forall k, (len k < L)%nat -> ready (cr k) -> Term.OK g false true k (mb k)) ->
  forall n l k, (len k < n)%nat -> (len k <= L)%nat -> good k -> OK false k (qMessageBody_loop p0 perm bic mb ilc n l k).
Proof.
  intros P P2. induction n as [|n IH]; intros l k H1 H2 G; [lia|]. cbn [qMessageBody_loop]. tstep. tstep.
  assert (D : OK false k (pbind (qMessageStmt p0 perm bic mb (tk t) a) (fun stmt => pbind (qMaybeInline p0 set_inline stmt) (fun stmt => qMessageBody_loop p0 perm bic mb ilc n (l ++ [stmt]))) k'0)).
  { eapply OK_bind; [apply (t_messageStmt L); [exact P|exact P2|tadv|gd]|tadv|intros]. tstep. eapply OK_call; [apply IH; [tadv|tadv|gd]|tadv|tadv]. }
  destruct (tk t); try exact D. tgo.
Qed.
Lemma t_messageBody perm bic n : forall k, (len k < n)%nat -> good k -> OK true k (qMessageBody p0 perm bic n k).
Proof.
  induction n as [|n IH]; intros k L G; [lia|]. cbn [qMessageBody]. tgo.
  eapply OK_call; [apply (t_messageBody_loop n); [exact IH|apply d_messageBody|tadv|tadv|gd]|tadv|tadv].
Qed.
Lemma t_parseMessage perm bic n k : (len k <= n)%nat -> good k -> OK true k (qParseMessage p0 perm bic n k).
Proof. intros L G. unfold qParseMessage. apply (t_message_ n); [apply t_messageBody|exact L|exact G]. Qed.
Lemma t_protoStmt perm bic n T cs k : (len k <= n)%nat -> good k -> OK true k (qProtoStmt p0 perm bic n T cs k).
Proof.
  intros L G. unfold qProtoStmt. destruct T; try (tgo; fail). eapply OK_bind; [apply t_parseMessage; assumption|tadv|tgo].
Qed.
Lemma t_protoBody_loop perm bic n : forall l k, (len k < n)%nat -> good k -> OK false k (qProtoBody_loop p0 perm bic n l k).
Proof.
  induction n as [|n IH]; intros l k L G; [lia|]. cbn [qProtoBody_loop]. tstep. tstep. tstep; [tgo|]. tstep.
  eapply OK_bind; [apply t_protoStmt; [tadv|gd]|tadv|intros]. tstep. tstep. eapply OK_call; [apply IH; [tadv|gd]|tadv|tadv].
Qed.
Lemma t_bom k : OK false k (qBOM p0 k).
Proof. unfold qBOM. tgo. Qed.
Hint Resolve t_bom : tl.
Lemma t_proto perm bic n k : (len k < n)%nat -> good k -> OK false k (qParseProto p0 perm bic n k).
Proof.
  intros L G. unfold qParseProto. tgo. all: eapply OK_bind; [apply t_protoBody_loop; [tadv|gd]|tadv|tgo].
Qed.
(** without the recovery behind a failed group, for any text *)
Lemma s_groupField L (mb : PM body_result) : (forall k, (len k < L)%nat -> OK true k (mb k)) -> forall k, (len k <= L)%nat -> OK true k (qParseGroupField p0 mb k).
Proof. intros P k H. unfold qParseGroupField. tgo. eapply OK_bind; [apply P; tadv|tadv|tgo]. Qed.
Lemma s_message_ L (mb : PM body_result) : (forall k, (len k < L)%nat -> OK true k (mb k)) -> forall k, (len k <= L)%nat -> OK true k (qParseMessage_ p0 mb k).
Proof. intros P k H. unfold qParseMessage_. tgo. eapply OK_bind; [apply P; tadv|tadv|tgo]. Qed.
Lemma s_messageStmt L perm bic (mb : PM body_result) : (forall k, (len k < L)%nat -> OK true k (mb k)) ->
  forall T cs k, (len k <= L)%nat -> OK true k (qMessageStmt' p0 perm bic mb T cs k).
Proof.
  intros P T cs k H.
  assert (D : OK true k (pbind (qIsGroup p0) (fun b => if b then pbind (qParseGroupField p0 mb) (fun g => pret (with_comments cs (VGroupField g)))
     else precover p0 (qParseField p0 perm) (fun f => with_comments cs (VField f))) k)).
  { destruct (IsGroup k) as (b & k' & E & CR & CL). unfold pbind at 1. rewrite E. destruct b; [|tgo].
    eapply OK_bind; [apply (s_groupField L); [exact P|tadv]|tadv|tgo]. }
  unfold qMessageStmt'. destruct T; try exact D; try (tgo; fail).
  eapply OK_bind; [apply (s_message_ L); [exact P|tadv]|tadv|tgo].
Qed.
Lemma s_messageBody_loop L perm bic mb ilc : (forall k, (len k < L)%nat -> OK true k (mb k)) ->
  forall n l k, (len k < n)%nat -> (len k <= L)%nat -> OK false k (qMessageBody_loop' p0 perm bic mb ilc n l k).
Proof.
  intros P. induction n as [|n IH]; intros l k H1 H2; [lia|]. cbn [qMessageBody_loop']. tstep. tstep.
  assert (D : OK false k (pbind (qMessageStmt' p0 perm bic mb (tk t) a) (fun stmt => pbind (qMaybeInline p0 set_inline stmt) (fun stmt => qMessageBody_loop' p0 perm bic mb ilc n (l ++ [stmt]))) k'0)).
  { eapply OK_bind; [apply (s_messageStmt L); [exact P|tadv]|tadv|intros]. tstep. eapply OK_call; [apply IH; tadv|tadv|tadv]. }
  destruct (tk t); try exact D. tgo.
Qed.
Lemma s_messageBody perm bic n : forall k, (len k < n)%nat -> OK true k (qMessageBody' p0 perm bic n k).
Proof.
  induction n as [|n IH]; intros k L; [lia|]. cbn [qMessageBody']. tgo.
  eapply OK_call; [apply (s_messageBody_loop n); [exact IH|tadv|tadv]|tadv|tadv].
Qed.
Lemma s_protoStmt perm bic n T cs k : (len k <= n)%nat -> OK true k (qProtoStmt' p0 perm bic n T cs k).
Proof.
  intros L. unfold qProtoStmt'. destruct T; try (tgo; fail). eapply OK_bind; [apply (s_message_ n); [apply s_messageBody|exact L]|tadv|tgo].
Qed.
Lemma s_protoBody_loop perm bic n : forall l k, (len k < n)%nat -> OK false k (qProtoBody_loop' p0 perm bic n l k).
Proof.
  induction n as [|n IH]; intros l k L; [lia|]. cbn [qProtoBody_loop']. tstep. tstep. tstep; [tgo|]. tstep.
  eapply OK_bind; [apply s_protoStmt; tadv|tadv|intros]. tstep. tstep. eapply OK_call; [apply IH; tadv|tadv|tadv].
Qed.
Lemma s_proto perm bic n k : (len k < n)%nat -> OK false k (qParseProto' p0 perm bic n k).
Proof.
  intros L. unfold qParseProto', qProtoRest. tgo. all: eapply OK_bind; [apply s_protoBody_loop; tadv|tadv|tgo].
Qed.
End B.
End T.
