(** What the pure parser read: the items between two cursors. *)
From Coq Require Import List NArith ZArith Bool String Ascii Lia Sorted.
From Verif Require Import Base Token Scanner Lexer Lexing ScanRefine LexFacts LexSpec LexProofs ScanFacts LexerFacts ScanProps Ast Parser
  Cursor Pure Refine Term Term2 Grammar GramLex GramRules SndLex.
From Verif Require Export Want.
Import ListNotations.
Open Scope N_scope.
Open Scope pure_scope.

Lemma lay_below s p r its p' r' : Lay s p r its p' r' -> Forall valid_rune r -> Forall (fun i => (Offset (ipos i) < Offset p')%Z) its.
Proof.
  intros L V. assert (X : (Offset p <= Offset p')%Z /\ Forall (fun i => (Offset (ipos i) < Offset p')%Z) its); [|tauto]. revert V.
  induction L as [|p sp x r its p' r' S TA L IH|p sp x r its p' r' S C L IH|p sp x S C|p sp x r its p' r' S C L IH]; intros V.
  - split; [lia|constructor].
  - rewrite !Forall_app in V. destruct V as (V1 & V2 & V3). destruct (IH V3) as [IH1 IH2]. pose proof (offset_le p sp V1). pose proof (offset_lt (posafter p sp) x V2 (token_nonempty _ _ _ TA)) as O. rewrite <- posafter_app in O.
    split; [lia|]. constructor; [cbn; lia|exact IH2].
  - rewrite !Forall_app in V. destruct V as (V1 & V2 & V3). inversion V3 as [|? ? V4 V5]; subst. destruct (IH V5) as [IH1 IH2]. pose proof (offset_le p sp V1).
    assert (O : (Offset (posafter p sp) < Offset (posafter (posafter p sp) (x ++ [NL])))%Z).
    { apply offset_lt; [apply Forall_app; split; [exact V2|constructor; [exact V4|constructor]]|destruct x; discriminate]. }
    rewrite <- posafter_app in O. split; [lia|]. constructor; [cbn; lia|exact IH2].
  - rewrite !Forall_app in V. destruct V as (V1 & V2). pose proof (offset_le p sp V1).
    assert (O : (Offset (posafter p sp) < Offset (posafter (posafter p sp) x))%Z). { apply offset_lt; [exact V2|destruct C as (b & -> & _); discriminate]. }
    rewrite <- posafter_app in O. split; [lia|]. constructor; [cbn; lia|constructor].
  - rewrite !Forall_app in V. destruct V as (V1 & V2 & V3). destruct (IH V3) as [IH1 IH2]. pose proof (offset_le p sp V1).
    assert (O : (Offset (posafter p sp) < Offset (posafter (posafter p sp) x))%Z). { apply offset_lt; [exact V2|destruct C as (b & -> & _); discriminate]. }
    rewrite <- posafter_app in O. split; [lia|]. constructor; [cbn; lia|exact IH2].
Qed.
Lemma firstn_more {A} n (x s : list A) : firstn n x = firstn (min n (List.length x)) (x ++ s).
Proof.
  rewrite firstn_app. replace (min n (List.length x) - List.length x)%nat with O by lia. cbn [firstn]. rewrite app_nil_r.
  destruct (Nat.le_gt_cases n (List.length x)); [rewrite Nat.min_l by lia; reflexivity|]. rewrite Nat.min_r, firstn_all by lia. apply firstn_all2. lia.
Qed.
Lemma sorted_prefix {A} (R : A -> A -> Prop) a b : StronglySorted R (a ++ b) -> StronglySorted R a.
Proof.
  induction a as [|c a IH]; cbn [app]; intros H; [constructor|]. inversion H as [|? ? H1 H2]; subst. constructor; [auto|].
  apply Forall_app in H2. tauto.
Qed.
Lemma sorted_join {A} (R : A -> A -> Prop) a b : StronglySorted R a -> StronglySorted R b -> (forall x y, In x a -> In y b -> R x y) -> StronglySorted R (a ++ b).
Proof.
  induction 1 as [|c a H IH F]; cbn [app]; intros SB X; [exact SB|]. constructor; [apply IH; [exact SB|intros; apply X; [right|]; assumption]|].
  apply Forall_app. split; [exact F|]. apply Forall_forall. intros y I. apply X; [left; reflexivity|exact I].
Qed.

Section Rules.
Variable p0 : mpos.
Variable src : list rune.
Hypothesis RS : readable src.
Notation posat := (posat p0).
Notation ptok := (ptok p0).
Notation ppeek := (ppeek p0).
Notation pexpect := (pexpect p0).
Notation lexc := (lexc p0).

(** ** Recorded comments: those of the items read, and perhaps some of the gaps that follow.
    The look-ahead for groups goes up to six tokens further; the gaps behind tokens
    that every mode delimits in the same way are known whatever is read next. *)
Definition gapc (c r : list rune) : list (str * mpos) := cmsof (posat c) (lx_cms (lex 0 r)).
Definition nextc (c r : list rune) : list rune := c ++ lx_gap (lex 0 r) ++ lx_raw (lex 0 r).
Fixpoint ahead_n (n : nat) (c r : list rune) : list (str * mpos) :=
  gapc c r ++ match n with O => [] | S n' => if stable r then ahead_n n' (nextc c r) (lx_rest (lex 0 r)) else [] end.
Definition ahead (c r : list rune) : list (str * mpos) := ahead_n (List.length r) c r.
Lemma stable_shorter r : stable r = true -> (List.length (lx_rest (lex 0%N r)) < List.length r)%nat.
Proof.
  intros ST. destruct r as [|c l]; [discriminate ST|]. pose proof (lex_app 0 (c :: l)) as A. unfold lexed_app in A. pose proof (lex_consumes 0 c l) as NE.
  apply (f_equal (@List.length rune)) in A. rewrite !app_length in A. destruct (lx_gap (lex 0 (c :: l)) ++ lx_raw (lex 0 (c :: l))) eqn:X; [congruence|].
  apply (f_equal (@List.length rune)) in X. rewrite app_length in X. cbn [List.length] in X. lia.
Qed.
Lemma ahead_fuel n c r : (List.length r <= n)%nat -> ahead_n n c r = ahead c r.
Proof.
  unfold ahead. assert (H : forall k n n' c r, (List.length r <= k)%nat -> (List.length r <= n)%nat -> (List.length r <= n')%nat -> ahead_n n c r = ahead_n n' c r).
  { clear. induction k as [|k IH]; intros n n' c r L1 L2 L3.
    - destruct r; [|cbn in L1; lia]. destruct n, n'; cbn [ahead_n]; change (stable []) with false; reflexivity.
    - destruct n as [|n], n' as [|n']; cbn [ahead_n]; f_equal; try reflexivity; destruct (stable r) eqn:ST; try reflexivity; pose proof (stable_shorter r ST).
      + cbn in L2. lia.
      + cbn in L3. lia.
      + apply IH; lia. }
  intros L. apply (H (List.length r)); lia.
Qed.
Lemma ahead_eq c r : ahead c r = gapc c r ++ (if stable r then ahead (nextc c r) (lx_rest (lex 0 r)) else []).
Proof.
  unfold ahead at 1. destruct (List.length r) as [|n] eqn:L; cbn [ahead_n].
  - destruct r; [|discriminate]. reflexivity.
  - f_equal. destruct (stable r) eqn:ST; [|reflexivity]. apply ahead_fuel. pose proof (stable_shorter r ST). lia.
Qed.
(** over letters and digits *)
Lemma ahead_run a : forall c r, Forall (fun d => identChar d = true) a -> match r with d :: _ => identChar d = false | [] => True end ->
  ahead c (a ++ r) = ahead (c ++ a) r.
Proof.
  assert (H : forall n a c r, (List.length a <= n)%nat -> Forall (fun d => identChar d = true) a -> match r with d :: _ => identChar d = false | [] => True end -> ahead c (a ++ r) = ahead (c ++ a) r).
  { clear. induction n as [|n IH]; intros a c r L F H; (destruct a as [|d a]; [rewrite app_nil_r; reflexivity|]); cbn [List.length] in L; [lia|].
    inversion F as [|? ? F1 F2]; subst. cbn [app]. rewrite ahead_eq. destruct (isDecimalDigit d) eqn:D.
    - unfold gapc, stable, nextc. rewrite (lex_digit 0 d (a ++ r) D eq_refl). cbn [lx_cms lx_tok lx_txt lx_gap lx_raw lx_rest steady cmsof map app]. rewrite D.
      rewrite IH; [|lia|exact F2|exact H]. rewrite <- app_assoc. reflexivity.
    - assert (IS : identStart d = true). { unfold identChar in F1. rewrite D in F1. unfold identStart. destruct (isLetter d), (d =? ch "_"); auto. }
      assert (SP : isSpace d = false). { destruct (isSpace d) eqn:SP; [|reflexivity]. apply ident_start_iff in IS. exfalso. revert SP. clear - IS. destruct IS as [IS|IS].
        - unfold letter in IS. unfold isSpace. intros X. repeat rewrite ?orb_true_iff, ?andb_true_iff, ?N.eqb_eq, ?N.leb_le in X. chars. lia.
        - subst d. discriminate. }
      assert (LX : lex 0 (d :: a ++ r) = mkLexed [] [] TIDENT (d :: a) (d :: a) r).
      { rewrite lex_cons, SP, IS. replace (span identChar (a ++ r)) with (a, r); [reflexivity|]. symmetry. apply span_exact; [exact F2|]; destruct r; [reflexivity|exact H]. }
      unfold gapc, stable, nextc. rewrite LX. reflexivity. }
  intros c r. apply (H (List.length a)). lia.
Qed.
Lemma ahead_gap c r d l : r = lx_gap (lex 0 r) ++ d :: l -> core (d :: l) -> ahead c r = gapc c r ++ ahead (c ++ lx_gap (lex 0 r)) (d :: l).
Proof.
  intros E C. rewrite (ahead_eq c r). f_equal. rewrite (ahead_eq (c ++ lx_gap (lex 0 r)) (d :: l)). destruct (gap_core r) as (g & cs & r1 & E1 & _ & C1 & F). destruct (core_lex 0 r1 C1) as (G1 & _).
  pose proof (F 0 eq_refl) as F0. assert (GG : lx_gap (lex 0 r) = g) by (rewrite F0; unfold skip; cbn [lx_gap]; rewrite G1; apply app_nil_r).
  rewrite GG in *. rewrite E1 in E at 1. apply app_inv_head in E. subst r1. destruct (core_lex 0 _ C) as (_ & C0 & _). unfold gapc at 1. rewrite C0. cbn [cmsof map app].
  unfold stable, nextc. rewrite F0. unfold skip. cbn [lx_tok lx_txt lx_gap lx_raw lx_rest]. rewrite G1, app_nil_r. cbn [app]. rewrite app_assoc. reflexivity.
Qed.
(** the gaps ahead, when the next token is read in another mode *)
Lemma ahead_mode m c r : has m ScanComment = false -> exists R Sx,
  ahead c r = gapc c r ++ R /\ ahead (c ++ lx_gap (lex 0 r) ++ lx_raw (lex m r)) (lx_rest (lex m r)) = R ++ Sx /\
  (stable r = true -> (lx_tok (lex m r) <> TINTLIT -> has m ScanNumberLit = false) -> Sx = []).
Proof.
  intros M. destruct (stable r) eqn:ST.
  - destruct (lex_stable m r M ST) as [(E1 & E2 & _)|(d & l & E & D & MN & C & E1 & E2 & E3 & E4 & E5)].
    + rewrite E1, E2. exists (ahead (nextc c r) (lx_rest (lex 0 r))), []. rewrite ahead_eq, ST. split; [reflexivity|]. split; [rewrite app_nil_r; reflexivity|reflexivity].
    + rewrite E1, E2, E3. set (c1 := c ++ lx_gap (lex 0 r)). rewrite (ahead_gap c r d l E C). fold c1.
      replace (c ++ lx_gap (lex 0 r) ++ lx_raw (lex m (d :: l))) with (c1 ++ lx_raw (lex m (d :: l))) by (unfold c1; rewrite app_assoc; reflexivity).
      destruct (number_raw m d l D MN) as [NC NI]. pose proof (lex_raw0 m _ C) as AP. set (w := lx_raw (lex m (d :: l))) in *. set (r' := lx_rest (lex m (d :: l))) in *.
      destruct (span identChar (d :: l)) as [a r2] eqn:SP. apply span_spec in SP. destruct SP as (SE & SF & SH).
      assert (SH' : match r2 with e :: _ => identChar e = false | [] => True end) by (destruct r2; [exact Logic.I|exact SH]). clear SH.
      assert (EQ : forall l0, a = w ++ l0 -> r' = l0 ++ r2 -> ahead c1 (d :: l) = ahead (c1 ++ w) r').
      { intros l0 Ea Er. rewrite SE, Er. rewrite (ahead_run a c1 r2 SF SH'). rewrite Ea in SF. apply Forall_app in SF. destruct SF as [_ SF].
        rewrite (ahead_run l0 (c1 ++ w) r2 SF SH'), <- app_assoc, <- Ea. reflexivity. }
      assert (CASES : (exists l0, a = w ++ l0 /\ r' = l0 ++ r2) \/ (exists l0, w = a ++ l0 /\ r2 = l0 ++ r' /\ l0 <> [])).
      { assert (X : a ++ r2 = w ++ r') by congruence. apply app_eq_app in X. destruct X as (l0 & [[X1 X2]|[X1 X2]]); [left; eauto|].
        destruct l0 as [|e l0]; [left; exists []; rewrite app_nil_r in *; cbn [app] in *; auto|right; exists (e :: l0); repeat split; auto; discriminate]. }
      destruct CASES as [(l0 & Ea & Er)|(l0 & Ew & E2' & NE)].
      * exists (ahead c1 (d :: l)), []. rewrite app_nil_r. split; [reflexivity|]. split; [symmetry; eapply EQ; eassumption|reflexivity].
      * destruct l0 as [|e l0]; [congruence|]. assert (NE' : number_char e). { rewrite Ew in NC. apply Forall_app in NC. destruct NC as [_ NC]. inversion NC; assumption. }
        rewrite E2' in SH'. cbn [app] in SH'. exists [], (ahead (c1 ++ w) r'). split; [|split; [reflexivity|]].
        -- f_equal. rewrite SE, (ahead_run a c1 r2 SF); [|rewrite E2'; exact SH']. rewrite E2'. cbn [app].
           destruct NE' as [X|X]; [congruence|]. rewrite ahead_eq. assert (Y : stable (e :: l0 ++ r') = false /\ lx_cms (lex 0 (e :: l0 ++ r')) = []).
           { unfold stable. destruct X as [->|[->| ->]]; rewrite lex_cons; cbn; auto. }
           destruct Y as [-> Y]. unfold gapc. rewrite Y. reflexivity.
        -- intros _ TI. exfalso. destruct (token_eq_dec (lx_tok (lex m (d :: l))) TINTLIT) as [T|T]; [|specialize (TI T); congruence].
           specialize (NI T). rewrite Ew in NI. apply Forall_app in NI. destruct NI as [_ NI]. inversion NI; congruence.
  - exists [], (ahead (c ++ lx_gap (lex 0 r) ++ lx_raw (lex m r)) (lx_rest (lex m r))). rewrite ahead_eq, ST. repeat split. intros X. discriminate X.
Qed.
Definition Known (k : cur) (C : list (str * mpos)) : Prop :=
  StronglySorted cbefore C /\ Forall (fun c => (Offset (snd c) < Offset (posat (cc k)))%Z) C /\
  exists n, (List.length C <= n)%nat /\ unique_comments [] (cm k) = texts (firstn n (C ++ ahead (cc k) (cr k))).

Lemma valid_part a b : a ++ b = src -> Forall valid_rune a /\ Forall valid_rune b.
Proof. intros E. rewrite <- Forall_app, E. revert RS. apply Forall_impl. tauto. Qed.
Lemma nonul_part a b : a ++ b = src -> nonul b.
Proof. intros E. assert (N : nonul src) by (revert RS; apply Forall_impl; intros c H; apply H). rewrite <- E in N. apply nonul_app in N. tauto. Qed.

Lemma ahead_lay c r : c ++ r = src -> exists its p' r', Lay false (posat c) r its p' r' /\ citems its = ahead c r.
Proof.
  intros _. unfold ahead. generalize (List.length r) as n. intros n. revert c r.
  assert (ONE : forall c r, exists its p' r', Lay false (posat c) r its p' r' /\ citems its = gapc c r).
  { clear. intros c r. destruct (token_eq_dec (lx_tok (lex 0 r)) TEOF) as [T|T].
    - destruct (eof_lay 0 (posat c) r eq_refl T) as (_ & _ & _ & sp & p' & _ & L). eexists _, _, _. split; [exact L|]. apply citems_coms.
    - pose proof (token_lay 0 (posat c) r eq_refl T) as L. eexists _, _, _. split; [exact L|]. rewrite citems_app, citems_coms. apply app_nil_r. }
  induction n as [|n IH]; intros c r; cbn [ahead_n]; [rewrite app_nil_r; apply ONE|]. destruct (stable r) eqn:ST.
  - assert (T : lx_tok (lex 0 r) <> TEOF). { unfold stable in ST. intros T. rewrite T in ST. discriminate. }
    pose proof (token_lay 0 (posat c) r eq_refl T) as L. rewrite <- !posat_app in L. destruct (IH (nextc c r) (lx_rest (lex 0 r))) as (its & p' & r' & L2 & C2).
    eexists _, _, _. split; [eapply lay_app; [exact L|exact L2]|]. rewrite !citems_app, citems_coms, C2. cbn [citems]. rewrite app_nil_r. reflexivity.
  - rewrite app_nil_r. apply ONE.
Qed.
Lemma ahead_sorted k C : cc k ++ cr k = src -> Known k C -> StronglySorted cbefore (C ++ ahead (cc k) (cr k)).
Proof.
  intros E (S & F & _). destruct (valid_part _ _ E) as [_ V]. destruct (ahead_lay _ _ E) as (its & p' & r' & L & <-).
  apply sorted_join; [exact S|apply citems_sorted; eapply lay_sorted; eassumption|]. intros x y I J. rewrite Forall_forall in F. specialize (F _ I). unfold cbefore.
  apply citems_in in J. pose proof (lay_above _ _ _ _ _ _ L V) as A. rewrite Forall_forall in A. specialize (A _ J). cbn [ipos] in A. cbn in F. lia.
Qed.

Lemma Known_record k C i j : cc k ++ cr k = src -> Known k C -> ahead (cc k) (cr k) = i ++ j ->
  exists n, (List.length C + List.length i <= n)%nat /\ unique_comments [] (cm k ++ texts i) = texts (firstn n (C ++ ahead (cc k) (cr k))).
Proof.
  intros E KN A. pose proof (ahead_sorted k C E KN) as S. destruct KN as (_ & _ & n & L & U). rewrite unique_app, U.
  exists (max n (List.length C + List.length i)). split; [lia|]. apply (record_more _ C i j); [exact S|rewrite A; reflexivity|exact L].
Qed.
Lemma Known_same k b C : cc b = cc k -> cr b = cr k -> cm b = cm k -> Known k C -> Known b C.
Proof. unfold Known. intros -> -> -> H. exact H. Qed.

(** ** Items between two cursors *)
Definition Seg (k : cur) (ts : list item) (k' : cur) : Prop :=
  exists w sp p, cr k = w ++ cr k' /\ cc k' = cc k ++ w /\ Spaces sp /\ Lay false (posat (cc k)) (cr k) ts p (sp ++ cr k').
Definition Gd (k : cur) : Prop := cc k ++ cr k = src /\ exists C, Known k C.
Definition P (k : cur) (ts : list item) (k' : cur) : Prop :=
  Gd k' /\ Seg k ts k' /\ forall C, Known k C -> Known k' (C ++ citems ts).
Lemma Seg_pos k ts k' w sp p : cr k = w ++ cr k' -> cc k' = cc k ++ w -> Lay false (posat (cc k)) (cr k) ts p (sp ++ cr k') -> posafter p sp = posat (cc k').
Proof.
  intros E1 E2 L. apply lay_split in L. destruct L as (w' & L & ->). rewrite E1, app_assoc in L. apply app_inv_tail in L.
  rewrite <- posafter_app, <- L, E2. symmetry. apply posat_app.
Qed.
Lemma Seg_trans k ts k1 ts' k2 : Seg k ts k1 -> Seg k1 ts' k2 -> Seg k (ts ++ ts') k2.
Proof.
  intros (w & sp & p & E1 & E2 & S & L) (w' & sp' & p' & E1' & E2' & S' & L'). pose proof (Seg_pos _ _ _ _ _ _ E1 E2 L) as PP.
  destruct ts' as [|i ts'].
  - rewrite app_nil_r. apply lay_none in L'. destruct L' as [-> L'].
    assert (w' = sp') as -> by (rewrite E1' in L'; apply app_inv_tail in L'; auto).
    exists (w ++ sp'), (sp ++ sp'), p. split; [rewrite E1, E1', app_assoc; reflexivity|]. split; [rewrite E2', E2, app_assoc; reflexivity|].
    split; [apply Forall_app; auto|]. rewrite <- app_assoc, <- E1'. exact L.
  - exists (w ++ w'), sp', p'. split; [rewrite E1, E1', app_assoc; reflexivity|]. split; [rewrite E2', E2, app_assoc; reflexivity|].
    split; [exact S'|]. eapply lay_app; [exact L|]. apply lay_pre; [exact S|discriminate|]. rewrite PP. exact L'.
Qed.
Lemma P_trans k ts k1 ts' k2 : P k ts k1 -> P k1 ts' k2 -> P k (ts ++ ts') k2.
Proof.
  intros (G & S & R) (G' & S' & R'). split; [exact G'|]. split; [eapply Seg_trans; eassumption|]. intros C KN. rewrite citems_app, app_assoc. auto.
Qed.
Lemma Seg_refl k b : cc b = cc k -> cr b = cr k -> Seg k [] b.
Proof. intros E1 E2. exists [], [], (posat (cc k)). rewrite E1, E2, app_nil_r. repeat split; constructor. Qed.
Lemma P_refl k : Gd k -> P k [] k.
Proof. intros G. split; [exact G|]. split; [apply Seg_refl; reflexivity|]. intros C H. cbn. rewrite app_nil_r. exact H. Qed.
Lemma P_Gd k ts k' : P k ts k' -> Gd k'. Proof. intros (H & _). exact H. Qed.

(** un-reading leads back to [k] *)
Definition Bk (k b : cur) : Prop := cc b = cc k /\ cr b = cr k /\ lp b = posat (cc k) /\ P k [] b.
Lemma Bk_P k0 ts k b : P k0 ts k -> Bk k b -> P k0 ts b.
Proof. intros H (_ & _ & _ & B). rewrite <- (app_nil_r ts). eapply P_trans; eassumption. Qed.

(** ** Reading a token *)
Lemma Known_tok m k C : has m ScanComment = false -> cc k ++ cr k = src -> Known k C ->
  Known (kb (fst (lexc m k))) C /\ Known (snd (lexc m k)) (C ++ gapc (cc k) (cr k)).
Proof.
  intros M E KN. destruct (lex_gap_modes m (cr k) M) as [EG EC]. unfold Cursor.lexc. cbn [fst snd kb]. rewrite EC, EG.
  change (place (posat (cc k)) (lx_cms (lex 0 (cr k)))) with (place (posat (cc k)) (lx_cms (lex 0 (cr k)))). rewrite place_cmsof. fold (gapc (cc k) (cr k)).
  destruct (Known_record k C (gapc (cc k) (cr k)) _ E KN (ahead_eq _ _)) as (n & L & U). pose proof (ahead_sorted k C E KN) as S.
  pose proof KN as (S0 & F0 & _). split.
  - split; [exact S0|]. split; [exact F0|]. exists n. split; [lia|exact U].
  - destruct (valid_part _ _ E) as [_ V]. set (k' := mkCur (cc k ++ lx_gap (lex 0 (cr k)) ++ lx_raw (lex m (cr k))) (lx_rest (lex m (cr k))) _ _).
    split. { rewrite ahead_eq, app_assoc in S. apply sorted_prefix in S. exact S. } split.
    + apply Forall_app. assert (PA : posat (cc k') = posafter (posat (cc k)) (lx_gap (lex m (cr k)) ++ lx_raw (lex m (cr k)))) by (cbn [cc k']; rewrite posat_app, EG; reflexivity).
      assert (VW : Forall valid_rune (lx_gap (lex m (cr k)) ++ lx_raw (lex m (cr k)))).
      { pose proof (lex_app m (cr k)) as A. unfold lexed_app in A. rewrite A in V. rewrite !Forall_app in V. apply Forall_app. tauto. }
      split. { revert F0. apply Forall_impl. intros c H. pose proof (offset_le (posat (cc k)) _ VW). rewrite PA. cbn in H. lia. }
      rewrite PA. unfold gapc. rewrite <- EC. apply Forall_forall. intros c I.
      destruct (token_eq_dec (lx_tok (lex m (cr k))) TEOF) as [T|T].
      * destruct (eof_lay m (posat (cc k)) (cr k) M T) as (X1 & X2 & X3 & sp & p' & SP & LY). rewrite X1, X3, app_nil_r.
        pose proof (lay_below _ _ _ _ _ _ LY V) as B. rewrite Forall_forall in B. specialize (B (Com (fst c) (snd c))).
        assert (I2 : In (Com (fst c) (snd c)) (coms (cmsof (posat (cc k)) (lx_cms (lex m (cr k)))))) by (unfold coms; apply in_map_iff; eauto).
        specialize (B I2). cbn [ipos] in B. destruct (lay_split _ _ _ _ _ _ LY) as (w & W1 & W2). rewrite W1, posafter_app, <- W2.
        assert (VS : Forall valid_rune sp) by (rewrite W1 in V; apply Forall_app in V; tauto). pose proof (offset_le p' sp VS). lia.
      * pose proof (token_lay m (posat (cc k)) (cr k) M T) as LY. pose proof (lay_below _ _ _ _ _ _ LY V) as B. rewrite Forall_forall in B. specialize (B (Com (fst c) (snd c))).
        assert (I2 : In (Com (fst c) (snd c)) (coms (cmsof (posat (cc k)) (lx_cms (lex m (cr k)))))) by (unfold coms; apply in_map_iff; eauto).
        cbn [ipos] in B. apply B. apply in_or_app. left. exact I2.
    + assert (X : exists R Sx, C ++ ahead (cc k) (cr k) = (C ++ gapc (cc k) (cr k)) ++ R /\ ahead (cc k') (cr k') = R ++ Sx).
      { destruct (ahead_mode m (cc k) (cr k) M) as (R & Sx & A1 & A2 & _). exists R, Sx. rewrite A1, app_assoc. split; [reflexivity|exact A2]. }
      destruct X as (R & Sx & X1 & X2). exists (min n (List.length (C ++ ahead (cc k) (cr k)))). split.
      { rewrite X1, !app_length in *. lia. }
      cbn [cm k']. rewrite U. f_equal. rewrite X2, app_assoc, <- X1. apply firstn_more.
Qed.

(** the token read at [k]: nothing left, or a token with the comments in front of it *)
Inductive view (m : smode) (k : cur) (t : ti) (k' : cur) : Prop :=
| view_eof cs : tk t = TEOF -> tx t = [] -> cr k' = [] -> P k (coms cs) k' -> view m k t k'
| view_tok tt x : tk t <> TEOF -> T tt x (tp t) -> P k tt k' -> lp k' = tp t -> (x = tx t \/ (tk t = TILLEGAL /\ tx t = [])) -> view m k t k'.
Record Read (m : smode) (k : cur) (t : ti) (k' : cur) : Prop := {
  rd_lex : lexc m k = (t, k');
  rd_back : Bk k (kb t);
  rd_kind : lexed_kind m (tk t) (tx t);
  rd_view : view m k t k' }.
Lemma tok_read m k : has m ScanComment = false -> Gd k -> exists t k', ptok m k = POk t k' /\ Read m k t k'.
Proof.
  intros M (E & C0 & KN0). unfold Cursor.ptok. destruct (lexc m k) as [t k'] eqn:LX. exists t, k'. split; [reflexivity|].
  assert (KT : forall C, Known k C -> Known (kb t) C /\ Known k' (C ++ gapc (cc k) (cr k))).
  { intros C KN. destruct (Known_tok m k C M E KN) as [A B]. rewrite LX in A, B. auto. }
  assert (KI : lexed_kind m (tk t) (tx t)).
  { unfold Cursor.lexc in LX. injection LX as <- <-. apply lex_kind. eapply nonul_part; exact E. }
  destruct (lex_gap_modes m (cr k) M) as [EG EC].
  split; [exact LX| |exact KI|].
  - assert (X : cc (kb t) = cc k /\ cr (kb t) = cr k /\ lp (kb t) = posat (cc k)) by (unfold Cursor.lexc in LX; injection LX as <- <-; auto).
    destruct X as (X1 & X2 & X3). split; [exact X1|]. split; [exact X2|]. split; [exact X3|].
    split; [|split].
    + split; [rewrite X1, X2; exact E|]. exists C0. apply KT. exact KN0.
    + apply Seg_refl; assumption.
    + intros C KN. cbn [citems]. rewrite app_nil_r. apply KT. exact KN.
  - pose proof (lex_app m (cr k)) as A. unfold lexed_app in A.
    assert (GD : Gd k').
    { split; [|eexists; apply KT; exact KN0]. unfold Cursor.lexc in LX. injection LX as <- <-. cbn [cc cr]. rewrite <- E, <- !app_assoc. f_equal. symmetry. exact A. }
    destruct (token_eq_dec (tk t) TEOF) as [T|T].
    + assert (T' : lx_tok (lex m (cr k)) = TEOF) by (unfold Cursor.lexc in LX; injection LX as <- <-; exact T).
      destruct (eof_lay m (posat (cc k)) (cr k) M T') as (X1 & X2 & X3 & sp & p' & SP & LY). destruct (lex_eof _ _ T') as (X4 & _ & _).
      assert (K' : cc k' = cc k ++ cr k /\ cr k' = [] /\ tx t = []).
      { unfold Cursor.lexc in LX. injection LX as <- <-. cbn [cc cr tx]. rewrite X1, X2, X3, X4, app_nil_r. auto. }
      destruct K' as (K1 & K2 & K3). apply (view_eof m k t k' (cmsof (posat (cc k)) (lx_cms (lex m (cr k))))); try assumption.
      split; [exact GD|]. split.
      * exists (cr k), sp, p'. rewrite K2, !app_nil_r. repeat split; auto.
      * intros C KN. rewrite citems_coms, EC. apply KT. exact KN.
    + assert (T' : lx_tok (lex m (cr k)) <> TEOF) by (unfold Cursor.lexc in LX; injection LX as <- <-; exact T).
      pose proof (token_lay m (posat (cc k)) (cr k) M T') as LY.
      apply (view_tok m k t k' (coms (cmsof (posat (cc k)) (lx_cms (lex m (cr k)))) ++ [Tok (lx_raw (lex m (cr k))) (posafter (posat (cc k)) (lx_gap (lex m (cr k))))]) (lx_raw (lex m (cr k)))); [exact T| | | |].
      * eexists. unfold Cursor.lexc in LX. injection LX as <- <-. cbn [tp]. rewrite posat_app. reflexivity.
      * split; [exact GD|]. split.
        -- exists (lx_gap (lex m (cr k)) ++ lx_raw (lex m (cr k))), [], (posafter (posat (cc k)) (lx_gap (lex m (cr k)) ++ lx_raw (lex m (cr k)))).
           unfold Cursor.lexc in LX. injection LX as <- <-. cbn [cc cr app]. rewrite <- app_assoc. repeat split; [exact A|constructor|exact LY].
        -- intros C KN. rewrite citems_app, citems_coms, EC. cbn [citems]. rewrite app_nil_r. apply KT. exact KN.
      * unfold Cursor.lexc in LX. injection LX as <- <-. reflexivity.
      * unfold Cursor.lexc in LX. injection LX as <- <-. cbn [tk tx].
        destruct (lex_raw_cases m (cr k)) as [[H1 H2]|[[_ H]|(H & _)]]; [right; auto|left; exact H|congruence].
Qed.

Lemma Read_P m k t k' : Read m k t k' -> exists ts, P k ts k'.
Proof. intros [_ _ _ [cs _ _ _ H|tt x _ _ H _ _]]; eauto. Qed.
Lemma Read_hit m k t k' T0 : Read m k t k' -> tk t = T0 -> T0 <> TEOF -> T0 <> TILLEGAL ->
  exists tt, T tt (tx t) (tp t) /\ P k tt k' /\ lp k' = tp t /\ want T0 (tx t).
Proof.
  intros [_ _ KI [cs E _ _ H|tt x _ TT H L X]] E0 N1 N2; [congruence|]. destruct X as [->|[X _]]; [|congruence].
  exists tt. subst T0. split; [exact TT|]. split; [exact H|]. split; [exact L|]. eapply kind_want; exact KI.
Qed.
Lemma Read_eof m k t k' : Read m k t k' -> cr k = [] -> tk t = TEOF.
Proof. intros [LX _ _ _] E. unfold Cursor.lexc in LX. injection LX as <- <-. cbn [tk]. rewrite E, lex_nil. reflexivity. Qed.
Lemma Read_tk m k t k' : Read m k t k' -> tk t = lx_tok (lex m (cr k)) /\ tx t = lx_txt (lex m (cr k)) /\ tp t = posat (cc k ++ lx_gap (lex m (cr k))).
Proof. intros [LX _ _ _]. unfold Cursor.lexc in LX. injection LX as <- <-. auto. Qed.

(** ** The judgement *)
Definition SD {A} (k0 : cur) (r : pres A) (Q : A -> cur -> Prop) : Prop :=
  match r with
  | POk a k' => Q a k'
  | PErr kb _ => exists ts, P k0 ts kb
  | PPanic => False
  | _ => True
  end.
Lemma SD_weak {A} k0 (r : pres A) (Q Q' : A -> cur -> Prop) : SD k0 r Q -> (forall a k', Q a k' -> Q' a k') -> SD k0 r Q'.
Proof. destruct r; cbn; auto. Qed.
Lemma SD_from {A} k0 ts k (r : pres A) Q : P k0 ts k -> SD k r Q -> SD k0 r Q.
Proof. intros H. destruct r; cbn; auto. intros (ts' & H'). exists (ts ++ ts'). eapply P_trans; eassumption. Qed.
Lemma SD_bind {A B} k0 (m : PM A) (f : A -> PM B) k Q : SD k0 (m k) (fun a k' => SD k0 (f a k') Q) -> SD k0 (pbind m f k) Q.
Proof. unfold pbind. destruct (m k); cbn; auto. Qed.
Lemma SD_ret {A} k0 (a : A) k (Q : A -> cur -> Prop) : Q a k -> SD k0 (pret a k) Q.
Proof. intros H. exact H. Qed.
Lemma SD_back {A} k0 t (f : unit -> PM A) k Q : SD k0 (f tt (kb t)) Q -> SD k0 (pbind (pback t) f k) Q.
Proof. intros H. exact H. Qed.
Lemma SD_fuel {A} k0 (f : nat -> PM A) k Q : SD k0 (f (S (List.length (cr k))) k) Q -> SD k0 (pbind pfuel f k) Q.
Proof. intros H. exact H. Qed.
Lemma SD_last {A} k0 (f : mpos -> PM A) k Q : SD k0 (f (lp k) k) Q -> SD k0 (pbind plast f k) Q.
Proof. intros H. exact H. Qed.
Lemma SD_err {A} k0 ts t k (Q : A -> cur -> Prop) : P k0 ts (kb t) -> SD k0 (perr t k) Q.
Proof. intros H. exists ts. exact H. Qed.
Lemma SD_bal {A} k0 t k (Q : A -> cur -> Prop) : SD k0 (pbal t k) Q.
Proof. exact Logic.I. Qed.

Lemma SD_tok {A} m k0 ts k (f : ti -> PM A) Q : has m ScanComment = false -> P k0 ts k ->
  (forall t k', Read m k t k' -> P k0 ts (kb t) -> SD k0 (f t k') Q) -> SD k0 (pbind (ptok m) f k) Q.
Proof.
  intros M H F. destruct (tok_read m k M (P_Gd _ _ _ H)) as (t & k' & E & R). unfold pbind. rewrite E. apply F; [exact R|].
  eapply Bk_P; [exact H|apply R].
Qed.
Lemma SD_peek {A} m k0 ts k (f : ti -> PM A) Q : has m ScanComment = false -> P k0 ts k ->
  (forall t k', Read m k t k' -> Bk k (kb t) -> P k0 ts (kb t) -> SD k0 (f t (kb t)) Q) -> SD k0 (pbind (ppeek m) f k) Q.
Proof.
  intros M H F. unfold Cursor.ppeek. destruct (tok_read m k M (P_Gd _ _ _ H)) as (t & k' & E & R). unfold pbind at 1 2. rewrite E.
  apply (F t k'); [exact R|apply R|]. eapply Bk_P; [exact H|apply R].
Qed.
Lemma SD_expect {A} m T0 k0 ts k (f : ti -> PM A) Q : has m ScanComment = false -> T0 <> TEOF -> T0 <> TILLEGAL -> P k0 ts k ->
  (forall t tt k', P k0 (ts ++ tt) k' -> T tt (tx t) (tp t) -> want T0 (tx t) -> lp k' = tp t -> cr k <> [] -> SD k0 (f t k') Q) ->
  SD k0 (pbind (pexpect m T0) f k) Q.
Proof.
  intros M N1 N2 H F. unfold Cursor.pexpect. destruct (tok_read m k M (P_Gd _ _ _ H)) as (t & k' & E & R). unfold pbind at 1 2. rewrite E.
  destruct (tok_eqb (tk t) T0) eqn:Q0.
  - apply tokb_eq in Q0. destruct (Read_hit _ _ _ _ _ R Q0 N1 N2) as (tt & TT & PP & L & W). cbn [pret]. apply (F t tt); try assumption.
    + eapply P_trans; eassumption.
    + intros X. rewrite (Read_eof _ _ _ _ R X) in Q0. congruence.
  - cbn. exists ts. eapply Bk_P; [exact H|apply R].
Qed.
Lemma SD_expect1 m T0 k0 ts k (Q : ti -> cur -> Prop) : has m ScanComment = false -> T0 <> TEOF -> T0 <> TILLEGAL -> P k0 ts k ->
  (forall t tt k', P k0 (ts ++ tt) k' -> T tt (tx t) (tp t) -> want T0 (tx t) -> lp k' = tp t -> cr k <> [] -> Q t k') ->
  SD k0 (pexpect m T0 k) Q.
Proof.
  intros M N1 N2 H F. assert (E : pexpect m T0 k = pbind (pexpect m T0) pret k) by (unfold pbind at 1; destruct (pexpect m T0 k); reflexivity).
  rewrite E. eapply SD_expect; try eassumption.
Qed.

(** ** Comments *)
Definition Clear (k : cur) : Prop := lx_tok (lex ScanComment (cr k)) <> TCOMMENT.
Definition ClearOn (l : Z) (k : cur) : Prop :=
  lx_tok (lex ScanComment (cr k)) = TCOMMENT -> Line (posat (cc k ++ lx_gap (lex ScanComment (cr k)))) <> l.
Lemma Clear_P k ts k' : Clear k -> P k ts k' -> no_com ts.
Proof.
  intros C (_ & (w & sp & p & _ & _ & _ & L) & _). destruct ts as [|[x q|x q] ts]; [exact I|exact I|]. apply lay_com_first in L. destruct L as [L _]. contradiction.
Qed.
Lemma ClearOn_P l k ts k' : ClearOn l k -> P k ts k' -> no_com_on l ts.
Proof.
  intros C (_ & (w & sp & p & _ & _ & _ & L) & _). destruct ts as [|[x q|x q] ts]; [exact I|exact I|]. apply lay_com_first in L. destruct L as [L ->].
  cbn [no_com_on]. rewrite <- posat_app. apply C. exact L.
Qed.
Lemma Clear_bk k b : Clear k -> Bk k b -> Clear b.
Proof. intros C (_ & E & _). unfold Clear. rewrite E. exact C. Qed.
Lemma ClearOn_bk l k b : ClearOn l k -> Bk k b -> ClearOn l b.
Proof. intros C (E1 & E & _). unfold ClearOn. rewrite E, E1. exact C. Qed.

Lemma ahead_comment k : let x := lex ScanComment (cr k) in lx_tok x = TCOMMENT ->
  ahead (cc k) (cr k) = (lx_txt x, posafter (posat (cc k)) (lx_gap x)) :: ahead (cc k ++ lx_gap x ++ lx_raw x) (lx_rest x).
Proof.
  intros x TC. destruct (comment_lay (cr k) (posat (cc k)) TC) as (_ & _ & _ & _ & F). fold x in F. specialize (F 0 eq_refl).
  assert (X : gapc (cc k) (cr k) = (lx_txt x, posafter (posat (cc k)) (lx_gap x)) :: gapc (cc k ++ lx_gap x ++ lx_raw x) (lx_rest x)).
  { unfold gapc. rewrite F. unfold skip. cbn [lx_cms app]. change (map (fun pc => ((lx_gap x ++ lx_raw x) ++ fst pc, snd pc)) (lx_cms (lex 0 (lx_rest x)))) with (shift (lx_gap x ++ lx_raw x) (lx_cms (lex 0 (lx_rest x)))).
    change ((lx_gap x, lx_txt x) :: shift (lx_gap x ++ lx_raw x) (lx_cms (lex 0 (lx_rest x)))) with ([(lx_gap x, lx_txt x)] ++ shift (lx_gap x ++ lx_raw x) (lx_cms (lex 0 (lx_rest x)))).
    rewrite cmsof_app, cmsof_shift. replace (posafter (posat (cc k)) (lx_gap x ++ lx_raw x)) with (posat (cc k ++ lx_gap x ++ lx_raw x)) by apply posat_app. reflexivity. }
  rewrite ahead_eq, (ahead_eq (cc k ++ lx_gap x ++ lx_raw x)). rewrite X. cbn [app]. f_equal. f_equal. unfold stable, nextc. rewrite F. unfold skip. cbn [lx_tok lx_txt lx_gap lx_raw lx_rest].
  rewrite <- !app_assoc. reflexivity.
Qed.
Lemma com_read k : Gd k -> exists t k', ptok ScanComment k = POk t k' /\ Bk k (kb t) /\ tk t = lx_tok (lex ScanComment (cr k)) /\
  tp t = posat (cc k ++ lx_gap (lex ScanComment (cr k))) /\
  (tk t = TCOMMENT -> P k [Com (tx t) (tp t)] k' /\ lp k' = tp t).
Proof.
  intros (E & C0 & KN0). unfold Cursor.ptok, Cursor.lexc. eexists _, _. split; [reflexivity|]. cbn [kb tk tp tx lp]. set (x := lex ScanComment (cr k)).
  destruct (token_eq_dec (lx_tok x) TCOMMENT) as [TC|TC].
  - destruct (comment_lay (cr k) (posat (cc k)) TC) as (LY & CM & SP & NR & F). fold x in LY, CM, SP, NR, F. rewrite CM.
    change (place (posat (cc k)) [(lx_gap x, lx_txt x)]) with (texts [(lx_txt x, posafter (posat (cc k)) (lx_gap x))]).
    pose proof (ahead_comment k TC) as AH. fold x in AH.
    pose proof (lex_app ScanComment (cr k)) as AP. unfold lexed_app in AP. fold x in AP.
    assert (KT : forall C, Known k C -> Known (mkCur (cc k) (cr k) (cm k ++ texts [(lx_txt x, posafter (posat (cc k)) (lx_gap x))]) (posat (cc k))) C /\
      Known (mkCur (cc k ++ lx_gap x ++ lx_raw x) (lx_rest x) (cm k ++ texts [(lx_txt x, posafter (posat (cc k)) (lx_gap x))]) (posat (cc k ++ lx_gap x))) (C ++ [(lx_txt x, posafter (posat (cc k)) (lx_gap x))])).
    { intros C KN. destruct (Known_record k C [(lx_txt x, posafter (posat (cc k)) (lx_gap x))] _ E KN AH) as (n & L & U). pose proof (ahead_sorted k C E KN) as S.
      pose proof KN as (S0 & F0 & _). split.
      - split; [exact S0|]. split; [exact F0|]. exists n. cbn [List.length] in L. split; [lia|exact U].
      - rewrite AH in *. split.
        { change (C ++ (lx_txt x, posafter (posat (cc k)) (lx_gap x)) :: ahead (cc k ++ lx_gap x ++ lx_raw x) (lx_rest x)) with (C ++ [(lx_txt x, posafter (posat (cc k)) (lx_gap x))] ++ ahead (cc k ++ lx_gap x ++ lx_raw x) (lx_rest x)) in S.
          rewrite app_assoc in S. apply sorted_prefix in S. exact S. }
        destruct (valid_part _ _ E) as [_ V]. rewrite AP in V. rewrite !Forall_app in V. destruct V as (V1 & V2 & V3). cbn [cc cr cm].
        pose proof (offset_le (posat (cc k)) _ V1) as O1. pose proof (offset_lt (posafter (posat (cc k)) (lx_gap x)) _ V2 NR) as O2. rewrite posat_app, posafter_app. split.
        + apply Forall_app. split; [|constructor; [cbn; exact O2|constructor]]. revert F0. apply Forall_impl. intros c H. lia.
        + exists n. split; [rewrite app_length; cbn [List.length] in *; lia|]. rewrite <- app_assoc. exact U. }
    split.
    { split; [reflexivity|]. split; [reflexivity|]. split; [reflexivity|]. split; [|split].
      - split; [exact E|]. exists C0. apply KT. exact KN0.
      - apply Seg_refl; reflexivity.
      - intros C KN. cbn [citems]. rewrite app_nil_r. apply KT. exact KN. }
    split; [reflexivity|]. split; [reflexivity|]. intros _. split; [|reflexivity]. split; [|split].
    + split; [|eexists; apply KT; exact KN0]. cbn [cc cr]. rewrite <- E, <- !app_assoc. f_equal. symmetry. exact AP.
    + exists (lx_gap x ++ lx_raw x), [], (posafter (posat (cc k)) (lx_gap x ++ lx_raw x)). cbn [cc cr app]. rewrite <- app_assoc, posat_app. repeat split; [exact AP|constructor|exact LY].
    + intros C KN. cbn [citems]. rewrite posat_app. apply KT. exact KN.
  - pose proof (nocom_cms (cr k) TC) as NC. fold x in NC. rewrite NC. cbn [place map]. rewrite app_nil_r. split.
    { split; [reflexivity|]. split; [reflexivity|]. split; [reflexivity|]. split; [|split].
      - split; [exact E|]. exists C0. eapply Known_same; [| | |exact KN0]; reflexivity.
      - apply Seg_refl; reflexivity.
      - intros C KN. cbn [citems]. rewrite app_nil_r. eapply Known_same; [| | |exact KN]; reflexivity. }
    split; [reflexivity|]. split; [reflexivity|]. intros X. contradiction.
Qed.

(** comments up to something else *)
Lemma SD_comments_loop n acc k0 ts k (Q : list comment -> cur -> Prop) : P k0 ts k ->
  (forall cs k', P k0 (ts ++ coms cs) k' -> Clear k' -> lp k' = posat (cc k') -> Q (acc ++ nodes cs) k') -> SD k0 (qComments_loop p0 n acc k) Q.
Proof.
  revert acc ts k. induction n as [|n IH]; intros acc ts k H F; [exact Logic.I|]. cbn [qComments_loop].
  destruct (com_read k (P_Gd _ _ _ H)) as (t & k' & E & B & TK & TP & C). unfold pbind. rewrite E.
  destruct (tok_eqb (tk t) TCOMMENT) eqn:Q0.
  - apply tokb_eq in Q0. destruct (C Q0) as [PP LP]. apply (IH _ (ts ++ [Com (tx t) (tp t)])); [eapply P_trans; eassumption|].
    intros cs k2 P2 C2 L2. rewrite <- app_assoc. apply (F ((tx t, tp t) :: cs)); [|exact C2|exact L2]. rewrite <- app_assoc in P2. exact P2.
  - cbn. rewrite <- (app_nil_r acc). apply (F []).
    + cbn [coms map]. rewrite app_nil_r. eapply Bk_P; eassumption.
    + eapply Clear_bk; [|exact B]. unfold Clear. rewrite <- TK. intros X. rewrite X in Q0. discriminate.
    + destruct B as (-> & _ & -> & _). reflexivity.
Qed.
Lemma SD_comments {A} k0 ts k (f : list comment -> PM A) Q : P k0 ts k ->
  (forall cs k', P k0 (ts ++ coms cs) k' -> Clear k' -> lp k' = posat (cc k') -> SD k0 (f (nodes cs) k') Q) -> SD k0 (pbind (qParseComments p0) f k) Q.
Proof. intros H F. apply SD_bind. unfold qParseComments. apply SD_fuel. eapply SD_comments_loop; [exact H|]. exact F. Qed.

(** an inline comment *)
Definition inl (l : Z) (c : option (str * mpos)) (k' : cur) : Prop :=
  match c with Some c => Line (snd c) = l | None => ClearOn l k' end.
Lemma inl_Inline l c k' rest k'' : inl l c k' -> P k' rest k'' -> Inline l c rest.
Proof. destruct c as [c|]; cbn; [auto|]. apply ClearOn_P. Qed.
Lemma SD_inline1 k0 ts k (Q : option comment -> cur -> Prop) : P k0 ts k ->
  (forall c k', P k0 (ts ++ icom c) k' -> inl (Line (lp k)) c k' -> (match c with Some c => lp k' = snd c | None => Bk k k' end) -> Q (inode c) k') ->
  SD k0 (qInline p0 k) Q.
Proof.
  intros H F. unfold qInline, plast. unfold pbind at 1. destruct (com_read k (P_Gd _ _ _ H)) as (t & k' & E & B & TK & TP & C). unfold pbind at 1. rewrite E.
  destruct (tok_eqb (tk t) TCOMMENT) eqn:Q0; cbn [andb]; [destruct (Z.eqb_spec (Line (lp k)) (Line (tp t))) as [LE|LE]|].
  - apply tokb_eq in Q0. destruct (C Q0) as [PP LP]. apply (F (Some (tx t, tp t))); cbn; [eapply P_trans; eassumption|auto|exact LP].
  - cbn. apply (F None); cbn [icom].
    + rewrite app_nil_r. eapply Bk_P; eassumption.
    + cbn. eapply ClearOn_bk; [|exact B]. intros _. rewrite <- TP. congruence.
    + exact B.
  - cbn. apply (F None); cbn [icom].
    + rewrite app_nil_r. eapply Bk_P; eassumption.
    + cbn. eapply ClearOn_bk; [|exact B]. intros X. rewrite <- TK in X. rewrite X in Q0. discriminate.
    + exact B.
Qed.
Lemma SD_inline {A} k0 ts k (f : option comment -> PM A) Q : P k0 ts k ->
  (forall c k', P k0 (ts ++ icom c) k' -> inl (Line (lp k)) c k' -> (match c with Some c => lp k' = snd c | None => Bk k k' end) -> SD k0 (f (inode c) k') Q) ->
  SD k0 (pbind (qInline p0) f k) Q.
Proof. intros H F. apply SD_bind. eapply SD_inline1; eassumption. Qed.

(** ** What comes first *)
Lemma first_P k ts k' x q m : P k ts k' -> first_tok ts = Some (x, q) -> has m ScanComment = false ->
  posat (cc k ++ lx_gap (lex m (cr k))) = q /\ (is_ident x -> lx_tok (lex m (cr k)) = identToken m x /\ lx_txt (lex m (cr k)) = x).
Proof.
  intros (_ & (w & sp & p & _ & _ & _ & L) & _) F M. rewrite posat_app. eapply lay_tok_first; eassumption.
Qed.
Lemma words_kw ws x : words ws x -> (forall w, In w ws -> In w (map fst keywords)) -> is_ident x /\ exists w t, x = lit w /\ In w ws /\ In (w, t) keywords.
Proof.
  intros W F. apply words_cases in W. destruct W as (w & I & ->). pose proof (F w I) as J. apply in_map_iff in J. destruct J as ([w' t] & E & J). cbn in E. subst w'.
  split; [|eauto]. apply identb_iff. unfold keywords in J. cbn [In] in J. repeat (destruct J as [J|J]; [injection J as <- <-; reflexivity|]). destruct J.
Qed.
(** the next token is none of the keywords *)
Lemma not_first_kw k ts k' ws : P k ts k' -> (forall w, In w ws -> In w (map fst keywords)) ->
  (forall w t, In w ws -> In (w, t) keywords -> lx_tok (lex ScanKeyword (cr k)) <> t) -> not_first ts ws.
Proof.
  intros H F NT. unfold not_first. destruct (next_tok ts) as [x|] eqn:E; [|exact I]. intros W. destruct (words_kw ws x W F) as (ID & w & t & -> & I1 & I2).
  apply first_next in E. destruct E as (q & E). destruct (first_P k ts k' _ _ ScanKeyword H E eq_refl) as [_ X]. destruct (X ID) as [X1 _].
  apply (NT w t I1 I2). rewrite X1. destruct (identToken_spec ScanKeyword (lit w) ID) as (_ & _ & C & _). apply C.
  - apply in_map_iff. exists (w, t). auto.
  - split; [reflexivity|]. eauto.
Qed.
(** the next token is none of the names *)
Lemma not_first_txt k ts k' ws m : P k ts k' -> has m ScanComment = false -> (forall w, In w ws -> is_ident (lit w)) ->
  ~ words ws (lx_txt (lex m (cr k))) -> not_first ts ws.
Proof.
  intros H M F NT. unfold not_first. destruct (next_tok ts) as [x|] eqn:E; [|exact I]. intros W. pose proof W as W0. apply words_cases in W0. destruct W0 as (w & I1 & ->).
  apply first_next in E. destruct E as (q & E). destruct (first_P k ts k' _ _ m H E M) as [_ X]. destruct (X (F w I1)) as [_ X2]. apply NT. rewrite X2. exact W.
Qed.

(** ** Functions *)
Definition Snd {A} (q : PM A) (R : cur -> list item -> A -> cur -> Prop) : Prop :=
  forall k, Gd k -> SD k (q k) (fun a k' => exists tt, P k tt k' /\ R k tt a k').
Lemma SD_call {A B} (q : PM A) R k0 ts k (f : A -> PM B) Q : Snd q R -> P k0 ts k ->
  (forall a tt k', P k tt k' -> P k0 (ts ++ tt) k' -> R k tt a k' -> SD k0 (f a k') Q) -> SD k0 (pbind q f k) Q.
Proof.
  intros S H F. specialize (S k (P_Gd _ _ _ H)). unfold pbind. destruct (q k) as [a k'|kb ka|? ?| | | |]; try exact Logic.I.
  - destruct S as (tt & P1 & R1). eapply F; [exact P1|eapply P_trans; eassumption|exact R1].
  - cbn in *. destruct S as (tt & P1). exists (ts ++ tt). eapply P_trans; eassumption.
  - destruct S.
Qed.
Lemma SD_tail {A} (q : PM A) R k0 ts k (Q : A -> cur -> Prop) : Snd q R -> P k0 ts k ->
  (forall a tt k', P k tt k' -> P k0 (ts ++ tt) k' -> R k tt a k' -> Q a k') -> SD k0 (q k) Q.
Proof.
  intros S H F. specialize (S k (P_Gd _ _ _ H)). destruct (q k) as [a k'|kb ka|? ?| | | |]; try exact Logic.I.
  - destruct S as (tt & P1 & R1). eapply F; [exact P1|eapply P_trans; eassumption|exact R1].
  - cbn in *. destruct S as (tt & P1). exists (ts ++ tt). eapply P_trans; eassumption.
  - destruct S.
Qed.
Lemma Snd_weak {A} (q : PM A) (R R' : cur -> list item -> A -> cur -> Prop) : Snd q R -> (forall k tt a k', P k tt k' -> R k tt a k' -> R' k tt a k') -> Snd q R'.
Proof. intros S F k G. eapply SD_weak; [apply S; exact G|]. intros a k' (tt & P1 & R1). exists tt. auto. Qed.

Lemma Read_next m k0 ts k t k' T0 : P k0 ts k -> Read m k t k' -> tk t = T0 -> T0 <> TEOF -> T0 <> TILLEGAL ->
  exists tt, P k tt k' /\ P k0 (ts ++ tt) k' /\ T tt (tx t) (tp t) /\ want T0 (tx t) /\ lp k' = tp t /\ cr k <> [].
Proof.
  intros H R E N1 N2. destruct (Read_hit _ _ _ _ _ R E N1 N2) as (tt & TT & PP & L & W). exists tt. repeat (split; [first [assumption|eapply P_trans; eassumption]|]).
  intros X. rewrite (Read_eof _ _ _ _ R X) in E. congruence.
Qed.
(** any token that is known by its text *)
Lemma Read_text m k0 ts k t k' : P k0 ts k -> Read m k t k' -> tx t <> [] ->
  exists tt, P k tt k' /\ P k0 (ts ++ tt) k' /\ T tt (tx t) (tp t) /\ lp k' = tp t.
Proof.
  intros H [_ _ _ [cs _ X _ _|tt x _ TT PP L X]] N; [congruence|]. destruct X as [->|[_ X]]; [|congruence]. exists tt.
  repeat (split; [first [assumption|eapply P_trans; eassumption]|]). exact L.
Qed.
(** any token at all *)
Lemma Read_any m k0 ts k t k' : P k0 ts k -> Read m k t k' ->
  (cr k' = [] /\ tk t = TEOF /\ exists cs, P k0 (ts ++ coms cs) k') \/ (exists tt x, tk t <> TEOF /\ P k tt k' /\ P k0 (ts ++ tt) k' /\ T tt x (tp t) /\ lp k' = tp t).
Proof.
  intros H [_ _ _ [cs E X CR PP|tt x N TT PP L X]].
  - left. repeat (split; [assumption|]). exists cs. eapply P_trans; eassumption.
  - right. exists tt, x. repeat (split; [first [assumption|eapply P_trans; eassumption]|]). exact L.
Qed.
Lemma line_same p x : ~ In NL x -> Line (posafter p x) = Line p.
Proof.
  revert p. induction x as [|c x IH]; intros p N; [reflexivity|]. change (c :: x) with ([c] ++ x). rewrite posafter_app, IH by (intros I; apply N; right; exact I).
  destruct p. unfold posafter. cbn [fold_left]. unfold padv. destruct (N.eqb_spec c NL) as [->|]; [destruct N; left; reflexivity|reflexivity].
Qed.
Lemma Read_line m k t k' : Read m k t k' -> has m ScanComment = false -> tk t <> TILLEGAL -> ~ In NL (tx t) -> Line (posat (cc k')) = Line (tp t).
Proof.
  intros [LX _ _ _] M NI NN. unfold Cursor.lexc in LX. injection LX as <- <-. cbn [tk tx tp cc] in *.
  destruct (lex_raw_cases m (cr k)) as [[X _]|[[_ X]|(X & _)]]; [contradiction| |congruence]. rewrite X.
  replace (posat (cc k ++ lx_gap (lex m (cr k)) ++ lx_txt (lex m (cr k)))) with (posafter (posat (cc k ++ lx_gap (lex m (cr k)))) (lx_txt (lex m (cr k))))
    by (rewrite <- posat_app, <- app_assoc; reflexivity).
  apply line_same. exact NN.
Qed.

(** Looking ahead: [k1] is reached from [k] over steady tokens, [i] are the comments on the way. *)
Definition Ah (k : cur) (i : list (str * mpos)) (k1 : cur) : Prop :=
  Gd k1 /\ ahead (cc k) (cr k) = i ++ ahead (cc k1) (cr k1) /\ cm k1 = cm k ++ texts i.
Definition Am (k : cur) (l : list text) : Prop := exists i j, ahead (cc k) (cr k) = i ++ j /\ l = cm k ++ texts i.
Lemma Ah_refl k : Gd k -> Ah k [] k.
Proof. intros G. split; [exact G|]. split; [reflexivity|]. symmetry. apply app_nil_r. Qed.
Lemma Ah_Am k i k1 : Ah k i k1 -> Am k (cm k1).
Proof. intros (_ & A & B). exists i, (ahead (cc k1) (cr k1)). auto. Qed.
Lemma lexc_cm m k t k' : has m ScanComment = false -> lexc m k = (t, k') ->
  cm k' = cm k ++ texts (gapc (cc k) (cr k)) /\ cc k' = cc k ++ lx_gap (lex 0 (cr k)) ++ lx_raw (lex m (cr k)) /\ cr k' = lx_rest (lex m (cr k)).
Proof.
  intros M L. unfold Cursor.lexc in L. injection L as <- <-. cbn [cm cc cr]. destruct (lex_gap_modes m (cr k) M) as [-> ->]. rewrite place_cmsof. auto.
Qed.
Lemma Ah_tok m k i k1 t k2 : has m ScanComment = false -> Ah k i k1 -> Read m k1 t k2 -> stable (cr k1) = true ->
  (tk t <> TINTLIT -> has m ScanNumberLit = false) -> exists i', Ah k i' k2.
Proof.
  intros M (G & A & B) R ST TI. destruct (Read_P _ _ _ _ R) as (ts & P2). destruct (Read_tk _ _ _ _ R) as (X & _). rewrite X in TI.
  destruct (lexc_cm m k1 t k2 M (rd_lex _ _ _ _ R)) as (C1 & C2 & C3). destruct (ahead_mode m (cc k1) (cr k1) M) as (R0 & Sx & A1 & A2 & A3).
  rewrite (A3 ST TI), app_nil_r in A2. exists (i ++ gapc (cc k1) (cr k1)). split; [eapply P_Gd; exact P2|]. split.
  - rewrite A, A1, C2, C3, A2, app_assoc. reflexivity.
  - rewrite C1, B, <- app_assoc. unfold texts. rewrite map_app. reflexivity.
Qed.
Lemma Ah_last m k i k1 t k2 : has m ScanComment = false -> Ah k i k1 -> Read m k1 t k2 -> Am k (cm k2).
Proof.
  intros M (G & A & B) R. destruct (lexc_cm m k1 t k2 M (rd_lex _ _ _ _ R)) as (C1 & _). rewrite (ahead_eq (cc k1)), app_assoc in A. eexists _, _. split; [exact A|].
  rewrite C1, B, <- app_assoc. unfold texts. rewrite map_app. reflexivity.
Qed.
Lemma Am_Bk k b : Gd k -> cc b = cc k -> cr b = cr k -> lp b = posat (cc k) -> Am k (cm b) -> Bk k b.
Proof.
  intros (E & C0 & KN0) E1 E2 E3 (i & j & A & B).
  assert (KT : forall C, Known k C -> Known b C).
  { intros C KN. destruct (Known_record k C i j E KN A) as (n & L & U). destruct KN as (S0 & F0 & _).
    split; [exact S0|]. rewrite E1, E2, B. split; [exact F0|]. exists n. split; [lia|exact U]. }
  split; [exact E1|]. split; [exact E2|]. split; [exact E3|]. split; [|split].
  - split; [rewrite E1, E2; exact E|]. exists C0. apply KT. exact KN0.
  - apply Seg_refl; assumption.
  - intros C KN. cbn [citems]. rewrite app_nil_r. apply KT. exact KN.
Qed.
Lemma SD_peek2 {A} k0 ts k (f : ti -> PM A) Q : P k0 ts k -> stable (cr k) = true ->
  (forall t1 k1 t2 k2 b, Read 0 k t1 k1 -> Read 0 k1 t2 k2 -> Bk k b -> P k0 ts b -> SD k0 (f t2 b) Q) -> SD k0 (pbind (ppeek2 p0) f k) Q.
Proof.
  intros H ST F. unfold ppeek2. pose proof (P_Gd _ _ _ H) as G. destruct (tok_read 0 k eq_refl G) as (t1 & k1 & E1 & R1).
  destruct (Read_P _ _ _ _ R1) as (ts1 & P1). destruct (tok_read 0 k1 eq_refl (P_Gd _ _ _ P1)) as (t2 & k2 & E2 & R2).
  assert (B : Bk k (mkCur (cc (kb t1)) (cr (kb t1)) (cm k2) (lp (kb t1)))).
  { destruct (rd_back _ _ _ _ R1) as (B1 & B2 & B3 & _). apply Am_Bk; cbn [cc cr lp cm]; try assumption.
    destruct (Ah_tok 0 k [] k t1 k1 eq_refl (Ah_refl k G) R1 ST) as (i & AH); [reflexivity|]. eapply (Ah_last 0); [reflexivity|exact AH|exact R2]. }
  unfold pbind at 1 2 3. rewrite E1, E2. apply (F t1 k1 t2 k2); [exact R1|exact R2|exact B|]. eapply Bk_P; eassumption.
Qed.
Lemma misc_kw c : ~ In (asMiscToken c) (map snd keywords).
Proof. unfold asMiscToken. repeat (destruct (_ =? _); [cbn; intuition discriminate|]). cbn. intuition discriminate. Qed.
Lemma label_stable r : nonul r -> In (lx_tok (lex ScanKeyword r)) (map snd keywords) -> stable r = true.
Proof.
  intros N I. destruct (lex_kw0 r) as (_ & _ & _ & _ & _ & H). unfold stable. destruct H as [H|[-> _]]; [|reflexivity]. exfalso.
  rewrite <- H in I. pose proof (lex_kind 0 r N) as K. destruct K as [|y ?|y ?|y ?|y ?|y ?| |c ?]; try (cbn in I; intuition discriminate).
  exact (misc_kw c I).
Qed.
Lemma int_stable m r : has m ScanComment = false -> lx_tok (lex m r) = TINTLIT -> stable r = true.
Proof.
  intros M. unfold stable. destruct (gap_core r) as (g & cs & r1 & E & _ & C & F). rewrite (F m M), (F 0 eq_refl).
  unfold skip. cbn [lx_tok lx_txt]. destruct r1 as [|c l]; [rewrite lex_nil; discriminate|]. pose proof C as [S H].
  destruct (isDecimalDigit c) eqn:D; [intros _; rewrite (lex_digit 0 c l D eq_refl); exact D|]. intros X. exfalso. revert X. clear F. rewrite lex_cons, S.
  destruct (identStart c). { destruct (span identChar l). cbn [lx_tok]. apply identToken_not. }
  destruct (N.eqb_spec c (ch "/")) as [->|].
  { specialize (H eq_refl). destruct l as [|d b]; [cbn; discriminate|]. destruct H as [H1 H2]. cbn [head_is].
    destruct (N.eqb_spec d (ch "/")); [congruence|]. destruct (N.eqb_spec d (ch "*")) as [->|]; [|discriminate].
    rewrite H2 by reflexivity. discriminate. }
  destruct (isQuote c && _). { destruct (cons_out _ _) as [[[] ?] ?]; discriminate. }
  rewrite D. cbn [orb]. destruct (N.eqb_spec c (ch ".")) as [->|]; cbn [andb].
  - destruct (has m ScanNumberLit); [|discriminate]. unfold pnum. change (ch "." =? ch "0") with false. change (ch "." =? ch ".") with true. cbn [andb].
    destruct (cons_out _ _) as [[[] ?] ?]; discriminate.
  - apply misc_tokens.
Qed.

(** The look-ahead for groups. *)
Definition Pk (k0 : cur) (r : pres bool) : Prop := exists g b, r = POk g b /\ Am k0 (cm b).
Lemma Pk_tok m (F : ti -> PM bool) k0 i k : has m ScanComment = false -> Ah k0 i k ->
  (forall t k', Read m k t k' -> Am k0 (cm k') -> (stable (cr k) = true -> (tk t <> TINTLIT -> has m ScanNumberLit = false) -> exists i', Ah k0 i' k') -> Pk k0 (F t k')) ->
  exists g b, pbind (ptok m) (fun t => pdefer t (F t)) k = POk g b /\ Am k0 (cm b) /\ cc b = cc k /\ cr b = cr k /\ lp b = posat (cc k).
Proof.
  intros M A H. destruct A as (G & A). destruct (tok_read m k M G) as (t & k' & E & R). unfold pbind. rewrite E. unfold pdefer.
  destruct (H t k' R) as (g & b & -> & B).
  - eapply Ah_last; [exact M|split; [exact G|exact A]|exact R].
  - intros ST TI. eapply Ah_tok; [exact M|split; [exact G|exact A]|exact R|exact ST|exact TI].
  - exists g. eexists. split; [reflexivity|]. cbn [cm cc cr lp]. split; [exact B|]. destruct (rd_back _ _ _ _ R) as (B1 & B2 & B3 & _). auto.
Qed.
Lemma Pk_weak k0 k r : (exists g b, r = POk g b /\ Am k0 (cm b) /\ cc b = cc k /\ cr b = cr k /\ lp b = posat (cc k)) -> Pk k0 r.
Proof. intros (g & b & E & A & _). exists g, b. auto. Qed.
Lemma tail_run k0 i k : Ah k0 i k ->
  exists g b, qIsGroup_tail p0 k = POk g b /\ Am k0 (cm b) /\ cc b = cc k /\ cr b = cr k /\ lp b = posat (cc k).
Proof.
  intros A. assert (NO : forall k', Am k0 (cm k') -> Pk k0 (pret false k')) by (intros k' H; exists false, k'; auto).
  unfold qIsGroup_tail. eapply Pk_tok; [reflexivity|exact A|]. intros t1 k1 R1 M1 A1. destruct (negb (tok_eqb (tk t1) TGROUP)) eqn:E1; [apply NO; exact M1|].
  apply negb_false_iff, tokb_eq in E1. destruct A1 as (i1 & A1).
  { apply label_stable; [eapply nonul_part; apply A|]. destruct (Read_tk _ _ _ _ R1) as (Y & _). rewrite <- Y, E1. cbn. intuition. } { reflexivity. }
  eapply Pk_weak, Pk_tok; [reflexivity|exact A1|]. intros t2 k2 R2 M2 A2. destruct (negb (tok_eqb (tk t2) TIDENT)) eqn:E2; [apply NO; exact M2|].
  destruct (negb (isCapitalized (tx t2))); [apply NO; exact M2|]. apply negb_false_iff, tokb_eq in E2. destruct A2 as (i2 & A2).
  { unfold stable. destruct (Read_tk _ _ _ _ R2) as (Y & _). rewrite <- Y, E2. reflexivity. } { reflexivity. }
  eapply Pk_weak, Pk_tok; [reflexivity|exact A2|]. intros t3 k3 R3 M3 A3. destruct (negb (tok_eqb (tk t3) TEQUALS)) eqn:E3; [apply NO; exact M3|].
  apply negb_false_iff, tokb_eq in E3. destruct A3 as (i3 & A3).
  { unfold stable. destruct (Read_tk _ _ _ _ R3) as (Y & _). rewrite <- Y, E3. reflexivity. } { reflexivity. }
  eapply Pk_weak, Pk_tok; [reflexivity|exact A3|]. intros t4 k4 R4 M4 A4. destruct (negb (tok_eqb (tk t4) TINTLIT)) eqn:E4; [apply NO; exact M4|].
  apply negb_false_iff, tokb_eq in E4. destruct A4 as (i4 & A4).
  { eapply (int_stable ScanNumberLit); [reflexivity|]. destruct (Read_tk _ _ _ _ R4) as (Y & _). congruence. } { intros X. contradiction. }
  eapply Pk_weak, Pk_tok; [reflexivity|exact A4|]. intros t5 k5 R5 M5 _. exists (tok_eqb (tk t5) TLEFTCURLY), k5. auto.
Qed.
Lemma SD_isGroup {A} k0 ts k (f : bool -> PM A) Q : P k0 ts k -> (forall g b, qIsGroup p0 k = POk g b -> Bk k b -> P k0 ts b -> SD k0 (f g b) Q) -> SD k0 (pbind (qIsGroup p0) f k) Q.
Proof.
  intros H F. pose proof (P_Gd _ _ _ H) as G. destruct (tok_read ScanKeyword k eq_refl G) as (t & k1 & E & R). destruct (Read_P _ _ _ _ R) as (ts1 & P1).
  assert (X : exists g b, qIsGroup p0 k = POk g b /\ Bk k b).
  { unfold qIsGroup. unfold pbind at 1. rewrite E. pose proof (rd_back _ _ _ _ R) as (B1 & B2 & B3 & B4).
    assert (LB : In (tk t) (map snd keywords) -> exists g b, pdefer t (qIsGroup_tail p0) k1 = POk g b /\ Bk k b).
    { intros I. destruct (Ah_tok ScanKeyword k [] k t k1 eq_refl (Ah_refl k G) R) as (i & AH).
      - apply label_stable; [eapply nonul_part; apply G|]. destruct (Read_tk _ _ _ _ R) as (Y & _). rewrite <- Y. exact I.
      - reflexivity.
      - unfold pdefer. destruct (tail_run k i k1 AH) as (g & b & -> & A1 & _). eexists _, _. split; [reflexivity|]. apply Am_Bk; assumption. }
    assert (NB : exists g b, (pback t ;;; qIsGroup_tail p0) k1 = POk g b /\ Bk k b).
    { unfold pbind, pback. destruct (tail_run (kb t) [] (kb t) (Ah_refl _ (P_Gd _ _ _ B4))) as (g & b & -> & A1 & C1 & C2 & C3). exists g, b. split; [reflexivity|].
      assert (B5 : Bk (kb t) b) by (apply Am_Bk; try assumption; eapply P_Gd; exact B4). destruct B5 as (_ & _ & _ & B6).
      split; [congruence|]. split; [congruence|]. split; [rewrite C3, B1; reflexivity|]. change (@nil item) with (@nil item ++ @nil item). eapply P_trans; eassumption. }
    destruct (tk t); try exact NB; apply LB; cbn; intuition. }
  destruct X as (g & b & X & B). unfold pbind. rewrite X. apply F; [exact X|exact B|]. eapply Bk_P; eassumption.
Qed.
End Rules.

(** ** Tactics *)
Lemma K_of ts x p : T ts (lit x) p -> K ts x. Proof. intros H. exists p. exact H. Qed.
Tactic Notation "sexp" ident(t) ident(u) ident(k) ident(Pn) ident(Tn) ident(W) ident(L) ident(N) :=
  match goal with RS : readable _ |- _ => eapply (SD_expect _ _ RS); [reflexivity|discriminate|discriminate|eassumption|
    intros t u k Pn Tn W L N; cbn [app want] in Pn, W; try rewrite W in Tn] end.
Tactic Notation "stok" ident(t) ident(k) ident(R) ident(PB) :=
  match goal with RS : readable _ |- _ => eapply (SD_tok _ _ RS); [reflexivity|eassumption|intros t k R PB; cbn [app] in PB] end.
Tactic Notation "speek" ident(t) ident(k) ident(R) ident(B) ident(PB) :=
  match goal with RS : readable _ |- _ => eapply (SD_peek _ _ RS); [reflexivity|eassumption|intros t k R B PB; cbn [app] in PB] end.
Tactic Notation "stake" hyp(R) hyp(E) ident(u) ident(P1) ident(Pn) ident(Tn) ident(W) ident(L) ident(N) :=
  try apply tokb_eq in E;
  match type of R with Read _ _ _ ?k _ _ => match goal with H : P _ _ ?k0 ?ts k |- SD _ _ ?k0 _ _ =>
    destruct (Read_next _ _ _ _ _ _ _ _ _ H R E ltac:(discriminate) ltac:(discriminate)) as (u & P1 & Pn & Tn & W & L & N) end end;
  cbn [app want] in Pn, W; try rewrite W in Tn.
Tactic Notation "scall" constr(S) ident(a) ident(u) ident(k) ident(P1) ident(Pn) ident(H) :=
  eapply SD_call; [eapply S|eassumption|intros a u k P1 Pn H; cbn [app] in Pn].
Tactic Notation "stail" constr(S) ident(a) ident(u) ident(k) ident(P1) ident(Pn) ident(H) :=
  eapply SD_tail; [eapply S|eassumption|intros a u k P1 Pn H; cbn [app] in Pn].
Ltac sfin := eexists; split; [eassumption|rewrite <- ?app_assoc].
