(** Where the elements of the AST are in the text, and in which order. *)
From Coq Require Import List NArith ZArith Bool String Ascii Lia Sorted.
From Verif Require Import Base Token Scanner Lexing ScanRefine Ast LexSpec LexFacts LexProofs ScanFacts ScanProps Tree Parser Api RefineFile Grammar GramLex GramRules GramParts SndLex SndNames SndStmts SndFile Deep Regular.
Import ListNotations.
Open Scope N_scope.

Definition itext (i : item) : str := match i with Tok x _ | Com x _ => x end.
Definition iend (i : item) : mpos := posafter (ipos i) (itext i).
Definition igood (i : item) : Prop := match i with Tok x _ => x <> [] | Com x _ => is_line_comment x \/ is_block_comment x end.
Lemma igood_ne i : igood i -> itext i <> [].
Proof. destruct i; cbn; [auto|]. intros [(b & -> & _)|(b & -> & _)]; discriminate. Qed.

Lemma lay_at s p r a i b p' r' : Lay s p r (a ++ i :: b) p' r' ->
  exists pre mid rest, r = pre ++ itext i ++ mid ++ rest /\ ipos i = posafter p pre /\ igood i /\ Lay s (posafter p (pre ++ itext i ++ mid)) rest b p' r'.
Proof.
  revert p r. induction a as [|j a IH]; intros p r L; cbn [app] in L.
  - inversion L as [|? sp x r0 ? ? ? S TA L0|? sp x r0 ? ? ? S C L0|? sp x S C|? sp x r0 ? ? ? S C L0]; subst; cbn [ipos itext igood].
    + exists sp, [], r0. rewrite !app_nil_l, app_nil_r. split; [reflexivity|]. split; [reflexivity|]. split; [eapply token_nonempty; exact TA|exact L0].
    + exists sp, [NL], r0. split; [reflexivity|]. split; [reflexivity|]. split; [left; exact C|exact L0].
    + exists sp, [], []. rewrite !app_nil_r. split; [reflexivity|]. split; [reflexivity|]. split; [left; exact C|constructor].
    + exists sp, [], r0. rewrite !app_nil_l, app_nil_r. split; [reflexivity|]. split; [reflexivity|]. split; [right; exact C|exact L0].
  - inversion L as [|? sp x r0 ? ? ? S TA L0|? sp x r0 ? ? ? S C L0|? sp x S C E|? sp x r0 ? ? ? S C L0]; subst.
    + destruct (IH _ _ L0) as (pre & mid & rest & -> & E & G & L1). exists ((sp ++ x) ++ pre), mid, rest. rewrite <- !posafter_app, <- !app_assoc in *. auto.
    + destruct (IH _ _ L0) as (pre & mid & rest & -> & E & G & L1). exists ((sp ++ x ++ [NL]) ++ pre), mid, rest. rewrite <- !posafter_app, <- !app_assoc in *. auto.
    + destruct a; discriminate.
    + destruct (IH _ _ L0) as (pre & mid & rest & -> & E & G & L1). exists ((sp ++ x) ++ pre), mid, rest. rewrite <- !posafter_app, <- !app_assoc in *. auto.
Qed.
Definition apart (a b : item) : Prop := (Offset (iend a) <= Offset (ipos b))%Z.
Lemma lay_apart s p r its p' r' : Lay s p r its p' r' -> Forall valid_rune r ->
  StronglySorted apart its /\ Forall (fun i => (Offset p <= Offset (ipos i) /\ Offset (ipos i) < Offset (iend i) /\ Offset (iend i) <= Offset p')%Z) its.
Proof.
  revert p r. induction its as [|i its IH]; intros p r L V; [split; constructor|]. destruct (lay_at _ _ _ [] _ _ _ _ L) as (pre & mid & rest & -> & E & G & L1).
  rewrite !Forall_app in V. destruct V as (V1 & V2 & V3 & V4). destruct (IH _ _ L1 V4) as [S F].
  assert (A : (Offset p <= Offset (ipos i))%Z) by (rewrite E; apply offset_le; exact V1).
  assert (B : (Offset (ipos i) < Offset (iend i))%Z) by (apply offset_lt; [exact V2|apply igood_ne; exact G]).
  assert (C : (Offset (iend i) <= Offset (posafter p (pre ++ itext i ++ mid)))%Z) by (unfold iend; rewrite E, !posafter_app; apply offset_le; exact V3).
  assert (D : (Offset (posafter p (pre ++ itext i ++ mid)) <= Offset p')%Z). { destruct (lay_split _ _ _ _ _ _ L1) as (w & -> & ->). apply offset_le. rewrite Forall_app in V4. tauto. }
  split.
  - constructor; [exact S|]. eapply Forall_impl; [|exact F]. intros j (X & _). unfold apart. cbn beta in X. lia.
  - constructor; [lia|]. eapply Forall_impl; [|exact F]. cbn beta. intros j X. lia.
Qed.

Lemma first_tok_in ts x p : first_tok ts = Some (x, p) -> exists a b, ts = a ++ Tok x p :: b /\ last_tok a = None.
Proof. intros H. apply first_split in H. destruct H as (cs & its & ->). exists (coms cs), its. split; [reflexivity|apply last_tok_coms]. Qed.
Lemma last_tok_in ts y p : last_tok ts = Some (y, p) -> exists a cs, ts = a ++ Tok y p :: coms cs.
Proof.
  induction ts as [|i ts IH]; [discriminate|]. destruct i as [x q|x q]; cbn [last_tok].
  - destruct (last_tok ts) as [z|] eqn:E.
    + intros H. destruct (IH H) as (a & cs & ->). exists (Tok x q :: a), cs. reflexivity.
    + intros H. injection H as -> ->. exists [].
      assert (X : exists cs, ts = coms cs). { clear - E. induction ts as [|[z r|z r] ts IH]; [exists []; reflexivity|cbn in E; destruct (last_tok ts); discriminate|]. destruct (IH E) as (cs & ->). exists ((z, r) :: cs). reflexivity. }
      destruct X as (cs & ->). exists cs. reflexivity.
  - intros H. destruct (IH H) as (a & cs & ->). exists (Com x q :: a), cs. reflexivity.
Qed.
Lemma starts_ends e x y : starts e x -> ends_with e y -> e_meta e <> None -> (forall c, e <> EStmt (VComment c)) -> x <> y.
Proof.
  destruct e as [s|s|v|f|o|p|d]; cbn [starts ends_with]; try (intros -> -> _ _; discriminate).
  - destruct v; cbn [starts ends_with]; intros HS HE M NC; try (subst; discriminate); try (destruct (M eq_refl)); try (exfalso; eapply NC; reflexivity); try (subst x; destruct HE as [-> | ->]; discriminate).
    + subst y. destruct (f_repeated f); [subst; discriminate|]. destruct (f_required f); [subst; discriminate|]. destruct (f_optional f); [subst; discriminate|]. destruct HS as [_ HS]. apply ident_not_semi; exact HS.
    + destruct (g_repeated g); [subst; destruct HE; subst; discriminate|]. destruct (g_required g); [subst; destruct HE; subst; discriminate|]. destruct (g_optional g); [subst; destruct HE; subst; discriminate|]. subst x. destruct HE; subst; discriminate.
    + subst y. destruct HS as [_ HS]. apply ident_not_semi. left. exact HS.
  - intros [_ HS] -> _ _. apply ident_not_semi; exact HS.
Qed.

(** ** Positions *)
Section Order.
Variables perm bic junk : bool.
Notation Elem := (Elem perm bic junk).
Notation Segs := (Segs perm bic junk).

Lemma SS_app {A} (R : A -> A -> Prop) a b : StronglySorted R (a ++ b) -> StronglySorted R a /\ StronglySorted R b /\ forall x y, In x a -> In y b -> R x y.
Proof.
  induction a as [|x a IH]; cbn [app]; intros H; [split; [constructor|]; split; [exact H|intros x y []]|]. inversion H as [|? ? H1 H2]; subst. destruct (IH H1) as (A1 & B1 & C1).
  rewrite Forall_app, !Forall_forall in H2. destruct H2 as [H2 H3]. split; [constructor; [exact A1|apply Forall_forall; exact H2]|]. split; [exact B1|]. intros u v [<-|I] J; auto.
Qed.
Definition sound_item (i : item) : Prop := igood i /\ Forall valid_rune (itext i).
Lemma item_size i : sound_item i -> (Offset (ipos i) < Offset (iend i))%Z.
Proof. intros [G V]. apply offset_lt; [exact V|apply igood_ne; exact G]. Qed.
Definition Sized (ts : list item) : Prop := StronglySorted apart ts /\ Forall sound_item ts.
Lemma Sized_app a b : Sized (a ++ b) -> Sized a /\ Sized b /\ forall x y, In x a -> In y b -> apart x y.
Proof. intros [S F]. apply SS_app in S. destruct S as (A & B & C). rewrite Forall_app in F. unfold Sized. tauto. Qed.
Lemma span_order cs il ts e m : Elem cs il ts e -> Sized ts -> e_meta e = Some m ->
  (Offset (Pos m) < Offset (LastPos m))%Z /\ (exists i, In i ts /\ ipos i = Pos m) /\ (exists i, In i ts /\ (Offset (LastPos m) < Offset (iend i))%Z).
Proof.
  intros HE SZ EM. pose proof (elem_span _ _ _ _ _ _ _ HE m EM) as SP.
  assert (X : (exists x y, first_tok ts = Some (x, Pos m) /\ starts e x /\ last_tok ts = Some (y, LastPos m) /\ ends_with e y) -> (forall c, e <> EStmt (VComment c)) ->
    (Offset (Pos m) < Offset (LastPos m))%Z /\ (exists i, In i ts /\ ipos i = Pos m) /\ (exists i, In i ts /\ (Offset (LastPos m) < Offset (iend i))%Z)).
  { clear SP. intros (x & y & F & ST & L & EN) NC. assert (NE : x <> y) by (eapply starts_ends; [exact ST|exact EN|congruence|exact NC]).
    destruct (first_tok_in _ _ _ F) as (a & b & -> & LA). destruct (last_tok_in _ _ _ L) as (a' & cs' & EQ).
    assert (IB : In (Tok y (LastPos m)) b).
    { rewrite last_tok_app in L. cbn [last_tok] in L. destruct (last_tok b) as [[z r]|] eqn:LB; [|congruence]. injection L as -> ->. destruct (last_tok_in _ _ _ LB) as (u & v & ->). apply in_or_app. right. left. reflexivity. }
    destruct SZ as [S SF]. rewrite Forall_forall in SF. assert (SF' : forall i, In i (a ++ Tok x (Pos m) :: b) -> (Offset (ipos i) < Offset (iend i))%Z) by (intros i I; apply item_size; auto). clear SF. rename SF' into SF. split; [|split].
    - apply SS_app in S. destruct S as (_ & S & _). inversion S as [|? ? S1 S2]; subst. rewrite Forall_forall in S2. specialize (S2 _ IB). unfold apart in S2. cbn [ipos] in S2.
      specialize (SF (Tok x (Pos m)) ltac:(apply in_or_app; right; left; reflexivity)). cbn [ipos] in SF. cbn beta in SF. lia.
    - exists (Tok x (Pos m)). split; [apply in_or_app; right; left; reflexivity|reflexivity].
    - exists (Tok y (LastPos m)). split; [apply in_or_app; right; right; exact IB|]. apply (SF (Tok y (LastPos m))). apply in_or_app. right. right. exact IB. }
  destruct e as [s|s|v|f|o|p|d]; try (apply X; [exact SP|discriminate]). destruct v; try (apply X; [exact SP|discriminate]).
  clear X. cbn in EM. injection EM as <-. destruct SP as (x & q & -> & ->). cbn [node c_meta Pos LastPos fst snd]. destruct SZ as [_ SF]. inversion SF as [|? ? [G V] _]; subst. cbn [igood itext] in G, V.
  assert (E : exists c l, x = c :: l ++ [last x 0] /\ removelast x = c :: l).
  { assert (2 <= List.length x)%nat by (destruct G as [(b & -> & _)|(b & -> & _)]; rewrite !app_length; cbn; lia). destruct x as [|c x]; [cbn in H; lia|]. destruct x as [|d x]; [cbn in H; lia|].
    exists c, (removelast (d :: x)). split; [|reflexivity]. f_equal. change (last (c :: d :: x) 0) with (last (d :: x) 0). apply app_removelast_last. discriminate. }
  destruct E as (c & l & E1 & E2). rewrite E1 in V. inversion V as [|? ? V1 V2]; subst. rewrite Forall_app in V2. destruct V2 as [V2 V3]. rewrite E2. split; [|split].
  - apply offset_lt; [constructor; assumption|discriminate].
  - exists (Com x q). split; [left; reflexivity|reflexivity].
  - exists (Com x q). split; [left; reflexivity|]. unfold iend. cbn [ipos itext]. rewrite E1, app_comm_cons, posafter_app. apply offset_lt; [exact V3|discriminate].
Qed.
Lemma segs_order w ts l lo hi : Segs w ts l -> Sized ts -> (lo < hi)%Z -> Forall (fun i => (lo < Offset (ipos i) /\ Offset (iend i) <= hi)%Z) ts -> in_order lo l hi.
Proof.
  intros H. revert lo. induction H as [ts|a cs il ts e b es H F S IH]; intros lo SZ LH FA; cbn [in_order]; [exact LH|].
  apply Sized_app in SZ. destruct SZ as (_ & SZ & _). apply Sized_app in SZ. destruct SZ as (SZ & SB & AP). rewrite !Forall_app in FA. destruct FA as (_ & F1 & F2). destruct (e_meta e) as [m|] eqn:EM.
  - destruct (span_order _ _ _ _ _ H SZ EM) as (PL & (i & I1 & I2) & (j & J1 & J2)). rewrite Forall_forall in F1. pose proof (F1 _ I1) as X. pose proof (F1 _ J1) as Y. cbn beta in X, Y. rewrite I2 in X.
    split; [lia|]. apply IH; [exact SB|lia|]. rewrite Forall_forall in F2 |- *. intros k K. specialize (AP _ _ J1 K). specialize (F2 _ K). cbn beta in F2. unfold apart in AP. lia.
  - apply IH; [exact SB|exact LH|exact F2].
Qed.
Lemma kids_order cs il ts e m : Elem cs il ts e -> Sized ts -> e_meta e = Some m ->
  Forall (fun l => in_order (Offset (Pos m)) l (Offset (LastPos m))) (children e).
Proof.
  intros HE SZ EM. pose proof (elem_kids _ _ _ _ _ _ _ HE) as HK. pose proof (elem_span _ _ _ _ _ _ _ HE m EM) as SP. unfold Kids in HK.
  destruct (span_order _ _ _ _ _ HE SZ EM) as (PL & _ & _). rewrite Forall_forall in HK |- *. intros l IL. destruct (HK _ IL) as (h & mid & t & -> & HH & HT & S).
  assert (NC : forall c, e <> EStmt (VComment c)) by (intros c ->; destruct IL).
  assert (X : exists x y, first_tok (h ++ mid ++ t) = Some (x, Pos m) /\ starts e x /\ last_tok (h ++ mid ++ t) = Some (y, LastPos m) /\ ends_with e y).
  { destruct e as [s|s|v|f|o|p|d]; try exact SP. destruct v; try exact SP. destruct (NC _ eq_refl). }
  destruct X as (x & y & FT & _ & LT & _).
  assert (IH : In (Tok x (Pos m)) h).
  { destruct (last_tok h) as [[z r]|] eqn:E; [|congruence]. destruct (last_tok_in _ _ _ E) as (u & v & ->). clear - FT. rewrite <- !app_assoc in FT. revert FT. induction u as [|[i1 i2|i1 i2] u IH]; cbn [app first_tok]; intros H.
    - injection H as -> ->. left. reflexivity.
    - injection H as -> ->. left. reflexivity.
    - right. apply IH. exact H. }
  assert (IT : In (Tok y (LastPos m)) t).
  { rewrite !last_tok_app in LT. destruct (last_tok t) as [[z r]|] eqn:E; [|congruence]. injection LT as -> ->. destruct (last_tok_in _ _ _ E) as (u & v & ->). apply in_or_app. right. left. reflexivity. }
  apply Sized_app in SZ. destruct SZ as (SZ1 & SZ2 & AP1). apply Sized_app in SZ2. destruct SZ2 as (SZ2 & SZ3 & AP2). eapply segs_order; [exact S|exact SZ2|exact PL|].
  rewrite Forall_forall. intros i I. specialize (AP1 _ i IH ltac:(apply in_or_app; auto)). specialize (AP2 i _ I IT). unfold apart in *. cbn [ipos] in *.
  destruct SZ1 as [_ SF]. rewrite Forall_forall in SF. pose proof (item_size _ (SF _ IH)) as SI. cbn [ipos] in SI. lia.
Qed.

End Order.

Lemma layout_sized s p r its : Layout s p r its -> Forall valid_rune r -> Sized its /\ Forall (fun i => (Offset p <= Offset (ipos i) /\ Offset (iend i) <= Offset (posafter p r))%Z) its.
Proof.
  intros (p' & sp & L & SP) V. destruct (lay_apart _ _ _ _ _ _ L V) as [S F]. destruct (lay_split _ _ _ _ _ _ L) as (w & E1 & E2). split.
  - split; [exact S|]. apply Forall_forall. intros i I. apply in_split in I. destruct I as (a & b & ->). destruct (lay_at _ _ _ _ _ _ _ _ L) as (pre & mid & rest & E & _ & G & _).
    split; [exact G|]. rewrite E, !Forall_app in V. tauto.
  - eapply Forall_impl; [|exact F]. cbn beta. intros i (A & B & C). split; [exact A|]. etransitivity; [exact C|]. rewrite E2, E1, posafter_app. apply offset_le. rewrite E1, Forall_app in V. tauto.
Qed.
Lemma two_tokens s p r a x P m y Q b p' r' : Lay s p r (a ++ Tok x P :: m ++ Tok y Q :: b) p' r' ->
  exists pre mid post, r = pre ++ x ++ mid ++ y ++ post /\ P = posafter p pre /\ Q = posafter p (pre ++ x ++ mid).
Proof.
  intros L. destruct (lay_at _ _ _ _ _ _ _ _ L) as (pre & mid & rest & -> & E & _ & L1). cbn [itext ipos] in *. destruct (lay_at _ _ _ _ _ _ _ _ L1) as (pre2 & mid2 & rest2 & -> & E2 & _ & _). cbn [itext ipos] in *.
  exists pre, (mid ++ pre2), (mid2 ++ rest2). rewrite E2, <- posafter_app, <- !app_assoc. auto.
Qed.
Lemma Forall_removelast {A} (P : A -> Prop) l : Forall P l -> Forall P (removelast l).
Proof. induction 1 as [|x l H HL IH]; [constructor|]. cbn. destruct l; [constructor|constructor; assumption]. Qed.
Lemma placed perm bic junk fn input its cs il a ts b e m : Forall valid_rune input -> Layout false (pos0 fn) input its -> its = a ++ ts ++ b -> Elem perm bic junk cs il ts e -> e_meta e = Some m -> Placed fn input e m.
Proof.
  intros V (p' & sp & L & _) -> HE EM. pose proof (elem_span _ _ _ _ _ _ _ HE m EM) as SP.
  assert (X : (exists x y, first_tok ts = Some (x, Pos m) /\ starts e x /\ last_tok ts = Some (y, LastPos m) /\ ends_with e y) -> (forall c, e <> EStmt (VComment c)) ->
    exists pre x mid y post, input = pre ++ x ++ mid ++ y ++ post /\ at_text fn pre (Pos m) /\ starts e x /\ at_text fn (pre ++ x ++ mid) (LastPos m) /\ ends_with e y).
  { clear SP. intros (x & y & F & ST & LT & EN) NC. assert (NE : x <> y) by (eapply starts_ends; [exact ST|exact EN|congruence|exact NC]).
    destruct (first_tok_in _ _ _ F) as (u & v & -> & LA).
    assert (IB : exists v1 v2, v = v1 ++ Tok y (LastPos m) :: v2).
    { rewrite last_tok_app in LT. cbn [last_tok] in LT. destruct (last_tok v) as [[z r]|] eqn:LB; [|congruence]. injection LT as -> ->. destruct (last_tok_in _ _ _ LB) as (u1 & v1 & ->). eauto. }
    destruct IB as (v1 & v2 & ->). rewrite <- !app_assoc in L. cbn [app] in L. rewrite <- !app_assoc in L. cbn [app] in L. rewrite app_assoc in L.
    destruct (two_tokens _ _ _ _ _ _ _ _ _ _ _ _ L) as (pre & mid & post & E1 & E2 & E3). exists pre, x, mid, y, post. rewrite E2, E3. split; [exact E1|]. rewrite E1, !Forall_app in V. split; [apply posafter_moved; tauto|]. split; [exact ST|]. split; [apply posafter_moved; rewrite !Forall_app; tauto|exact EN]. }
  destruct e as [s|s|v|f|o|p|d]; try (apply X; [exact SP|discriminate]). destruct v; try (apply X; [exact SP|discriminate]).
  clear X. cbn in EM. injection EM as <-. destruct SP as (x & q & -> & ->). cbn [app] in L. destruct (lay_at _ _ _ _ _ _ _ _ L) as (pre & mid & rest & E & E2 & _). cbn [itext ipos] in *.
  exists pre, (mid ++ rest). cbn [node c_raw c_meta Pos LastPos fst snd]. rewrite E2, <- posafter_app.
  split; [exact E|]. rewrite E in V. rewrite !Forall_app in V. split; apply posafter_moved; [tauto|]. apply Forall_app. split; [tauto|]. apply Forall_removelast. tauto.
Qed.

(** ** The statements *)
Lemma tree_placed opts input pr e m c : c = config_of opts -> readable input -> ordinary c input pr -> Parse opts input = Ok pr ->
  element pr e -> e_meta e = Some m -> Placed (cfg_filename c) input e m /\ (Offset (Pos m) < Offset (LastPos m))%Z /\ Forall (fun l => in_order (Offset (Pos m)) l (Offset (LastPos m))) (children e).
Proof.
  intros Ec RD NG E HE EM. destruct (parse_sound opts input pr c Ec RD NG E) as (its & LY & HF). assert (V : Forall valid_rune input) by (eapply Forall_impl; [|exact RD]; cbn beta; tauto).
  destruct (deep _ _ _ _ _ _ _ HF HE) as (a & cs & il & ts & b & EI & EL & _). destruct (layout_sized _ _ _ _ LY V) as [SZ _]. rewrite EI in SZ. apply Sized_app in SZ. destruct SZ as (_ & SZ & _). apply Sized_app in SZ. destruct SZ as (SZ & _ & _).
  split; [eapply placed; eassumption|]. split; [eapply span_order; eassumption|eapply kids_order; eassumption].
Qed.
Lemma tree_roots opts input pr : readable input -> ordinary (config_of opts) input pr -> Parse opts input = Ok pr ->
  in_order (-1) (roots pr) (utf8_bytes input).
Proof.
  remember (config_of opts) as c eqn:Ec. intros RD NG E. destruct (parse_sound opts input pr c Ec RD NG E) as (its & LY & HF). assert (V : Forall valid_rune input) by (eapply Forall_impl; [|exact RD]; cbn beta; tauto).
  destruct (layout_sized _ _ _ _ LY V) as [SZ F]. pose proof (posafter_moved (pos0 (cfg_filename c)) input V) as (_ & MO & _). cbn [pos0 Offset] in MO. rewrite Z.add_0_l in MO. rewrite <- MO. eapply segs_order; [eapply file_segs; exact HF|exact SZ| |].
  - pose proof (offset_le (pos0 (cfg_filename c)) input V) as X. cbn in X. lia.
  - eapply Forall_impl; [|exact F]. cbn. intros i X. lia.
Qed.
