(** Every position of an error is a place of the text, and the text it reports as
    found stands there. *)
From Coq Require Import List NArith ZArith Bool String Ascii Lia.
From Verif Require Import Base Token Scanner Lexer Ast Parser Api Spec Lexing ScanRefine LexFacts LexSpec LexProofs
  ScanFacts LexerFacts ScanProps Cursor Pure Refine RefineFile Term Term2 Calm Total Tree GroupSpec FoundSpec AttachText Refuted SndCase.
Import ListNotations.
Open Scope N_scope.

Lemma spaces_gap g : Spaces g -> exists cs, Gap g cs.
Proof. induction 1 as [|c g H F [cs IH]]; [exists []; constructor|]. exists (shift [c] cs). constructor; assumption. Qed.
Lemma lex_found m r : exists g cs b, r = g ++ lx_txt (lex m r) ++ b /\ g = lx_gap (lex m r) /\
  (Gap g cs \/ (EndGap g cs /\ lx_txt (lex m r) = [] /\ b = [])).
Proof.
  pose proof (lex_app m r) as L. unfold lexed_app in L. pose proof (lex_gap_ok m r) as G. unfold gap_ok in G.
  assert (X : exists b, lx_raw (lex m r) ++ lx_rest (lex m r) = lx_txt (lex m r) ++ b /\ (lx_tok (lex m r) = TEOF -> lx_txt (lex m r) = [] /\ b = [])).
  { destruct (lex_raw_cases m r) as [[T E]|[[T E]|(_ & T & E)]].
    - rewrite E. eexists. split; [reflexivity|]. rewrite T. discriminate.
    - rewrite E. eexists. split; [reflexivity|]. intros Q. apply lex_eof in Q. tauto.
    - assert (Y : exists y, lx_raw (lex m r) = lx_txt (lex m r) ++ y).
      { destruct E as [(_ & [->|[-> _]])|(_ & ->)]; [eauto|exists []; rewrite app_nil_r; reflexivity|exists []; rewrite app_nil_r; reflexivity]. }
      destruct Y as [y ->]. exists (y ++ lx_rest (lex m r)). split; [rewrite app_assoc; reflexivity|]. rewrite T. discriminate. }
  destruct X as (b & X & E). rewrite X in L.
  assert (Z : exists cs, Gap (lx_gap (lex m r)) cs \/ (EndGap (lx_gap (lex m r)) cs /\ lx_tok (lex m r) = TEOF)).
  { destruct (has m ScanComment). { destruct G as [G _]. destruct (spaces_gap _ G) as [cs C]. eauto. }
    destruct (token_eq_dec (lx_tok (lex m r)) TEOF) as [Q|Q]; [rewrite Q in G; eauto|]. exists (lx_cms (lex m r)). left.
    destruct (lx_tok (lex m r)); try exact G. congruence. }
  destruct Z as (cs & Z). exists (lx_gap (lex m r)), cs, b. split; [exact L|]. split; [reflexivity|].
  destruct Z as [Z|[Z T]]; [left; exact Z|right]. destruct (E T). auto.
Qed.
Lemma told_shown fn input p x t : Forall valid_rune input -> Told (mkF true input) (pos0 fn) p x t -> Shown fn input p x.
Proof.
  intros V (m & a & b & E & -> & H). cbn [ftext] in E. destruct (lex_found m b) as (g & cs & r & Er & Eg & G).
  exists a, g, cs, r. rewrite <- Er. split; [exact E|]. split; [exact G|].
  assert (VA : Forall valid_rune (a ++ g)). { rewrite E, Er, app_assoc in V. apply Forall_app in V. tauto. }
  rewrite <- Eg in H. destruct H as [[_ ->]|[_ ->]]; [right|left]; apply at_after; [exact VA|]. apply Forall_app in VA. tauto.
Qed.
Lemma err_shown fn input e : Forall valid_rune input -> err_ok (mkF true input) (pos0 fn) e -> forall p x, In (p, x) (err_found e) -> Shown fn input p x.
Proof.
  intros V. induction e as [q y c|q y z|q y z t|e1 IH1 e2 IH2]; cbn [err_ok err_found]; intros H p x I0.
  - contradiction.
  - destruct I0 as [I0|[]]. injection I0 as -> ->. destruct H as [t H]. eapply told_shown; eassumption.
  - destruct I0 as [I0|[]]. injection I0 as -> ->. eapply told_shown; eassumption.
  - destruct H as [H1 H2]. apply in_app_iff in I0. destruct I0; [apply IH1|apply IH2]; assumption.
Qed.
Theorem error_found opts input e p x : readable input -> cfg_permissive (config_of opts) = true -> no_groups input ->
  Parse opts input = Err e -> In (p, x) (err_found e) -> Shown (cfg_filename (config_of opts)) input p x.
Proof.
  intros RD P G Q I0. set (c := config_of opts) in *.
  assert (V : Forall valid_rune input) by (eapply Forall_impl; [|exact RD]; cbn beta; tauto).
  assert (N : nonul input) by (eapply Forall_impl; [|exact RD]; cbn beta; tauto).
  eapply (err_shown _ _ e V); [|exact I0]. clear I0. unfold Parse, parse_fuel in Q. fold c in Q. rewrite P in Q.
  match type of Q with context[ParseProto true ?b ?n _] =>
    pose proof (parse_refines true b n (cfg_filename c) input N) as H; pose proof (c_proto (pos0 (cfg_filename c)) b n (start input)) as C end.
  assert (C' : clean (cr (start input))) by (split; assumption).
  specialize (C ltac:(cbn [start cr]; lia) C').
  destruct (qParseProto _ _ _ _ _) as [a k|kb ka|k w| | | |]; cbn [calm out] in *; try contradiction.
  - destruct H as (s' & E & _). rewrite E in Q. discriminate.
  - destruct H as (e' & s' & E & _ & _ & _ & H). rewrite E in Q. injection Q as <-. exact H.
  - destruct H as (e' & s' & E & _ & _ & _ & _ & H). rewrite E in Q. injection Q as <-. exact H.
  - destruct H as (s' & E). rewrite E in Q. discriminate.
  - destruct H as (s' & E). rewrite E in Q. discriminate.
Qed.

Lemma err_found_positions e : map fst (err_found e) = err_positions e.
Proof. induction e; cbn [err_found err_positions map fst]; try reflexivity. rewrite map_app. congruence. Qed.
Lemma shown_offset fn input p x : Shown fn input p x -> (0 <= Offset p <= utf8_bytes input)%Z.
Proof.
  assert (U : forall w, (0 <= utf8_bytes w)%Z) by (intros w; unfold utf8_bytes; lia).
  assert (UA : forall v w, utf8_bytes (v ++ w) = (utf8_bytes v + utf8_bytes w)%Z) by (intros; unfold utf8_bytes; rewrite flat_map_app, app_length; lia).
  intros (a & g & cs & b & -> & _ & [(_ & O & _)|(_ & O & _)]); cbn [Offset] in O; rewrite O, !UA;
    pose proof (U a); pose proof (U g); pose proof (U x); pose proof (U b); lia.
Qed.
Theorem error_inside opts input e p : readable input -> cfg_permissive (config_of opts) = true -> no_groups input ->
  Parse opts input = Err e -> In p (err_positions e) -> (0 <= Offset p <= utf8_bytes input)%Z.
Proof.
  intros R P G Q I0. rewrite <- err_found_positions in I0. apply in_map_iff in I0. destruct I0 as ([p' x] & E & I0). cbn [fst] in E. subst p'.
  eapply shown_offset. eapply error_found; eassumption.
Qed.
Theorem not_shown : exists input e p x, Parse [] input = Err e /\ In (p, x) (err_found e) /\ ~ Shown [] input p x.
Proof.
  destruct negative_position_example as (input & e & p & E & I0 & N). rewrite <- err_found_positions in I0.
  apply in_map_iff in I0. destruct I0 as ([p' x] & F & I0). cbn [fst] in F. subst p'. exists input, e, p, x.
  split; [exact E|]. split; [exact I0|]. intros H. apply shown_offset in H. lia.
Qed.
Definition found_text : list rune := lit "message M { int32 a = /* group */ }".
Theorem found_case : readable found_text /\ (exists e p1 p2, Parse [] found_text = Err e /\
  err_found e = [(p1, lit "}"); (p2, lit "}")] /\ Offset p1 = 34%Z /\ Offset p2 = 21%Z) /\ no_groups found_text.
Proof.
  split; [|split].
  - repeat constructor; try discriminate; vm_compute; intuition discriminate.
  - destruct (Parse [] found_text) as [|e| |] eqn:E; try (vm_compute in E; discriminate).
    exists e, (hd zero_pos (err_positions e)), (hd zero_pos (tl (err_positions e))). split; [reflexivity|]. vm_compute in E. injection E as <-. vm_compute. auto.
  - apply (no_group "message M { int32 a = /* group */ }"). vm_compute. reflexivity.
Qed.
