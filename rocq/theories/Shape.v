(** What every token is made of, on any input and in any state of the lexer:
    an invariant of the lexer, and rules to reason with it about the parser. *)
From Coq Require Import List NArith ZArith Bool String Ascii Lia.
From Verif Require Import Base Token Scanner Lexer Ast LexSpec LexFacts LexProofs Refine Tree.
Import ListNotations.
Open Scope N_scope.
Open Scope monad_scope.

Definition tok_ok (t : token) (x : str) : Prop :=
  match t with
  | TIDENT => is_ident x
  | TINTLIT => is_int x
  | TSTRLIT => exists q b, (q = SQ \/ q = DQ) /\ x = [q] ++ b ++ [q]
  | TQUOTE => is_quote_mark x
  | TCOMMENT => comment_form x
  | _ => True
  end.
Definition Lx (s : st) : Prop := tok_ok (ltok s) (ltext s) /\ Forall (fun c => comment_form (Literal c)) (comments s).

Definition W {A} (r : res A * st) (Q : A -> st -> Prop) : Prop :=
  match r with (Ok a, s') => Q a s' | (Err _, s') => Lx s' | _ => True end.
Lemma W_bind {A B} (m : M A) (f : A -> M B) s Q : W (m s) (fun a s' => W (f a s') Q) -> W (bind m f s) Q.
Proof. unfold bind. destruct (m s) as [[] s']; cbn; auto. Qed.
Lemma W_weak {A} (r : res A * st) (Q Q' : A -> st -> Prop) : W r Q -> (forall a s', Q a s' -> Q' a s') -> W r Q'.
Proof. destruct r as [[] s']; cbn; auto. Qed.
Lemma W_ret {A} (a : A) s (Q : A -> st -> Prop) : Q a s -> W (ret a s) Q.
Proof. exact (fun H => H). Qed.
Lemma W_gets {A} (g : st -> A) s (Q : A -> st -> Prop) : Q (g s) s -> W (gets g s) Q.
Proof. exact (fun H => H). Qed.
Lemma W_modify g s (Q : unit -> st -> Prop) : Q tt (g s) -> W (modify g s) Q.
Proof. exact (fun H => H). Qed.
Lemma W_fail {A} e s (Q : A -> st -> Prop) : Lx s -> W (fail e s) Q.
Proof. exact (fun H => H). Qed.
Lemma W_try {A B} (m : M A) (f : A + err -> M B) s Q :
  W (m s) (fun a s' => W (f (inl a) s') Q) -> (forall e s', Lx s' -> W (f (inr e) s') Q) -> W (try m f s) Q.
Proof. unfold try. destruct (m s) as [[] s']; cbn; auto. Qed.
(** a value known of a function in every state *)
Definition V {A} (m : M A) (Phi : A -> Prop) : Prop := forall s, Lx s -> W (m s) (fun a s' => Lx s' /\ Phi a).
Lemma W_call {A} (m : M A) Phi s (Q : A -> st -> Prop) : V m Phi -> Lx s -> (forall a s', Lx s' -> Phi a -> Q a s') -> W (m s) Q.
Proof. intros H L F. eapply W_weak; [apply H; exact L|]. intros a s' [X Y]. auto. Qed.
Lemma W_if {A} (b : bool) (x y : M A) s Q : (b = true -> W (x s) Q) -> (b = false -> W (y s) Q) -> W ((if b then x else y) s) Q.
Proof. destruct b; auto. Qed.

(** ** The scanner *)
Lemma W_sunexp {A} c e s (Q : A -> st -> Prop) : Lx s -> W (s_unexpected c e s) Q.
Proof. exact (fun H => H). Qed.
Lemma W_read s (Q : rune -> st -> Prop) : Lx s -> (forall c s', Lx s' -> (forall d r, rest s = d :: r -> d <> 0 -> c = d /\ rest s' = r) -> Q c s') -> W (read s) Q.
Proof.
  intros L F. unfold read. destruct (rest s) as [|c r] eqn:E.
  - apply F; [exact L|]. discriminate.
  - destruct (c =? eof) eqn:Z; cbn; (apply F; [exact L|]); intros d r' X; injection X as <- <-; intros N; [apply N.eqb_eq in Z; destruct (N Z)|auto].
Qed.
Lemma W_peek s (Q : rune -> st -> Prop) : Lx s ->
  (forall c s', Lx s' -> (c <> 0 -> exists r, rest s' = c :: r) -> (forall d r, rest s = d :: r -> d <> 0 -> c = d) -> Q c s') -> W (peek s) Q.
Proof.
  intros L F. unfold peek, bind, read. destruct (rest s) as [|c r] eqn:E.
  - cbn. apply F; [exact L|intros N; destruct (N eq_refl)|]. discriminate.
  - destruct (c =? eof) eqn:Z.
    + apply N.eqb_eq in Z. cbn. apply F; [exact L|intros N; destruct (N eq_refl)|]. intros d r' X N. injection X as <- <-. destruct (N Z).
    + rewrite Z. cbn. apply F; [exact L| |]; [intros _; exists r; reflexivity|]. intros d r' X _. injection X as <- <-. reflexivity.
Qed.
Lemma W_isEOF s (Q : bool -> st -> Prop) : Lx s -> (forall b s', Lx s' -> (b = false -> exists c r, rest s' = c :: r /\ c <> 0) -> (forall d r, rest s = d :: r -> d <> 0 -> exists r', rest s' = d :: r') -> Q b s') -> W (isEOF s) Q.
Proof.
  intros L F. unfold isEOF. apply W_bind, W_peek; [exact L|]. intros c s' L' P X. apply W_ret. apply F; [exact L'| |].
  - intros Z. apply N.eqb_neq in Z. destruct (P Z) as (r & E). eauto.
  - intros d r R NZ. pose proof (X _ _ R NZ). subst d. apply P. exact NZ.
Qed.
Lemma nz_letter c : isLetter c = true -> c <> 0. Proof. intros H ->. discriminate. Qed.
Lemma nz_start c : isLetter c || (c =? ch "_") = true -> c <> 0. Proof. intros H ->. discriminate. Qed.
Lemma nz_char c : isLetter c || isDecimalDigit c || (c =? ch "_") = true -> c <> 0. Proof. intros H ->. discriminate. Qed.
Lemma W_ident_loop n : forall acc s (Q : str -> st -> Prop), Lx s -> (forall l s', Lx s' -> Forall ident_char l -> Q (acc ++ l) s') -> W (ident_loop n acc s) Q.
Proof.
  induction n as [|n IH]; intros acc s Q L F; [exact I|]. cbn [ident_loop]. apply W_bind, W_peek; [exact L|]. intros c s1 L1 P _. apply W_if; intros E.
  - destruct (P (nz_char _ E)) as (r & R). apply W_bind, W_read; [exact L1|]. intros d s2 L2 X. destruct (X _ _ R (nz_char _ E)) as [-> _]. apply IH; [exact L2|].
    intros l s3 L3 FA. rewrite <- app_assoc. apply F; [exact L3|]. constructor; [|exact FA]. apply ident_char_iff. exact E.
  - apply W_ret. rewrite <- (app_nil_r acc). apply F; [exact L1|constructor].
Qed.
Lemma W_scanIdent s c r (Q : str -> st -> Prop) : Lx s -> rest s = c :: r -> isLetter c || (c =? ch "_") = true -> (forall x s', Lx s' -> is_ident x -> Q x s') -> W (scanIdent s) Q.
Proof.
  intros L R E F. unfold scanIdent. apply W_bind, W_read; [exact L|]. intros d s1 L1 X. destruct (X _ _ R (nz_start _ E)) as [-> _]. apply W_bind. apply W_gets.
  apply W_ident_loop; [exact L1|]. intros l s2 L2 FA. apply F; [exact L2|]. exists c, l. split; [reflexivity|]. split; [|exact FA]. apply ident_start_iff. exact E.
Qed.
Lemma W_line_loop n : forall acc c s (Q : str -> st -> Prop), Lx s -> (forall l s', Lx s' -> ~ In NL l -> (c <> NL -> exists l', l = c :: l') -> Q (acc ++ l) s') -> W (line_loop n acc c s) Q.
Proof.
  induction n as [|n IH]; intros acc c s Q L F; [exact I|]. cbn [line_loop]. apply W_if; intros E.
  - apply N.eqb_eq in E. apply W_ret. rewrite <- (app_nil_r acc). apply F; [exact L|auto|congruence].
  - apply N.eqb_neq in E. apply W_bind, W_isEOF; [exact L|]. intros b s1 L1 P _. apply W_if; intros ->.
    + apply W_ret. apply F; [exact L1| |intros _; eexists; reflexivity]. intros [X|[]]. congruence.
    + destruct (P eq_refl) as (d & r & R & NZ). apply W_bind, W_read; [exact L1|]. intros d' s2 L2 X. apply IH; [exact L2|]. intros l s3 L3 NI _. rewrite <- app_assoc. apply F; [exact L3| |intros _; eexists; reflexivity].
      intros [Y|Y]; [congruence|auto].
Qed.
Lemma W_block_loop n : forall acc c s (Q : str -> st -> Prop), Lx s -> (forall b s', Lx s' -> Q (acc ++ [c] ++ b ++ lit "*/") s') -> W (block_loop n acc c s) Q.
Proof.
  induction n as [|n IH]; intros acc c s Q L F; [exact I|]. cbn [block_loop]. apply W_bind, W_isEOF; [exact L|]. intros b s1 L1 P _. apply W_if; intros ->.
  - exact L1.
  - destruct (P eq_refl) as (d & r & R & NZ). apply W_bind, W_read; [exact L1|]. intros c' s2 L2 X. apply W_bind, W_peek; [exact L2|]. intros e s3 L3 P3 _. apply W_if; intros E.
    + apply andb_true_iff in E. destruct E as [E1 E2]. apply N.eqb_eq in E1, E2. subst c' e. destruct (P3 ltac:(discriminate)) as (r' & R'). apply W_bind, W_read; [exact L3|].
      intros d' s4 L4 X4. destruct (X4 _ _ R' ltac:(discriminate)) as [-> _]. apply W_ret. rewrite <- app_assoc. apply (F []). exact L4.
    + apply IH; [exact L3|]. intros b' s4 L4. rewrite <- !app_assoc. apply (F (c' :: b')). exact L4.
Qed.
Lemma V_scanComment s r (Q : str -> st -> Prop) : Lx s -> rest s = ch "/" :: r -> (forall x s', Lx s' -> comment_form x -> Q x s') -> W (scanComment s) Q.
Proof.
  intros L R F. unfold scanComment. apply W_bind, W_read; [exact L|]. intros a s1 L1 X1. destruct (X1 _ _ R ltac:(discriminate)) as [-> _]. apply W_bind, W_read; [exact L1|].
  intros c s2 L2 _. apply W_bind, W_gets. apply W_if; intros E.
  - apply N.eqb_eq in E. subst c. apply W_line_loop; [exact L2|]. intros l s3 L3 NI HC. destruct (HC ltac:(discriminate)) as (l' & ->). apply F; [exact L3|]. left. exists l'. split; [reflexivity|]. intros Y. apply NI. right. exact Y.
  - apply W_if; intros E2; [|exact L2]. apply N.eqb_eq in E2. subst c. apply W_block_loop; [exact L2|]. intros b s3 L3. apply F; [exact L3|]. right. exists b. reflexivity.
Qed.
Lemma W_digits_loop cls n : forall acc s (Q : str -> st -> Prop), Lx s -> (forall l s', Lx s' -> Forall (fun c => cls c = true) l -> Q (acc ++ l) s') -> W (digits_loop n cls acc s) Q.
Proof.
  induction n as [|n IH]; intros acc s Q L F; [exact I|]. cbn [digits_loop]. apply W_bind, W_isEOF; [exact L|]. intros b s1 L1 P _. apply W_if; intros ->.
  - apply W_ret. rewrite <- (app_nil_r acc). apply F; [exact L1|constructor].
  - destruct (P eq_refl) as (d & r & R & NZ). apply W_bind, W_peek; [exact L1|]. intros c s2 L2 P2 X2. pose proof (X2 _ _ R NZ) as ->. apply W_if; intros E.
    + apply W_ret. rewrite <- (app_nil_r acc). apply F; [exact L2|constructor].
    + destruct (P2 NZ) as (r2 & R2). apply W_bind, W_read; [exact L2|]. intros c' s3 L3 X3. destruct (X3 _ _ R2 NZ) as [-> _]. apply IH; [exact L3|]. intros l s4 L4 FA. rewrite <- app_assoc.
      apply F; [exact L4|]. constructor; [|exact FA]. apply negb_false_iff. exact E.
Qed.
Lemma digits_digit l : Forall (fun c => isDecimalDigit c = true) l -> Forall digit l.
Proof. apply Forall_impl. intros a. apply digit_iff. Qed.
(** results without content *)
Notation V0 m := (V m (fun _ => True)).
Ltac w0 := lazymatch goal with
  | |- W (bind _ _ _) _ => apply W_bind
  | |- W (ret _ _) _ => apply W_ret
  | |- W (gets _ _) _ => apply W_gets
  | |- W (fuel_here _) _ => apply W_gets
  | |- W (s_unexpected _ _ _) _ => apply W_sunexp; assumption
  | |- W (read _) _ => apply W_read; [assumption|]; intros ? ? ? _
  | |- W (peek _) _ => apply W_peek; [assumption|]; intros ? ? ? _ _
  | |- W ((if ?b then _ else _) _) _ => destruct b
  | |- W (digits_loop _ _ _ _) _ => apply W_digits_loop; [assumption|]; intros ? ? ? _
  | |- _ /\ _ => split; [assumption|exact I]
  | |- Lx _ => assumption
  end.
Lemma V_scanDecimals : V0 scanDecimals.
Proof. intros s L. unfold scanDecimals. repeat w0. Qed.
Lemma V_scanExponent : V0 scanExponent.
Proof. intros s L. unfold scanExponent. repeat first [w0 | eapply W_call; [apply V_scanDecimals|assumption|]; intros ? ? ? _]. Qed.
Lemma V_scanFractionPart : V0 scanFractionPart.
Proof. intros s L. unfold scanFractionPart. repeat first [w0 | eapply W_call; [apply V_scanDecimals|assumption|]; intros ? ? ? _ | eapply W_call; [apply V_scanExponent|assumption|]; intros ? ? ? _]. Qed.
Lemma V_scanFractionPartNoOmit : V0 scanFractionPartNoOmit.
Proof. intros s L. unfold scanFractionPartNoOmit. repeat first [w0 | eapply W_call; [apply V_scanDecimals|assumption|]; intros ? ? ? _ | eapply W_call; [apply V_scanExponent|assumption|]; intros ? ? ? _]. Qed.
Lemma W_scanNumberLit s c r : Lx s -> rest s = c :: r -> isDecimalDigit c || (c =? ch ".") = true -> W (scanNumberLit s) (fun a s' => Lx s' /\ tok_ok (fst a) (snd a)).
Proof.
  intros L R E. assert (NZ : c <> 0) by (intros ->; discriminate). unfold scanNumberLit. apply W_bind, W_read; [exact L|]. intros c0 s1 L1 X1. destruct (X1 _ _ R NZ) as [-> _]. clear X1.
  apply W_bind, W_peek; [exact L1|]. intros c1 s2 L2 P2 _. apply W_if; intros E1.
  - apply andb_true_iff in E1. destruct E1 as [E1 E2]. apply N.eqb_eq in E1. subst c. assert (N1 : c1 <> 0) by (intros ->; discriminate). destruct (P2 N1) as (r2 & R2).
    apply W_bind, W_read; [exact L2|]. intros x s3 L3 X3. destruct (X3 _ _ R2 N1) as [-> R3]. apply W_bind, W_peek; [exact L3|]. intros h s4 L4 P4 _. apply W_if; intros E4.
    + apply W_bind, W_peek; [exact L4|]. intros h2 s5 L5 _ _. exact L5.
    + apply negb_false_iff in E4. assert (NH : h <> 0) by (intros ->; discriminate). destruct (P4 NH) as (r4 & R4). apply W_bind, W_read; [exact L4|]. intros d s5 L5 X5. destruct (X5 _ _ R4 NH) as [-> _].
      apply W_bind, W_gets. apply W_bind. apply W_digits_loop; [exact L5|]. intros l s6 L6 FA. apply W_ret. split; [exact L6|]. cbn. right. right. exists c1, (h :: l). split; [reflexivity|].
      apply orb_true_iff in E2. rewrite !N.eqb_eq in E2. split; [exact E2|]. split; [discriminate|]. constructor; [apply hex_iff; exact E4|]. eapply Forall_impl; [|exact FA]. intros a. apply hex_iff.
  - apply W_if; intros E2.
    { apply W_bind. eapply W_call; [apply V_scanFractionPartNoOmit|exact L2|]. intros f s3 L3 _. apply W_ret. split; [exact L3|exact I]. }
    assert (DC : isDecimalDigit c = true) by (rewrite E2, orb_false_r in E; exact E).
    apply W_if; intros E3.
    { repeat first [w0 | eapply W_call; [apply V_scanFractionPart|assumption|]; intros ? ? ? _]. }
    apply W_if; intros E4.
    { repeat first [w0 | eapply W_call; [apply V_scanExponent|assumption|]; intros ? ? ? _]. }
    apply W_if; intros E5.
    { apply W_bind, W_gets. apply W_bind. apply W_digits_loop; [exact L2|]. intros l s3 L3 FA. apply W_ret. split; [exact L3|]. cbn. apply N.eqb_eq in E5. subst c. right. left. exists l. split; [reflexivity|].
      eapply Forall_impl; [|exact FA]. intros a. apply octal_iff. }
    apply W_bind, W_gets. apply W_bind. apply W_digits_loop; [exact L2|]. intros l s3 L3 FA. apply W_bind, W_peek; [exact L3|]. intros c2 s4 L4 _ _.
    apply W_if; intros E6. { repeat first [w0 | eapply W_call; [apply V_scanFractionPart|assumption|]; intros ? ? ? _]. }
    apply W_if; intros E7. { repeat first [w0 | eapply W_call; [apply V_scanExponent|assumption|]; intros ? ? ? _]. }
    apply W_ret. split; [exact L4|]. cbn. left. exists c, l. split; [reflexivity|]. split; [|apply digits_digit; exact FA]. apply digit_iff in DC. apply N.eqb_neq in E5. unfold digit in DC.
    change (ch "0") with 48 in E5. lia.
Qed.
Lemma V_escape k cls : forall acc, V0 (escape_digits k cls acc).
Proof. induction k as [|k IH]; intros acc s L; cbn [escape_digits]; repeat first [w0|apply IH]. Qed.
Lemma V_tryScanEscape : V0 tryScanEscape.
Proof. intros s L. unfold tryScanEscape. repeat first [w0|apply V_escape]. Qed.
Lemma V_scanCharValue : V0 scanCharValue.
Proof. intros s L. unfold scanCharValue. repeat first [w0|apply V_tryScanEscape]. Qed.
Lemma W_str_loop q n : q <> 0 -> forall acc c s (Q : str -> st -> Prop), Lx s -> (c <> 0 -> exists r, rest s = c :: r) -> (forall b s', Lx s' -> Q (acc ++ b ++ [q]) s') -> W (str_loop n q acc c s) Q.
Proof.
  intros NQ. induction n as [|n IH]; intros acc c s Q L P F; [exact I|]. cbn [str_loop]. apply W_if; intros E.
  - apply N.eqb_eq in E. subst c. destruct (P NQ) as (r & R). apply W_bind, W_read; [exact L|]. intros d s1 L1 X. destruct (X _ _ R NQ) as [-> _]. apply W_ret. apply (F []). exact L1.
  - apply W_bind. eapply W_call; [apply V_scanCharValue|exact L|]. intros cv s1 L1 _. apply W_bind, W_peek; [exact L1|]. intros c' s2 L2 P2 _. apply IH; [exact L2|exact P2|]. intros b s3 L3. rewrite <- app_assoc. rewrite (app_assoc cv). apply F. exact L3.
Qed.
Lemma W_scanStrLit s q r : Lx s -> rest s = q :: r -> isQuote q = true -> W (scanStrLit s) (fun x s' => Lx s' /\ tok_ok TSTRLIT x).
Proof.
  intros L R E. assert (NZ : q <> 0) by (intros ->; discriminate). unfold scanStrLit. apply W_bind, W_read; [exact L|]. intros d s1 L1 X. destruct (X _ _ R NZ) as [-> _]. apply W_bind, W_peek; [exact L1|].
  intros c s2 L2 P2 _. apply W_bind, W_gets. apply W_str_loop; [exact NZ|exact L2|exact P2|]. intros b s3 L3. split; [exact L3|]. cbn. exists q, b. split; [apply quote_iff; exact E|reflexivity].
Qed.
Definition scanned_ok (r : scanned) : Prop := match r with (t, x, _, _) => tok_ok t x end.
Lemma keyword_ok x : tok_ok (asKeywordToken x) x.
Proof.
  unfold asKeywordToken. destruct (assoc_str x keyword_table) as [t|] eqn:E; [|exact I]. unfold keyword_table in E. cbn [assoc_str] in E.
  repeat match type of E with (if ?b then _ else _) = _ => destruct b; [injection E as <-; exact I|] end. discriminate.
Qed.
Lemma misc_ok c : tok_ok (asMiscToken c) [c].
Proof.
  unfold asMiscToken. repeat match goal with |- tok_ok (if ?b then _ else _) _ => destruct b eqn:?; try exact I end.
  all: match goal with H : (?c =? _) = true |- _ => apply N.eqb_eq in H; subst c end; cbn; first [left; reflexivity|right; reflexivity].
Qed.
Lemma V_scan n : V (scan n) scanned_ok.
Proof.
  induction n as [|n IH]; intros s L; [exact I|]. cbn [scan]. apply W_bind, W_peek; [exact L|]. intros c s1 L1 P1 _. apply W_bind, W_gets. apply W_if; intros E1.
  { apply W_bind, W_read; [exact L1|]. intros d s2 L2 _. apply IH. exact L2. }
  apply W_bind, W_isEOF; [exact L1|]. intros b s2 L2 P2 X2. apply W_if; intros ->; [apply W_ret; split; [exact L2|exact I]|].
  assert (R2 : c <> 0 -> exists r, rest s2 = c :: r). { intros NZ. destruct (P1 NZ) as (r & R). eapply X2; eassumption. } clear X2 P1.
  apply W_if; intros E2.
  { destruct (R2 (nz_start _ E2)) as (r & R). apply W_bind. eapply W_scanIdent; [exact L2|exact R|exact E2|]. intros x s3 L3 IX. apply W_bind, W_gets.
    apply W_if; intros _; [apply W_ret; split; [exact L3|exact I]|]. apply W_if; intros _; [apply W_ret; split; [exact L3|exact I]|].
    apply W_if; intros _; (apply W_ret; split; [exact L3|]); [apply keyword_ok|exact IX]. }
  apply W_if; intros E3.
  { apply N.eqb_eq in E3. subst c. destruct (R2 ltac:(discriminate)) as (r & R). apply W_try.
    - eapply V_scanComment; [exact L2|exact R|]. intros x s3 [T3 C3] CF. apply W_bind, W_modify. apply W_bind, W_gets.
      assert (L4 : Lx (set_comments (comments s3 ++ [mkText x (pos s1)]) s3)) by (split; [exact T3|]; cbn; apply Forall_app; split; [exact C3|constructor; [exact CF|constructor]]).
      apply W_if; intros _; [apply W_ret; split; [exact L4|exact CF]|]. apply IH. exact L4.
    - intros e s3 L3. apply W_ret. split; [exact L3|exact I]. }
  apply W_bind, W_gets. apply W_if; intros E4.
  { apply andb_true_iff in E4. destruct E4 as [E4 _]. destruct (R2 ltac:(intros ->; discriminate)) as (r & R). unfold or_illegal. apply W_try.
    - apply W_bind. eapply W_weak; [eapply W_scanStrLit; eassumption|]. intros x s3 [L3 T3]. apply W_ret, W_ret. split; [exact L3|exact T3].
    - intros e s3 L3. apply W_ret. split; [exact L3|exact I]. }
  apply W_if; intros E5.
  { apply andb_true_iff in E5. destruct E5 as [E5 _]. destruct (R2 ltac:(intros ->; discriminate)) as (r & R). unfold or_illegal. apply W_try.
    - eapply W_weak; [eapply W_scanNumberLit; eassumption|]. intros [t x] s3 [L3 T3]. apply W_ret. split; [exact L3|exact T3].
    - intros e s3 L3. apply W_ret. split; [exact L3|exact I]. }
  apply W_bind, W_read; [exact L2|]. intros d s3 L3 X3. apply W_ret. split; [exact L3|]. cbn. destruct (N.eq_dec c 0) as [->|NZ]; [exact I|]. destruct (R2 NZ) as (r & R). destruct (X3 _ _ R NZ) as [-> _]. apply misc_ok.
Qed.

(** ** The lexer *)
Lemma V_Next : V0 Next.
Proof.
  intros s L. unfold Next. apply W_bind. unfold Scan. apply W_bind, W_modify. apply W_bind, W_gets. eapply W_call; [apply V_scan|exact L|]. intros [[[t x] p] e] s' [_ C] T. apply W_modify.
  split; [|exact I]. split; [exact T|exact C].
Qed.
Lemma Lx_UnScan s : Lx s -> Lx (UnScan s).
Proof. unfold UnScan. generalize (rev (raw s)). intros l. revert s. induction l as [|c l IH]; intros s L; [exact L|]. cbn [fold_left]. apply IH. exact L. Qed.
Lemma V_UnNext : V0 UnNext.
Proof. intros s L. split; [|exact I]. apply Lx_UnScan in L. destruct L as [_ C]. split; [exact I|exact C]. Qed.
