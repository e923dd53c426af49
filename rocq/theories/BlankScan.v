(** The scanner does not look at what it has read nor at the lexer. *)
From Coq Require Import List NArith ZArith Bool String Ascii Lia.
From Verif Require Import Base Token Scanner.
Import ListNotations.
Open Scope N_scope.
Open Scope monad_scope.

(** ** The scanner does not look at what it has read nor at the lexer *)
Definition lay (pre : list rune) (t : token) (x : str) (lr : list rune) (p : mpos) (s : st) : st :=
  mkSt (rest s) (pre ++ raw s) (pos s) (cols s) (mode s) (comments s) t x lr p (scanErr s).
Section Com.
Variables (pre : list rune) (T : token) (X : str) (LRAW : list rune) (LPOS : mpos).
Notation F := (lay pre T X LRAW LPOS).
Definition Com {A} (m : M A) : Prop := forall s, m (F s) = (fst (m s), F (snd (m s))).
Lemma com_ret {A} (a : A) : Com (ret a). Proof. intros s. reflexivity. Qed.
Lemma com_fail {A} e : Com (@fail A e). Proof. intros s. reflexivity. Qed.
Lemma com_oof {A} : Com (@oof A). Proof. intros s. reflexivity. Qed.
Lemma com_bind {A B} (m : M A) (k : A -> M B) : Com m -> (forall a, Com (k a)) -> Com (bind m k).
Proof. intros H K s. unfold bind. rewrite (H s). destruct (m s) as [[a|e| |] t]; cbn; try reflexivity. apply K. Qed.
Lemma com_try {A B} (m : M A) (k : A + err -> M B) : Com m -> (forall a, Com (k a)) -> Com (try m k).
Proof. intros H K s. unfold try. rewrite (H s). destruct (m s) as [[a|e| |] t]; cbn; try reflexivity; apply K. Qed.
Lemma com_gets {A} (h : st -> A) : (forall s, h (F s) = h s) -> Com (gets h). Proof. intros H s. unfold gets. rewrite H. reflexivity. Qed.
Lemma com_read : Com read.
Proof. intros s. unfold read. cbn [rest lay]. destruct (rest s) as [|c r]; [reflexivity|]. destruct (c =? eof); [reflexivity|]. cbn. unfold set_pc, set_raw, set_rest, lay. cbn. rewrite app_assoc. reflexivity. Qed.
Lemma com_peek : Com peek.
Proof.
  intros s. unfold peek, bind. rewrite (com_read s). assert (R : forall c t, read s = (Ok c, t) -> (c =? eof) = false -> raw t = raw s ++ [c]).
  { intros c t H E. unfold read in H. destruct (rest s) as [|d r]; [injection H as <- <-; discriminate E|]. destruct (d =? eof) eqn:ED; injection H as <- <-; [discriminate E|reflexivity]. }
  destruct (read s) as [[c|e| |] t]; cbn [fst snd]; try reflexivity. destruct (c =? eof) eqn:E; [reflexivity|]. specialize (R c t eq_refl E). clear E.
  unfold modify. cbn [raw lay]. rewrite R. rewrite app_assoc, !removelast_last. generalize (raw s) as x. intros x. reflexivity.
Qed.
Lemma com_fuel : Com fuel_here. Proof. apply com_gets. reflexivity. Qed.
Lemma com_pos : Com (gets pos). Proof. apply com_gets. reflexivity. Qed.
Lemma com_mode : Com (gets mode). Proof. apply com_gets. reflexivity. Qed.
Lemma com_cm t : Com (modify (fun s => set_comments (comments s ++ [t]) s)). Proof. intros s. reflexivity. Qed.
Create HintDb com discriminated.
Hint Resolve com_ret com_fail com_oof com_read com_peek com_fuel com_pos com_mode com_cm : com.
Ltac com := repeat match goal with
  | |- Com (bind _ _) => apply com_bind; [|intros ?]
  | |- Com (try _ _) => apply com_try; [|intros ?]
  | |- Com (if ?b then _ else _) => destruct b
  | |- Com (match ?b with _ => _ end) => destruct b
  | |- Com (let _ := _ in _) => cbv zeta
  | |- Com _ => solve [auto 2 with com nocore]
  end.
Lemma com_isEOF : Com isEOF. Proof. unfold isEOF. com. Qed.
Lemma com_unexp {A} c x : Com (@s_unexpected A c x). Proof. unfold s_unexpected. com. Qed.
Hint Resolve com_isEOF com_unexp : com.
Lemma com_ident n : forall l, Com (ident_loop n l). Proof. induction n; intros l; cbn [ident_loop]; com. Qed.
Lemma com_line n : forall l c, Com (line_loop n l c). Proof. induction n; intros l c; cbn [line_loop]; com. Qed.
Lemma com_block n : forall l c, Com (block_loop n l c). Proof. induction n; intros l c; cbn [block_loop]; com. Qed.
Lemma com_digits n f : forall l, Com (digits_loop n f l). Proof. induction n; intros l; cbn [digits_loop]; com. Qed.
Lemma com_escd n f : forall l, Com (escape_digits n f l). Proof. induction n; intros l; cbn [escape_digits]; com. Qed.
Hint Resolve com_ident com_line com_block com_digits com_escd : com.
Lemma com_scanIdent : Com scanIdent. Proof. unfold scanIdent. com. Qed.
Lemma com_scanComment : Com scanComment. Proof. unfold scanComment. com. Qed.
Lemma com_decimals : Com scanDecimals. Proof. unfold scanDecimals. com. Qed.
Hint Resolve com_scanIdent com_scanComment com_decimals : com.
Lemma com_exp : Com scanExponent. Proof. unfold scanExponent. com. Qed.
Hint Resolve com_exp : com.
Lemma com_frac : Com scanFractionPart. Proof. unfold scanFractionPart. com. Qed.
Lemma com_frac2 : Com scanFractionPartNoOmit. Proof. unfold scanFractionPartNoOmit. com. Qed.
Hint Resolve com_frac com_frac2 : com.
Lemma com_num : Com scanNumberLit. Proof. unfold scanNumberLit. com. Qed.
Lemma com_esc : Com tryScanEscape. Proof. unfold tryScanEscape. com. Qed.
Hint Resolve com_num com_esc : com.
Lemma com_char : Com scanCharValue. Proof. unfold scanCharValue. com. Qed.
Hint Resolve com_char : com.
Lemma com_str n q : forall l c, Com (str_loop n q l c). Proof. induction n; intros l c; cbn [str_loop]; com. Qed.
Hint Resolve com_str : com.
Lemma com_strLit : Com scanStrLit. Proof. unfold scanStrLit. com. Qed.
Hint Resolve com_strLit : com.
Lemma com_scan n : Com (scan n).
Proof. induction n as [|n IH]; cbn [scan]; [com|]. unfold or_illegal. com. Qed.
End Com.

