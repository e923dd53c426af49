(** A logic of invariants over the whole parser.

    If a predicate [I] of states is kept by the primitive steps of the scanner
    and the lexer, it is kept by every function, and every error returned is
    one of those allowed by [E]. *)
From Coq Require Import List NArith ZArith Bool String Ascii Lia Arith.
From Verif Require Import Base Token Scanner Lexer Ast Parser.
Import ListNotations.
Open Scope N_scope.
Open Scope monad_scope.

Section Inv.
Variable I : st -> Prop.
Variable E : err -> Prop.
Variable PB : mpos -> Prop.
Variable V : rune -> Prop.
Hypothesis I_read : forall s, I s -> I (snd (read s)).
Hypothesis I_peek : forall s, I s -> I (snd (peek s)).
Hypothesis I_unscan : forall s, I s -> I (UnScan s).
Hypothesis I_pos : forall s, I s -> PB (pos s).
Hypothesis I_lpos : forall s, I s -> PB (lpos s).
Hypothesis I_lraw : forall s, I s -> Forall V (lraw s).
Hypothesis I_lex : forall t x p e s, I s -> PB p -> (forall e', e = Some e' -> E e') -> I (set_lex t x p e s).
Hypothesis I_tokpos : forall t p s, I s -> PB p -> I (set_tokpos t p s).
Hypothesis I_raw : forall r s, I s -> Forall V r -> I (set_raw r s).
Hypothesis I_comments : forall l p s, I s -> PB p -> I (set_comments (comments s ++ [mkText l p]) s).
Hypothesis I_mode : forall m s, I s -> I (set_mode m s).
Hypothesis I_cols : forall c s, I s -> I (set_pc (pos s, c) s).
Hypothesis E_scan : forall p x r, PB p -> E (EScan p x r).
Hypothesis E_lex : forall p x l, PB p -> E (ELex p x l).
Hypothesis E_parse : forall p x l t, PB p -> E (EParse p x l t).
Hypothesis E_pair : forall a b, E a -> E b -> E (EPair a b).

Definition Tr {A} (m : M A) (Q : A -> Prop) : Prop := forall s, I s ->
  match m s with
  | (Ok a, t) => I t /\ Q a
  | (Err e, t) => I t /\ E e
  | _ => True
  end.
Definition T {A} (m : M A) : Prop := Tr m (fun _ => True).

Lemma tr_bind {A B} (m : M A) (f : A -> M B) Q R : Tr m Q -> (forall a, Q a -> Tr (f a) R) -> Tr (bind m f) R.
Proof.
  intros H K s Is. specialize (H s Is). unfold bind. destruct (m s) as [[a|e| |] t]; auto.
  destruct H as [It Qa]. exact (K a Qa t It).
Qed.
Lemma tr_try {A B} (m : M A) (f : A + err -> M B) Q R : Tr m Q -> (forall a, Q a -> Tr (f (inl a)) R) ->
  (forall e, E e -> Tr (f (inr e)) R) -> Tr (try m f) R.
Proof.
  intros H K L s Is. specialize (H s Is). unfold try. destruct (m s) as [[a|e| |] t]; auto.
  - destruct H as [It Qa]. exact (K a Qa t It).
  - destruct H as [It Ee]. exact (L e Ee t It).
Qed.
Lemma tr_ret {A} (a : A) (Q : A -> Prop) : Q a -> Tr (ret a) Q.
Proof. intros H s Is. split; assumption. Qed.
Lemma t_ret {A} (a : A) : T (ret a).
Proof. apply tr_ret. exact Logic.I. Qed.
Lemma tr_weak {A} (m : M A) (Q R : A -> Prop) : Tr m Q -> (forall a, Q a -> R a) -> Tr m R.
Proof. intros H K s Is. specialize (H s Is). destruct (m s) as [[a|e| |] t]; auto. destruct H. auto. Qed.
Lemma t_of {A} (m : M A) Q : Tr m Q -> T m.
Proof. intros H. eapply tr_weak; [exact H|]. auto. Qed.
Lemma t_bind {A B} (m : M A) (f : A -> M B) R : T m -> (forall a, Tr (f a) R) -> Tr (bind m f) R.
Proof. intros H K. eapply tr_bind; [exact H|]. auto. Qed.
Lemma t_try {A B} (m : M A) (f : A + err -> M B) R : T m -> (forall a, Tr (f (inl a)) R) -> (forall e, E e -> Tr (f (inr e)) R) -> Tr (try m f) R.
Proof. intros H K L. eapply tr_try; [exact H|auto|exact L]. Qed.
Lemma t_fail {A} e (R : A -> Prop) : E e -> Tr (fail e) R.
Proof. intros H s Is. split; assumption. Qed.
Lemma t_panic {A} (R : A -> Prop) : Tr panic R. Proof. intros s Is. exact Logic.I. Qed.
Lemma t_oof {A} (R : A -> Prop) : Tr oof R. Proof. intros s Is. exact Logic.I. Qed.
Lemma t_gets {A} (f : st -> A) : T (gets f).
Proof. intros s Is. split; auto. Qed.
Lemma tr_gets {A} (f : st -> A) (Q : A -> Prop) : (forall s, I s -> Q (f s)) -> Tr (gets f) Q.
Proof. intros H s Is. split; auto. Qed.
Lemma tr_modify (f : st -> st) : (forall s, I s -> I (f s)) -> T (modify f).
Proof. intros H s Is. split; auto. Qed.
Lemma t_read : T read.
Proof. intros s Is. pose proof (I_read s Is) as H. unfold read in *. destruct (rest s) as [|c r]; [auto|]. destruct (c =? eof); auto. Qed.
Lemma t_peek : T peek.
Proof.
  intros s Is. pose proof (I_peek s Is) as H. unfold peek, read, bind, modify, ret in *. destruct (rest s) as [|c r]; cbn in *; auto.
  destruct (c =? eof); cbn in *; auto. destruct (c =? eof); cbn in *; auto.
Qed.
Lemma t_fuel : T fuel_here. Proof. apply t_gets. Qed.
Lemma t_s_unexpected {A} r x (R : A -> Prop) : Tr (s_unexpected r x) R.
Proof. unfold s_unexpected. eapply tr_bind; [apply tr_gets; exact I_pos|]. intros p Hp. apply t_fail. auto. Qed.
Create HintDb tr.
Hint Resolve E_pair : tr.
Lemma tt_bind {A B} (m : M A) (f : A -> M B) : T m -> (forall a, T (f a)) -> T (bind m f).
Proof. apply t_bind. Qed.
Lemma tt_try {A B} (m : M A) (f : A + err -> M B) : T m -> (forall a, T (f (inl a))) -> (forall e, E e -> T (f (inr e))) -> T (try m f).
Proof. apply t_try. Qed.
Lemma tt_fail {A} e : E e -> T (@fail A e).
Proof. apply t_fail. Qed.
Lemma tt_panic {A} : T (@panic A). Proof. apply t_panic. Qed.
Lemma tt_oof {A} : T (@oof A). Proof. apply t_oof. Qed.
Lemma tt_s_unexpected {A} r x : T (@s_unexpected A r x). Proof. apply t_s_unexpected. Qed.
Hint Resolve t_read t_peek t_fuel t_ret t_gets tt_panic tt_oof tt_s_unexpected tt_fail : tr.
Ltac tr1 :=
  match goal with
  | |- T (bind _ _) => apply tt_bind; [|intros ?]
  | |- T (try _ _) => apply tt_try; [|intros ?|intros ? ?]
  | |- T (match ?x with _ => _ end) => destruct x
  | |- T (let x := _ in _) => cbv zeta
  | |- T _ => solve [auto with tr]
  end.
Ltac trs := repeat tr1.
Lemma t_isEOF  : T (isEOF ).
Proof. intros. unfold isEOF. trs. Qed.
Hint Resolve t_isEOF : tr.
Lemma t_ident_loop (n : nat) (ident : str) : T (ident_loop n ident).
Proof. intros. revert ident. induction n as [|? ?]; intros; cbn [ident_loop]; trs. Qed.
Hint Resolve t_ident_loop : tr.
Lemma t_scanIdent  : T (scanIdent ).
Proof. intros. unfold scanIdent. trs. Qed.
Hint Resolve t_scanIdent : tr.
Lemma t_line_loop (n : nat) (l : str) (c : rune) : T (line_loop n l c).
Proof. intros. revert l c. induction n as [|? ?]; intros; cbn [line_loop]; trs. Qed.
Hint Resolve t_line_loop : tr.
Lemma t_block_loop (n : nat) (l : str) (c : rune) : T (block_loop n l c).
Proof. intros. revert l c. induction n as [|? ?]; intros; cbn [block_loop]; trs. Qed.
Hint Resolve t_block_loop : tr.
Lemma t_scanComment  : T (scanComment ).
Proof. intros. unfold scanComment. trs. Qed.
Hint Resolve t_scanComment : tr.
Lemma t_digits_loop (n : nat) (cls : rune -> bool) (l : str) : T (digits_loop n cls l).
Proof. intros. revert cls l. induction n as [|? ?]; intros; cbn [digits_loop]; trs. Qed.
Hint Resolve t_digits_loop : tr.
Lemma t_scanDecimals  : T (scanDecimals ).
Proof. intros. unfold scanDecimals. trs. Qed.
Hint Resolve t_scanDecimals : tr.
Lemma t_scanExponent  : T (scanExponent ).
Proof. intros. unfold scanExponent. trs. Qed.
Hint Resolve t_scanExponent : tr.
Lemma t_scanFractionPart  : T (scanFractionPart ).
Proof. intros. unfold scanFractionPart. trs. Qed.
Hint Resolve t_scanFractionPart : tr.
Lemma t_scanFractionPartNoOmit  : T (scanFractionPartNoOmit ).
Proof. intros. unfold scanFractionPartNoOmit. trs. Qed.
Hint Resolve t_scanFractionPartNoOmit : tr.
Lemma t_scanNumberLit  : T (scanNumberLit ).
Proof. intros. unfold scanNumberLit. trs. Qed.
Hint Resolve t_scanNumberLit : tr.
Lemma t_escape_digits (k : nat) (cls : rune -> bool) (l : str) : T (escape_digits k cls l).
Proof. intros. revert cls l. induction k as [|? ?]; intros; cbn [escape_digits]; trs. Qed.
Hint Resolve t_escape_digits : tr.
Lemma t_tryScanEscape  : T (tryScanEscape ).
Proof. intros. unfold tryScanEscape. trs. Qed.
Hint Resolve t_tryScanEscape : tr.
Lemma t_scanCharValue  : T (scanCharValue ).
Proof. intros. unfold scanCharValue. trs. Qed.
Hint Resolve t_scanCharValue : tr.
Lemma t_str_loop (n : nat) (quote : rune) (l : str) (c : rune) : T (str_loop n quote l c).
Proof. intros. revert quote l c. induction n as [|? ?]; intros; cbn [str_loop]; trs. Qed.
Hint Resolve t_str_loop : tr.
Lemma t_scanStrLit  : T (scanStrLit ).
Proof. intros. unfold scanStrLit. trs. Qed.
Hint Resolve t_scanStrLit : tr.
Definition SB (x : scanned) : Prop := PB (snd (fst x)) /\ forall e, snd x = Some e -> E e.
Lemma tr_scanned t l p (e : option err) : PB p -> (forall e', e = Some e' -> E e') -> Tr (ret (t, l, p, e)) SB.
Proof. intros H K. apply tr_ret. split; [exact H|exact K]. Qed.
Lemma tr_none t l p : PB p -> Tr (ret (t, l, p, None)) SB.
Proof. intros H. apply tr_scanned; [exact H|discriminate]. Qed.
Lemma tr_some t l p e : PB p -> E e -> Tr (ret (t, l, p, Some e)) SB.
Proof. intros H K. apply tr_scanned; [exact H|]. intros e' X. injection X as <-. exact K. Qed.
Lemma tr_illegal p m : PB p -> T m -> Tr (or_illegal p m) SB.
Proof. intros H K. unfold or_illegal. apply t_try; [exact K| |]; [intros [t l]; apply tr_none|intros e He; apply tr_some]; assumption. Qed.
Lemma tr_scan n : Tr (scan n) SB.
Proof.
  induction n as [|n IH]; cbn [scan]; [apply t_oof|]. apply t_bind; [apply t_peek|intros c].
  eapply tr_bind; [apply tr_gets; exact I_pos|]. intros p Hp. cbv beta in Hp.
  destruct (isSpace c); [apply t_bind; [apply t_read|intros _; exact IH]|].
  apply t_bind; [apply t_isEOF|intros e]. destruct e; [apply tr_none; exact Hp|].
  destruct (_ || _).
  { apply t_bind; [apply t_scanIdent|intros x]. apply t_bind; [apply t_gets|intros m].
    repeat match goal with |- context[if ?b then _ else _] => destruct b end; apply tr_none; exact Hp. }
  destruct (_ =? _).
  { apply t_try; [apply t_scanComment| |]; [intros l|intros e He; apply tr_some; assumption].
    apply t_bind; [apply tr_modify; intros s Is; apply I_comments; assumption|intros _].
    apply t_bind; [apply t_gets|intros m]. destruct (has _ _); [apply tr_none; exact Hp|exact IH]. }
  apply t_bind; [apply t_gets|intros m].
  destruct (_ && _).
  { apply tr_illegal; [exact Hp|]. apply t_bind; [apply t_scanStrLit|intros l; apply t_ret]. }
  destruct (_ && _); [apply tr_illegal; [exact Hp|apply t_scanNumberLit]|].
  apply t_bind; [apply t_read|intros d; apply tr_none; exact Hp].
Qed.
Lemma t_Next : T Next.
Proof.
  unfold Next, Scan. eapply tr_bind.
  - apply t_bind; [apply tr_modify; intros s Is; apply I_raw; [exact Is|constructor]|intros _].
    apply t_bind; [apply t_fuel|intros n]. apply tr_scan.
  - intros [[[t x] p] e] [H K]. apply tr_modify. intros s Is. apply I_lex; assumption.
Qed.
Lemma t_nextWithSpecificMode m : T (nextWithSpecificMode m).
Proof.
  unfold nextWithSpecificMode. apply t_bind; [apply t_gets|intros m0]. apply t_bind; [apply tr_modify; auto|intros _].
  apply t_bind; [apply t_Next|intros _]. apply tr_modify. auto.
Qed.
Lemma t_UnNext : T UnNext.
Proof. unfold UnNext. apply tr_modify. intros s Is. cbv zeta. apply I_tokpos; auto. Qed.
Lemma t_UnNextTo r : Forall V r -> T (UnNextTo r).
Proof. intros H. unfold UnNextTo. apply t_bind; [apply tr_modify; auto|intros _; apply t_UnNext]. Qed.
Lemma tr_nexts_raw n : forall l, Forall (Forall V) l -> Tr (nexts_raw n l) (Forall (Forall V)).
Proof.
  induction n as [|n IH]; intros l F; cbn [nexts_raw]; [apply tr_ret; exact F|]. apply t_bind; [apply t_Next|intros _].
  eapply tr_bind; [apply tr_gets; exact I_lraw|]. intros r Hr. apply IH. constructor; assumption.
Qed.
Lemma t_unnext_all l : Forall (Forall V) l -> T (unnext_all l).
Proof.
  induction 1 as [|r l H F IH]; cbn [unnext_all]; [apply t_ret|]. apply t_bind; [apply t_UnNextTo; exact H|intros _; exact IH].
Qed.
Lemma t_PeekN n : T (PeekN n).
Proof.
  unfold PeekN. eapply tr_bind; [apply tr_nexts_raw; constructor|]. intros l F. apply t_bind; [apply t_gets|intros t].
  apply t_bind; [apply t_unnext_all; exact F|intros _; apply t_ret].
Qed.
Lemma t_l_unexpected {A} x (R : A -> Prop) : Tr (l_unexpected x) R.
Proof. intros s Is. split; auto. Qed.
Lemma t_p_unexpected {A} x (R : A -> Prop) : Tr (p_unexpected x) R.
Proof. intros s Is. split; auto. Qed.
Lemma t_mk_comment p l : T (mk_comment p l).
Proof. intros s Is. unfold mk_comment. destruct (AdvancedBulk p (cols s) l) as [q c]. split; auto. Qed.
Lemma tt_l_unexpected {A} x : T (@l_unexpected A x). Proof. apply t_l_unexpected. Qed.
Lemma tt_p_unexpected {A} x : T (@p_unexpected A x). Proof. apply t_p_unexpected. Qed.
Hint Resolve t_Next t_nextWithSpecificMode t_UnNext t_PeekN tt_l_unexpected tt_p_unexpected t_mk_comment : tr.
Lemma t_NextN (n : nat) : T (NextN n).
Proof. intros. induction n as [|? ?]; intros; cbn [NextN]; trs. Qed.
Hint Resolve t_NextN : tr.
Lemma t_NextKeywordOrStrLit  : T (NextKeywordOrStrLit ).
Proof. intros. unfold NextKeywordOrStrLit. trs. Qed.
Hint Resolve t_NextKeywordOrStrLit : tr.
Lemma t_NextKeyword  : T (NextKeyword ).
Proof. intros. unfold NextKeyword. trs. Qed.
Hint Resolve t_NextKeyword : tr.
Lemma t_NextStrLit  : T (NextStrLit ).
Proof. intros. unfold NextStrLit. trs. Qed.
Hint Resolve t_NextStrLit : tr.
Lemma t_NextLit  : T (NextLit ).
Proof. intros. unfold NextLit. trs. Qed.
Hint Resolve t_NextLit : tr.
Lemma t_NextNumberLit  : T (NextNumberLit ).
Proof. intros. unfold NextNumberLit. trs. Qed.
Hint Resolve t_NextNumberLit : tr.
Lemma t_NextComment  : T (NextComment ).
Proof. intros. unfold NextComment. trs. Qed.
Hint Resolve t_NextComment : tr.
Lemma t_lex_IsEOF  : T (lex_IsEOF ).
Proof. intros. unfold lex_IsEOF. trs. Qed.
Hint Resolve t_lex_IsEOF : tr.
Lemma t_Peek  : T (Peek ).
Proof. intros. unfold Peek. trs. Qed.
Hint Resolve t_Peek : tr.
Lemma t_ConsumeToken (t : token) : T (ConsumeToken t).
Proof. intros. unfold ConsumeToken. trs. Qed.
Hint Resolve t_ConsumeToken : tr.
Lemma t_ReadEmptyStatement  : T (ReadEmptyStatement ).
Proof. intros. unfold ReadEmptyStatement. trs. Qed.
Hint Resolve t_ReadEmptyStatement : tr.
Lemma t_fullIdent_loop (n : nat) (acc : str) : T (fullIdent_loop n acc).
Proof. intros. revert acc. induction n as [|? ?]; intros; cbn [fullIdent_loop]; trs. Qed.
Hint Resolve t_fullIdent_loop : tr.
Lemma t_ReadFullIdent  : T (ReadFullIdent ).
Proof. intros. unfold ReadFullIdent. trs. Qed.
Hint Resolve t_ReadFullIdent : tr.
Lemma t_messageType_loop (n : nat) (acc : str) : T (messageType_loop n acc).
Proof. intros. revert acc. induction n as [|? ?]; intros; cbn [messageType_loop]; trs. Qed.
Hint Resolve t_messageType_loop : tr.
Lemma t_ReadMessageType  : T (ReadMessageType ).
Proof. intros. unfold ReadMessageType. trs. Qed.
Hint Resolve t_ReadMessageType : tr.
Lemma t_ReadEnumType  : T (ReadEnumType ).
Proof. intros. unfold ReadEnumType. trs. Qed.
Hint Resolve t_ReadEnumType : tr.
Lemma t_merge_loop (n : nat) (q : rune) (b : str) : T (merge_loop n q b).
Proof. intros. revert q b. induction n as [|? ?]; intros; cbn [merge_loop]; trs. Qed.
Hint Resolve t_merge_loop : tr.
Lemma t_mergeMultilineStrLit  : T (mergeMultilineStrLit ).
Proof. intros. unfold mergeMultilineStrLit. trs. Qed.
Hint Resolve t_mergeMultilineStrLit : tr.
Lemma t_ReadConstant (permissive : bool) : T (ReadConstant permissive).
Proof.
  unfold ReadConstant. do 3 (apply tt_bind; [auto with tr|intros ?]). apply tt_bind; [auto with tr|intros t].
  assert (D : forall cons : str, forall p : mpos, T (if str_eqb cons (lit "-") || str_eqb cons (lit "+") then
      NextLit;; t2 <- gets ltok;;
      match t2 with
      | TINTLIT | TFLOATLIT => x <- gets ltext;; ret (cons ++ x, p)
      | _ => l_unexpected "TINTLIT or TFLOATLIT"
      end
    else l_unexpected "constant")) by (intros; trs).
  destruct t; try apply D; clear D; trs.
Qed.
Hint Resolve t_ReadConstant : tr.
Lemma t_expect (t : token) (expected : string) : T (expect t expected).
Proof. intros. unfold expect. trs. Qed.
Hint Resolve t_expect : tr.
Lemma t_p_IsEOF  : T (p_IsEOF ).
Proof. intros. unfold p_IsEOF. trs. Qed.
Hint Resolve t_p_IsEOF : tr.
Lemma t_peekKeyword  : T (peekKeyword ).
Proof. intros. unfold peekKeyword. trs. Qed.
Hint Resolve t_peekKeyword : tr.
Lemma t_parseComment : T parseComment.
Proof.
  unfold parseComment. apply tt_bind; [apply t_NextComment|intros _]. apply tt_bind; [apply t_gets|intros t].
  destruct (tok_eqb t TCOMMENT); [trs|]. intros s Is. cbv zeta. pose proof (I_lpos s Is) as P.
  assert (X : @Tr comment (UnNext;; fail (EParse (lpos s) "comment" (ltext s) (ltok s))) (fun _ => True)).
  { apply t_bind; [apply t_UnNext|intros _; apply t_fail; auto]. }
  exact (X s Is).
Qed.
Hint Resolve t_parseComment : tr.
Lemma t_deferUnNext {A} (k : M A) : T k -> T (deferUnNext k).
Proof.
  intros H. unfold deferUnNext. eapply tr_bind; [apply tr_gets; exact I_lraw|]. intros r Hr. apply t_bind; [exact H|intros a].
  apply t_bind; [apply t_UnNextTo; exact Hr|intros _; apply t_ret].
Qed.
Lemma td_try {A B} (m : M A) (f : A + err -> M B) : T m -> (forall x, T (f x)) -> T (try m f).
Proof. intros H K. apply tt_try; auto. Qed.
Ltac tr1 ::=
  match goal with
  | |- T (bind _ _) => apply tt_bind; [|intros ?]
  | |- T (try _ _) => apply tt_try; [|intros ?|intros ? ?]
  | |- T (match ?x with _ => _ end) => destruct x
  | |- T (let x := _ in _) => cbv zeta
  | |- T (deferUnNext _) => apply t_deferUnNext
  | |- T _ => solve [auto with tr]
  end.
Lemma t_parseComments_loop (n : nat) (acc : list comment) : T (parseComments_loop n acc).
Proof. intros. revert acc. induction n as [|? ?]; intros; cbn [parseComments_loop]; trs. Qed.
Hint Resolve t_parseComments_loop : tr.
Lemma t_ParseComments  : T (ParseComments ).
Proof. intros. unfold ParseComments. trs. Qed.
Hint Resolve t_ParseComments : tr.
Lemma t_mk_comments (l : list text) : T (mk_comments l).
Proof. intros. induction l as [|? ?]; intros; cbn [mk_comments]; trs. Qed.
Hint Resolve t_mk_comments : tr.
Lemma t_findEmbeddedComments (from to : mpos) : T (findEmbeddedComments from to).
Proof. intros. unfold findEmbeddedComments. trs. Qed.
Hint Resolve t_findEmbeddedComments : tr.
Lemma t_parseInlineComment  : T (parseInlineComment ).
Proof. intros. unfold parseInlineComment. trs. Qed.
Hint Resolve t_parseInlineComment : tr.
Lemma t_MaybeScanInlineComment {A} (set : comment -> A -> option A) (x : A) : T (MaybeScanInlineComment set x).
Proof. intros. unfold MaybeScanInlineComment. trs. Qed.
Hint Resolve t_MaybeScanInlineComment : tr.
Lemma t_parseParenName (perm : bool) (name : str) : T (parseParenName perm name).
Proof. intros. unfold parseParenName. trs. Qed.
Hint Resolve t_parseParenName : tr.
Lemma t_optionName_loop (perm : bool) (n : nat) (name : str) : T (optionName_loop perm n name).
Proof. intros. revert name. induction n as [|? ?]; intros; cbn [optionName_loop]; trs. Qed.
Hint Resolve t_optionName_loop : tr.
Lemma t_parseOptionName (perm : bool) : T (parseOptionName perm).
Proof. intros. unfold parseOptionName. trs. Qed.
Hint Resolve t_parseOptionName : tr.
Lemma t_cloud_loop (perm : bool) (pc : M str) (n : nat) (r : str) : T pc -> T (cloud_loop perm pc n r).
Proof. intros. revert r. induction n as [|? ?]; intros; cbn [cloud_loop]; trs. Qed.
Hint Resolve t_cloud_loop : tr.
Lemma t_parseCloudEndpointsOptionConstant (perm : bool) (pc : M str) (n : nat) : T pc -> T (parseCloudEndpointsOptionConstant perm pc n).
Proof. intros. unfold parseCloudEndpointsOptionConstant. trs. Qed.
Hint Resolve t_parseCloudEndpointsOptionConstant : tr.
Lemma t_constants_loop (pc : M str) (n : nat) (opts : list str) : T pc -> T (constants_loop pc n opts).
Proof. intros. revert opts. induction n as [|? ?]; intros; cbn [constants_loop]; trs. Qed.
Hint Resolve t_constants_loop : tr.
Lemma t_parseOptionConstants (pc : M str) (n : nat) : T pc -> T (parseOptionConstants pc n).
Proof. intros. unfold parseOptionConstants. trs. Qed.
Hint Resolve t_parseOptionConstants : tr.
Lemma t_parseOptionConstant (perm : bool) (n : nat) : T (parseOptionConstant perm n).
Proof. intros. induction n as [|? ?]; intros; cbn [parseOptionConstant]; trs. Qed.
Hint Resolve t_parseOptionConstant : tr.
Lemma t_parseConstant (perm : bool) : T (parseConstant perm).
Proof. intros. unfold parseConstant. trs. Qed.
Hint Resolve t_parseConstant : tr.
Lemma t_ParseOption (perm : bool) : T (ParseOption perm).
Proof. intros. unfold ParseOption. trs. Qed.
Hint Resolve t_ParseOption : tr.
Lemma t_ParseSyntax  : T (ParseSyntax ).
Proof. intros. unfold ParseSyntax. trs. Qed.
Hint Resolve t_ParseSyntax : tr.
Lemma t_ParseEdition  : T (ParseEdition ).
Proof. intros. unfold ParseEdition. trs. Qed.
Hint Resolve t_ParseEdition : tr.
Lemma t_ParseImport  : T (ParseImport ).
Proof. intros. unfold ParseImport. trs. Qed.
Hint Resolve t_ParseImport : tr.
Lemma t_or_unexpected {A} (m : M A) (expected : string) : T m -> T (or_unexpected m expected).
Proof. intros. unfold or_unexpected. trs. Qed.
Hint Resolve t_or_unexpected : tr.
Lemma t_ParsePackage  : T (ParsePackage ).
Proof. intros. unfold ParsePackage. trs. Qed.
Hint Resolve t_ParsePackage : tr.
Lemma t_parseType  : T (parseType ).
Proof. intros. unfold parseType. trs. Qed.
Hint Resolve t_parseType : tr.
Lemma t_parseFieldNumber  : T (parseFieldNumber ).
Proof. intros. unfold parseFieldNumber. trs. Qed.
Hint Resolve t_parseFieldNumber : tr.
Lemma t_parseFieldOption (perm : bool) : T (parseFieldOption perm).
Proof. intros. unfold parseFieldOption. trs. Qed.
Hint Resolve t_parseFieldOption : tr.
Lemma t_fieldOptions_loop (perm : bool) (n : nat) (opts : list fieldOption) : T (fieldOptions_loop perm n opts).
Proof. intros. revert opts. induction n as [|? ?]; intros; cbn [fieldOptions_loop]; trs. Qed.
Hint Resolve t_fieldOptions_loop : tr.
Lemma t_parseFieldOptions (perm : bool) : T (parseFieldOptions perm).
Proof. intros. unfold parseFieldOptions. trs. Qed.
Hint Resolve t_parseFieldOptions : tr.
Lemma t_parseFieldOptionsOption (perm : bool) : T (parseFieldOptionsOption perm).
Proof. intros. unfold parseFieldOptionsOption. trs. Qed.
Hint Resolve t_parseFieldOptionsOption : tr.
Lemma t_parseLabel  : T (parseLabel ).
Proof. intros. unfold parseLabel. trs. Qed.
Hint Resolve t_parseLabel : tr.
Lemma t_ParseField (perm : bool) : T (ParseField perm).
Proof. intros. unfold ParseField. trs. Qed.
Hint Resolve t_ParseField : tr.
Lemma t_parseKeyType  : T (parseKeyType ).
Proof. intros. unfold parseKeyType. trs. Qed.
Hint Resolve t_parseKeyType : tr.
Lemma t_ParseMapField (perm : bool) : T (ParseMapField perm).
Proof. intros. unfold ParseMapField. trs. Qed.
Hint Resolve t_ParseMapField : tr.
Lemma t_peekIsGroup_tail  : T (peekIsGroup_tail ).
Proof. intros. unfold peekIsGroup_tail. trs. Qed.
Hint Resolve t_peekIsGroup_tail : tr.
Lemma t_peekIsGroup  : T (peekIsGroup ).
Proof. intros. unfold peekIsGroup. trs. Qed.
Hint Resolve t_peekIsGroup : tr.
Lemma t_blockEnd (perm : bool) : T (blockEnd perm).
Proof. intros. unfold blockEnd. trs. Qed.
Hint Resolve t_blockEnd : tr.
Lemma t_parseOneofField (perm : bool) : T (parseOneofField perm).
Proof. intros. unfold parseOneofField. trs. Qed.
Hint Resolve t_parseOneofField : tr.
Lemma t_oneof_loop (perm : bool) (n : nat) (fields : list oneofField) (options : list option_) : T (oneof_loop perm n fields options).
Proof. intros. revert fields options. induction n as [|? ?]; intros; cbn [oneof_loop]; trs. Qed.
Hint Resolve t_oneof_loop : tr.
Lemma t_ParseOneof (perm : bool) : T (ParseOneof perm).
Proof. intros. unfold ParseOneof. trs. Qed.
Hint Resolve t_ParseOneof : tr.
Lemma t_parseRange  : T (parseRange ).
Proof. intros. unfold parseRange. trs. Qed.
Hint Resolve t_parseRange : tr.
Lemma t_ranges_loop (n : nat) (ranges : list range) : T (ranges_loop n ranges).
Proof. intros. revert ranges. induction n as [|? ?]; intros; cbn [ranges_loop]; trs. Qed.
Hint Resolve t_ranges_loop : tr.
Lemma t_parseRanges  : T (parseRanges ).
Proof. intros. unfold parseRanges. trs. Qed.
Hint Resolve t_parseRanges : tr.
Lemma t_parseQuotedFieldName  : T (parseQuotedFieldName ).
Proof. intros. unfold parseQuotedFieldName. trs. Qed.
Hint Resolve t_parseQuotedFieldName : tr.
Lemma t_parseFieldName  : T (parseFieldName ).
Proof. intros. unfold parseFieldName. trs. Qed.
Hint Resolve t_parseFieldName : tr.
Lemma t_fieldNames_loop (n : nat) (names : list str) : T (fieldNames_loop n names).
Proof. intros. revert names. induction n as [|? ?]; intros; cbn [fieldNames_loop]; trs. Qed.
Hint Resolve t_fieldNames_loop : tr.
Lemma t_parseFieldNames  : T (parseFieldNames ).
Proof. intros. unfold parseFieldNames. trs. Qed.
Hint Resolve t_parseFieldNames : tr.
Lemma t_ParseReserved  : T (ParseReserved ).
Proof. intros. unfold ParseReserved. trs. Qed.
Hint Resolve t_ParseReserved : tr.
Lemma t_declaration_loop (n : nat) (v : decl_vars) : T (declaration_loop n v).
Proof. intros. revert v. induction n as [|? ?]; intros; cbn [declaration_loop]; trs. Qed.
Hint Resolve t_declaration_loop : tr.
Lemma t_ParseDeclaration  : T (ParseDeclaration ).
Proof. intros. unfold ParseDeclaration. trs. Qed.
Hint Resolve t_ParseDeclaration : tr.
Lemma t_declarations_loop (n : nat) (ds : list declaration) : T (declarations_loop n ds).
Proof. intros. revert ds. induction n as [|? ?]; intros; cbn [declarations_loop]; trs. Qed.
Hint Resolve t_declarations_loop : tr.
Lemma t_parseDeclarations  : T (parseDeclarations ).
Proof. intros. unfold parseDeclarations. trs. Qed.
Hint Resolve t_parseDeclarations : tr.
Lemma t_ParseExtensions  : T (ParseExtensions ).
Proof. intros. unfold ParseExtensions. trs. Qed.
Hint Resolve t_ParseExtensions : tr.
Lemma t_parseEnumValueOption (perm : bool) : T (parseEnumValueOption perm).
Proof. intros. unfold parseEnumValueOption. trs. Qed.
Hint Resolve t_parseEnumValueOption : tr.
Lemma t_enumValueOptions_loop (perm : bool) (n : nat) (opts : list enumValueOption) : T (enumValueOptions_loop perm n opts).
Proof. intros. revert opts. induction n as [|? ?]; intros; cbn [enumValueOptions_loop]; trs. Qed.
Hint Resolve t_enumValueOptions_loop : tr.
Lemma t_parseEnumValueOptions (perm : bool) : T (parseEnumValueOptions perm).
Proof. intros. unfold parseEnumValueOptions. trs. Qed.
Hint Resolve t_parseEnumValueOptions : tr.
Lemma t_parseEnumField (perm : bool) : T (parseEnumField perm).
Proof. intros. unfold parseEnumField. trs. Qed.
Hint Resolve t_parseEnumField : tr.
Lemma t_recoverEmpty (ferr : err) : E ferr -> T (recoverEmpty ferr).
Proof. intros. unfold recoverEmpty. trs. Qed.
Hint Resolve t_recoverEmpty : tr.
Lemma t_enumBody_loop (perm bic : bool) (ilc : option comment) (n : nat) (stmts : list visitee) : T (enumBody_loop perm bic ilc n stmts).
Proof. intros. revert stmts. induction n as [|? ?]; intros; cbn [enumBody_loop]; trs. Qed.
Hint Resolve t_enumBody_loop : tr.
Lemma t_parseEnumBody (perm bic : bool) : T (parseEnumBody perm bic).
Proof. intros. unfold parseEnumBody. trs. Qed.
Hint Resolve t_parseEnumBody : tr.
Lemma t_ParseEnum (perm bic : bool) : T (ParseEnum perm bic).
Proof. intros. unfold ParseEnum. trs. Qed.
Hint Resolve t_ParseEnum : tr.
Lemma t_emptyBody (perm : bool) : T (emptyBody perm).
Proof. intros. unfold emptyBody. trs. Qed.
Hint Resolve t_emptyBody : tr.
Lemma t_extendBody_loop (perm bic : bool) (ilc : option comment) (n : nat) (stmts : list visitee) : T (extendBody_loop perm bic ilc n stmts).
Proof. intros. revert stmts. induction n as [|? ?]; intros; cbn [extendBody_loop]; trs. Qed.
Hint Resolve t_extendBody_loop : tr.
Lemma t_parseExtendBody (perm bic : bool) : T (parseExtendBody perm bic).
Proof. intros. unfold parseExtendBody. trs. Qed.
Hint Resolve t_parseExtendBody : tr.
Lemma t_ParseExtend (perm bic : bool) : T (ParseExtend perm bic).
Proof. intros. unfold ParseExtend. trs. Qed.
Hint Resolve t_ParseExtend : tr.
Lemma t_ParseGroupField (mb : M body_result) : T mb -> T (ParseGroupField mb).
Proof. intros. unfold ParseGroupField. trs. Qed.
Hint Resolve t_ParseGroupField : tr.
Lemma t_ParseMessage_ (mb : M body_result) : T mb -> T (ParseMessage_ mb).
Proof. intros. unfold ParseMessage_. trs. Qed.
Hint Resolve t_ParseMessage_ : tr.
Lemma t_messageStmt (perm bic : bool) (mb : M body_result) (token : token) (comments : list comment) : T mb -> T (messageStmt perm bic mb token comments).
Proof. intros. unfold messageStmt. trs. Qed.
Hint Resolve t_messageStmt : tr.
Lemma t_messageBody_loop (perm bic : bool) (mb : M body_result) (ilc : option comment) (n : nat) (stmts : list visitee) : T mb -> T (messageBody_loop perm bic mb ilc n stmts).
Proof. intros. revert stmts. induction n as [|? ?]; intros; cbn [messageBody_loop]; trs. Qed.
Hint Resolve t_messageBody_loop : tr.
Lemma t_parseMessageBody (perm bic : bool) (n : nat) : T (parseMessageBody perm bic n).
Proof. intros. induction n as [|? ?]; intros; cbn [parseMessageBody]; trs. Qed.
Hint Resolve t_parseMessageBody : tr.
Lemma t_ParseMessage (perm bic : bool) (n : nat) : T (ParseMessage perm bic n).
Proof. intros. unfold ParseMessage. trs. Qed.
Hint Resolve t_ParseMessage : tr.
Lemma t_rpcOptions_loop (perm : bool) (n : nat) (options : list option_) : T (rpcOptions_loop perm n options).
Proof. intros. revert options. induction n as [|? ?]; intros; cbn [rpcOptions_loop]; trs. Qed.
Hint Resolve t_rpcOptions_loop : tr.
Lemma t_parseRPCOptions (perm : bool) : T (parseRPCOptions perm).
Proof. intros. unfold parseRPCOptions. trs. Qed.
Hint Resolve t_parseRPCOptions : tr.
Lemma t_parseRPCParam  : T (parseRPCParam ).
Proof. intros. unfold parseRPCParam. trs. Qed.
Hint Resolve t_parseRPCParam : tr.
Lemma t_parseRPC (perm : bool) : T (parseRPC perm).
Proof. intros. unfold parseRPC. trs. Qed.
Hint Resolve t_parseRPC : tr.
Lemma t_serviceBody_loop (perm bic : bool) (ilc : option comment) (n : nat) (stmts : list visitee) : T (serviceBody_loop perm bic ilc n stmts).
Proof. intros. revert stmts. induction n as [|? ?]; intros; cbn [serviceBody_loop]; trs. Qed.
Hint Resolve t_serviceBody_loop : tr.
Lemma t_parseServiceBody (perm bic : bool) : T (parseServiceBody perm bic).
Proof. intros. unfold parseServiceBody. trs. Qed.
Hint Resolve t_parseServiceBody : tr.
Lemma t_ParseService (perm bic : bool) : T (ParseService perm bic).
Proof. intros. unfold ParseService. trs. Qed.
Hint Resolve t_ParseService : tr.
Lemma t_parseBOM  : T (parseBOM ).
Proof. intros. unfold parseBOM. trs. Qed.
Hint Resolve t_parseBOM : tr.
Lemma t_protoStmt (perm bic : bool) (n : nat) (token : token) (comments : list comment) : T (protoStmt perm bic n token comments).
Proof. intros. unfold protoStmt. trs. Qed.
Hint Resolve t_protoStmt : tr.
Lemma t_protoBody_loop (perm bic : bool) (n : nat) (body : list visitee) : T (protoBody_loop perm bic n body).
Proof. intros. revert body. induction n as [|? ?]; intros; cbn [protoBody_loop]; trs. Qed.
Hint Resolve t_protoBody_loop : tr.
Lemma t_ParseProto (perm bic : bool) (n : nat) : T (ParseProto perm bic n).
Proof. intros. unfold ParseProto. trs. Qed.
Hint Resolve t_ParseProto : tr.
End Inv.
