(** Every element of every AST the parser returns is proper and its comments are
    comments, on any input. *)
From Coq Require Import List NArith ZArith Bool String Ascii Lia.
From Verif Require Import Base Token Scanner Lexer Ast Parser Api LexSpec Refine Tree Shape.
Import ListNotations.
Open Scope N_scope.
Open Scope monad_scope.

Definition CF (c : comment) : Prop := comment_form (c_raw c).
Definition CFo (c : option comment) : Prop := match c with Some c => CF c | None => True end.
Inductive Good (e : elem) : Prop :=
  good_intro : proper e -> Forall CF (e_all_comments e) -> Forall (Forall Good) (children e) -> Good e.
Definition GoodS (v : visitee) : Prop := Good (EStmt v).

(** ** Rules *)
Lemma W_pun {A} e s (Q : A -> st -> Prop) : Lx s -> W (p_unexpected e s) Q.
Proof. exact (fun H => H). Qed.
Lemma W_lun {A} e s (Q : A -> st -> Prop) : Lx s -> W (l_unexpected e s) Q.
Proof. exact (fun H => H). Qed.
Lemma W_expect t w s (Q : unit -> st -> Prop) : Lx s -> (ltok s = t -> Q tt s) -> W (expect t w s) Q.
Proof. intros L F. unfold expect. apply W_bind, W_gets. apply W_if; intros E; [apply W_ret, F, tokb_eq, E|exact L]. Qed.
Lemma W_lraw s r (Q : unit -> st -> Prop) : Lx s -> (forall s', Lx s' -> Q tt s') -> W (UnNextTo r s) Q.
Proof. intros L F. unfold UnNextTo. apply W_bind, W_modify. eapply W_call; [apply V_UnNext|exact L|]. intros [] s' L' _. auto. Qed.
Lemma V_or {A} (m : M A) e Phi : V m Phi -> V (or_unexpected m e) Phi.
Proof. intros H s L. unfold or_unexpected. apply W_try; [eapply W_call; [exact H|exact L|]; intros a s' L' P; apply W_ret; auto|]. intros x s' L'. exact L'. Qed.
Lemma V_weak {A} (m : M A) (Phi Psi : A -> Prop) : V m Phi -> (forall a, Phi a -> Psi a) -> V m Psi.
Proof. intros H F s L. eapply W_weak; [apply H; exact L|]. intros a s' [X Y]. auto. Qed.
Create HintDb vd.
#[global] Hint Resolve V_Next V_UnNext : vd.

Ltac wcall := eapply W_call; [solve [eauto with vd]|assumption|]; intros.
Ltac w := lazymatch goal with
  | |- W (bind _ _ _) _ => apply W_bind
  | |- W (ret _ _) _ => apply W_ret
  | |- W (gets _ _) _ => apply W_gets
  | |- W (fuel_here _) _ => apply W_gets
  | |- W (modify _ _) _ => apply W_modify
  | |- W (oof _) _ => exact I
  | |- W (panic _) _ => exact I
  | |- W (fail _ _) _ => apply W_fail; assumption
  | |- W (p_unexpected _ _) _ => apply W_pun; assumption
  | |- W (l_unexpected _ _) _ => apply W_lun; assumption
  | |- W (expect _ _ _) _ => apply W_expect; [assumption|]; intros ?
  | |- W (UnNextTo _ _) _ => apply W_lraw; [assumption|]; intros
  | |- W (try _ _ _) _ => apply W_try; [|intros ? ? ?]
  | |- W ((if ?b then _ else _) _) _ => let E := fresh "E" in destruct b eqn:E
  | |- W (match ?t with _ => _ end _) _ => let E := fresh "E" in destruct t eqn:E
  | |- W (match ?t with _ => _ end) _ => let E := fresh "E" in destruct t eqn:E
  | |- W _ _ => wcall
  | |- Lx _ /\ True => split; [assumption|exact I]
  end.
Ltac ws := repeat w.
Tactic Notation "wstart" := intros ? ?.

Lemma V_nextWith m : V0 (nextWithSpecificMode m).
Proof. wstart. unfold nextWithSpecificMode. ws. Qed.
Lemma V_NextKeyword : V0 NextKeyword. Proof. apply V_nextWith. Qed.
Lemma V_NextKS : V0 NextKeywordOrStrLit. Proof. apply V_nextWith. Qed.
Lemma V_NextStrLit : V0 NextStrLit. Proof. apply V_nextWith. Qed.
Lemma V_NextLit : V0 NextLit. Proof. apply V_nextWith. Qed.
Lemma V_NextNumberLit : V0 NextNumberLit. Proof. apply V_nextWith. Qed.
Lemma V_NextComment : V0 NextComment. Proof. apply V_nextWith. Qed.
#[global] Hint Resolve V_nextWith V_NextKeyword V_NextKS V_NextStrLit V_NextLit V_NextNumberLit V_NextComment : vd.
Lemma V_NextN n : V0 (NextN n).
Proof. induction n as [|n IH]; wstart; cbn [NextN]; ws. Qed.
Lemma V_Peek : V0 Peek. Proof. wstart. unfold Peek. ws. Qed.
Lemma V_nexts_raw n : forall l, V0 (nexts_raw n l).
Proof. induction n as [|n IH]; intros l; wstart; cbn [nexts_raw]; ws. Qed.
Lemma V_unnext_all l : V0 (unnext_all l).
Proof. induction l as [|r l IH]; wstart; cbn [unnext_all]; ws. Qed.
#[global] Hint Resolve V_NextN V_Peek V_nexts_raw V_unnext_all : vd.
Lemma V_PeekN n : V0 (PeekN n). Proof. wstart. unfold PeekN. ws. Qed.
Lemma V_ConsumeToken t : V0 (ConsumeToken t). Proof. wstart. unfold ConsumeToken. ws. Qed.
Lemma V_ReadEmpty : V0 ReadEmptyStatement. Proof. wstart. unfold ReadEmptyStatement. ws. Qed.
Lemma V_fullIdent_loop n : forall acc, V0 (fullIdent_loop n acc).
Proof. induction n as [|n IH]; intros acc; wstart; cbn [fullIdent_loop]; unfold lex_IsEOF; ws. Qed.
#[global] Hint Resolve V_PeekN V_ConsumeToken V_ReadEmpty V_fullIdent_loop : vd.
Lemma V_ReadFullIdent : V0 ReadFullIdent. Proof. wstart. unfold ReadFullIdent. ws. Qed.
Lemma V_messageType_loop n : forall acc, V0 (messageType_loop n acc).
Proof. induction n as [|n IH]; intros acc; wstart; cbn [messageType_loop]; unfold lex_IsEOF; ws. Qed.
#[global] Hint Resolve V_ReadFullIdent V_messageType_loop : vd.
Lemma V_ReadMessageType : V0 ReadMessageType. Proof. wstart. unfold ReadMessageType. ws. Qed.
Lemma V_merge_loop n : forall q b, V0 (merge_loop n q b).
Proof. induction n as [|n IH]; intros q b; wstart; cbn [merge_loop]; ws. Qed.
#[global] Hint Resolve V_ReadMessageType V_merge_loop : vd.
Lemma V_merge : V0 mergeMultilineStrLit. Proof. wstart. unfold mergeMultilineStrLit. ws. Qed.
#[global] Hint Resolve V_merge : vd.
Lemma V_ReadConstant p : V0 (ReadConstant p). Proof. wstart. unfold ReadConstant. ws. Qed.
#[global] Hint Resolve V_ReadConstant : vd.

Lemma Lx_tok s t : Lx s -> ltok s = t -> tok_ok t (ltext s).
Proof. intros [H _] <-. exact H. Qed.
Lemma V_peekKeyword : V0 peekKeyword. Proof. wstart. unfold peekKeyword. ws. Qed.
Lemma V_p_IsEOF : V0 p_IsEOF. Proof. wstart. unfold p_IsEOF, lex_IsEOF. ws. Qed.
#[global] Hint Resolve V_peekKeyword V_p_IsEOF : vd.
Lemma V_mk_comment p x : comment_form x -> V (mk_comment p x) CF.
Proof. intros H s L. unfold mk_comment. destruct (AdvancedBulk p (cols s) x) as [lp cl]. split; [exact L|exact H]. Qed.
Lemma V_parseComment : V parseComment CF.
Proof.
  intros s L. unfold parseComment. w. w. w. w. w.
  - w. w. w. w. apply V_mk_comment; [|assumption]. apply (Lx_tok _ TCOMMENT); [assumption|apply tokb_eq; assumption].
  - cbv zeta. ws.
Qed.
#[global] Hint Resolve V_parseComment : vd.
Lemma V_comments_loop n : forall acc, Forall CF acc -> V (parseComments_loop n acc) (Forall CF).
Proof.
  induction n as [|n IH]; intros acc H s L; cbn [parseComments_loop]; [exact I|]. w.
  - w. apply IH; [|assumption]. apply Forall_app. split; [exact H|constructor; [assumption|constructor]].
  - w. split; assumption.
Qed.
Lemma V_ParseComments : V ParseComments (Forall CF).
Proof. wstart. unfold ParseComments. w. w. apply V_comments_loop; [constructor|assumption]. Qed.
#[global] Hint Resolve V_ParseComments : vd.
Lemma V_mk_comments l : Forall (fun c => comment_form (Literal c)) l -> V (mk_comments l) (Forall CF).
Proof.
  induction 1 as [|c l H F IH]; wstart; cbn [mk_comments]; [w; split; [assumption|constructor]|]. w. eapply W_call; [apply V_mk_comment; exact H|assumption|]. intros. w. w. w.
  split; [assumption|constructor; assumption].
Qed.
Lemma Forall_unique P l : forall acc, Forall P acc -> Forall P l -> Forall P (unique_comments acc l).
Proof.
  induction l as [|c l IH]; intros acc HA HL; cbn; [exact HA|]. apply Forall_cons_iff in HL. destruct HL as [HC HL]. destruct (existsb _ acc); [auto|]. apply IH; [|exact HL]. apply Forall_app. auto.
Qed.
Lemma V_embedded a b : V (findEmbeddedComments a b) (Forall CF).
Proof.
  intros s L. unfold findEmbeddedComments. w. w. apply V_mk_comments; [|exact L]. unfold FindMidComments, GetScannedComments. destruct L as [_ L].
  apply (Forall_unique _ _ []) in L; [|constructor]. rewrite Forall_forall in *. intros x X. apply filter_In in X. apply L. tauto.
Qed.
Lemma V_inline : V parseInlineComment CFo.
Proof. wstart. unfold parseInlineComment. ws; split; try assumption; exact I. Qed.
#[global] Hint Resolve V_embedded V_inline : vd.
Lemma V_maybe {A} (set : comment -> A -> option A) (x : A) (Phi : A -> Prop) : Phi x -> (forall c x', CF c -> set c x = Some x' -> Phi x') -> V (MaybeScanInlineComment set x) Phi.
Proof.
  intros P F s L. unfold MaybeScanInlineComment. w. w. w; [|w; split; assumption]. w; [|exact I]. w. split; [assumption|]. subst. eapply F; eassumption.
Qed.

(** ** Options *)
Lemma V_paren p n : V0 (parseParenName p n). Proof. wstart. unfold parseParenName. ws. Qed.
#[global] Hint Resolve V_paren : vd.
Lemma V_optionName_loop p n : forall x, V0 (optionName_loop p n x).
Proof. induction n as [|n IH]; intros x; wstart; cbn [optionName_loop]; ws. Qed.
#[global] Hint Resolve V_optionName_loop : vd.
Lemma V_optionName p : V0 (parseOptionName p). Proof. wstart. unfold parseOptionName. ws. Qed.
#[global] Hint Resolve V_optionName : vd.
Lemma V_cloud_loop p pc n : V0 pc -> forall x, V0 (cloud_loop p pc n x).
Proof. intros HP. induction n as [|n IH]; intros x; wstart; cbn [cloud_loop]; ws. Qed.
Lemma V_cloud p pc n : V0 pc -> V0 (parseCloudEndpointsOptionConstant p pc n).
Proof. intros HP. pose proof (V_cloud_loop p pc n HP). wstart. unfold parseCloudEndpointsOptionConstant. ws. Qed.
Lemma V_constants_loop pc n : V0 pc -> forall x, V0 (constants_loop pc n x).
Proof. intros HP. induction n as [|n IH]; intros x; wstart; cbn [constants_loop]; ws. Qed.
Lemma V_constants pc n : V0 pc -> V0 (parseOptionConstants pc n).
Proof. intros HP. pose proof (V_constants_loop pc n HP). wstart. unfold parseOptionConstants. ws. Qed.
#[global] Hint Resolve V_cloud V_constants : vd.
Lemma V_optionConstant p n : V0 (parseOptionConstant p n).
Proof. induction n as [|n IH]; wstart; cbn [parseOptionConstant]; ws. Qed.
#[global] Hint Resolve V_optionConstant : vd.
Lemma V_parseConstant p : V0 (parseConstant p). Proof. wstart. unfold parseConstant. ws. Qed.
#[global] Hint Resolve V_parseConstant : vd.
