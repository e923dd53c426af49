(** Services and whole files: here the comments the scanner has recorded are
    needed, so the refinement is taken with [full = true]. *)
From Coq Require Import List NArith ZArith Bool String Ascii Lia.
From Verif Require Import Base Token Scanner Lexer Ast Parser Lexing ScanRefine LexFacts LexSpec LexProofs
  ScanFacts LexerFacts ScanProps Cursor Pure Refine RefineRules RefineParser Strict.
Import ListNotations.
Open Scope N_scope.
Open Scope pure_scope.

Global Hint Resolve r_empty r_fullIdent r_messageType r_constant r_comments r_inline r_maybe r_option r_syntax r_edition
  r_import r_package r_blockEnd r_enum r_extend r_message : rl.
Section F.
Variable fsrc : list rune.
Variable p0 : mpos.
Notation At := (At (mkF true fsrc) p0).
Notation AtT := (AtT (mkF true fsrc) p0).
Notation AtU := (AtU (mkF true fsrc) p0).
Notation R := (R (mkF true fsrc) p0).
Ltac rgo := intros; unfold NextKeywordOrStrLit, NextKeyword, NextStrLit, NextLit, NextNumberLit, NextComment in *;
  repeat first [solve [auto 2 with rl nocore] | rstep].

Lemma mk_comments_at t k l : forall s, AtT t k s -> cms_ok p0 (cc k ++ cr k) l ->
  exists s', mk_comments l s = (Ok (map (fun t => qcomment (TPos t) (Literal t)) l), s') /\ AtT t k s'.
Proof.
  induction l as [|c l IH]; intros s X H; cbn [mk_comments map].
  - exists s. split; [reflexivity|exact X].
  - inversion H as [|? ? (NE & x & y & E & P) H']; subst.
    destruct (mk_comment_at _ _ k s (TPos c) (Literal c) x y (att_at _ _ _ _ _ X) E P NE) as (cl & Q & X1).
    rwb Q. pose proof (AtT_set _ _ _ _ _ _ X X1) as T1. destruct (IH _ T1 H') as (s2 & Q2 & T2). rwb Q2.
    exists s2. split; [reflexivity|exact T2].
Qed.
Lemma cms_ok_incl src l l' : cms_ok p0 src l -> incl l' l -> cms_ok p0 src l'.
Proof. unfold cms_ok. rewrite !Forall_forall. intros H I x Hx. apply H, I, Hx. Qed.
Lemma unique_incl l : forall acc, incl (unique_comments acc l) (acc ++ l).
Proof.
  induction l as [|c l IH]; intros acc; cbn [unique_comments].
  - rewrite app_nil_r. apply incl_refl.
  - destruct (existsb _ acc).
    + intros x Hx. apply IH in Hx. apply in_app_iff in Hx. apply in_app_iff. cbn. tauto.
    + intros x Hx. apply IH in Hx. rewrite <- app_assoc in Hx. exact Hx.
Qed.
Lemma R_embedded {A} t from to (f : list comment -> M A) g : (forall l, R (AtT t) (f l) (g l)) ->
  R (AtT t) (x <- findEmbeddedComments from to;; f x)%monad (x <-- qEmbedded from to;; g x).
Proof.
  intros H. apply R_intro. intros k s X. unfold findEmbeddedComments. rewrite bind_assoc, bind_gets.
  unfold FindMidComments, GetScannedComments. rewrite (at_cms _ _ _ _ (att_at _ _ _ _ _ X)).
  set (l := filter _ (unique_comments [] (cm k))).
  destruct (mk_comments_at t k l s X) as (s' & Q & X').
  { eapply cms_ok_incl; [apply (at_com _ _ _ _ (att_at _ _ _ _ _ X)); reflexivity|].
    intros x Hx. apply filter_In in Hx. destruct Hx as [Hx _]. apply (unique_incl (cm k) []) in Hx. exact Hx. }
  rwb Q. unfold qEmbedded. unfold pbind. apply (R_elim _ _ _ _ _ (H _)). exact X'.
Qed.

Lemma r_rpcOptions_loop perm n : forall o, R At (rpcOptions_loop perm n o) (qRpcOptions_loop p0 perm n o).
Proof.
  induction n as [|n IH]; intros o; cbn [rpcOptions_loop qRpcOptions_loop]; [rgo|].
  rstep. apply R_weaku. apply R_bind; [|rgo].
  assert (D : R At (ReadEmptyStatement;; ret o)%monad (qReadEmptyStatement p0;;; pret o)) by rgo.
  destruct (tk t); try exact D; rgo.
Qed.
Hint Resolve r_rpcOptions_loop : rl.
Lemma r_rpcOptions perm : R At (parseRPCOptions perm) (qRpcOptions p0 perm).
Proof. unfold parseRPCOptions, qRpcOptions. rgo. Qed.
Hint Resolve r_rpcOptions : rl.
Lemma r_rpcParam : R At parseRPCParam (qRpcParam p0).
Proof.
  unfold parseRPCParam, qRpcParam, NextKeyword. do 5 rstep. apply R_bind; rgo.
Qed.
Hint Resolve r_rpcParam : rl.
Lemma r_rpc perm : R At (parseRPC perm) (qRPC p0 perm).
Proof.
  unfold parseRPC, qRPC, NextKeyword. do 6 rstep. rstep; [rgo|]. rstep. rstep. rstep; [rgo|]. rstep. rstep. apply R_embedded. intros l.
  rstep. apply R_bind; [|rgo]. destruct (tk _) eqn:?; rgo.
Qed.
Hint Resolve r_rpc : rl.
Lemma r_serviceBody_loop perm bic ilc n : forall l, R At (serviceBody_loop perm bic ilc n l) (qServiceBody_loop p0 perm bic ilc n l).
Proof.
  induction n as [|n IH]; intros l; cbn [serviceBody_loop qServiceBody_loop]; [rgo|].
  rstep; [rgo|]. rstep. apply R_weaku.
  assert (D : R At (ReadEmptyStatement;; ret (VEmpty (mkEmpty None)))%monad (qReadEmptyStatement p0;;; pret (VEmpty (mkEmpty None)))) by rgo.
  pose proof (r_bodyEnd (mkF true fsrc) p0 perm bic ilc l a).
  destruct (tk t); try (apply R_bind; [exact D|rgo]); rgo.
Qed.
Hint Resolve r_serviceBody_loop : rl.
Lemma r_serviceBody perm bic : R At (parseServiceBody perm bic) (qServiceBody p0 perm bic).
Proof. unfold parseServiceBody, qServiceBody. rgo. Qed.
Hint Resolve r_serviceBody : rl.
Lemma r_service perm bic : R At (ParseService perm bic) (qParseService p0 perm bic).
Proof. unfold ParseService, qParseService. rgo. Qed.
Hint Resolve r_service : rl.
Lemma r_bom : R At parseBOM (qBOM p0).
Proof. unfold parseBOM, qBOM. rgo. Qed.
Hint Resolve r_bom : rl.
Lemma r_protoStmt perm bic n t c : R At (protoStmt perm bic n t c) (qProtoStmt p0 perm bic n t c).
Proof.
  unfold protoStmt, qProtoStmt.
  assert (D : R At (ReadEmptyStatement;; ret ([VEmpty (mkEmpty None)], VNil))%monad
     (qReadEmptyStatement p0;;; pret ([VEmpty (mkEmpty None)], VNil))) by rgo.
  destruct t; try exact D; rgo.
Qed.
Hint Resolve r_protoStmt : rl.
Lemma r_protoBody_loop perm bic n : forall l, R At (protoBody_loop perm bic n l) (qProtoBody_loop p0 perm bic n l).
Proof. induction n as [|n IH]; intros l; cbn [protoBody_loop qProtoBody_loop]; rgo. Qed.
Hint Resolve r_protoBody_loop : rl.
Lemma r_proto perm bic n : R At (ParseProto perm bic n) (qParseProto p0 perm bic n).
Proof.
  unfold ParseProto, qParseProto. rstep; [rgo|]. rstep; [rgo|]. rstep; [rgo|]. apply R_bind; [rgo|]. intros sy.
  rstep; [rgo|]. apply R_bind; [rgo|]. intros ed. rstep; [rgo|].
  apply R_intro. intros k s X. rewrite bind_gets, (at_lpos _ _ _ _ X). exists s. split; [reflexivity|exact X].
Qed.
(** without the recovery behind a failed group *)
Lemma r_protoStmt' perm bic n t c : R At (protoStmt' perm bic n t c) (qProtoStmt' p0 perm bic n t c).
Proof.
  unfold protoStmt', qProtoStmt'.
  assert (D : R At (ReadEmptyStatement;; ret ([VEmpty (mkEmpty None)], VNil))%monad
     (qReadEmptyStatement p0;;; pret ([VEmpty (mkEmpty None)], VNil))) by rgo.
  pose proof (r_message_ (mkF true fsrc) p0 _ _ (r_messageBody' (mkF true fsrc) p0 perm bic n)). destruct t; try exact D; rgo.
Qed.
Hint Resolve r_protoStmt' : rl.
Lemma r_protoBody_loop' perm bic n : forall l, R At (protoBody_loop' perm bic n l) (qProtoBody_loop' p0 perm bic n l).
Proof. induction n as [|n IH]; intros l; cbn [protoBody_loop' qProtoBody_loop']; rgo. Qed.
Hint Resolve r_protoBody_loop' : rl.
Lemma r_proto' perm bic n : R At (ParseProto' perm bic n) (qParseProto' p0 perm bic n).
Proof.
  unfold ParseProto', qParseProto', protoRest, qProtoRest. rstep; [rgo|]. rstep; [rgo|]. rstep; [rgo|]. apply R_bind; [rgo|]. intros sy.
  rstep; [rgo|]. apply R_bind; [rgo|]. intros ed. rstep; [rgo|].
  apply R_intro. intros k s X. rewrite bind_gets, (at_lpos _ _ _ _ X). exists s. split; [reflexivity|exact X].
Qed.
End F.

(** ** The whole parse *)
Definition start (input : list rune) : cur := mkCur [] input [] zero_pos.
Definition pos0 (fn : str) : mpos := mkPos fn 0 1 1.
Lemma At_init fn input : nonul input -> At (mkF true input) (pos0 fn) (start input) (init_st fn input).
Proof.
  intros N. split; cbn; try reflexivity.
  - intros a b E. destruct a; discriminate.
  - exact N.
  - intros _. constructor.
Qed.
Theorem parse_refines perm bic n fn input : nonul input ->
  out (mkF true input) (pos0 fn) (qParseProto (pos0 fn) perm bic n (start input)) (ParseProto perm bic n (init_st fn input)).
Proof. intros N. apply (R_elim _ _ _ _ _ (r_proto input (pos0 fn) perm bic n)). apply At_init. exact N. Qed.
Theorem parse_refines' perm bic n fn input : nonul input ->
  out (mkF true input) (pos0 fn) (qParseProto' (pos0 fn) perm bic n (start input)) (ParseProto' perm bic n (init_st fn input)).
Proof. intros N. apply (R_elim _ _ _ _ _ (r_proto' input (pos0 fn) perm bic n)). apply At_init. exact N. Qed.
