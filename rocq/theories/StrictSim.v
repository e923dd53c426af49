(** The strict parser of Strict.v accepts every text whose tree has no empty
    statement directly inside a message or group. *)
From Coq Require Import List NArith ZArith Bool String Ascii.
From Verif Require Import Base Token Scanner Lexer Ast Parser Strict Tree.
Import ListNotations.
Open Scope N_scope.
Open Scope monad_scope.

(** statements of a message that are empty or have one further down *)
Inductive bad : visitee -> Prop :=
| bad_empty x : bad (VEmpty x)
| bad_message b v : In v (b_body b) -> bad v -> bad (VMessage b)
| bad_group g v : In v (g_body g) -> bad v -> bad (VGroupField g).
Definition bads (l : list visitee) : Prop := exists v, In v l /\ bad v.
Definition badb (b : body_result) : Prop := bads (fst (fst b)).
Lemma bads_app l l' : bads l -> bads (l ++ l').
Proof. intros (v & I & B). exists v. split; [apply in_or_app; left; exact I|exact B]. Qed.
Lemma bads_last l v : bad v -> bads (l ++ [v]).
Proof. intros B. exists v. split; [apply in_or_app; right; left; reflexivity|exact B]. Qed.
Lemma bad_comments cs v : bad v -> bad (with_comments cs v).
Proof. intros [x|b w I B|g w I B]; [constructor|econstructor; [exact I|exact B]|econstructor; [exact I|exact B]]. Qed.
Lemma bad_inline c v v' : bad v -> set_inline c v = Some v' -> bad v'.
Proof. intros [x|b w I B|g w I B] E; injection E as <-; [constructor|econstructor; [exact I|exact B]|econstructor; [exact I|exact B]]. Qed.

Definition Keeps {A B} (P : A -> Prop) (Q : B -> Prop) (f : A -> M B) : Prop := forall a s b s', P a -> f a s = (Ok b, s') -> Q b.
Definition Sim {A} (P : A -> Prop) (m m' : M A) : Prop := forall s a s', m s = (Ok a, s') -> P a \/ m' s = (Ok a, s').
Lemma bind_ok {A B} (m : M A) (f : A -> M B) s b s' : (x <- m;; f x) s = (Ok b, s') -> exists a s1, m s = (Ok a, s1) /\ f a s1 = (Ok b, s').
Proof. unfold bind. destruct (m s) as [[a|e| |] s1]; try discriminate. intros H. exists a, s1. auto. Qed.
Lemma bind_eq {A B} (m : M A) (f : A -> M B) s a s1 : m s = (Ok a, s1) -> (x <- m;; f x) s = f a s1.
Proof. intros H. unfold bind. rewrite H. reflexivity. Qed.
Lemma Sim_refl {A} (P : A -> Prop) m : Sim P m m. Proof. intros s a s' H. right. exact H. Qed.
Lemma Sim_bind {A B} (P : A -> Prop) (Q : B -> Prop) m m' f f' : Sim P m m' -> Keeps P Q f -> (forall a, Sim Q (f a) (f' a)) -> Sim Q (bind m f) (bind m' f').
Proof.
  intros H K F s b s' E. apply bind_ok in E. destruct E as (a & s1 & E1 & E2). destruct (H _ _ _ E1) as [PA|E1']; [left; eapply K; eassumption|].
  rewrite (bind_eq _ _ _ _ _ E1'). apply F. exact E2.
Qed.
Lemma Sim_same {A B} (Q : B -> Prop) (m : M A) f f' : (forall a, Sim Q (f a) (f' a)) -> Sim Q (bind m f) (bind m f').
Proof. intros F. apply (Sim_bind (fun _ => False)); [apply Sim_refl| |exact F]. intros a s b s' []. Qed.
Lemma Keeps_ret {A B} (P : A -> Prop) (Q : B -> Prop) (f : A -> B) : (forall a, P a -> Q (f a)) -> Keeps P Q (fun a => ret (f a)).
Proof. intros H a s b s' PA E. injection E as <- _. auto. Qed.
Lemma keeps_inline {B} (Q : B -> Prop) (f : visitee -> M B) : Keeps bad Q f -> Keeps bad Q (fun v => v <- MaybeScanInlineComment set_inline v;; f v).
Proof.
  intros K v s b s' BV E. apply bind_ok in E. destruct E as (v' & s1 & E1 & E2). eapply K; [|exact E2].
  unfold MaybeScanInlineComment in E1. apply bind_ok in E1. destruct E1 as (ic & s2 & _ & E1). destruct ic as [c|]; [|injection E1 as <- _; exact BV].
  destruct (set_inline c v) as [w|] eqn:S; [|discriminate E1]. injection E1 as <- _. eapply bad_inline; eassumption.
Qed.

Lemma recover_bad e s v s' : recoverEmpty e s = (Ok v, s') -> bad v.
Proof.
  unfold recoverEmpty. intros E. apply bind_ok in E. destruct E as (u & s1 & _ & E). unfold try in E.
  destruct (ReadEmptyStatement s1) as [[a|e1| |] s2]; try discriminate E. injection E as <- _. constructor.
Qed.
Lemma sim_groupField mb mb' : Sim badb mb mb' -> Sim (fun g => bads (g_body g)) (ParseGroupField mb) (ParseGroupField mb').
Proof.
  intros H. unfold ParseGroupField. apply Sim_same. intros (p & ((a & b) & c)). do 4 (apply Sim_same; intros). apply Sim_same. intros nm. destruct (negb _); [apply Sim_refl|].
  do 2 (apply Sim_same; intros). apply Sim_same. intros num. eapply Sim_bind; [exact H| |intros; apply Sim_refl].
  intros [[vs lc] q] s g s' B E. injection E as <- _. exact B.
Qed.
Lemma sim_message_ mb mb' : Sim badb mb mb' -> Sim (fun g => bads (b_body g)) (ParseMessage_ mb) (ParseMessage_ mb').
Proof.
  intros H. unfold ParseMessage_. do 5 (apply Sim_same; intros). apply Sim_same. intros nm. eapply Sim_bind; [exact H| |intros; apply Sim_refl].
  intros [[vs lc] q] s g s' B E. injection E as <- _. exact B.
Qed.
Lemma bad_msg b : bads (b_body b) -> bad (VMessage b).
Proof. intros (v & I & B). econstructor; eassumption. Qed.
Lemma bad_grp b : bads (g_body b) -> bad (VGroupField b).
Proof. intros (v & I & B). econstructor; eassumption. Qed.
Lemma sim_messageStmt perm bic mb mb' t cs : Sim badb mb mb' -> Sim bad (messageStmt perm bic mb t cs) (messageStmt' perm bic mb' t cs).
Proof.
  intros H. unfold messageStmt, messageStmt'.
  assert (D : Sim bad (isGroup <- peekIsGroup;;
    if isGroup then try (ParseGroupField mb) (fun r => match r with inl g => ret (with_comments cs (VGroupField g)) | inr e => recoverEmpty e end)
    else try (ParseField perm) (fun r => match r with inl f => ret (with_comments cs (VField f)) | inr e => recoverEmpty e end))
   (isGroup <- peekIsGroup;;
    if isGroup then g <- ParseGroupField mb';; ret (with_comments cs (VGroupField g))
    else try (ParseField perm) (fun r => match r with inl f => ret (with_comments cs (VField f)) | inr e => recoverEmpty e end))).
  { apply Sim_same. intros []; [|apply Sim_refl]. intros s v s' E. unfold try in E. destruct (ParseGroupField mb s) as [[g|e| |] s1] eqn:EG; try discriminate E.
    - destruct (sim_groupField _ _ H _ _ _ EG) as [B|EG'].
      + left. injection E as <- _. exact (bad_comments cs _ (bad_grp _ B)).
      + right. rewrite (bind_eq _ _ _ _ _ EG'). exact E.
    - left. eapply recover_bad. exact E. }
  destruct t; try exact D; try exact (Sim_refl _ _). eapply Sim_bind; [apply sim_message_; exact H| |intros; apply Sim_refl].
  apply Keeps_ret. intros b B. apply bad_comments, bad_msg, B.
Qed.
Lemma loop_keeps perm bic mb ilc : forall n l s b s', bads l -> messageBody_loop perm bic mb ilc n l s = (Ok b, s') -> badb b.
Proof.
  induction n as [|n IH]; intros l s b s' B E; [discriminate E|]. cbn [messageBody_loop] in E. apply bind_ok in E. destruct E as (cs & s1 & _ & E).
  apply bind_ok in E. destruct E as (t & s2 & _ & E).
  assert (D : (stmt <- messageStmt perm bic mb t cs;; stmt <- MaybeScanInlineComment set_inline stmt;; messageBody_loop perm bic mb ilc n (l ++ [stmt])) s2 = (Ok b, s') -> badb b).
  { clear E. intros E. apply bind_ok in E. destruct E as (v & s3 & _ & E). apply bind_ok in E. destruct E as (v' & s4 & _ & E). eapply IH; [|exact E]. apply bads_app. exact B. }
  destruct t; try exact (D E). clear D. apply bind_ok in E. destruct E as (u & s3 & _ & E). apply bind_ok in E. destruct E as (p & s4 & _ & E).
  injection E as <- _. unfold badb. cbn [fst]. apply bads_app. exact B.
Qed.
Lemma sim_loop perm bic mb mb' ilc : Sim badb mb mb' -> forall n l, Sim badb (messageBody_loop perm bic mb ilc n l) (messageBody_loop' perm bic mb' ilc n l).
Proof.
  intros H. induction n as [|n IH]; intros l; cbn [messageBody_loop messageBody_loop']; [apply Sim_refl|]. apply Sim_same. intros cs. apply Sim_same. intros t.
  assert (D : Sim badb (stmt <- messageStmt perm bic mb t cs;; stmt <- MaybeScanInlineComment set_inline stmt;; messageBody_loop perm bic mb ilc n (l ++ [stmt]))
    (stmt <- messageStmt' perm bic mb' t cs;; stmt <- MaybeScanInlineComment set_inline stmt;; messageBody_loop' perm bic mb' ilc n (l ++ [stmt]))).
  { eapply Sim_bind; [apply sim_messageStmt; exact H| |].
    - apply keeps_inline. intros v s b s' B E. eapply loop_keeps; [|exact E]. apply bads_last. exact B.
    - intros v. apply Sim_same. intros v'. apply IH. }
  destruct t; try exact D. apply Sim_refl.
Qed.
Lemma sim_messageBody perm bic n : Sim badb (parseMessageBody perm bic n) (parseMessageBody' perm bic n).
Proof.
  induction n as [|n IH]; cbn [parseMessageBody parseMessageBody']; [apply Sim_refl|]. do 3 (apply Sim_same; intros). apply Sim_same. intros [q|]; [apply Sim_refl|].
  apply sim_loop. exact IH.
Qed.

(** statements of a file *)
Definition badm (v : visitee) : Prop := match v with VMessage b => bads (b_body b) | _ => False end.
Definition badms (l : list visitee) : Prop := exists v, In v l /\ badm v.
Lemma badms_app l l' : badms l -> badms (l ++ l').
Proof. intros (v & I & B). exists v. split; [apply in_or_app; left; exact I|exact B]. Qed.
Lemma sim_protoStmt perm bic n t cs : Sim (fun x => badm (snd x)) (protoStmt perm bic n t cs) (protoStmt' perm bic n t cs).
Proof.
  unfold protoStmt, protoStmt'. destruct t; try exact (Sim_refl _ _). eapply Sim_bind; [apply sim_message_, sim_messageBody| |intros; apply Sim_refl].
  apply Keeps_ret. intros b B. exact B.
Qed.
Lemma proto_keeps perm bic : forall n l s b s', badms l -> protoBody_loop perm bic n l s = (Ok b, s') -> badms b.
Proof.
  induction n as [|n IH]; intros l s b s' B E; [discriminate E|]. cbn [protoBody_loop] in E. apply bind_ok in E. destruct E as (cs & s1 & _ & E).
  apply bind_ok in E. destruct E as (e & s2 & _ & E). destruct e; [injection E as <- _; apply badms_app; exact B|].
  apply bind_ok in E. destruct E as (t & s3 & _ & E). apply bind_ok in E. destruct E as ([pre v] & s4 & _ & E). apply bind_ok in E. destruct E as (v' & s5 & _ & E).
  eapply IH; [|exact E]. apply badms_app. exact B.
Qed.
Lemma badm_inline v s v' s' : badm v -> MaybeScanInlineComment set_inline v s = (Ok v', s') -> badm v'.
Proof.
  intros B E. unfold MaybeScanInlineComment in E. apply bind_ok in E. destruct E as (ic & s2 & _ & E). destruct ic as [c|]; [|injection E as <- _; exact B].
  destruct v; try destruct B. injection E as <- _. eexists. eassumption.
Qed.
Lemma sim_protoBody perm bic : forall n l, Sim badms (protoBody_loop perm bic n l) (protoBody_loop' perm bic n l).
Proof.
  induction n as [|n IH]; intros l; cbn [protoBody_loop protoBody_loop']; [apply Sim_refl|]. apply Sim_same. intros cs. apply Sim_same. intros []; [apply Sim_refl|].
  apply Sim_same. intros t. eapply Sim_bind; [apply sim_protoStmt| |].
  - intros [pre v] s b s' B E. apply bind_ok in E. destruct E as (v' & s1 & E1 & E). eapply proto_keeps; [|exact E]. exists v'. split; [|eapply badm_inline; eassumption].
    apply in_or_app. right. apply in_or_app. right. left. reflexivity.
  - intros [pre v]. apply Sim_same. intros v'. apply IH.
Qed.
Lemma sim_proto perm bic n : Sim (fun p => badms (p_body p)) (ParseProto perm bic n) (ParseProto' perm bic n).
Proof.
  rewrite ParseProto_rest. unfold ParseProto', protoRest. do 6 (apply Sim_same; intros). eapply Sim_bind; [apply sim_protoBody| |intros; apply Sim_refl].
  intros body s p s' B E. apply bind_ok in E. destruct E as (f & s1 & _ & E). injection E as <- _. exact B.
Qed.

Lemma bad_element pr v : bad v -> forall e l, element pr e -> match e with EStmt (VMessage _) | EStmt (VGroupField _) => True | _ => False end ->
  In l (children e) -> In (EStmt v) l -> ~ no_empty_in_messages pr.
Proof.
  induction 1 as [x|b w I B IH|g w I B IH]; intros e l HE HH IL IV NE.
  - exact (NE e l x HE HH IL IV).
  - apply (IH (EStmt (VMessage b)) (map EStmt (b_body b))); [eapply el_child; eassumption|exact Logic.I|left; reflexivity|apply in_map; exact I|exact NE].
  - apply (IH (EStmt (VGroupField g)) (map EStmt (g_body g))); [eapply el_child; eassumption|exact Logic.I|left; reflexivity|apply in_map; exact I|exact NE].
Qed.
Lemma strict_accepts perm bic n s pr s' : no_empty_in_messages pr -> ParseProto perm bic n s = (Ok pr, s') -> ParseProto' perm bic n s = (Ok pr, s').
Proof.
  intros NE E. destruct (sim_proto perm bic n _ _ _ E) as [(v & I & B)|E']; [|exact E']. exfalso. destruct v as [| | | | | | | | | | | | | |b| | |]; try (exact B).
  destruct B as (w & IW & BW). apply (bad_element pr w BW (EStmt (VMessage b)) (map EStmt (b_body b))); [|exact Logic.I|left; reflexivity|apply in_map; exact IW|exact NE].
  apply el_root. unfold roots. apply in_or_app. right. apply in_or_app. right. apply in_map. exact I.
Qed.
