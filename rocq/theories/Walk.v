(** C26: the order in which Accept calls a visitor. *)
From Coq Require Import List NArith ZArith Bool String.
From Verif Require Import Base Token Scanner Ast Visitor Direct.
Import ListNotations.

(** ** Specification: trees of visits, walked in pre-order *)

(** A visit and the visits below it; [TStop] is a nil element (calling Accept on
    it panics). *)
Inductive vtree := TNode (n : node) (kids : list vtree) | TStop.

Definition leaf (n : node) : vtree := TNode n [].
Definition opt_leaf (c : option comment) : list vtree :=
  match c with Some c => [leaf (NComment c)] | None => [] end.
Definition comment_leaves (cs : list comment) : list vtree := map (fun c => leaf (NComment c)) cs.

Definition option_tree (o : option_) : vtree :=
  TNode (NVisitee (VOption o)) (comment_leaves (op_comments o) ++ opt_leaf (op_inline o)).
Definition oneofField_tree (f : oneofField) : vtree :=
  TNode (NOneofField f) (comment_leaves (oof_comments f) ++ opt_leaf (oof_inline f)).
Definition declaration_tree (d : declaration) : vtree :=
  TNode (NDeclaration d) (comment_leaves (d_comments d) ++ opt_leaf (d_inline d) ++ opt_leaf (d_inlineLC d)).

(** The visits of a statement: the statement, then the elements of its body in
    source order, then its comments. *)
Fixpoint tree (v : visitee) : vtree :=
  match v with
  | VNil => TStop
  | VComment c => leaf (NComment c)
  | VImport x => TNode (NVisitee v) (comment_leaves (im_comments x) ++ opt_leaf (im_inline x))
  | VPackage x => TNode (NVisitee v) (comment_leaves (pk_comments x) ++ opt_leaf (pk_inline x))
  | VOption x => option_tree x
  | VEmpty x => TNode (NVisitee v) (opt_leaf (em_inline x))
  | VField x => TNode (NVisitee v) (comment_leaves (f_comments x) ++ opt_leaf (f_inline x))
  | VMapField x => TNode (NVisitee v) (comment_leaves (mf_comments x) ++ opt_leaf (mf_inline x))
  | VGroupField x => TNode (NVisitee v) (map tree (g_body x) ++ comment_leaves (g_comments x)
                                          ++ opt_leaf (g_inline x) ++ opt_leaf (g_inlineLC x))
  | VOneof x => TNode (NVisitee v) (map oneofField_tree (oo_fields x) ++ map option_tree (oo_options x)
                                     ++ comment_leaves (oo_comments x) ++ opt_leaf (oo_inline x))
  | VEnumField x => TNode (NVisitee v) (comment_leaves (ef_comments x) ++ opt_leaf (ef_inline x))
  | VRPC x => TNode (NVisitee v) (comment_leaves (r_comments x) ++ opt_leaf (r_inline x))
  | VReserved x => TNode (NVisitee v) (comment_leaves (rs_comments x) ++ opt_leaf (rs_inline x))
  | VExtensions x => TNode (NVisitee v) (map declaration_tree (xs_declarations x)
                                          ++ comment_leaves (xs_comments x) ++ opt_leaf (xs_inline x))
  | VMessage x | VEnum x | VService x | VExtend x =>
    TNode (NVisitee v) (map tree (b_body x) ++ comment_leaves (b_comments x)
                         ++ opt_leaf (b_inline x) ++ opt_leaf (b_inlineLC x))
  end.

Definition proto_forest (p : proto) : list vtree :=
  match p_syntax p with
  | Some x => [TNode (NSyntax x) (comment_leaves (sy_comments x) ++ opt_leaf (sy_inline x))]
  | None => [] end ++
  match p_edition p with
  | Some x => [TNode (NEdition x) (comment_leaves (ed_comments x) ++ opt_leaf (ed_inline x))]
  | None => [] end ++
  map tree (p_body p).

(** Pre-order walk of a forest by a visitor; the subtrees of a node are walked
    only if the visitor answers true.  The flag tells whether a nil element
    stopped the walk. *)
Section Walk.
Variable S : Type.
Variable visit : node -> S -> bool * S.
Fixpoint pre (t : vtree) (s : S) : S * bool :=
  match t with
  | TStop => (s, true)
  | TNode n kids =>
    let '(go, s') := visit n s in
    if go then
      (fix all (l : list vtree) (s : S) : S * bool :=
         match l with
         | [] => (s, false)
         | t :: l' => let '(s', p) := pre t s in if p then (s', true) else all l' s'
         end) kids s'
    else (s', false)
  end.
Fixpoint pre_all (l : list vtree) (s : S) : S * bool :=
  match l with
  | [] => (s, false)
  | t :: l' => let '(s', p) := pre t s in if p then (s', true) else pre_all l' s'
  end.
End Walk.

(** the nodes of a tree in pre-order *)
Fixpoint nodes (t : vtree) : list node :=
  match t with TStop => [] | TNode n kids => n :: flat_map nodes kids end.
(** ... below the nodes for which [ans] holds *)
Fixpoint nodes_if (ans : node -> bool) (t : vtree) : list node :=
  match t with
  | TStop => []
  | TNode n kids => n :: (if ans n then flat_map (nodes_if ans) kids else [])
  end.
Fixpoint nostop (t : vtree) : bool :=
  match t with TStop => false | TNode _ kids => forallb nostop kids end.

(** ** Proofs *)
Section Proofs.
Variable S : Type.
Variable visit : node -> S -> bool * S.
Notation pre := (pre S visit).
Notation pre_all := (pre_all S visit).

Lemma pre_node n kids s :
  pre (TNode n kids) s = let '(go, s') := visit n s in if go then pre_all kids s' else (s', false).
Proof.
  cbn. destruct (visit n s) as [[] s']; reflexivity.
Qed.
Lemma pre_all_app a b s : pre_all (a ++ b) s = let '(s', p) := pre_all a s in if p then (s', true) else pre_all b s'.
Proof.
  revert s. induction a as [|t a IH]; intros s; cbn; auto.
  destruct (pre t s) as [s1 []]; auto.
Qed.
Lemma pre_leaf c s : pre (leaf (NComment c)) s = accept_comment S visit c s.
Proof. unfold leaf, accept_comment. rewrite pre_node. destruct (visit (NComment c) s) as [[] s']; reflexivity. Qed.

Definition same (l : list vtree) (w : walk S) : Prop := forall s, pre_all l s = w s.

Lemma same_nil : same [] (w_done S). Proof. intros s. reflexivity. Qed.
Lemma same_app a b w1 w2 : same a w1 -> same b w2 -> same (a ++ b) (w_then S w1 w2).
Proof.
  intros H K s. rewrite pre_all_app, H. unfold w_then. destruct (w1 s) as [s1 []]; auto.
Qed.
Lemma same_map {A} (f : A -> vtree) (g : A -> walk S) l :
  (forall x, In x l -> same [f x] (g x)) -> same (map f l) (w_all S g l).
Proof.
  induction l as [|x l IH]; intros H; [apply same_nil|].
  change (map f (x :: l)) with ([f x] ++ map f l). cbn [w_all]. apply same_app.
  - apply H. left; reflexivity.
  - apply IH. intros y Hy. apply H. right; exact Hy.
Qed.
Lemma same_comments cs : same (comment_leaves cs) (accept_comments S visit cs).
Proof.
  apply same_map. intros c _ s. cbn [Walk.pre_all]. rewrite pre_leaf.
  destruct (accept_comment S visit c s) as [s' []]; reflexivity.
Qed.
Lemma same_inline c : same (opt_leaf c) (accept_inline S visit c).
Proof.
  destruct c as [c|]; [|apply same_nil]. intros s. cbn [opt_leaf Walk.pre_all]. rewrite pre_leaf.
  cbn. unfold accept_comment. reflexivity.
Qed.
Lemma same_tail2 cs i : same (comment_leaves cs ++ opt_leaf i) (tail2 S visit cs i).
Proof. apply same_app; [apply same_comments | apply same_inline]. Qed.
Lemma same_tail3 cs i lc : same (comment_leaves cs ++ opt_leaf i ++ opt_leaf lc) (tail3 S visit cs i lc).
Proof. rewrite app_assoc. apply same_app; [apply same_tail2 | apply same_inline]. Qed.
Lemma same_visit n kids w : same kids w -> same [TNode n kids] (w_visit S visit n w).
Proof.
  intros H s. cbn [Walk.pre_all]. rewrite pre_node. unfold w_visit.
  destruct (visit n s) as [[] s']; auto. rewrite H. destruct (w s') as [s1 []]; reflexivity.
Qed.

Lemma body_w_all l :
  (fix body (l : list visitee) : walk S :=
     match l with [] => w_done S | y :: l' => w_then S (accept S visit y) (body l') end) l
  = w_all S (accept S visit) l.
Proof. induction l as [|x l IH]; cbn; congruence. Qed.

Lemma accept_tree v : same [tree v] (accept S visit v).
Proof.
  induction v as [v IH] using visitee_nested.
  destruct v; cbn [tree accept body_of] in *; rewrite ?body_w_all;
    try (apply same_visit; apply same_tail2);
    try (apply same_visit; apply same_inline).
  - intros s. reflexivity.
  - intros s. cbn [Walk.pre_all]. rewrite pre_leaf. unfold accept_comment. reflexivity.
  - apply same_visit. apply same_app; [|apply same_tail3].
    apply same_map. intros y Hy. rewrite Forall_forall in IH. apply IH; exact Hy.
  - apply same_visit. apply same_app; [|apply same_app; [|apply same_tail2]].
    + apply same_map. intros y _. apply same_visit, same_tail2.
    + apply same_map. intros y _. apply same_visit, same_tail2.
  - apply same_visit. apply same_app; [|apply same_tail2].
    apply same_map. intros y _. apply same_visit, same_tail3.
  - apply same_visit. apply same_app; [|apply same_tail3].
    apply same_map. intros y Hy. rewrite Forall_forall in IH. apply IH; exact Hy.
  - apply same_visit. apply same_app; [|apply same_tail3].
    apply same_map. intros y Hy. rewrite Forall_forall in IH. apply IH; exact Hy.
  - apply same_visit. apply same_app; [|apply same_tail3].
    apply same_map. intros y Hy. rewrite Forall_forall in IH. apply IH; exact Hy.
  - apply same_visit. apply same_app; [|apply same_tail3].
    apply same_map. intros y Hy. rewrite Forall_forall in IH. apply IH; exact Hy.
Qed.

Lemma accept_proto_forest p s : accept_proto S visit p s = pre_all (proto_forest p) s.
Proof.
  symmetry. revert s. unfold proto_forest, accept_proto.
  apply (same_app _ _ _ _).
  - destruct (p_syntax p); [apply same_visit, same_tail2 | apply same_nil].
  - apply same_app.
    + destruct (p_edition p); [apply same_visit, same_tail2 | apply same_nil].
    + apply same_map. intros y _. apply accept_tree.
Qed.
End Proofs.

(** Induction on trees *)
Definition vtree_nested (P : vtree -> Prop) (stop : P TStop)
  (step : forall n kids, Forall P kids -> P (TNode n kids)) : forall t, P t :=
  fix go (t : vtree) : P t :=
    match t with
    | TStop => stop
    | TNode n kids =>
      step n kids ((fix all (l : list vtree) : Forall P l :=
                      match l with [] => Forall_nil P | x :: l' => Forall_cons x (go x) (all l') end) kids)
    end.

(** A visitor that writes down what it sees and answers by [ans]. *)
Definition logger (ans : node -> bool) (n : node) (s : list node) : bool * list node := (ans n, s ++ [n]).

Lemma log_pre ans t : nostop t = true -> forall s,
  pre _ (logger ans) t s = (s ++ nodes_if ans t, false).
Proof.
  induction t as [|n kids IH] using vtree_nested; intros H s; [discriminate|].
  rewrite pre_node. cbn [logger nodes_if]. cbn [nostop] in H. rewrite forallb_forall in H.
  unfold logger at 1. destruct (ans n); [|reflexivity].
  replace (s ++ n :: flat_map (nodes_if ans) kids) with ((s ++ [n]) ++ flat_map (nodes_if ans) kids)
    by (rewrite <- app_assoc; reflexivity).
  generalize (s ++ [n]). clear s. 
  induction kids as [|t l IHl]; intros s; cbn [pre_all flat_map].
  - rewrite app_nil_r. reflexivity.
  - inversion IH as [|? ? H1 H2]; subst. rewrite H1 by (apply H; left; reflexivity).
    rewrite (IHl H2 (fun x Hx => H x (or_intror Hx))). rewrite <- app_assoc. reflexivity.
Qed.

Lemma log_proto ans p :
  forallb nostop (proto_forest p) = true -> forall s,
  accept_proto _ (logger ans) p s = (s ++ flat_map (nodes_if ans) (proto_forest p), false).
Proof.
  intros H s. rewrite accept_proto_forest. revert s. induction (proto_forest p) as [|t l IH]; intros s.
  - cbn. rewrite app_nil_r. reflexivity.
  - cbn in H. apply andb_true_iff in H. destruct H as [H1 H2]. cbn [pre_all flat_map].
    rewrite log_pre by exact H1. rewrite IH by exact H2. rewrite <- app_assoc. reflexivity.
Qed.
