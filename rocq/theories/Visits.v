(** The calls an always willing visitor gets. *)
From Coq Require Import List NArith ZArith Bool String Ascii Lia.
From Verif Require Import Base Token Scanner Ast Parser Api Spec Direct Unordered Visitor Walk Tree KindSpec Kinds VisitSpec.
Import ListNotations.

Definition yes (_ : node) : bool := true.
Definition shows (e : elem) (n : node) : Prop := node_of e = Some n \/ exists c, In c (shown_comments e) /\ n = NComment c.
Definition kid (e e' : elem) : Prop := match e with EStmt (VRPC _) => False | _ => True end /\ exists l, In l (children e) /\ In e' l.
Inductive below : elem -> elem -> Prop :=
| bl_self e : below e e
| bl_kid e e1 e' : kid e e1 -> below e1 e' -> below e e'.
Definition etree (e : elem) : list vtree :=
  match e with
  | ESyntax x => [TNode (NSyntax x) (comment_leaves (sy_comments x) ++ opt_leaf (sy_inline x))]
  | EEdition x => [TNode (NEdition x) (comment_leaves (ed_comments x) ++ opt_leaf (ed_inline x))]
  | EStmt v => [tree v]
  | EOneofField f => [oneofField_tree f] | EOption o => [option_tree o] | EParam _ => [] | EDeclaration d => [declaration_tree d]
  end.
Definition calls (l : list vtree) : list node := flat_map (nodes_if yes) l.
Lemma calls_app a b : calls (a ++ b) = calls a ++ calls b. Proof. apply flat_map_app. Qed.
Lemma calls_node n k : calls [TNode n k] = n :: calls k. Proof. cbn. rewrite app_nil_r. reflexivity. Qed.
Lemma in_comments n cs : In n (calls (comment_leaves cs)) <-> exists c, In c cs /\ n = NComment c.
Proof.
  unfold calls, comment_leaves. rewrite in_flat_map. split.
  - intros (t & A & B). apply in_map_iff in A. destruct A as (c & <- & A). cbn in B. destruct B as [<-|[]]. eauto.
  - intros (c & A & ->). exists (leaf (NComment c)). split; [apply (in_map (fun c => leaf (NComment c))); exact A|left; reflexivity].
Qed.
Lemma opt_leaf_is o : opt_leaf o = comment_leaves (opt_list (fun c => c) o). Proof. destruct o; reflexivity. Qed.
Lemma leaves_app a b : comment_leaves a ++ comment_leaves b = comment_leaves (a ++ b). Proof. symmetry. apply map_app. Qed.
Lemma in_forest {A} (f : A -> vtree) (g : A -> elem) l n : (forall x, etree (g x) = [f x]) -> (In n (calls (map f l)) <-> exists x, In x l /\ In n (calls (etree (g x)))).
Proof.
  intros E. unfold calls at 1. rewrite flat_map_concat_map, map_map, <- flat_map_concat_map, in_flat_map. split.
  - intros (x & X & Y). exists x. split; [exact X|]. rewrite E. cbn. rewrite app_nil_r. exact Y.
  - intros (x & X & Y). exists x. split; [exact X|]. rewrite E in Y. cbn in Y. rewrite app_nil_r in Y. exact Y.
Qed.
Lemma step e n : In n (calls (etree e)) <-> shows e n \/ exists e', kid e e' /\ In n (calls (etree e')).
Proof.
  assert (L : forall n0 cs, (In n (calls [TNode n0 (comment_leaves cs)]) <-> n0 = n \/ exists c, In c cs /\ n = NComment c)).
  { intros. rewrite calls_node. cbn [In]. rewrite in_comments. reflexivity. }
  assert (N0 : forall e', children e = [] -> ~ kid e e'). { intros e' E (_ & l & A & _). rewrite E in A. exact A. }
  assert (S1 : forall n0, node_of e = Some n0 -> (n0 = n <-> node_of e = Some n)). { intros n0 ->. split; [intros ->; reflexivity|intros X; injection X; auto]. }
  assert (LEAF : forall n0, etree e = [TNode n0 (comment_leaves (shown_comments e))] -> node_of e = Some n0 -> children e = [] \/ (exists r, e = EStmt (VRPC r)) ->
            (In n (calls (etree e)) <-> shows e n \/ exists e', kid e e' /\ In n (calls (etree e')))).
  { intros n0 E No C. rewrite E, L. unfold shows. rewrite (S1 _ No). split; [tauto|]. intros [X|(e' & X & _)]; [exact X|]. destruct C as [C|[r ->]]; [exfalso; exact (N0 _ C X)|]. destruct X as [[] _]. }
  assert (BODY : forall n0 T (f : T -> vtree) (g : T -> elem) l, (forall x, etree (g x) = [f x]) -> etree e = [TNode n0 (map f l ++ comment_leaves (shown_comments e))] -> node_of e = Some n0 -> children e = [map g l] ->
            match e with EStmt (VRPC _) => False | _ => True end ->
            (In n (calls (etree e)) <-> shows e n \/ exists e', kid e e' /\ In n (calls (etree e')))).
  { intros n0 T f g l FG E No C RP. rewrite E, calls_node, calls_app. cbn [In]. rewrite in_app_iff, in_comments, (in_forest f g) by exact FG. unfold shows. rewrite (S1 _ No). unfold kid. rewrite C. split.
    - intros [X|[(x & X & Y)|X]]; [auto| |auto]. right. exists (g x). split; [|exact Y]. split; [exact RP|]. exists (map g l). split; [left; reflexivity|apply in_map; exact X].
    - intros [[X|X]|(e' & (_ & l' & [<-|[]] & X) & Y)]; [auto|auto|]. apply in_map_iff in X. destruct X as (x & <- & X). right. left. eauto. }
  destruct e as [x|x|v|x|x|x|x]; try (eapply LEAF; [|reflexivity|left; reflexivity]; unfold shown_comments; cbn -[comment_leaves]; unfold option_tree, oneofField_tree, declaration_tree; rewrite ?app_nil_r, ?opt_leaf_is, ?leaves_app; reflexivity).
  - destruct v as [|c|x|x|x|x|x|x|x|x|x|x|x|x|x|x|x|x];
      try (eapply LEAF; [|reflexivity|first [left; reflexivity|right; eexists; reflexivity]]; unfold shown_comments; cbn -[comment_leaves]; unfold option_tree, oneofField_tree, declaration_tree; rewrite ?app_nil_r, ?opt_leaf_is, ?leaves_app; reflexivity);
      try (eapply BODY with (f := tree) (g := EStmt); [reflexivity| |reflexivity|reflexivity|exact I]; unfold shown_comments; cbn -[comment_leaves tree]; cbn [tree]; rewrite ?app_nil_r, ?opt_leaf_is, ?leaves_app; reflexivity).
    + cbn. split; [contradiction|]. intros [[X|(c & X & _)]|(e' & X & _)]; [discriminate|contradiction|]. exact (N0 _ eq_refl X).
    + change (etree (EStmt (VOneof x))) with [TNode (NVisitee (VOneof x)) (map oneofField_tree (oo_fields x) ++ map option_tree (oo_options x) ++ comment_leaves (oo_comments x) ++ opt_leaf (oo_inline x))].
      rewrite calls_node, !calls_app, opt_leaf_is. cbn [In]. rewrite !in_app_iff, !in_comments, (in_forest oneofField_tree EOneofField), (in_forest option_tree EOption) by reflexivity.
      unfold shows, shown_comments, kid. cbn [node_of e_comments e_inline children]. split.
      * intros [X|[(y & X & Y)|[(y & X & Y)|[(c & X & Y)|(c & X & Y)]]]]; [left; left; congruence|right|right|left; right; exists c; rewrite in_app_iff; auto|left; right; exists c; rewrite !in_app_iff; auto].
        -- exists (EOneofField y). split; [|exact Y]. split; [exact I|]. eexists. split; [left; reflexivity|apply in_map; exact X].
        -- exists (EOption y). split; [|exact Y]. split; [exact I|]. eexists. split; [right; left; reflexivity|apply in_map; exact X].
      * intros [[X|(c & X & ->)]|(e' & (_ & l' & [<-|[<-|[]]] & X) & Y)].
        -- left. congruence.
        -- right. right. right. rewrite !in_app_iff in X. cbn [In] in X. destruct X as [X|[X|[]]]; [left|right]; eauto.
        -- apply in_map_iff in X. destruct X as (y & <- & X). right. left. eauto.
        -- apply in_map_iff in X. destruct X as (y & <- & X). right. right. left. eauto.
    + eapply BODY with (f := declaration_tree) (g := EDeclaration); [reflexivity| |reflexivity|reflexivity|exact I]; unfold shown_comments; cbn -[comment_leaves tree]; cbn [tree]; rewrite ?app_nil_r, ?opt_leaf_is, ?leaves_app; reflexivity.
  - cbn. split; [contradiction|]. intros [[X|(c & X & _)]|(e' & X & _)]; [discriminate|contradiction|]. exact (N0 _ eq_refl X).
Qed.

Lemma below_calls e n : In n (calls (etree e)) <-> exists e', below e e' /\ shows e' n.
Proof.
  split.
  - assert (V : forall v, In n (calls (etree (EStmt v))) -> exists e', below (EStmt v) e' /\ shows e' n).
    { intros v. induction v as [v IH] using visitee_nested. intros X. apply step in X. destruct X as [X|(e' & K & X)]; [eexists; split; [apply bl_self|exact X]|].
      destruct K as [R (l & A & B)]. assert (FLAT : forall e1, below e1 e1) by constructor.
      assert (K : kid (EStmt v) e') by (split; [exact R|eauto]).
      assert (Y : (exists w, e' = EStmt w /\ In w (body_of v)) \/ children e' = []).
      { destruct v; try contradiction; cbn [children In] in A;
          repeat (destruct A as [A|A]; [subst l; apply in_map_iff in B; destruct B as (w & <- & B); first [left; exists w; split; [reflexivity|exact B]|right; reflexivity]|]); contradiction. }
      destruct Y as [(w & -> & W)|Y].
      - rewrite Forall_forall in IH. destruct (IH _ W X) as (e2 & B2 & S2). exists e2. split; [eapply bl_kid; eassumption|exact S2].
      - apply step in X. destruct X as [X|(e2 & (_ & l2 & L2 & _) & _)]; [|rewrite Y in L2; contradiction]. exists e'. split; [eapply bl_kid; [exact K|constructor]|exact X]. }
    destruct e as [x|x|v|x|x|x|x]; [| |apply V| | | |]; intros X; apply step in X; (destruct X as [X|(e2 & (_ & l2 & L2 & _) & _)]; [eexists; split; [apply bl_self|exact X]|contradiction]).
  - intros (e' & B & X). induction B as [e|e e1 e' K B IH]; apply step; [left; exact X|right; exists e1; auto].
Qed.
Lemma below_shown p e e' : shown p e -> below e e' -> shown p e'.
Proof. intros S B. induction B as [e|e e1 e' (R & l & A & X) B IH]; [exact S|]. apply IH. eapply sh_child; eassumption. Qed.
Lemma shown_below p e : shown p e -> exists r, In r (roots p) /\ below r e.
Proof.
  induction 1 as [e R|e l e' S (r & R & B) X Y Z]; [exists e; split; [exact R|constructor]|]. exists r. split; [exact R|]. clear R S.
  assert (K : kid e e') by (split; eauto). clear -B K. induction B as [e|e e1 e2 K1 B IH]; [eapply bl_kid; [exact K|constructor]|eapply bl_kid; [exact K1|auto]].
Qed.
Lemma forest_roots p : proto_forest p = flat_map etree (roots p).
Proof.
  unfold proto_forest, roots. rewrite !flat_map_app. destruct (p_syntax p), (p_edition p); cbn; repeat f_equal; induction (p_body p) as [|v l IH]; cbn; congruence.
Qed.
Lemma calls_forest p n : In n (calls (proto_forest p)) <-> exists e, shown p e /\ shows e n.
Proof.
  rewrite forest_roots. assert (E : forall l, In n (calls (flat_map etree l)) <-> exists r, In r l /\ In n (calls (etree r))).
  { induction l as [|a l IH]; cbn; [split; [contradiction|intros (r & [] & _)]|]. rewrite calls_app, in_app_iff, IH. split.
    - intros [X|(r & A & X)]; eauto.
    - intros (r & [<-|A] & X); eauto. }
  rewrite E. split.
  - intros (r & R & X). apply below_calls in X. destruct X as (e' & B & S). exists e'. split; [eapply below_shown; [apply sh_root; exact R|exact B]|exact S].
  - intros (e & S & X). apply shown_below in S. destruct S as (r & R & B). exists r. split; [exact R|]. apply below_calls. eauto.
Qed.
(** ** No nil element below the file *)
Lemma nostop_tree com v : Deep com (EStmt v) -> v <> VNil -> nostop (tree v) = true.
Proof.
  assert (C : forall cs, forallb nostop (comment_leaves cs) = true) by (induction cs; auto).
  assert (O : forall c, forallb nostop (opt_leaf c) = true) by (intros []; reflexivity).
  assert (F : forall A (f : A -> vtree) l, (forall x, In x l -> nostop (f x) = true) -> forallb nostop (map f l) = true).
  { intros A f l X. apply forallb_forall. intros t T. apply in_map_iff in T. destruct T as (x & <- & T). apply X, T. }
  induction v as [v IH] using visitee_nested. intros D N. destruct D as [K D]. rewrite Forall_forall in IH.
  assert (B : forall l P, children (EStmt v) = [map EStmt l] -> body_of v = l -> Forall P l -> ~ P VNil -> forallb nostop (map tree l) = true).
  { intros l P CH BO KP NP. apply F. intros x X. apply IH; [rewrite BO; exact X| |].
    - rewrite CH in D. apply Forall_inv in D. rewrite Forall_map, Forall_forall in D. apply D, X.
    - intros ->. rewrite Forall_forall in KP. exact (NP (KP _ X)). }
  destruct v; cbn [tree]; unfold option_tree; cbn [nostop]; rewrite ?forallb_app, ?C, ?O; try reflexivity; try congruence; cbn [body_kinds] in K; rewrite ?andb_true_r.
  all: try (eapply B; [reflexivity|reflexivity|exact K|exact (fun x => x)]).
  - rewrite F; [rewrite F; [reflexivity|]|]; intros; unfold option_tree, oneofField_tree; cbn [nostop]; rewrite forallb_app, C, O; reflexivity.
  - apply F. intros. unfold declaration_tree. cbn [nostop]. rewrite !forallb_app, C, !O. reflexivity.
Qed.
Lemma all_calls opts input pr : Parse opts input = Ok pr -> ~ In VNil (p_body pr) ->
  exists log, accept_proto (list node) (logger (fun _ => true)) pr [] = (log, false) /\
    forall n, In n log <-> exists e, shown pr e /\ (node_of e = Some n \/ exists c, In c (shown_comments e) /\ n = NComment c).
Proof.
  intros P N. exists (calls (proto_forest pr)). split; [|intros n; apply calls_forest]. change (calls (proto_forest pr)) with ([] ++ flat_map (nodes_if (fun _ => true)) (proto_forest pr)). apply log_proto.
  pose proof (h_ParseProto (bic opts) (cfg_permissive (config_of opts)) (S (S (List.length input))) (init_st (cfg_filename (config_of opts)) input)) as X.
  unfold bic in *. unfold Parse, parse_fuel in P. rewrite P in X. destruct X as [D _].
  assert (C : forall cs, forallb nostop (comment_leaves cs) = true) by (induction cs; auto).
  assert (O : forall c, forallb nostop (opt_leaf c) = true) by (intros []; reflexivity).
  unfold proto_forest. rewrite !forallb_app. rewrite !andb_true_iff. split; [destruct (p_syntax pr); [|reflexivity]; cbn; rewrite forallb_app, C, O; reflexivity|].
  split; [destruct (p_edition pr); [|reflexivity]; cbn; rewrite forallb_app, C, O; reflexivity|].
  apply forallb_forall. intros t T. apply in_map_iff in T. destruct T as (v & <- & V). rewrite Forall_forall in D. eapply nostop_tree; [exact (D _ V)|]. intros ->. contradiction.
Qed.

(** a case: a service with an option in an RPC, a message with a oneof *)
Definition visit_text : str := lit "message M { oneof o { int32 a = 1; } } service S { rpc R (A) returns (B) { option x = 1; } option y = 2; }".
Definition visit_proto : proto := Eval vm_compute in match Parse [] visit_text with Ok p => p | _ => mkProto None None [] [] end.
Lemma visit_case : Parse [] visit_text = Ok visit_proto /\ ~ In VNil (p_body visit_proto) /\
  List.length (fst (accept_proto (list node) (logger (fun _ => true)) visit_proto [])) = 6%nat /\
  exists f, shown visit_proto (EOneofField f) /\ oof_name f = lit "a".
Proof.
  split; [vm_compute; reflexivity|]. split; [intros [X|[X|[]]]; discriminate|]. split; [vm_compute; reflexivity|].
  eexists. split; [|].
  - eapply sh_child; [eapply sh_child; [apply sh_root; left; reflexivity|exact I|left; reflexivity|left; reflexivity]|exact I|left; reflexivity|left; reflexivity].
  - reflexivity.
Qed.
Definition class_text : str := lit "message M { ; message N { int32 a = 1; } enum E { A = 0; } } service S { rpc R (A) returns (B); }".
Definition class_proto : proto := Eval vm_compute in match Parse [] class_text with Ok p => p | _ => mkProto None None [] [] end.
Lemma class_case : Parse [] class_text = Ok class_proto /\ UnorderedInterpret class_proto <> None /\
  exists p, Parse [] (lit "service S { ; }") = Ok p /\ UnorderedInterpret p = None.
Proof. split; [vm_compute; reflexivity|]. split; [vm_compute; discriminate|]. eexists. vm_compute. split; reflexivity. Qed.
