(** Concrete texts for what the nodes say. *)
From Coq Require Import List NArith ZArith Bool String Ascii Lia.
From Verif Require Import Base Token Scanner Lexing ScanRefine Ast Parser Api LexSpec LexFacts RefineFile Grammar GramFile GramCase Refuted Tree SndCase BareSpec PartSpec PrintCase SaidSpec Closed Regular.
Import ListNotations.
Open Scope N_scope.

Definition shown (l : list part) : list str := map (fun a => match a with Word w => w | Val w => w end) l.
Definition message_of (p : proto) : visitee := match filter (fun v => match v with VMessage _ => true | _ => false end) (p_body p) with v :: _ => v | [] => VNil end.
Definition field_of (v : visitee) : visitee := match v with VMessage b => match b_body b with v :: _ => v | [] => VNil end | _ => VNil end.
Lemma message_element p : message_of p <> VNil -> element p (EStmt (message_of p)).
Proof.
  unfold message_of. destruct (filter _ (p_body p)) as [|v l] eqn:E; [congruence|]. intros _. apply el_root. unfold roots. rewrite !in_app_iff. right. right. apply in_map.
  assert (I : In v (v :: l)) by (left; reflexivity). rewrite <- E in I. apply filter_In in I. tauto.
Qed.
Lemma field_element p : field_of (message_of p) <> VNil -> element p (EStmt (field_of (message_of p))).
Proof.
  intros H. assert (M : element p (EStmt (message_of p))) by (apply message_element; intros E; rewrite E in H; exact (H eq_refl)).
  destruct (message_of p) as [| | | | | | | | | | | | | |b| | | ]; try (destruct (H eq_refl); fail). cbn [field_of] in *. destruct (b_body b) as [|v l] eqn:E; [congruence|].
  eapply el_child; [exact M|left; reflexivity|]. rewrite E. left. reflexivity.
Qed.
Lemma said_case :
  (readable (lit print_text) /\ regular (lit print_text) print_proto /\ Parse [] (lit print_text) = Ok print_proto) /\
  (readable (lit strict_text) /\ regular (lit strict_text) strict_proto /\ Parse [WithPermissive false] (lit strict_text) = Ok strict_proto) /\
  (element print_proto (EStmt (message_of print_proto)) /\ element print_proto (EStmt (field_of (message_of print_proto))) /\
   element strict_proto (EStmt (field_of (message_of strict_proto)))) /\
  option_map shown (heading (EStmt (message_of print_proto))) = Some (map lit ["message"; "M"; "{"]%string) /\
  option_map shown (said (EStmt (field_of (message_of print_proto)))) =
    Some (map lit ["optional"; ".a.B"; "x"; "="; "1"; "["; "(o)"; "="; "{a:1,b{c:[-1,inf]}" ++ nl ++ "d:""t""}"; ","; "deprecated"; "="; "true"; "]"; ";"]%string) /\
  option_map shown (said (EStmt (field_of (message_of strict_proto)))) = Some (map lit ["A"; "x"; "="; "1"; "["; "c"; "="; "'\''"; "]"; ";"]%string).
Proof.
  destruct print_case as (A & B & _ & _ & C & _). destruct print_strict_case as (A' & B' & _ & C' & _).
  split; [auto|]. split; [auto|]. split; [|vm_compute; auto].
  split; [apply message_element; vm_compute; discriminate|]. split; apply field_element; vm_compute; discriminate.
Qed.
(** A word behind import, and the closing bracket of a list, can be anything: the
    tree is the same, with the same positions. *)
Definition plain_import : string := "import     ""x"";".
Definition junk_import : string := "import foo ""x"";".
Definition plain_list : string := "option o = [1, 2 ];".
Definition junk_list : string := "option o = [1, 2 };".
Lemma unsaid : (exists pr i, Parse [] (lit plain_import) = Ok pr /\ Parse [] (lit junk_import) = Ok pr /\ element pr (EStmt (VImport i))) /\
  (exists pr o, Parse [] (lit plain_list) = Ok pr /\ Parse [] (lit junk_list) = Ok pr /\ element pr (EStmt (VOption o))).
Proof. split; eexists _, _; (split; [vm_compute; reflexivity|]); (split; [vm_compute; reflexivity|]); apply el_root; vm_compute; left; reflexivity. Qed.
Definition import_proto : proto := Eval vm_compute in match Parse [] (lit junk_import) with Ok p => p | _ => mkProto None None [] [] end.
Lemma import_case : exists pr i, readable (lit junk_import) /\ regular (lit junk_import) pr /\
  Parse [] (lit junk_import) = Ok pr /\ element pr (EStmt (VImport i)) /\ im_modifier i = ImportModifierNone /\ im_location i = lit """x""".
Proof.
  exists import_proto. eexists. split; [repeat constructor; try discriminate; vm_compute; intuition discriminate|]. split; [left; apply free_settled, no_group; reflexivity|].
  split; [vm_compute; reflexivity|]. split; [apply el_root; vm_compute; left; reflexivity|]. split; reflexivity.
Qed.
