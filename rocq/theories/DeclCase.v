(** Cases for the comments of declarations and of options of an RPC. *)
From Coq Require Import List NArith ZArith Bool String Ascii.
From Verif Require Import Base Token Scanner ScanRefine Ast Tree AttachSpec DeclSpec Parser Api LexSpec RefineFile Refuted SndCase AttachCase Closed.
Import ListNotations.
Local Open Scope string_scope.

Definition decl_text_ : string :=
 "message M { extensions 4 to 9 [ // a1" ++ nl ++ " // a2" ++ nl ++ "declaration = { number: 4, full_name: "".a"", type: ""b"" } /* a3 */ , /* a4 */ // a5" ++ nl ++
 "// b1" ++ nl ++ "declaration = { number: 5, reserved: true } ] ; }" ++ nl ++
 "service S { rpc f (A) returns (B) { // r1" ++ nl ++ "/* r2 */ option a = 1; // r3" ++ nl ++ "} }".
Definition decl_proto : proto := Eval vm_compute in match Parse [] (lit decl_text_) with Ok p => p | _ => mkProto None None [] [] end.
Definition decl_message : visitee := Eval vm_compute in nth 0 (p_body decl_proto) VNil.
Definition decl_service : visitee := Eval vm_compute in nth 1 (p_body decl_proto) VNil.
Definition decl_ext : visitee := Eval vm_compute in match decl_message with VMessage b => nth 0 (b_body b) VNil | _ => VNil end.
Definition decl_rpc : visitee := Eval vm_compute in match decl_service with VService b => nth 0 (b_body b) VNil | _ => VNil end.
Lemma decl_parse : readable (lit decl_text_) /\ regular (lit decl_text_) decl_proto /\ Parse [] (lit decl_text_) = Ok decl_proto.
Proof. split; [repeat constructor; try discriminate; vm_compute; intuition discriminate|]. split; [left; apply free_settled, no_group; reflexivity|vm_compute; reflexivity]. Qed.
Lemma decl_in : exists x d1 d2, decl_ext = VExtensions x /\ element decl_proto (EStmt (VExtensions x)) /\ xs_declarations x = [d1; d2] /\
  raws (EDeclaration d1) = ([lit "// a2"], Some (lit "// a5")) /\ raws (EDeclaration d2) = ([lit "// b1"], None).
Proof.
  eexists. eexists. eexists. split; [reflexivity|]. split; [|split; [reflexivity|split; reflexivity]].
  eapply (el_child _ (EStmt decl_message)); [apply el_root; vm_compute; left; reflexivity|left; reflexivity|left; reflexivity].
Qed.
Lemma rpc_in : exists r o, decl_rpc = VRPC r /\ element decl_proto (EStmt (VRPC r)) /\ r_options r = [o] /\ op_name o = lit "a".
Proof.
  eexists. eexists. split; [reflexivity|]. split; [|split; reflexivity].
  eapply (el_child _ (EStmt decl_service)); [apply el_root; vm_compute; right; left; reflexivity|left; reflexivity|left; reflexivity].
Qed.
Lemma decl_says : exists d1 d2, element decl_proto (EDeclaration d1) /\ element decl_proto (EDeclaration d2) /\
  (d_number d1, d_fullName d1, d_type d1, d_reserved d1) = (lit "4", lit """.a""", lit """b""", false) /\ (d_number d2, d_type d2, d_reserved d2) = (lit "5", [], true).
Proof.
  destruct decl_in as (x & d1 & d2 & E & H & D & _). exists d1, d2.
  split; [eapply el_child; [exact H|left; reflexivity|rewrite D; left; reflexivity]|]. split; [eapply el_child; [exact H|left; reflexivity|rewrite D; right; left; reflexivity]|].
  vm_compute in E. injection E as <-. vm_compute in D. injection D as <- <-. split; reflexivity.
Qed.
