(** A text with comments at every place, for the theorems on comments. *)
From Coq Require Import List NArith ZArith Bool String Ascii.
From Verif Require Import Base Token Scanner ScanRefine Ast Tree AttachSpec Parser Api LexSpec RefineFile Refuted SndCase Closed.
Import ListNotations.
Local Open Scope string_scope.

Definition attach_text : string :=
 "// s1" ++ nl ++ "/* s2 */ syntax = ""proto3""; // s3" ++ nl ++ "// m1" ++ nl ++ nl ++ "// m2" ++ nl ++ "message M { /* m3 */ // f1" ++ nl ++
 "  /* f2 */ int32 a = 1 /* f3 */; // f4" ++ nl ++ "  oneof o { /* o1 */ int32 c = 3; // o2" ++ nl ++ " /* o3 */ int32 d = 4; // o4" ++ nl ++ "} // o5" ++ nl ++ "}".
Definition attach_proto : proto := Eval vm_compute in match Parse [] (lit attach_text) with Ok p => p | _ => mkProto None None [] [] end.
Definition attach_message : visitee := Eval vm_compute in nth 0 (p_body attach_proto) VNil.
Definition attach_items : list visitee := Eval vm_compute in match attach_message with VMessage b => b_body b | _ => [] end.
Definition attach_field : visitee := Eval vm_compute in nth 0 attach_items VNil.
Definition attach_oneof : oneof := Eval vm_compute in match nth 1 attach_items VNil with VOneof o => o | _ => mkOneof [] [] [] [] None None (mkMeta zero_pos zero_pos) end.

Lemma attach_parse : readable (lit attach_text) /\ regular (lit attach_text) attach_proto /\ Parse [] (lit attach_text) = Ok attach_proto.
Proof. split; [repeat constructor; try discriminate; vm_compute; intuition discriminate|]. split; [left; apply free_settled, no_group; reflexivity|vm_compute; reflexivity]. Qed.
Lemma attach_root : element attach_proto (EStmt attach_message).
Proof. apply el_root. vm_compute. right. left. reflexivity. Qed.
Definition raws (e : elem) : list str * option str := (map c_raw (e_comments e), match e_inline e with Some c => Some (c_raw c) | None => None end).
Lemma attach_head : exists e l2, roots attach_proto = e :: l2 /\ (forall v, e <> EStmt v) /\ e_meta e <> None /\ raws e = ([lit "// s1"; lit "/* s2 */"], Some (lit "// s3")).
Proof. eexists. eexists. split; [reflexivity|]. split; [discriminate|]. split; [discriminate|reflexivity]. Qed.
Lemma attach_stmt : exists l1 l2, roots attach_proto = (l1 ++ EStmt attach_message :: l2)%list /\ l1 <> [] /\ e_meta (EStmt attach_message) <> None /\ ~ is_comment_node (EStmt attach_message) /\
  raws (EStmt attach_message) = ([lit "// m1"; lit "// m2"], None).
Proof. eexists [_], []. split; [reflexivity|]. split; [discriminate|]. split; [discriminate|]. split; [intros (c & X); discriminate X|reflexivity]. Qed.
Lemma attach_block : block_of (EStmt attach_message) /\ exists l l2, In l (children (EStmt attach_message)) /\ l = ([EStmt attach_field] ++ EStmt (VOneof attach_oneof) :: l2)%list /\
  raws (EStmt attach_field) = ([lit "// f1"; lit "/* f2 */"], Some (lit "// f4")) /\ raws (EStmt (VOneof attach_oneof)) = ([], Some (lit "// o5")).
Proof. split; [exact I|]. eexists. exists []. split; [left; reflexivity|]. split; [reflexivity|]. split; reflexivity. Qed.
Lemma attach_in_oneof : element attach_proto (EStmt (VOneof attach_oneof)) /\ exists e1 e2, map EOneofField (oo_fields attach_oneof) = [e1; e2] /\
  raws e1 = ([], Some (lit "// o2")) /\ raws e2 = ([lit "/* o3 */"], Some (lit "// o4")).
Proof. split; [|eexists; eexists; split; [reflexivity|split; reflexivity]]. eapply el_child; [exact attach_root|left; reflexivity|]. right. left. reflexivity. Qed.

(** Without syntax or edition the comments in front of the first statement are lost. *)
Lemma lost_example : exists p b, Parse [] (lit ("// c" ++ nl ++ "message M { int32 a = 1; }")) = Ok p /\ p_body p = [VMessage b] /\ b_comments b = [].
Proof. eexists. eexists. vm_compute. repeat split. Qed.
(** With both, they belong to both. *)
Lemma shared_example : exists p s e, Parse [] (lit ("// c" ++ nl ++ "syntax = ""proto3""; edition = ""2023"";")) = Ok p /\ p_syntax p = Some s /\ p_edition p = Some e /\ sy_comments s = ed_comments e /\ List.length (ed_comments e) = 1%nat.
Proof. eexists. eexists. eexists. vm_compute. repeat split. Qed.
