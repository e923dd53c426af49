(** A concrete text for the theorems on the parts of statements. *)
From Coq Require Import List NArith ZArith Bool String Ascii Lia.
From Verif Require Import Base Token Scanner Lexing ScanRefine Ast Parser Api LexSpec LexFacts LexProofs ScanFacts RefineFile Total Grammar GramFile GramCase Refuted Tree SndCase AttachSpec PartSpec Closed.
Import ListNotations.
Open Scope N_scope.

Definition part_opts : list ParseOpt := [WithBodyIncludingComments true].
Definition part_text : string :=
 "message M { // m" ++ nl ++ " reserved 1, /* r */ 2 to max;" ++ nl ++ " reserved ""a"" , ""b""; // n" ++ nl ++ " // o" ++ nl ++ " option (o).p = ""ab"" /* v */ ""cd"";" ++ nl ++
 "  // end" ++ nl ++ "}" ++ nl ++ "service S {" ++ nl ++ " rpc /* f */ F ( /* a */ A ) returns ( stream B ); // r" ++ nl ++ " // last" ++ nl ++ "}".
Definition part_proto : proto := Eval vm_compute in match Parse part_opts (lit part_text) with Ok p => p | _ => mkProto None None [] [] end.
Definition part_message : block := Eval vm_compute in match p_body part_proto with VMessage b :: _ => b | _ => mkBlock [] [] [] None None (mkMeta zero_pos zero_pos) end.
Definition part_service : block := Eval vm_compute in match p_body part_proto with [_; VService b] => b | _ => mkBlock [] [] [] None None (mkMeta zero_pos zero_pos) end.
Definition part_reserved (n : nat) : reserved := match nth n (b_body part_message) VNil with VReserved r => r | _ => mkReserved [] [] [] None (mkMeta zero_pos zero_pos) end.
Definition part_option : option_ := match nth 2 (b_body part_message) VNil with VOption o => o | _ => mkOption [] [] [] None (mkMeta zero_pos zero_pos) end.
Definition part_rpc : rpc := match b_body part_service with VRPC r :: _ => r | _ => mkRPC [] (mkRPCParam false [] (mkMeta zero_pos zero_pos)) (mkRPCParam false [] (mkMeta zero_pos zero_pos)) [] [] None None [] (mkMeta zero_pos zero_pos) end.
Lemma part_case : readable (lit part_text) /\ regular (lit part_text) part_proto /\ Parse part_opts (lit part_text) = Ok part_proto.
Proof. split; [repeat constructor; try discriminate; vm_compute; intuition discriminate|]. split; [left; apply free_settled, no_group; reflexivity|vm_compute; reflexivity]. Qed.
Lemma part_elements : element part_proto (EStmt (VMessage part_message)) /\ element part_proto (EStmt (VService part_service)) /\
  Forall (fun e => element part_proto e) (map EStmt (b_body part_message)) /\ Forall (fun e => element part_proto e) (map EStmt (b_body part_service)).
Proof.
  assert (A : element part_proto (EStmt (VMessage part_message))) by (apply el_root; left; reflexivity).
  assert (B : element part_proto (EStmt (VService part_service))) by (apply el_root; right; left; reflexivity).
  split; [exact A|]. split; [exact B|]. split; apply Forall_forall; intros e I.
  - eapply el_child; [exact A|left; reflexivity|exact I].
  - eapply el_child; [exact B|left; reflexivity|exact I].
Qed.
Lemma part_values :
  map (fun n => (map rg_end (rs_ranges (part_reserved n)), rs_names (part_reserved n))) [0%nat; 1%nat] = [([[]; lit "max"], []); ([], [lit """a"""; lit """b"""])] /\
  (op_name part_option = lit "(o).p" /\ op_constant part_option = lit """abcd""") /\
  map c_raw (r_embedded part_rpc) = [lit "/* f */"; lit "/* a */"] /\
  map (fun v => match v with VComment c => c_raw c | _ => [] end) (b_body part_message ++ b_body part_service) = [[]; []; []; lit "// end"; []; lit "// last"].
Proof. vm_compute. auto. Qed.
