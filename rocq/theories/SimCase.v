(** Concrete cases for the comparison of two results. *)
From Coq Require Import List NArith ZArith Bool String Ascii.
From Verif Require Import Base Token Scanner Lexer Ast Parser Api AstMap LexSpec Tree SimSpec ScanRefine.
Import ListNotations.

Definition sim_text : list rune := lit "// a" ++ [NL] ++ lit "message M { int32 x = 1; // b" ++ [NL] ++ lit "// c" ++ [NL] ++ lit "}" ++ [NL] ++
  lit "service S { rpc R (A) returns (B) { /* d */ option (o) = ""x""; } // e" ++ [NL] ++ lit "}" ++ [NL] ++ lit "// f".
Lemma body_case : exists p p', Parse [WithBodyIncludingComments true] sim_text = Ok p /\ Parse [] sim_text = Ok p' /\ p <> p' /\
  p' = map_proto (fun q => q) true (fun x => x) p.
Proof. eexists _, _. split; [vm_compute; reflexivity|]. split; [vm_compute; reflexivity|]. split; [intros H; discriminate H|vm_compute; reflexivity]. Qed.
Lemma name_case : exists p p', Parse [] sim_text = Ok p /\ Parse [WithFilename (lit "f.proto")] sim_text = Ok p' /\ p <> p' /\ p_filename p' = lit "f.proto" /\
  exists b, In (VMessage b) (p_body p') /\ Pos (b_meta b) = mkPos (lit "f.proto") 5 2 1.
Proof. eexists _, _. split; [vm_compute; reflexivity|]. split; [vm_compute; reflexivity|]. split; [intros H; discriminate H|]. split; [reflexivity|]. eexists. split; [left; reflexivity|reflexivity]. Qed.
Lemma name_error_case : exists e, Parse [WithFilename (lit "f")] (lit "message 1") = Err e /\ err_positions e <> [].
Proof. eexists. split; [vm_compute; reflexivity|discriminate]. Qed.
Lemma sim_nonul : nonul sim_text. Proof. unfold nonul. repeat constructor; discriminate. Qed.
Lemma bom_case : nonul sim_text /\ ~ starts_with_bom sim_text /\ exists p p', Parse [] sim_text = Ok p /\ Parse [] (BOM :: sim_text) = Ok p' /\
  exists b, In (VMessage b) (p_body p') /\ Pos (b_meta b) = mkPos [] 8 2 1.
Proof.
  split; [exact sim_nonul|]. split.
  - intros (g & cs & r & _ & E). assert (I : In BOM sim_text) by (rewrite E; apply in_or_app; right; left; reflexivity). revert I. vm_compute. intuition discriminate.
  - eexists _, _. split; [vm_compute; reflexivity|]. split; [vm_compute; reflexivity|]. eexists. split; [left; reflexivity|reflexivity].
Qed.
(** A byte order mark between the tokens of an import is passed over. *)
Lemma bom_inside : exists p, Parse [] (lit "import " ++ [BOM] ++ lit " ""x"";") = Ok p /\ p_body p <> [].
Proof. eexists. split; [vm_compute; reflexivity|discriminate]. Qed.
