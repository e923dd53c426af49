(** Texts with white space in front. *)
From Coq Require Import List NArith ZArith Bool String Ascii Lia.
From Verif Require Import Base Token Scanner Ast Parser Api AstMap LexSpec ScanRefine Refuted BlankSpec.
Import ListNotations.

Definition blank_text : list rune := lit ("// c" ++ nl ++ "message A { // d" ++ nl ++ "  int32 x = 1;" ++ nl ++ "}").
Definition blank_lines : list rune := lit (" " ++ nl ++ nl).
Lemma blank_case : Spaces blank_lines /\ whole_lines blank_lines /\ nonul blank_text /\ exists p p' b b', Parse [] blank_text = Ok p /\ Parse [] (blank_lines ++ blank_text) = Ok p' /\
  In (VMessage b) (p_body p) /\ In (VMessage b') (p_body p') /\ Pos (b_meta b) = mkPos [] 5 2 1 /\ Pos (b_meta b') = mkPos [] 8 4 1.
Proof.
  split; [repeat constructor|]. split; [right; exists (lit (" " ++ nl)); reflexivity|]. split; [unfold nonul; repeat (constructor; [vm_compute; discriminate|]); constructor|].
  destruct (Parse [] blank_text) as [p|e| |] eqn:E; [|vm_compute in E; discriminate E..]. destruct (Parse [] (blank_lines ++ blank_text)) as [p'|e| |] eqn:E'; [|vm_compute in E'; discriminate E'..].
  vm_compute in E. vm_compute in E'. injection E as <-. injection E' as <-. do 4 eexists. split; [reflexivity|]. split; [reflexivity|]. split; [left; reflexivity|]. split; [left; reflexivity|]. split; reflexivity.
Qed.
(** an error on the first token has the position in front of the white space *)
Lemma blank_error : exists e, Parse [] (lit "foo") = Err e /\ Parse [] (lit nl ++ lit "foo") = Err e.
Proof. eexists. split; vm_compute; reflexivity. Qed.
