(** C54: white space in front of a text.  Theorems, concrete cases and nothing else. *)
From Coq Require Import List NArith ZArith Bool String Ascii.
From Verif Require Import Base Token Scanner Ast Parser Api AstMap LexSpec ScanRefine Refuted BlankSpec BlankFile BlankCase.
Import ListNotations.

(** C54: white space on lines of its own in front of a text moves the tree and
    changes nothing else: offsets by its bytes, lines by its newlines, columns not at all. *)
Theorem C54 : forall opts w input, Spaces w -> whole_lines w -> nonul input -> Parse opts input <> Fuel ->
  pushed_outcome 1 w (Parse opts (w ++ input)) (Parse opts input).
Proof. exact lines_pushed. Qed.
Print Assumptions C54.

(** Any white space: the same, with columns from the second line of the text on. *)
Theorem C54_indented : forall opts w input, Spaces w -> nonul input -> Parse opts input <> Fuel ->
  pushed_outcome 2 w (Parse opts (w ++ input)) (Parse opts input).
Proof. exact indent_pushed. Qed.
Print Assumptions C54_indented.
Example C54_case : Spaces blank_lines /\ whole_lines blank_lines /\ nonul blank_text /\ exists p p' b b', Parse [] blank_text = Ok p /\ Parse [] (blank_lines ++ blank_text) = Ok p' /\
  In (VMessage b) (p_body p) /\ In (VMessage b') (p_body p') /\ Pos (b_meta b) = mkPos [] 5 2 1 /\ Pos (b_meta b') = mkPos [] 8 4 1.
Proof. exact blank_case. Qed.

(** The position in an error does not always move: here it is that of the start of
    the file, with and without an empty line in front. *)
Theorem C54_error_refuted : exists e, Parse [] (lit "foo") = Err e /\ Parse [] (lit nl ++ lit "foo") = Err e.
Proof. exact blank_error. Qed.
Print Assumptions C54_error_refuted.
