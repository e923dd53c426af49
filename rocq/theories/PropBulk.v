(** The size of the AST: property theorems. *)
From Coq Require Import List NArith ZArith Bool String Ascii.
From Verif Require Import Base Token Scanner Ast Parser Api LexSpec SimSpec HeldSpec BulkSpec Regular AttachCase Bulk BulkCase.
Import ListNotations.

(** C51: the elements of an AST, the strings in them and all comments together are at
    most four times as long as the text.
    Missing for C51: texts that are not settled (as in C01) and have empty statements
    in messages outside the documented grammar. *)
Theorem C51_partial : forall opts input pr c, c = config_of opts -> readable input -> ordinary c input pr -> Parse opts input = Ok pr ->
  (ast_size pr <= 4 * List.length input)%nat.
Proof. exact ast_linear. Qed.
Print Assumptions C51_partial.
Example C51_case : readable (lit attach_text) /\ ordinary (config_of []) (lit attach_text) attach_proto /\ Parse [] (lit attach_text) = Ok attach_proto /\
  ast_size attach_proto = 155%nat /\ List.length (lit attach_text) = 197%nat.
Proof. exact bulk_case. Qed.
