(** Printing an AST and parsing the text again: property theorems. *)
From Coq Require Import List NArith ZArith Bool String Ascii.
From Verif Require Import Base Token Scanner ScanRefine Ast Parser Api LexSpec RefineFile Tree Grammar GramCase SndCase BareSpec PrintSpec PrintFile PrintCase Regular.
Import ListNotations.

(** C44: the AST of an accepted text, printed word by word, is accepted again with
    the same options; the second AST is the first up to positions and comments,
    and prints the same.
    Missing for C44, for which it is false (C44_refuted): permissive mode joins
    strings to something that is no string if one of them ends with an escaped
    quote or contains quotes of the other kind.  Left out beyond that: versions
    between different quotes, files with both groups and empty statements
    in messages. *)
Theorem C44_partial : forall opts input pr c, c = config_of opts -> readable input -> ordinary c input pr -> header_quotes pr ->
  (cfg_permissive c = true -> plain_quotes input) ->
  Parse opts input = Ok pr ->
  exists pr', Parse opts (print (cfg_permissive c) pr) = Ok pr' /\ bare_proto pr' = bare_proto pr /\
    print (cfg_permissive c) pr' = print (cfg_permissive c) pr.
Proof. exact reprint. Qed.
Print Assumptions C44_partial.
Example C44_partial_case : readable (lit print_text) /\ regular (lit print_text) print_proto /\ header_quotes print_proto /\ plain_quotes (lit print_text) /\
  Parse [] (lit print_text) = Ok print_proto /\
  (exists r, print true print_proto = lit print_out ++ r) /\ print true print_proto <> lit print_text.
Proof. exact print_case. Qed.
Example C44_partial_strict_case : readable (lit strict_text) /\ regular (lit strict_text) strict_proto /\ header_quotes strict_proto /\
  Parse [WithPermissive false] (lit strict_text) = Ok strict_proto /\
  print false strict_proto = lit "edition = '2023' ; option a = ""\"""" ; option b = '""\'' ; message M { A x = 1 [ c = '\'' ] ; } ".
Proof. exact print_strict_case. Qed.
Example C44_partial_group_case : readable (lit group_text) /\ regular (lit group_text) group_proto /\ header_quotes group_proto /\ plain_quotes (lit group_text) /\
  Parse [] (lit group_text) = Ok group_proto.
Proof. exact print_group_case. Qed.
Example C44_partial_join_case : readable (lit join_text) /\ regular (lit join_text) join_proto /\ header_quotes join_proto /\ plain_quotes (lit join_text) /\
  Parse [WithPermissive true] (lit join_text) = Ok join_proto /\ print true join_proto = lit "option a = ""x\""yz"" ; ".
Proof. exact print_join_case. Qed.

(** Full C44 is false: an option with two strings, the second of them just an
    escaped quote, is accepted in permissive mode.  Its constant keeps the
    backslash and drops the quote behind it, so that the string is never closed. *)
Theorem C44_refuted : exists pr, readable (lit lost_text) /\ Parse [WithPermissive true] (lit lost_text) = Ok pr /\
  print true pr = lit "option a = ""x\"" ; " /\ forall pr', Parse [WithPermissive true] (print true pr) <> Ok pr'.
Proof. exact (ex_intro _ _ lost_case). Qed.
Print Assumptions C44_refuted.
