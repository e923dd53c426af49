(** Grammar completeness: property theorems. *)
From Coq Require Import List NArith ZArith Bool String Ascii.
From Verif Require Import Base Token Scanner Ast Parser Api LexSpec RefineFile Grammar GramFile GramCase Refuted.
Import ListNotations.

(** C03: every text laid out as tokens that are a derivation of the documented
    grammar (Grammar.v, without the deviations) is accepted, and the AST is the
    one the derivation denotes, positions and comments included.
    Missing for C03, for which it is false: see [C03_refuted].  Grammar.v leaves
    these productions of the documentation out: an empty statement at the end of a
    oneof, a group in a oneof or an extend, a comment behind a top level
    semicolon on its line. *)
Theorem C03_partial : forall opts input its pr c, c = config_of opts -> readable input ->
  Layout true (pos0 (cfg_filename c)) input its ->
  File (cfg_permissive c) (cfg_bodyIncludingComments c) false (cfg_filename c) its pr ->
  Parse opts input = Ok pr.
Proof. exact parse_complete. Qed.
Print Assumptions C03_partial.
Example C03_partial_case : readable (lit case_text) /\ Layout true (pos0 []) (lit case_text) case_items /\
  forall perm bic, File perm bic false [] case_items case_proto.
Proof. exact (conj case_readable (conj case_layout case_file)). Qed.

(** C03: texts of the documented grammar that are rejected. *)
Theorem C03_refuted :
  Forall (fun input => exists e, forall opts, In opts [[]; [WithPermissive false]] -> Parse opts input = Err e)
    [ lit "message M { oneof o { int32 a = 1; ; } }";
      lit "extend M { optional group G = 1 { } }" ]
  /\ Parse [] (lit "; // c") = Panic.
Proof. exact incomplete_examples. Qed.
Print Assumptions C03_refuted.
