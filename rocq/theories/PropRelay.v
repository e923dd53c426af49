(** Layout: property theorems. *)
From Coq Require Import List NArith ZArith Bool String Ascii.
From Verif Require Import Base Token Scanner Ast Parser Api LexSpec RefineFile Grammar GramCase BareSpec RelayFile.
Import ListNotations.

(** C09: take a text of the documented grammar and any other text with the same
    tokens, laid out in any way.  Both are accepted, and with the same AST but for
    positions and comments.  The exception: if the file has an empty statement at
    the top level, the other text may make Parse panic.
    Missing for C09, for which it is false (the theorems below): texts outside the
    documented grammar, and that exception. *)
Theorem C09_partial : forall opts input input' its its' pr c, c = config_of opts -> readable input -> readable input' ->
  Layout true (pos0 (cfg_filename c)) input its -> Layout true (pos0 (cfg_filename c)) input' its' -> toks its' = toks its ->
  File (cfg_permissive c) (cfg_bodyIncludingComments c) false (cfg_filename c) its pr ->
  Parse opts input = Ok pr /\
  ((exists pr', Parse opts input' = Ok pr' /\ bare_proto pr' = bare_proto pr) \/ (Parse opts input' = Panic /\ In VNil (p_body pr))).
Proof. exact layout_free. Qed.
Print Assumptions C09_partial.
Example C09_case : (readable (lit case_text) /\ readable (lit relay_text)) /\ Layout true (pos0 []) (lit case_text) case_items /\ Layout true (pos0 []) (lit relay_text) relay_items /\
  toks relay_items = toks case_items /\ (forall perm bic, File perm bic false [] case_items case_proto) /\ case_items <> relay_items.
Proof. exact relay_case. Qed.

(** C09 refuted: a comment makes the difference between acceptance and panic ... *)
Theorem C09_refuted : Layout true (pos0 []) (lit ";") semi_items /\ Layout true (pos0 []) (lit "; /**/") semi_com_items /\ toks semi_com_items = toks semi_items /\
  (exists p, Parse [] (lit ";") = Ok p) /\ Parse [] (lit "; /**/") = Panic.
Proof. exact layout_matters. Qed.
Print Assumptions C09_refuted.
(** ... and between rejection and acceptance. *)
Theorem C09_refuted_hidden : Layout true (pos0 []) hidden_text hidden_items /\ Layout true (pos0 []) open_text open_items /\ toks hidden_items = toks open_items /\
  accepted (Parse [] hidden_text) = true /\ accepted (Parse [] open_text) = false.
Proof. exact layout_hides. Qed.
Print Assumptions C09_refuted_hidden.
