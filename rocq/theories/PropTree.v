(** The AST as a tree over the text: property theorems. *)
From Coq Require Import List NArith ZArith Bool String Ascii.
From Verif Require Import Base Token Scanner ScanRefine Ast Parser Api LexSpec RefineFile Tree GramCase Refuted SndCase DeepText DeepForm Regular DocCase.
Import ListNotations.

(** Three cases for all theorems below: an accepted text without the heading of a group,
    one with groups but without an empty statement in a message, and one with both that is
    a text of the documented grammar; each with an element two levels down or more. *)
Example tree_case : (readable (lit case_text) /\ regular (lit case_text) case_proto /\ Parse [] (lit case_text) = Ok case_proto) /\
  element case_proto (EStmt (VField case_field)) /\ e_meta (EStmt (VField case_field)) = Some (f_meta case_field) /\
  In (node_in case_field) (e_all_comments (EStmt (VField case_field))).
Proof. exact (conj sound_case (conj field_element (conj eq_refl (or_introl eq_refl)))). Qed.
Example tree_group_case : (readable (lit group_text) /\ regular (lit group_text) group_proto /\ Parse [] (lit group_text) = Ok group_proto) /\
  element group_proto (EStmt (VGroupField inner_group)) /\ e_meta (EStmt (VGroupField inner_group)) = Some (g_meta inner_group) /\
  In (inner_comment) (e_all_comments (EStmt (VGroupField inner_group))).
Proof. exact (conj group_case inner_element). Qed.
Example tree_doc_case : readable (lit doc_text) /\ ordinary (config_of []) (lit doc_text) doc_proto /\ ~ regular (lit doc_text) doc_proto /\
  Parse [] (lit doc_text) = Ok doc_proto /\ element doc_proto (EStmt (VGroupField doc_group)) /\
  e_meta (EStmt (VGroupField doc_group)) = Some (g_meta doc_group) /\ e_all_comments (EStmt (VGroupField doc_group)) <> [].
Proof. exact doc_case. Qed.

(** C05: in an accepted text that is settled (as in C01), or without an empty
    statement in the messages and groups of its AST, or of the documented grammar
    (the text is [ordinary]), every element with a Meta
    starts at [Pos] and its last token starts at [LastPos]; [Pos] is before
    [LastPos]; its children are in order between the two.
    Missing for C05: texts that are not settled, not of the documented grammar and have
    empty statements in messages, in place of statements that do not parse. *)
Theorem C05_partial : forall opts input pr e m c, c = config_of opts -> readable input -> ordinary c input pr ->
  Parse opts input = Ok pr -> element pr e -> e_meta e = Some m ->
  Placed (cfg_filename c) input e m /\ (Offset (Pos m) < Offset (LastPos m))%Z /\
  Forall (fun l => in_order (Offset (Pos m)) l (Offset (LastPos m))) (children e).
Proof. exact tree_placed. Qed.
Print Assumptions C05_partial.
(** C05 refuted: a comment whose node does not have its position; the column is
    lost when a semicolon on the next line is un-read twice. *)
Theorem C05_refuted : exists pr e x, Parse [] (lit ("message M { group A = 1 { reserved /*c*/" ++ nl ++ "; }")) = Ok pr /\
  element pr e /\ In x (e_all_comments e) /\ c_raw x = lit "/*c*/" /\
  forall pre post, lit ("message M { group A = 1 { reserved /*c*/" ++ nl ++ "; }") = pre ++ c_raw x ++ post -> ~ at_text [] pre (Pos (c_meta x)).
Proof. exact shifted_comment_example. Qed.
Print Assumptions C05_refuted.
(** C05, the top level: syntax, edition and statements in order within the text. *)
Theorem C05_roots_partial : forall opts input pr, readable input -> ordinary (config_of opts) input pr ->
  Parse opts input = Ok pr -> in_order (-1) (roots pr) (utf8_bytes input).
Proof. exact tree_roots. Qed.
Print Assumptions C05_roots_partial.

(** C28, where the comments come from: every comment in the AST of an accepted
    text, ordinary as above, is a comment of the text, at its place. *)
Theorem C28_located_partial : forall opts input pr e x c, c = config_of opts -> readable input -> ordinary c input pr ->
  Parse opts input = Ok pr -> element pr e -> In x (e_all_comments e) -> comment_of (cfg_filename c) input x.
Proof. exact tree_comment. Qed.
Print Assumptions C28_located_partial.

(** C30 with the type names: every element of the AST of an accepted text, ordinary
    as above, is well formed.  Of the oneof only that it has a field or an
    option (C30_refuted_oneof). *)
Theorem C30_types_partial : forall opts input pr e, readable input -> ordinary (config_of opts) input pr ->
  Parse opts input = Ok pr -> element pr e -> well_formed e.
Proof. exact tree_form. Qed.
Print Assumptions C30_types_partial.
