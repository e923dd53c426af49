(** Two results compared: property theorems. *)
From Coq Require Import List NArith ZArith Bool String Ascii.
From Verif Require Import Base Token Scanner Lexer Ast Parser Api ScanRefine AstMap LexSpec Tree SimSpec SimCases SimCase Bom.
Import ListNotations.

(** C20: bodyIncludingComments only adds comment nodes.  For every text and
    whatever else is configured: without the option the outcome is that with the
    option, the comment nodes of every body (of the file too) deleted.  Errors and
    panics are the same. *)
Theorem C20 : forall opts opts' input,
  cfg_permissive (config_of opts') = cfg_permissive (config_of opts) -> cfg_filename (config_of opts') = cfg_filename (config_of opts) ->
  cfg_bodyIncludingComments (config_of opts) = true -> cfg_bodyIncludingComments (config_of opts') = false ->
  Parse opts' input = map_res (fun p => p) true (fun x => x) (Parse opts input).
Proof. exact bic_parse. Qed.
Print Assumptions C20.
Example C20_case : exists p p', Parse [WithBodyIncludingComments true] sim_text = Ok p /\ Parse [] sim_text = Ok p' /\ p <> p' /\
  p' = map_proto (fun q => q) true (fun x => x) p.
Proof. exact body_case. Qed.

(** C22: the file name only labels positions.  The outcome with another name is
    the outcome with every Filename replaced, those of the errors too. *)
Theorem C22 : forall opts opts' input,
  cfg_permissive (config_of opts') = cfg_permissive (config_of opts) ->
  cfg_bodyIncludingComments (config_of opts') = cfg_bodyIncludingComments (config_of opts) ->
  Parse opts' input = map_res (relabel (cfg_filename (config_of opts'))) false (fun _ => cfg_filename (config_of opts')) (Parse opts input).
Proof. exact name_parse. Qed.
Print Assumptions C22.
Example C22_case : exists p p', Parse [] sim_text = Ok p /\ Parse [WithFilename (lit "f.proto")] sim_text = Ok p' /\ p <> p' /\ p_filename p' = lit "f.proto" /\
  exists b, In (VMessage b) (p_body p') /\ Pos (b_meta b) = mkPos (lit "f.proto") 5 2 1.
Proof. exact name_case. Qed.

(** C22: the name of the Proto and of the positions of every element and every
    comment is the configured one. *)
Theorem C22_labels : forall opts input pr, Parse opts input = Ok pr ->
  p_filename pr = cfg_filename (config_of opts) /\
  forall e, element pr e ->
    (forall m, e_meta e = Some m -> named (cfg_filename (config_of opts)) m) /\
    (forall c, In c (e_all e) -> named (cfg_filename (config_of opts)) (c_meta c)).
Proof. exact name_labels. Qed.
Print Assumptions C22_labels.

(** C22: ... and of the positions in an error. *)
Theorem C22_errors : forall opts input e, Parse opts input = Err e -> forall p, In p (err_positions e) -> Filename p = cfg_filename (config_of opts).
Proof. exact name_errors. Qed.
Print Assumptions C22_errors.
Example C22_errors_case : exists e, Parse [WithFilename (lit "f")] (lit "message 1") = Err e /\ err_positions e <> [].
Proof. exact name_error_case. Qed.

(** C41, first half: a byte order mark in front of a text is skipped.  The outcome
    (tree, error or panic) is that of the text alone, offsets moved by three and
    columns not compared.  Missing for C41: the second half, which is false. *)
Theorem C41_partial : forall opts input, nonul input -> ~ starts_with_bom input -> Parse opts input <> Fuel ->
  map_res plain false (fun x => x) (Parse opts (BOM :: input)) = map_res behind false (fun x => x) (Parse opts input).
Proof. exact bom_skipped. Qed.
Print Assumptions C41_partial.
Example C41_case : nonul sim_text /\ ~ starts_with_bom sim_text /\ exists p p', Parse [] sim_text = Ok p /\ Parse [] (BOM :: sim_text) = Ok p' /\
  exists b, In (VMessage b) (p_body p') /\ Pos (b_meta b) = mkPos [] 8 2 1.
Proof. exact bom_case. Qed.

(** C41, second half refuted: a byte order mark between the tokens of an import
    is passed over. *)
Theorem C41_refuted : exists p, Parse [] (lit "import " ++ [BOM] ++ lit " ""x"";") = Ok p /\ p_body p <> [].
Proof. exact bom_inside. Qed.
Print Assumptions C41_refuted.
