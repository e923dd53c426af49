(** The parts of statements: property theorems. *)
From Coq Require Import List NArith ZArith Bool String Ascii.
From Verif Require Import Base Token Scanner ScanRefine Ast Parser Api LexSpec RefineFile Grammar Tree SndCase BareSpec AttachSpec PartSpec Parts PartCase Regular.
Import ListNotations.

(** One case for all theorems below: a message and a service with comments, two
    reserved statements, an option given by two string literals, an RPC with two
    embedded comments. *)
Example parts_case : (readable (lit part_text) /\ regular (lit part_text) part_proto /\ Parse part_opts (lit part_text) = Ok part_proto) /\
  (element part_proto (EStmt (VMessage part_message)) /\ element part_proto (EStmt (VService part_service)) /\
   Forall (fun e => element part_proto e) (map EStmt (b_body part_message)) /\ Forall (fun e => element part_proto e) (map EStmt (b_body part_service))) /\
  map (fun n => (map rg_end (rs_ranges (part_reserved n)), rs_names (part_reserved n))) [0%nat; 1%nat] = [([[]; lit "max"], []); ([], [lit """a"""; lit """b"""])] /\
  (op_name part_option = lit "(o).p" /\ op_constant part_option = lit """abcd""") /\
  map c_raw (r_embedded part_rpc) = [lit "/* f */"; lit "/* a */"] /\
  map (fun v => match v with VComment c => c_raw c | _ => [] end) (b_body part_message ++ b_body part_service) = [[]; []; []; lit "// end"; []; lit "// last"].
Proof. exact (conj part_case (conj part_elements part_values)). Qed.

(** C21: in a body with a statement (for enums and services in every body) the
    AST has every comment in front of a statement, behind it on its line, behind
    the opening brace, and in front of the closing one.
    Missing, and false (C21_refuted): comments between the tokens of one
    statement, in front of an empty statement, and in a message or extend without
    statements; texts with groups and with empty statements in messages. *)
Theorem C21_partial : forall opts input pr e l c, c = config_of opts -> cfg_bodyIncludingComments c = true ->
  readable input -> ordinary c input pr -> Parse opts input = Ok pr ->
  element pr e -> block_of e -> In l (children e) -> l <> [] \/ keeps_empty e ->
  exists p lc mid q, between (cfg_filename c) input (lit "{") p (icom lc ++ mid) (lit "}") q /\
    brace_comment e = inode lc /\ covered mid l.
Proof. exact body_comments. Qed.
Print Assumptions C21_partial.

(** C32: the constant of an option.  Without the permissive mode it is the text of
    the tokens behind the equals sign.  In the permissive mode, for string literals
    with one and the same quote that have no quote at the ends of their contents,
    it is the literal with their contents one behind the other.
    Missing, and false (C32_refuted): literals with a quote at the end of their
    contents, literals with different quotes. *)
Theorem C32_partial : forall opts input pr e o c, c = config_of opts -> readable input -> ordinary c input pr ->
  Parse opts input = Ok pr -> element pr e -> e = EStmt (VOption o) \/ e = EOption o ->
  exists tn te tv,
    between (cfg_filename c) input (lit "option") (Pos (op_meta o)) (tn ++ te ++ tv) (lit ";") (LastPos (op_meta o)) /\
    List.concat (toks tn) = op_name o /\ toks te = [lit "="] /\
    (cfg_permissive c = false -> List.concat (toks tv) = op_constant o) /\
    (cfg_permissive c = true -> forall q ss, q = SQ \/ q = DQ -> ss <> [] -> toks tv = map (quoted q) ss -> Forall (clear_of q) ss ->
      op_constant o = quoted q (List.concat ss)).
Proof. exact constants_kept. Qed.
Print Assumptions C32_partial.

(** C33: a Reserved node with ranges lists exactly the tokens of the statement; one
    with names lists every token but the commas, unless the statement begins with
    an integer literal.
    Missing, and false (C33_refuted): names behind ranges. *)
Theorem C33_partial : forall opts input pr r c, c = config_of opts -> readable input -> ordinary c input pr ->
  Parse opts input = Ok pr -> element pr (EStmt (VReserved r)) ->
  exists mid, between (cfg_filename c) input (lit "reserved") (Pos (rs_meta r)) mid (lit ";") (LastPos (rs_meta r)) /\
    (rs_ranges r <> [] -> rs_names r = [] /\ toks mid = commas (map range_toks (rs_ranges r))) /\
    (rs_ranges r = [] -> exists lost names, toks mid = lost ++ names /\ filter not_comma names = rs_names r /\
      (lost = [] \/ exists x l, lost = x :: l /\ is_int x)).
Proof. exact reserved_kept. Qed.
Print Assumptions C33_partial.

(** C34: EmbeddedComments of an RPC are the comments between the rpc keyword and
    the first semicolon or opening brace behind it, in the order of the text.
    Missing: texts with groups and with empty statements in messages. *)
Theorem C34_partial : forall opts input pr r c, c = config_of opts -> readable input -> ordinary c input pr ->
  Parse opts input = Ok pr -> element pr (EStmt (VRPC r)) ->
  exists mid x q, between (cfg_filename c) input (lit "rpc") (Pos (r_meta r)) mid x q /\
    ((x = lit ";" /\ q = LastPos (r_meta r)) \/ x = lit "{") /\
    (forall y q', In (Tok y q') mid -> y <> lit ";" /\ y <> lit "{") /\ r_embedded r = comments_in mid.
Proof. exact embedded_comments. Qed.
Print Assumptions C34_partial.
