(** The nodes of the AST say what the text says: property theorems. *)
From Coq Require Import List NArith ZArith Bool String Ascii.
From Verif Require Import Base Token Scanner ScanRefine Ast Parser Api LexSpec RefineFile Grammar Tree Refuted SndCase BareSpec PartSpec PrintCase SaidSpec Said SaidImport SaidCase SaidDeclSpec SaidDecl DeclCase Regular.
Import ListNotations.

(** The default mode and the strict mode: a field with a label and two options,
    one with a message literal; a field with a string. *)
Example C45_case :
  (readable (lit print_text) /\ regular (lit print_text) print_proto /\ Parse [] (lit print_text) = Ok print_proto) /\
  (readable (lit strict_text) /\ regular (lit strict_text) strict_proto /\ Parse [WithPermissive false] (lit strict_text) = Ok strict_proto) /\
  (element print_proto (EStmt (message_of print_proto)) /\ element print_proto (EStmt (field_of (message_of print_proto))) /\
   element strict_proto (EStmt (field_of (message_of strict_proto)))) /\
  option_map shown (heading (EStmt (message_of print_proto))) = Some (map lit ["message"; "M"; "{"]%string) /\
  option_map shown (said (EStmt (field_of (message_of print_proto)))) =
    Some (map lit ["optional"; ".a.B"; "x"; "="; "1"; "["; "(o)"; "="; "{a:1,b{c:[-1,inf]}" ++ nl ++ "d:""t""}"; ","; "deprecated"; "="; "true"; "]"; ";"]%string) /\
  option_map shown (said (EStmt (field_of (message_of strict_proto)))) = Some (map lit ["A"; "x"; "="; "1"; "["; "c"; "="; "'\''"; "]"; ";"]%string).
Proof. exact said_case. Qed.

(** C45: the tokens from Pos to LastPos of a statement spell the words of its
    node: label, type, name, number, options and the punctuation between them, in
    this order, and nothing else.
    Missing: imports without modifier (C45_import_partial); in permissive mode the
    tokens that close lists, for which it is false (C45_refuted); for reserved names
    see C33; texts with groups and with empty statements in
    messages. *)
Theorem C45_partial : forall opts input pr e l m c, c = config_of opts -> readable input -> ordinary c input pr ->
  Parse opts input = Ok pr -> element pr e -> said e = Some l -> e_meta e = Some m ->
  exists x mid y, between (cfg_filename c) input x (Pos m) mid y (LastPos m) /\
    spell (cfg_permissive c) (x :: toks mid ++ [y]) l.
Proof. exact said_kept. Qed.
Print Assumptions C45_partial.

(** For a statement with a body the tokens from Pos on spell its heading. *)
Theorem C45_heading_partial : forall opts input pr e l m c, c = config_of opts -> readable input -> ordinary c input pr ->
  Parse opts input = Ok pr -> element pr e -> heading e = Some l -> e_meta e = Some m ->
  exists x mid y q, between (cfg_filename c) input x (Pos m) mid y q /\
    spell (cfg_permissive c) (x :: toks mid ++ [y]) l.
Proof. exact heading_kept. Qed.
Print Assumptions C45_heading_partial.

(** The tokens from Pos to LastPos of a declaration give keys values; its fields are
    the values given last, and nothing else. *)
Theorem C45_declaration_partial : forall opts input pr d c, c = config_of opts -> readable input -> ordinary c input pr ->
  Parse opts input = Ok pr -> element pr (EDeclaration d) ->
  exists x mid y, between (cfg_filename c) input x (Pos (d_meta d)) mid y (LastPos (d_meta d)) /\ Declares (x :: toks mid ++ [y]) d.
Proof. exact declares_kept. Qed.
Print Assumptions C45_declaration_partial.
Example C45_declaration_partial_case : (readable (lit decl_text_) /\ regular (lit decl_text_) decl_proto /\ Parse [] (lit decl_text_) = Ok decl_proto) /\
  exists d1 d2, element decl_proto (EDeclaration d1) /\ element decl_proto (EDeclaration d2) /\
  (d_number d1, d_fullName d1, d_type d1, d_reserved d1) = (lit "4", lit """.a""", lit """b""", false) /\ (d_number d2, d_type d2, d_reserved d2) = (lit "5", [], true).
Proof. exact (conj decl_parse decl_says). Qed.

(** The tokens from Pos to LastPos of an import without modifier: the word import,
    the location of the node and the semicolon; there may be one more token in front of
    the location (C45_refuted), but it is not a modifier. *)
Theorem C45_import_partial : forall opts input pr i c, c = config_of opts -> readable input -> ordinary c input pr ->
  Parse opts input = Ok pr -> element pr (EStmt (VImport i)) -> im_modifier i = ImportModifierNone ->
  exists x mid y, between (cfg_filename c) input x (Pos (im_meta i)) mid y (LastPos (im_meta i)) /\ imports (x :: toks mid ++ [y]) i.
Proof. exact import_kept. Qed.
Print Assumptions C45_import_partial.
Example C45_import_partial_case : exists pr i, readable (lit junk_import) /\ regular (lit junk_import) pr /\
  Parse [] (lit junk_import) = Ok pr /\ element pr (EStmt (VImport i)) /\ im_modifier i = ImportModifierNone /\ im_location i = lit """x""".
Proof. exact import_case. Qed.

(** A word more behind import, or another token in place of the bracket that
    closes a list, gives the same AST with the same positions. *)
Theorem C45_refuted :
  (exists pr i, Parse [] (lit "import     ""x"";") = Ok pr /\ Parse [] (lit "import foo ""x"";") = Ok pr /\ element pr (EStmt (VImport i))) /\
  (exists pr o, Parse [] (lit "option o = [1, 2 ];") = Ok pr /\ Parse [] (lit "option o = [1, 2 };") = Ok pr /\ element pr (EStmt (VOption o))).
Proof. exact unsaid. Qed.
Print Assumptions C45_refuted.
