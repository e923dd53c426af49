(** Comments of statements: property theorems. *)
From Coq Require Import List NArith ZArith Bool String Ascii.
From Verif Require Import Base Token Scanner ScanRefine Ast Tree AttachSpec DeclSpec Parser Api LexSpec RefineFile Refuted SndCase AttachText AttachCase AttachDecl DeclCase Regular.
Import ListNotations.

(** C19, statements in the body of a message, enum, service, extend or group: the
    comments are those between the token in front (the opening brace or the last
    token of the statement before) and the first token, without a first one on the
    line of that token; the inline comment is the comment that follows the last
    token on its line, if there is one.
    Missing for C19, for which it is false (C19_refuted, C19_shared_refuted): texts
    with groups and with empty statements in messages, the first statement of a file without syntax and edition, an
    edition behind a syntax, options of an RPC (C19_rpc_refuted). *)
Theorem C19_partial : forall opts input pr c, c = config_of opts -> readable input -> ordinary c input pr ->
  Parse opts input = Ok pr -> forall p l l1 e l2 m,
  element pr p -> block_of p -> In l (children p) -> l = l1 ++ e :: l2 -> e_meta e = Some m -> ~ is_comment_node e ->
  Attached (cfg_filename c) input (behind (cfg_filename c) (last_of l1)) but_inline e m.
Proof. exact block_comments. Qed.
Print Assumptions C19_partial.
Example C19_partial_case : (readable (lit attach_text) /\ regular (lit attach_text) attach_proto /\ Parse [] (lit attach_text) = Ok attach_proto) /\
  element attach_proto (EStmt attach_message) /\
  block_of (EStmt attach_message) /\ exists l l2, In l (children (EStmt attach_message)) /\ l = [EStmt attach_field] ++ EStmt (VOneof attach_oneof) :: l2 /\
  raws (EStmt attach_field) = ([lit "// f1"; lit "/* f2 */"], Some (lit "// f4")) /\ raws (EStmt (VOneof attach_oneof)) = ([], Some (lit "// o5")).
Proof. exact (conj attach_parse (conj attach_root attach_block)). Qed.

(** C19, statements of a file behind the first. *)
Theorem C19_file_partial : forall opts input pr c, c = config_of opts -> readable input -> ordinary c input pr ->
  Parse opts input = Ok pr -> forall v l1 l2 m,
  roots pr = l1 ++ EStmt v :: l2 -> l1 <> [] -> e_meta (EStmt v) = Some m -> ~ is_comment_node (EStmt v) ->
  Attached (cfg_filename c) input (behind (cfg_filename c) (last_of l1)) but_inline (EStmt v) m.
Proof. exact file_comments. Qed.
Print Assumptions C19_file_partial.
Example C19_file_partial_case : (readable (lit attach_text) /\ regular (lit attach_text) attach_proto /\ Parse [] (lit attach_text) = Ok attach_proto) /\
  exists l1 l2, roots attach_proto = l1 ++ EStmt attach_message :: l2 /\ l1 <> [] /\ e_meta (EStmt attach_message) <> None /\ ~ is_comment_node (EStmt attach_message) /\
  raws (EStmt attach_message) = ([lit "// m1"; lit "// m2"], None).
Proof. exact (conj attach_parse attach_stmt). Qed.

(** C19, the first statement of a file, if it is a syntax or edition statement. *)
Theorem C19_head_partial : forall opts input pr c, c = config_of opts -> readable input -> ordinary c input pr ->
  Parse opts input = Ok pr -> forall e l2 m,
  roots pr = e :: l2 -> (forall v, e <> EStmt v) -> e_meta e = Some m ->
  Attached (cfg_filename c) input at_start every e m.
Proof. exact head_comments. Qed.
Print Assumptions C19_head_partial.
Example C19_head_partial_case : (readable (lit attach_text) /\ regular (lit attach_text) attach_proto /\ Parse [] (lit attach_text) = Ok attach_proto) /\
  exists e l2, roots attach_proto = e :: l2 /\ (forall v, e <> EStmt v) /\ e_meta e <> None /\ raws e = ([lit "// s1"; lit "/* s2 */"], Some (lit "// s3")).
Proof. exact (conj attach_parse attach_head). Qed.

(** C19, fields and options of a oneof. *)
Theorem C19_oneof_partial : forall opts input pr c, c = config_of opts -> readable input -> ordinary c input pr ->
  Parse opts input = Ok pr -> forall o e m,
  element pr (EStmt (VOneof o)) -> In e (map EOneofField (oo_fields o) ++ map EOption (oo_options o)) -> e_meta e = Some m ->
  Attached (cfg_filename c) input in_oneof either e m.
Proof. exact oneof_comments. Qed.
Print Assumptions C19_oneof_partial.
Example C19_oneof_partial_case : (readable (lit attach_text) /\ regular (lit attach_text) attach_proto /\ Parse [] (lit attach_text) = Ok attach_proto) /\
  element attach_proto (EStmt (VOneof attach_oneof)) /\ exists e1 e2, map EOneofField (oo_fields attach_oneof) = [e1; e2] /\
  raws e1 = ([], Some (lit "// o2")) /\ raws e2 = ([lit "/* o3 */"], Some (lit "// o4")).
Proof. exact (conj attach_parse attach_in_oneof). Qed.

(** C19, the declarations of an extension range: the comments are those behind the
    bracket or comma in front, without those that belong to it: one behind a bracket,
    two behind a comma; the inline comment is the last of up to two behind the comma
    or bracket that follows.  Comments between the brace and that are dropped. *)
Theorem C19_declaration_partial : forall opts input pr c, c = config_of opts -> readable input -> ordinary c input pr ->
  Parse opts input = Ok pr -> forall x l1 d l2,
  element pr (EStmt (VExtensions x)) -> xs_declarations x = l1 ++ d :: l2 -> Declared (cfg_filename c) input l1 d l2.
Proof. exact decl_comments. Qed.
Print Assumptions C19_declaration_partial.
Example C19_declaration_partial_case : (readable (lit decl_text_) /\ regular (lit decl_text_) decl_proto /\ Parse [] (lit decl_text_) = Ok decl_proto) /\
  exists x d1 d2, decl_ext = VExtensions x /\ element decl_proto (EStmt (VExtensions x)) /\ xs_declarations x = [d1; d2] /\
  raws (EDeclaration d1) = ([lit "// a2"], Some (lit "// a5")) /\ raws (EDeclaration d2) = ([lit "// b1"], None).
Proof. exact (conj decl_parse decl_in). Qed.

(** C19 holds of no option of an RPC: they have no comments, whatever the text has. *)
Theorem C19_rpc_refuted : forall opts input pr c, c = config_of opts -> readable input -> ordinary c input pr ->
  Parse opts input = Ok pr -> forall r o, element pr (EStmt (VRPC r)) -> In o (r_options r) -> op_comments o = [] /\ op_inline o = None.
Proof. exact rpc_comments. Qed.
Print Assumptions C19_rpc_refuted.
Example C19_rpc_refuted_case : (readable (lit decl_text_) /\ regular (lit decl_text_) decl_proto /\ Parse [] (lit decl_text_) = Ok decl_proto) /\
  exists r o, decl_rpc = VRPC r /\ element decl_proto (EStmt (VRPC r)) /\ r_options r = [o] /\ op_name o = lit "a".
Proof. exact (conj decl_parse rpc_in). Qed.

(** C19 does not hold of the first statement of a file without syntax and edition ... *)
Theorem C19_refuted : exists p b, Parse [] (lit ("// c" ++ nl ++ "message M { int32 a = 1; }")) = Ok p /\ p_body p = [VMessage b] /\ b_comments b = [].
Proof. exact lost_example. Qed.
Print Assumptions C19_refuted.
(** ... nor of an edition behind a syntax: both have the comments in front of the syntax. *)
Theorem C19_shared_refuted : exists p s e, Parse [] (lit ("// c" ++ nl ++ "syntax = ""proto3""; edition = ""2023"";")) = Ok p /\
  p_syntax p = Some s /\ p_edition p = Some e /\ sy_comments s = ed_comments e /\ List.length (ed_comments e) = 1%nat.
Proof. exact shared_example. Qed.
Print Assumptions C19_shared_refuted.
