(** The AST: the Go structs of package parser.

    Pointers to comments and sub-nodes are values; a nil pointer is [None]; nil
    and empty slices are not distinguished.  A body is a list of [visitee];
    [VNil] is Go's nil interface value, which parser/proto.go:171-172 can put
    in ProtoBody. *)
From Coq Require Import List NArith ZArith Bool String.
From Verif Require Import Base Token Scanner.
Import ListNotations.

(** parser/meta/meta.go:4-11 *)
Record meta := mkMeta { Pos : mpos; LastPos : mpos }.

(** parser/comment.go:17-22 *)
Record comment := mkComment { c_raw : str; c_meta : meta }.

(** Comments, InlineComment and Meta are common to the statements below. *)

(** parser/syntax.go:9-21 *)
Record syntax := mkSyntax {
  sy_version : str; sy_versionQuote : str;
  sy_comments : list comment; sy_inline : option comment; sy_meta : meta }.

(** parser/edition.go:9-21 *)
Record edition := mkEdition {
  ed_edition : str; ed_editionQuote : str;
  ed_comments : list comment; ed_inline : option comment; ed_meta : meta }.

(** parser/import.go:9-16 *)
Inductive importModifier := ImportModifierNone | ImportModifierPublic | ImportModifierWeak.
(** parser/import.go:19-29 *)
Record import := mkImport {
  im_modifier : importModifier; im_location : str;
  im_comments : list comment; im_inline : option comment; im_meta : meta }.

(** parser/package.go:9-18 *)
Record package := mkPackage {
  pk_name : str;
  pk_comments : list comment; pk_inline : option comment; pk_meta : meta }.

(** parser/option.go:11-21 *)
Record option_ := mkOption {
  op_name : str; op_constant : str;
  op_comments : list comment; op_inline : option comment; op_meta : meta }.

(** parser/emptyStatement.go:4-7 *)
Record emptyStatement := mkEmpty { em_inline : option comment }.

(** parser/field.go:9-12 *)
Record fieldOption := mkFieldOption { fo_name : str; fo_constant : str }.
(** parser/field.go:15-30 *)
Record field := mkField {
  f_repeated : bool; f_required : bool; f_optional : bool;
  f_type : str; f_name : str; f_number : str; f_options : list fieldOption;
  f_comments : list comment; f_inline : option comment; f_meta : meta }.

(** parser/mapField.go:9-22 *)
Record mapField := mkMapField {
  mf_keyType : str; mf_type : str; mf_name : str; mf_number : str; mf_options : list fieldOption;
  mf_comments : list comment; mf_inline : option comment; mf_meta : meta }.

(** parser/oneof.go:9-21 *)
Record oneofField := mkOneofField {
  oof_type : str; oof_name : str; oof_number : str; oof_options : list fieldOption;
  oof_comments : list comment; oof_inline : option comment; oof_meta : meta }.
(** parser/oneof.go:43-57 *)
Record oneof := mkOneof {
  oo_fields : list oneofField; oo_name : str; oo_options : list option_;
  oo_comments : list comment; oo_inline : option comment; oo_inlineLC : option comment; oo_meta : meta }.

(** parser/enum.go:24-41 *)
Record enumValueOption := mkEnumValueOption { ev_name : str; ev_constant : str }.
Record enumField := mkEnumField {
  ef_ident : str; ef_number : str; ef_options : list enumValueOption;
  ef_comments : list comment; ef_inline : option comment; ef_meta : meta }.

(** parser/service.go:9-43 *)
Record rpcParam := mkRPCParam { rp_stream : bool; rp_type : str; rp_meta : meta }.
Record rpc := mkRPC {
  r_name : str; r_request : rpcParam; r_response : rpcParam; r_options : list option_;
  r_comments : list comment; r_inline : option comment; r_inlineLC : option comment;
  r_embedded : list comment; r_meta : meta }.

(** parser/reserved.go:20-37 *)
Record range := mkRange { rg_begin : str; rg_end : str }.
Record reserved := mkReserved {
  rs_ranges : list range; rs_names : list str;
  rs_comments : list comment; rs_inline : option comment; rs_meta : meta }.

(** parser/declaration.go:9-24 *)
Record declaration := mkDeclaration {
  d_number : str; d_fullName : str; d_type : str; d_reserved : bool; d_repeated : bool;
  d_comments : list comment; d_inline : option comment; d_inlineLC : option comment; d_meta : meta }.
(** parser/extensions.go:9-21 *)
Record extensions := mkExtensions {
  xs_ranges : list range; xs_declarations : list declaration;
  xs_comments : list comment; xs_inline : option comment; xs_inlineLS : option comment; xs_meta : meta }.

(** The recursive nodes have a body of [visitee]s; they are parametric records
    so that the recursion stays in one inductive type. *)

(** parser/groupField.go:12-31 *)
Record groupField_ (B : Type) := mkGroupField {
  g_repeated : bool; g_required : bool; g_optional : bool;
  g_name : str; g_body : list B; g_number : str;
  g_comments : list comment; g_inline : option comment; g_inlineLC : option comment; g_meta : meta }.
(** parser/message.go:24-38, enum.go:63-77, service.go:65-78, extend.go:24-37:
    a name (message type for extend), a body, comments and meta. *)
Record block_ (B : Type) := mkBlock {
  b_name : str; b_body : list B;
  b_comments : list comment; b_inline : option comment; b_inlineLC : option comment; b_meta : meta }.
Arguments mkGroupField {B}. Arguments g_repeated {B}. Arguments g_required {B}.
Arguments g_optional {B}. Arguments g_name {B}. Arguments g_body {B}. Arguments g_number {B}.
Arguments g_comments {B}. Arguments g_inline {B}. Arguments g_inlineLC {B}. Arguments g_meta {B}.
Arguments mkBlock {B}. Arguments b_name {B}. Arguments b_body {B}. Arguments b_comments {B}.
Arguments b_inline {B}. Arguments b_inlineLC {B}. Arguments b_meta {B}.

(** parser/visitee.go:4-6 Visitee: the dynamic types that occur in bodies. *)
Inductive visitee :=
| VNil
| VComment (c : comment)
| VImport (i : import)
| VPackage (p : package)
| VOption (o : option_)
| VEmpty (e : emptyStatement)
| VField (f : field)
| VMapField (m : mapField)
| VGroupField (g : groupField_ visitee)
| VOneof (o : oneof)
| VEnumField (e : enumField)
| VRPC (r : rpc)
| VReserved (r : reserved)
| VExtensions (x : extensions)
| VMessage (m : block_ visitee)
| VEnum (e : block_ visitee)
| VService (s : block_ visitee)
| VExtend (x : block_ visitee).

Definition groupField := groupField_ visitee.
Definition block := block_ visitee.

(** parser/proto.go:6-18 *)
Record proto := mkProto {
  p_syntax : option syntax; p_edition : option edition;
  p_body : list visitee; p_filename : str }.

(** The SetInlineComment methods. *)
Definition set_sy_inline (c : comment) (x : syntax) :=
  mkSyntax (sy_version x) (sy_versionQuote x) (sy_comments x) (Some c) (sy_meta x).
Definition set_ed_inline (c : comment) (x : edition) :=
  mkEdition (ed_edition x) (ed_editionQuote x) (ed_comments x) (Some c) (ed_meta x).
Definition set_op_inline (c : comment) (x : option_) :=
  mkOption (op_name x) (op_constant x) (op_comments x) (Some c) (op_meta x).
Definition set_oof_inline (c : comment) (x : oneofField) :=
  mkOneofField (oof_type x) (oof_name x) (oof_number x) (oof_options x) (oof_comments x) (Some c) (oof_meta x).
Definition set_d_inline (c : comment) (x : declaration) :=
  mkDeclaration (d_number x) (d_fullName x) (d_type x) (d_reserved x) (d_repeated x)
                (d_comments x) (Some c) (d_inlineLC x) (d_meta x).
Definition set_b_inline {B} (c : comment) (x : block_ B) : block_ B :=
  mkBlock (b_name x) (b_body x) (b_comments x) (Some c) (b_inlineLC x) (b_meta x).

(** [stmt.SetInlineComment(c)]; [None] is the nil-interface panic.  *Comment has
    no such method, but a comment is never the argument. *)
Definition set_inline (c : comment) (v : visitee) : option visitee :=
  match v with
  | VNil => None
  | VComment x => Some (VComment x)
  | VImport x => Some (VImport (mkImport (im_modifier x) (im_location x) (im_comments x) (Some c) (im_meta x)))
  | VPackage x => Some (VPackage (mkPackage (pk_name x) (pk_comments x) (Some c) (pk_meta x)))
  | VOption x => Some (VOption (set_op_inline c x))
  | VEmpty x => Some (VEmpty (mkEmpty (Some c)))
  | VField x => Some (VField (mkField (f_repeated x) (f_required x) (f_optional x) (f_type x) (f_name x)
                    (f_number x) (f_options x) (f_comments x) (Some c) (f_meta x)))
  | VMapField x => Some (VMapField (mkMapField (mf_keyType x) (mf_type x) (mf_name x) (mf_number x)
                    (mf_options x) (mf_comments x) (Some c) (mf_meta x)))
  | VGroupField x => Some (VGroupField (mkGroupField (g_repeated x) (g_required x) (g_optional x) (g_name x)
                    (g_body x) (g_number x) (g_comments x) (Some c) (g_inlineLC x) (g_meta x)))
  | VOneof x => Some (VOneof (mkOneof (oo_fields x) (oo_name x) (oo_options x) (oo_comments x) (Some c)
                    (oo_inlineLC x) (oo_meta x)))
  | VEnumField x => Some (VEnumField (mkEnumField (ef_ident x) (ef_number x) (ef_options x) (ef_comments x)
                    (Some c) (ef_meta x)))
  | VRPC x => Some (VRPC (mkRPC (r_name x) (r_request x) (r_response x) (r_options x) (r_comments x) (Some c)
                    (r_inlineLC x) (r_embedded x) (r_meta x)))
  | VReserved x => Some (VReserved (mkReserved (rs_ranges x) (rs_names x) (rs_comments x) (Some c) (rs_meta x)))
  | VExtensions x => Some (VExtensions (mkExtensions (xs_ranges x) (xs_declarations x) (xs_comments x) (Some c)
                    (xs_inlineLS x) (xs_meta x)))
  | VMessage x => Some (VMessage (set_b_inline c x))
  | VEnum x => Some (VEnum (set_b_inline c x))
  | VService x => Some (VService (set_b_inline c x))
  | VExtend x => Some (VExtend (set_b_inline c x))
  end.
