(** The AST without its comments and positions.  Specification only. *)
From Coq Require Import List NArith ZArith Bool String Ascii.
From Verif Require Import Base Token Scanner Ast Grammar.
Import ListNotations.

Definition nowhere : meta := mkMeta (mkPos [] 0 0 0) (mkPos [] 0 0 0).
Definition bare_syntax (x : syntax) := mkSyntax (sy_version x) (sy_versionQuote x) [] None nowhere.
Definition bare_edition (x : edition) := mkEdition (ed_edition x) (ed_editionQuote x) [] None nowhere.
Definition bare_import (x : import) := mkImport (im_modifier x) (im_location x) [] None nowhere.
Definition bare_package (x : package) := mkPackage (pk_name x) [] None nowhere.
Definition bare_option (x : option_) := mkOption (op_name x) (op_constant x) [] None nowhere.
Definition bare_field (x : field) :=
  mkField (f_repeated x) (f_required x) (f_optional x) (f_type x) (f_name x) (f_number x) (f_options x) [] None nowhere.
Definition bare_mapField (x : mapField) :=
  mkMapField (mf_keyType x) (mf_type x) (mf_name x) (mf_number x) (mf_options x) [] None nowhere.
Definition bare_oneofField (x : oneofField) :=
  mkOneofField (oof_type x) (oof_name x) (oof_number x) (oof_options x) [] None nowhere.
Definition bare_oneof (x : oneof) :=
  mkOneof (map bare_oneofField (oo_fields x)) (oo_name x) (map bare_option (oo_options x)) [] None None nowhere.
Definition bare_enumField (x : enumField) := mkEnumField (ef_ident x) (ef_number x) (ef_options x) [] None nowhere.
Definition bare_param (x : rpcParam) := mkRPCParam (rp_stream x) (rp_type x) nowhere.
Definition bare_rpc (x : rpc) :=
  mkRPC (r_name x) (bare_param (r_request x)) (bare_param (r_response x)) (map bare_option (r_options x)) [] None None [] nowhere.
Definition bare_reserved (x : reserved) := mkReserved (rs_ranges x) (rs_names x) [] None nowhere.
Definition bare_declaration (x : declaration) :=
  mkDeclaration (d_number x) (d_fullName x) (d_type x) (d_reserved x) (d_repeated x) [] None None nowhere.
Definition bare_extensions (x : extensions) :=
  mkExtensions (xs_ranges x) (map bare_declaration (xs_declarations x)) [] None None nowhere.

(** the comment nodes of bodies go as well *)
Fixpoint bare (v : visitee) : visitee :=
  let body := fix body (l : list visitee) : list visitee :=
    match l with [] => [] | VComment _ :: l => body l | v :: l => bare v :: body l end in
  let block (x : block) : block_ visitee := mkBlock (b_name x) (body (b_body x)) [] None None nowhere in
  match v with
  | VNil => VNil
  | VComment x => VComment (mkComment [] nowhere)
  | VImport x => VImport (bare_import x)
  | VPackage x => VPackage (bare_package x)
  | VOption x => VOption (bare_option x)
  | VEmpty x => VEmpty (mkEmpty None)
  | VField x => VField (bare_field x)
  | VMapField x => VMapField (bare_mapField x)
  | VGroupField x =>
    VGroupField (mkGroupField (g_repeated x) (g_required x) (g_optional x) (g_name x) (body (g_body x)) (g_number x) [] None None nowhere)
  | VOneof x => VOneof (bare_oneof x)
  | VEnumField x => VEnumField (bare_enumField x)
  | VRPC x => VRPC (bare_rpc x)
  | VReserved x => VReserved (bare_reserved x)
  | VExtensions x => VExtensions (bare_extensions x)
  | VMessage x => VMessage (block x)
  | VEnum x => VEnum (block x)
  | VService x => VService (block x)
  | VExtend x => VExtend (block x)
  end.
Fixpoint bare_body (l : list visitee) : list visitee :=
  match l with [] => [] | VComment _ :: l => bare_body l | v :: l => bare v :: bare_body l end.
Definition bare_proto (p : proto) : proto :=
  mkProto (option_map bare_syntax (p_syntax p)) (option_map bare_edition (p_edition p)) (bare_body (p_body p)) (p_filename p).
