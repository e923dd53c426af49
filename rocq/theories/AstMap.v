(** The AST with its positions changed by a function and, if asked for, without
    the comment nodes of the bodies.  Specification only: it uses the AST types
    and nothing of the parser. *)
From Coq Require Import List NArith ZArith Bool String Ascii.
From Verif Require Import Base Token Scanner Ast.
Import ListNotations.

Section Map.
(** what happens to a position; whether the comment nodes of bodies are dropped *)
Variables (f : mpos -> mpos) (drop : bool).

Definition map_meta (m : meta) := mkMeta (f (Pos m)) (f (LastPos m)).
Definition map_comment (c : comment) := mkComment (c_raw c) (map_meta (c_meta c)).
Notation cs := (map map_comment).
Notation oc := (option_map map_comment).
Definition map_syntax (x : syntax) :=
  mkSyntax (sy_version x) (sy_versionQuote x) (cs (sy_comments x)) (oc (sy_inline x)) (map_meta (sy_meta x)).
Definition map_edition (x : edition) :=
  mkEdition (ed_edition x) (ed_editionQuote x) (cs (ed_comments x)) (oc (ed_inline x)) (map_meta (ed_meta x)).
Definition map_import (x : import) :=
  mkImport (im_modifier x) (im_location x) (cs (im_comments x)) (oc (im_inline x)) (map_meta (im_meta x)).
Definition map_package (x : package) :=
  mkPackage (pk_name x) (cs (pk_comments x)) (oc (pk_inline x)) (map_meta (pk_meta x)).
Definition map_option (x : option_) :=
  mkOption (op_name x) (op_constant x) (cs (op_comments x)) (oc (op_inline x)) (map_meta (op_meta x)).
Definition map_empty (x : emptyStatement) := mkEmpty (oc (em_inline x)).
Definition map_field (x : field) :=
  mkField (f_repeated x) (f_required x) (f_optional x) (f_type x) (f_name x) (f_number x) (f_options x)
          (cs (f_comments x)) (oc (f_inline x)) (map_meta (f_meta x)).
Definition map_mapField (x : mapField) :=
  mkMapField (mf_keyType x) (mf_type x) (mf_name x) (mf_number x) (mf_options x)
             (cs (mf_comments x)) (oc (mf_inline x)) (map_meta (mf_meta x)).
Definition map_oneofField (x : oneofField) :=
  mkOneofField (oof_type x) (oof_name x) (oof_number x) (oof_options x)
               (cs (oof_comments x)) (oc (oof_inline x)) (map_meta (oof_meta x)).
Definition map_oneof (x : oneof) :=
  mkOneof (map map_oneofField (oo_fields x)) (oo_name x) (map map_option (oo_options x))
          (cs (oo_comments x)) (oc (oo_inline x)) (oc (oo_inlineLC x)) (map_meta (oo_meta x)).
Definition map_enumField (x : enumField) :=
  mkEnumField (ef_ident x) (ef_number x) (ef_options x)
              (cs (ef_comments x)) (oc (ef_inline x)) (map_meta (ef_meta x)).
Definition map_param (x : rpcParam) := mkRPCParam (rp_stream x) (rp_type x) (map_meta (rp_meta x)).
Definition map_rpc (x : rpc) :=
  mkRPC (r_name x) (map_param (r_request x)) (map_param (r_response x)) (map map_option (r_options x))
        (cs (r_comments x)) (oc (r_inline x)) (oc (r_inlineLC x)) (cs (r_embedded x)) (map_meta (r_meta x)).
Definition map_reserved (x : reserved) :=
  mkReserved (rs_ranges x) (rs_names x) (cs (rs_comments x)) (oc (rs_inline x)) (map_meta (rs_meta x)).
Definition map_declaration (x : declaration) :=
  mkDeclaration (d_number x) (d_fullName x) (d_type x) (d_reserved x) (d_repeated x)
                (cs (d_comments x)) (oc (d_inline x)) (oc (d_inlineLC x)) (map_meta (d_meta x)).
Definition map_extensions (x : extensions) :=
  mkExtensions (xs_ranges x) (map map_declaration (xs_declarations x))
               (cs (xs_comments x)) (oc (xs_inline x)) (oc (xs_inlineLS x)) (map_meta (xs_meta x)).
Definition map_group (l : list visitee -> list visitee) (x : groupField) : groupField :=
  mkGroupField (g_repeated x) (g_required x) (g_optional x) (g_name x) (l (g_body x)) (g_number x)
               (cs (g_comments x)) (oc (g_inline x)) (oc (g_inlineLC x)) (map_meta (g_meta x)).
Definition map_block (l : list visitee -> list visitee) (x : block) : block :=
  mkBlock (b_name x) (l (b_body x)) (cs (b_comments x)) (oc (b_inline x)) (oc (b_inlineLC x)) (map_meta (b_meta x)).

Definition dropped (v : visitee) : bool := match v with VComment _ => drop | _ => false end.
Fixpoint map_visitee (v : visitee) : visitee :=
  let body := fix body (l : list visitee) : list visitee :=
    match l with [] => [] | v :: l => if dropped v then body l else map_visitee v :: body l end in
  match v with
  | VNil => VNil
  | VComment x => VComment (map_comment x)
  | VImport x => VImport (map_import x)
  | VPackage x => VPackage (map_package x)
  | VOption x => VOption (map_option x)
  | VEmpty x => VEmpty (map_empty x)
  | VField x => VField (map_field x)
  | VMapField x => VMapField (map_mapField x)
  | VGroupField x => VGroupField (map_group body x)
  | VOneof x => VOneof (map_oneof x)
  | VEnumField x => VEnumField (map_enumField x)
  | VRPC x => VRPC (map_rpc x)
  | VReserved x => VReserved (map_reserved x)
  | VExtensions x => VExtensions (map_extensions x)
  | VMessage x => VMessage (map_block body x)
  | VEnum x => VEnum (map_block body x)
  | VService x => VService (map_block body x)
  | VExtend x => VExtend (map_block body x)
  end.
Definition map_body (l : list visitee) : list visitee := map map_visitee (filter (fun v => negb (dropped v)) l).
Definition map_proto (name : str -> str) (p : proto) : proto :=
  mkProto (option_map map_syntax (p_syntax p)) (option_map map_edition (p_edition p)) (map_body (p_body p)) (name (p_filename p)).
(** errors *)
Fixpoint map_err (e : err) : err :=
  match e with
  | EScan p x r => EScan (f p) x r
  | ELex p x r => ELex (f p) x r
  | EParse p x t k => EParse (f p) x t k
  | EPair a b => EPair (map_err a) (map_err b)
  end.
Definition map_res (name : str -> str) (r : res proto) : res proto :=
  match r with Ok p => Ok (map_proto name p) | Err e => Err (map_err e) | Panic => Panic | Fuel => Fuel end.

(** the body of a block is the list of its mapped statements *)
Lemma map_body_eq : forall l, (fix body (l : list visitee) : list visitee :=
  match l with [] => [] | v :: l => if dropped v then body l else map_visitee v :: body l end) l = map_body l.
Proof. induction l as [|v l IH]; [reflexivity|]. unfold map_body in *. cbn [filter]. destruct (dropped v); cbn [negb map]; [exact IH|f_equal; exact IH]. Qed.
Lemma map_body_app l l' : map_body (l ++ l') = map_body l ++ map_body l'.
Proof. unfold map_body. rewrite filter_app, map_app. reflexivity. Qed.
Lemma map_message x : map_visitee (VMessage x) = VMessage (map_block map_body x).
Proof. cbn [map_visitee]. unfold map_block. rewrite map_body_eq. reflexivity. Qed.
Lemma map_enum x : map_visitee (VEnum x) = VEnum (map_block map_body x).
Proof. cbn [map_visitee]. unfold map_block. rewrite map_body_eq. reflexivity. Qed.
Lemma map_service x : map_visitee (VService x) = VService (map_block map_body x).
Proof. cbn [map_visitee]. unfold map_block. rewrite map_body_eq. reflexivity. Qed.
Lemma map_extend x : map_visitee (VExtend x) = VExtend (map_block map_body x).
Proof. cbn [map_visitee]. unfold map_block. rewrite map_body_eq. reflexivity. Qed.
Lemma map_groupField x : map_visitee (VGroupField x) = VGroupField (map_group map_body x).
Proof. cbn [map_visitee]. unfold map_group. rewrite map_body_eq. reflexivity. Qed.
End Map.
