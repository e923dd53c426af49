(** What a file says, whatever the parser mode: the AST without positions, comments
    and empty statements.  Specification only. *)
From Coq Require Import List NArith ZArith Bool String Ascii.
From Verif Require Import Base Token Scanner Ast LexSpec BareSpec.
Import ListNotations.

Definition is_quote (c : rune) : bool := N.eqb c DQ || N.eqb c SQ.
(** A string literal that ends in an escaped quote, as in ["say \"x\""], without its
    last rune; every other constant as it is. *)
Definition collapse (c : str) : str :=
  match c, rev c with
  | q :: _, q1 :: q2 :: b :: _ => if is_quote q && N.eqb q1 q && N.eqb q2 q && N.eqb b backslash then removelast c else c
  | _, _ => c
  end.

Section Say.
(** [f] is applied to every option constant *)
Variable f : str -> str.
Definition say_fo (o : fieldOption) := mkFieldOption (fo_name o) (f (fo_constant o)).
Definition say_ev (o : enumValueOption) := mkEnumValueOption (ev_name o) (f (ev_constant o)).
Definition say_option (x : option_) := mkOption (op_name x) (f (op_constant x)) [] None nowhere.
Definition say_field (x : field) :=
  mkField (f_repeated x) (f_required x) (f_optional x) (f_type x) (f_name x) (f_number x) (map say_fo (f_options x)) [] None nowhere.
Definition say_mapField (x : mapField) :=
  mkMapField (mf_keyType x) (mf_type x) (mf_name x) (mf_number x) (map say_fo (mf_options x)) [] None nowhere.
Definition say_oneofField (x : oneofField) :=
  mkOneofField (oof_type x) (oof_name x) (oof_number x) (map say_fo (oof_options x)) [] None nowhere.
Definition say_oneof (x : oneof) :=
  mkOneof (map say_oneofField (oo_fields x)) (oo_name x) (map say_option (oo_options x)) [] None None nowhere.
Definition say_enumField (x : enumField) := mkEnumField (ef_ident x) (ef_number x) (map say_ev (ef_options x)) [] None nowhere.
Definition say_rpc (x : rpc) :=
  mkRPC (r_name x) (bare_param (r_request x)) (bare_param (r_response x)) (map say_option (r_options x)) [] None None [] nowhere.
(** the statements of a statement: one, or none if it is empty *)
Fixpoint say (v : visitee) : list visitee :=
  let body := fix body (l : list visitee) : list visitee := match l with [] => [] | v :: l => say v ++ body l end in
  let block (x : block) : block_ visitee := mkBlock (b_name x) (body (b_body x)) [] None None nowhere in
  match v with
  | VNil | VComment _ | VEmpty _ => []
  | VImport x => [VImport (bare_import x)]
  | VPackage x => [VPackage (bare_package x)]
  | VOption x => [VOption (say_option x)]
  | VField x => [VField (say_field x)]
  | VMapField x => [VMapField (say_mapField x)]
  | VGroupField x =>
    [VGroupField (mkGroupField (g_repeated x) (g_required x) (g_optional x) (g_name x) (body (g_body x)) (g_number x) [] None None nowhere)]
  | VOneof x => [VOneof (say_oneof x)]
  | VEnumField x => [VEnumField (say_enumField x)]
  | VRPC x => [VRPC (say_rpc x)]
  | VReserved x => [VReserved (bare_reserved x)]
  | VExtensions x => [VExtensions (bare_extensions x)]
  | VMessage x => [VMessage (block x)]
  | VEnum x => [VEnum (block x)]
  | VService x => [VService (block x)]
  | VExtend x => [VExtend (block x)]
  end.
Fixpoint say_body (l : list visitee) : list visitee := match l with [] => [] | v :: l => say v ++ say_body l end.
Definition say_proto (p : proto) : proto :=
  mkProto (option_map bare_syntax (p_syntax p)) (option_map bare_edition (p_edition p)) (say_body (p_body p)) (p_filename p).
End Say.
(** the two ASTs say the same, up to the escaped quotes lost at the end of literals *)
Definition agree (strict permissive : proto) : Prop := say_proto collapse strict = say_proto (fun c => c) permissive.
