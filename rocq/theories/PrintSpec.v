(** Writing an AST as source text.  Specification only: a printer a user of the
    library could write over the exported fields of package parser.

    Every word is followed by a space.  Comments are not written.  In permissive
    mode the parser takes a semicolon behind the closing brace of a block as part
    of the block, so blocks end in [} ;] there. *)
From Coq Require Import List NArith ZArith Bool String Ascii.
From Verif Require Import Base Token Scanner Ast LexSpec.
Import ListNotations.

Section Print.
Variable perm : bool.

Definition close_words : list str := if perm then [lit "}"; lit ";"] else [lit "}"].
Definition bracketed (os : list (str * str)) : list str :=
  match os with
  | [] => []
  | o :: os =>
    lit "[" :: fst o :: lit "=" :: snd o :: flat_map (fun o => [lit ","; fst o; lit "="; snd o]) os ++ [lit "]"]
  end.
Definition fields_of (os : list fieldOption) : list (str * str) := map (fun o => (fo_name o, fo_constant o)) os.
Definition values_of (os : list enumValueOption) : list (str * str) := map (fun o => (ev_name o, ev_constant o)) os.
Definition end_words (name num : str) (os : list fieldOption) : list str :=
  name :: lit "=" :: num :: bracketed (fields_of os) ++ [lit ";"].
Definition label_words (rp rq op : bool) : list str :=
  if rp then [lit "repeated"] else if rq then [lit "required"] else if op then [lit "optional"] else [].

Definition syntax_words (x : syntax) : list str := [lit "syntax"; lit "="; sy_versionQuote x; lit ";"].
Definition edition_words (x : edition) : list str := [lit "edition"; lit "="; ed_editionQuote x; lit ";"].
Definition import_words (x : import) : list str :=
  lit "import" ::
  match im_modifier x with ImportModifierNone => [] | ImportModifierPublic => [lit "public"] | ImportModifierWeak => [lit "weak"] end ++
  [im_location x; lit ";"].
Definition package_words (x : package) : list str := [lit "package"; pk_name x; lit ";"].
Definition option_words (x : option_) : list str := [lit "option"; op_name x; lit "="; op_constant x; lit ";"].
Definition field_words (x : field) : list str :=
  label_words (f_repeated x) (f_required x) (f_optional x) ++ f_type x :: end_words (f_name x) (f_number x) (f_options x).
Definition mapField_words (x : mapField) : list str :=
  [lit "map"; lit "<"; mf_keyType x; lit ","; mf_type x; lit ">"] ++ end_words (mf_name x) (mf_number x) (mf_options x).
Definition oneofField_words (x : oneofField) : list str := oof_type x :: end_words (oof_name x) (oof_number x) (oof_options x).
Definition oneof_words (x : oneof) : list str :=
  [lit "oneof"; oo_name x; lit "{"] ++ flat_map option_words (oo_options x) ++ flat_map oneofField_words (oo_fields x) ++ close_words.
Definition enumField_words (x : enumField) : list str :=
  [ef_ident x; lit "="; ef_number x] ++ bracketed (values_of (ef_options x)) ++ [lit ";"].
Definition param_words (x : rpcParam) : list str :=
  lit "(" :: (if rp_stream x then [lit "stream"] else []) ++ [rp_type x; lit ")"].
Definition rpc_words (x : rpc) : list str :=
  [lit "rpc"; r_name x] ++ param_words (r_request x) ++ lit "returns" :: param_words (r_response x) ++
  match r_options x with [] => [lit ";"] | os => lit "{" :: flat_map option_words os ++ close_words end.
Definition range_words (x : range) : list str :=
  match rg_end x with [] => [rg_begin x] | e => [rg_begin x; lit "to"; e] end.
(** separated by commas *)
Fixpoint commas (l : list (list str)) : list str :=
  match l with [] => [] | [x] => x | x :: l => x ++ lit "," :: commas l end.
Definition reserved_words (x : reserved) : list str :=
  lit "reserved" :: commas (map range_words (rs_ranges x) ++ map (fun n => [n]) (rs_names x)) ++ [lit ";"].
Definition declaration_words (x : declaration) : list str :=
  let text key (v : str) := match v with [] => [] | _ => [[lit key; lit ":"; v]] end in
  let flag key (b : bool) := if b then [[lit key; lit ":"; lit "true"]] else [] in
  [lit "declaration"; lit "="; lit "{"] ++
  commas (text "number"%string (d_number x) ++ text "full_name"%string (d_fullName x) ++ text "type"%string (d_type x) ++
          flag "reserved"%string (d_reserved x) ++ flag "repeated"%string (d_repeated x)) ++ [lit "}"].
Definition extensions_words (x : extensions) : list str :=
  lit "extensions" :: commas (map range_words (xs_ranges x)) ++
  match xs_declarations x with [] => [] | ds => lit "[" :: commas (map declaration_words ds) ++ [lit "]"] end ++ [lit ";"].

Fixpoint visitee_words (v : visitee) : list str :=
  let block (key : string) (x : block) : list str :=
    [lit key; b_name x; lit "{"] ++ flat_map visitee_words (b_body x) ++ close_words in
  match v with
  | VNil | VComment _ => []
  | VImport x => import_words x
  | VPackage x => package_words x
  | VOption x => option_words x
  | VEmpty _ => [lit ";"]
  | VField x => field_words x
  | VMapField x => mapField_words x
  | VGroupField x =>
    label_words (g_repeated x) (g_required x) (g_optional x) ++
    [lit "group"; g_name x; lit "="; g_number x; lit "{"] ++ flat_map visitee_words (g_body x) ++ close_words
  | VOneof x => oneof_words x
  | VEnumField x => enumField_words x
  | VRPC x => rpc_words x
  | VReserved x => reserved_words x
  | VExtensions x => extensions_words x
  | VMessage x => block "message"%string x
  | VEnum x => block "enum"%string x
  | VService x => block "service"%string x
  | VExtend x => block "extend"%string x
  end.
Definition proto_words (p : proto) : list str :=
  match p_syntax p with Some x => syntax_words x | None => [] end ++
  match p_edition p with Some x => edition_words x | None => [] end ++
  flat_map visitee_words (p_body p).

Definition spaced (ws : list str) : list rune := flat_map (fun w => w ++ lit " ") ws.
(** the source text of a file *)
Definition print (p : proto) : list rune := spaced (proto_words p).
End Print.

(** Permissive mode joins adjacent strings and removes their quotes, as many as
    there are at the ends.  In a text with quotes of one kind and without an
    escaped quote in front of a closing one the result is a string again. *)
Definition plain_quotes (l : list rune) : Prop :=
  (forall a b q, q = DQ \/ q = SQ -> l <> a ++ backslash :: q :: q :: b) /\ ~ (In DQ l /\ In SQ l).
(** the version stands between equal quotes (the parser does not compare them) *)
Definition header_quotes (p : proto) : Prop :=
  (forall x, p_syntax p = Some x -> exists q, sy_versionQuote x = q :: sy_version x ++ [q]) /\
  (forall x, p_edition p = Some x -> exists q, ed_editionQuote x = q :: ed_edition x ++ [q]).
