(** The size of an AST.  Specification only. *)
From Coq Require Import List NArith ZArith Bool String Ascii.
From Verif Require Import Base Token Scanner Ast Tree SimSpec HeldSpec.
Import ListNotations.

(** the strings an element holds, without those of its comments and of the elements below it *)
Definition ranges_of (l : list range) : list str := flat_map (fun r => [rg_begin r; rg_end r]) l.
Definition options_of (l : list fieldOption) : list str := flat_map (fun o => [fo_name o; fo_constant o]) l.
Definition own_texts (e : elem) : list str :=
  match e with
  | ESyntax s => [sy_version s; sy_versionQuote s] | EEdition s => [ed_edition s; ed_editionQuote s]
  | EOneofField f => [oof_type f; oof_name f; oof_number f] ++ options_of (oof_options f)
  | EOption o | EStmt (VOption o) => [op_name o; op_constant o]
  | EParam p => [rp_type p]
  | EDeclaration d => [d_number d; d_fullName d; d_type d]
  | EStmt v =>
    match v with
    | VNil | VEmpty _ | VComment _ | VOption _ => []
    | VImport x => [im_location x] | VPackage x => [pk_name x]
    | VField f => [f_type f; f_name f; f_number f] ++ options_of (f_options f)
    | VMapField f => [mf_keyType f; mf_type f; mf_name f; mf_number f] ++ options_of (mf_options f)
    | VGroupField g => [g_name g; g_number g]
    | VOneof o => [oo_name o]
    | VEnumField f => [ef_ident f; ef_number f] ++ flat_map (fun o => [ev_name o; ev_constant o]) (ef_options f)
    | VRPC r => [r_name r]
    | VReserved r => ranges_of (rs_ranges r) ++ rs_names r
    | VExtensions x => ranges_of (xs_ranges x)
    | VMessage b | VEnum b | VService b | VExtend b => [b_name b]
    end
  end.
(** an element counts one, each string one more than its characters *)
Definition str_size (x : str) : nat := S (List.length x).
Definition size_one (e : elem) : nat := S (list_sum (map str_size (own_texts e))).
Definition sizes {A} (f : A -> elem) (l : list A) : nat := list_sum (map (fun x => size_one (f x)) l).
Fixpoint size_below (v : visitee) : nat :=
  size_one (EStmt v) +
  match v with
  | VMessage b | VEnum b | VService b | VExtend b => list_sum (map size_below (b_body b))
  | VGroupField g => list_sum (map size_below (g_body g))
  | VOneof o => sizes EOneofField (oo_fields o) + sizes EOption (oo_options o)
  | VRPC r => size_one (EParam (r_request r)) + size_one (EParam (r_response r)) + sizes EOption (r_options r)
  | VExtensions x => sizes EDeclaration (xs_declarations x)
  | _ => 0
  end.
Definition comment_size (c : comment) : nat := S (List.length (c_raw c)).
(** the elements with their strings, and all comments *)
Definition ast_size (p : proto) : nat :=
  list_sum (map size_one (opt_list ESyntax (p_syntax p) ++ opt_list EEdition (p_edition p))) + list_sum (map size_below (p_body p)) +
  list_sum (map comment_size (held_proto true p)).
