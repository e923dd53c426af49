(** The AST as a tree of elements: what a client of the library reaches from the
    Proto through the fields of the structs.  Specification only: it uses the AST
    types and nothing of the model. *)
From Coq Require Import List NArith ZArith Bool String Ascii.
From Verif Require Import Base Token Scanner Ast LexSpec GroupSpec.
Import ListNotations.

Inductive elem :=
| ESyntax (s : syntax) | EEdition (e : edition)
| EStmt (v : visitee)
| EOneofField (f : oneofField) | EOption (o : option_) | EParam (p : rpcParam) | EDeclaration (d : declaration).

(** Lists of siblings below an element *)
Definition children (e : elem) : list (list elem) :=
  match e with
  | EStmt (VMessage b) | EStmt (VEnum b) | EStmt (VService b) | EStmt (VExtend b) => [map EStmt (b_body b)]
  | EStmt (VGroupField g) => [map EStmt (g_body g)]
  | EStmt (VOneof o) => [map EOneofField (oo_fields o); map EOption (oo_options o)]
  | EStmt (VRPC r) => [EParam (r_request r) :: EParam (r_response r) :: map EOption (r_options r)]
  | EStmt (VExtensions x) => [map EDeclaration (xs_declarations x)]
  | _ => []
  end.
Definition opt_list {A B} (f : A -> B) (x : option A) : list B := match x with Some a => [f a] | None => [] end.
Definition roots (p : proto) : list elem := opt_list ESyntax (p_syntax p) ++ opt_list EEdition (p_edition p) ++ map EStmt (p_body p).
Inductive element (p : proto) : elem -> Prop :=
| el_root e : In e (roots p) -> element p e
| el_child e l e' : element p e -> In l (children e) -> In e' l -> element p e'.

(** Meta; an EmptyStatement has none *)
Definition e_meta (e : elem) : option meta :=
  match e with
  | ESyntax s => Some (sy_meta s) | EEdition s => Some (ed_meta s)
  | EOneofField f => Some (oof_meta f) | EOption o => Some (op_meta o) | EParam p => Some (rp_meta p) | EDeclaration d => Some (d_meta d)
  | EStmt v =>
    match v with
    | VNil | VEmpty _ => None
    | VComment c => Some (c_meta c)
    | VImport x => Some (im_meta x) | VPackage x => Some (pk_meta x) | VOption x => Some (op_meta x)
    | VField x => Some (f_meta x) | VMapField x => Some (mf_meta x) | VGroupField x => Some (g_meta x) | VOneof x => Some (oo_meta x)
    | VEnumField x => Some (ef_meta x) | VRPC x => Some (r_meta x) | VReserved x => Some (rs_meta x) | VExtensions x => Some (xs_meta x)
    | VMessage b | VEnum b | VService b | VExtend b => Some (b_meta b)
    end
  end.
(** Comments; an EmptyStatement has none *)
Definition e_comments (e : elem) : list comment :=
  match e with
  | ESyntax s => sy_comments s | EEdition s => ed_comments s
  | EOneofField f => oof_comments f | EOption o => op_comments o | EParam _ => [] | EDeclaration d => d_comments d
  | EStmt v =>
    match v with
    | VNil | VEmpty _ | VComment _ => []
    | VImport x => im_comments x | VPackage x => pk_comments x | VOption x => op_comments x
    | VField x => f_comments x | VMapField x => mf_comments x | VGroupField x => g_comments x | VOneof x => oo_comments x
    | VEnumField x => ef_comments x | VRPC x => r_comments x | VReserved x => rs_comments x | VExtensions x => xs_comments x
    | VMessage b | VEnum b | VService b | VExtend b => b_comments b
    end
  end.
(** InlineComment *)
Definition e_inline (e : elem) : option comment :=
  match e with
  | ESyntax s => sy_inline s | EEdition s => ed_inline s
  | EOneofField f => oof_inline f | EOption o => op_inline o | EParam _ => None | EDeclaration d => d_inline d
  | EStmt v =>
    match v with
    | VNil | VComment _ => None
    | VEmpty x => em_inline x
    | VImport x => im_inline x | VPackage x => pk_inline x | VOption x => op_inline x
    | VField x => f_inline x | VMapField x => mf_inline x | VGroupField x => g_inline x | VOneof x => oo_inline x
    | VEnumField x => ef_inline x | VRPC x => r_inline x | VReserved x => rs_inline x | VExtensions x => xs_inline x
    | VMessage b | VEnum b | VService b | VExtend b => b_inline b
    end
  end.
(** the other comments an element holds: InlineCommentBehindLeftCurly,
    InlineCommentBehindLeftSquare, EmbeddedComments, a comment itself *)
Definition e_inner (e : elem) : list comment :=
  match e with
  | EDeclaration d => opt_list (fun c => c) (d_inlineLC d)
  | EStmt (VComment c) => [c]
  | EStmt (VGroupField g) => opt_list (fun c => c) (g_inlineLC g)
  | EStmt (VOneof o) => opt_list (fun c => c) (oo_inlineLC o)
  | EStmt (VRPC r) => r_embedded r ++ opt_list (fun c => c) (r_inlineLC r)
  | EStmt (VExtensions x) => opt_list (fun c => c) (xs_inlineLS x)
  | EStmt (VMessage b) | EStmt (VEnum b) | EStmt (VService b) | EStmt (VExtend b) => opt_list (fun c => c) (b_inlineLC b)
  | _ => []
  end.

(** the token an element starts with and the one it ends with *)
Definition starts_type (ty x : str) : Prop := (exists y, ty = x ++ y) /\ (is_ident x \/ x = lit ".").
Definition starts (e : elem) (x : str) : Prop :=
  match e with
  | ESyntax _ => x = lit "syntax" | EEdition _ => x = lit "edition"
  | EOption _ | EStmt (VOption _) => x = lit "option"
  | EParam _ => x = lit "(" | EDeclaration _ => x = lit "declaration"
  | EOneofField f => starts_type (oof_type f) x
  | EStmt v =>
    match v with
    | VImport _ => x = lit "import" | VPackage _ => x = lit "package"
    | VMapField _ => x = lit "map" | VOneof _ => x = lit "oneof" | VReserved _ => x = lit "reserved" | VExtensions _ => x = lit "extensions"
    | VRPC _ => x = lit "rpc" | VMessage _ => x = lit "message" | VEnum _ => x = lit "enum" | VService _ => x = lit "service"
    | VExtend _ => x = lit "extend"
    | VEnumField f => x = ef_ident f /\ is_ident x
    | VField f =>
      if f_repeated f then x = lit "repeated" else if f_required f then x = lit "required" else if f_optional f then x = lit "optional"
      else starts_type (f_type f) x
    | VGroupField g =>
      if g_repeated g then x = lit "repeated" else if g_required g then x = lit "required" else if g_optional g then x = lit "optional"
      else x = lit "group"
    | _ => True
    end
  end.
Definition block_end (x : str) : Prop := x = lit "}" \/ x = lit ";".
Definition ends_with (e : elem) (x : str) : Prop :=
  match e with
  | EParam _ => x = lit ")" | EDeclaration _ => x = lit "}"
  | EStmt v =>
    match v with
    | VOneof _ | VRPC _ | VMessage _ | VEnum _ | VService _ | VExtend _ | VGroupField _ => block_end x
    | _ => x = lit ";"
    end
  | _ => x = lit ";"
  end.

(** ** Positions *)

(** the position behind the text [w] from the start of a file *)
Definition at_text (fn : str) (w : list rune) (p : mpos) : Prop := moved (mkPos fn 0 1 1) w p.
(** Element [e] with meta [m] in the text: [Pos] is where its first token starts
    and [LastPos] where its last token starts; for a comment they are its first
    and its last character. *)
Definition Placed (fn : str) (input : list rune) (e : elem) (m : meta) : Prop :=
  match e with
  | EStmt (VComment c) =>
    exists pre post, input = pre ++ c_raw c ++ post /\ at_text fn pre (Pos m) /\ at_text fn (pre ++ removelast (c_raw c)) (LastPos m)
  | _ =>
    exists pre x mid y post, input = pre ++ x ++ mid ++ y ++ post /\
      at_text fn pre (Pos m) /\ starts e x /\ at_text fn (pre ++ x ++ mid) (LastPos m) /\ ends_with e y
  end.
(** Between the offsets [lo] and [hi] the elements follow each other without
    overlap (elements without meta are passed over). *)
Fixpoint in_order (lo : Z) (l : list elem) (hi : Z) : Prop :=
  match l with
  | [] => (lo < hi)%Z
  | e :: l =>
    match e_meta e with
    | None => in_order lo l hi
    | Some m => (lo < Offset (Pos m) /\ Offset (Pos m) < Offset (LastPos m))%Z /\ in_order (Offset (LastPos m)) l hi
    end
  end.

(** ** Comments *)

(** a comment of the text *)
Definition comment_of (fn : str) (input : list rune) (c : comment) : Prop :=
  is_comment (c_raw c) /\
  exists pre post, input = pre ++ c_raw c ++ post /\ at_text fn pre (Pos (c_meta c)) /\ at_text fn (pre ++ removelast (c_raw c)) (LastPos (c_meta c)).
(** the two forms of comment text *)
Definition comment_form (x : str) : Prop := (exists b, x = lit "//" ++ b /\ ~ In NL b) \/ exists b, x = lit "/*" ++ b ++ lit "*/".
Definition e_all_comments (e : elem) : list comment := e_comments e ++ opt_list (fun c => c) (e_inline e) ++ e_inner e.

(** ** Well-formed elements *)

Fixpoint dots (l : list str) : str := match l with [] => [] | [x] => x | x :: l => x ++ lit "." ++ dots l end.
(** ident {"." ident}, and with an optional leading dot *)
Definition dotted (x : str) : Prop := exists l, l <> [] /\ Forall is_ident l /\ x = dots l.
Definition type_name (x : str) : Prop := dotted x \/ exists y, x = lit "." ++ y /\ dotted y.
Definition range_ok (r : range) : Prop := is_int (rg_begin r) /\ (rg_end r = [] \/ is_int (rg_end r) \/ rg_end r = lit "max").
Definition map_keys : list str := map lit
  ["int32"; "int64"; "uint32"; "uint64"; "sint32"; "sint64"; "fixed32"; "fixed64"; "sfixed32"; "sfixed64"; "bool"; "string"]%string.
Definition one_label (a b c : bool) : Prop := (a && b = false /\ a && c = false /\ b && c = false)%bool.
Definition is_quote_mark (q : str) : Prop := q = [DQ] \/ q = [SQ].
Definition upper_start (x : str) : Prop := exists c l, x = c :: l /\ (65 <= c <= 90)%N.
Definition well_formed (e : elem) : Prop :=
  match e with
  | ESyntax s => (sy_version s = lit "proto2" \/ sy_version s = lit "proto3") /\
      exists q q', is_quote_mark q /\ is_quote_mark q' /\ sy_versionQuote s = q ++ sy_version s ++ q'
  | EEdition s => is_int (ed_edition s) /\ exists q q', is_quote_mark q /\ is_quote_mark q' /\ ed_editionQuote s = q ++ ed_edition s ++ q'
  | EOneofField f => is_ident (oof_name f) /\ is_int (oof_number f) /\ type_name (oof_type f)
  | EParam p => type_name (rp_type p)
  | EStmt v =>
    match v with
    | VImport i => is_str (im_location i)
    | VPackage p => dotted (pk_name p)
    | VField f => is_ident (f_name f) /\ is_int (f_number f) /\ type_name (f_type f) /\ one_label (f_repeated f) (f_required f) (f_optional f)
    | VMapField f => is_ident (mf_name f) /\ is_int (mf_number f) /\ type_name (mf_type f) /\ In (mf_keyType f) map_keys
    | VGroupField g => is_ident (g_name g) /\ is_int (g_number g) /\ upper_start (g_name g) /\ one_label (g_repeated g) (g_required g) (g_optional g)
    | VOneof o => is_ident (oo_name o) /\ (oo_fields o <> [] \/ oo_options o <> [])
    | VEnumField f => is_ident (ef_ident f) /\ (is_int (ef_number f) \/ exists n, ef_number f = lit "-" ++ n /\ is_int n)
    | VRPC r => is_ident (r_name r)
    | VReserved r => Forall range_ok (rs_ranges r) /\ Forall (fun x => is_str x \/ is_ident x) (rs_names r) /\
        ((rs_ranges r = [] /\ rs_names r <> []) \/ (rs_ranges r <> [] /\ rs_names r = []))
    | VExtensions x => xs_ranges x <> [] /\ Forall range_ok (xs_ranges x)
    | VMessage b | VEnum b | VService b => is_ident (b_name b)
    | VExtend b => type_name (b_name b)
    | _ => True
    end
  | _ => True
  end.

(** The part of it that holds on every input, NUL characters and groups included:
    names, numbers, labels, map keys, ranges; not the type names. *)
Definition quoted (x : str) : Prop := exists q b, (q = SQ \/ q = DQ) /\ x = [q] ++ b ++ [q].
Definition proper (e : elem) : Prop :=
  match e with
  | ESyntax s => (sy_version s = lit "proto2" \/ sy_version s = lit "proto3") /\
      exists q q', is_quote_mark q /\ is_quote_mark q' /\ sy_versionQuote s = q ++ sy_version s ++ q'
  | EEdition s => is_int (ed_edition s) /\ exists q q', is_quote_mark q /\ is_quote_mark q' /\ ed_editionQuote s = q ++ ed_edition s ++ q'
  | EOneofField f => is_ident (oof_name f) /\ is_int (oof_number f)
  | EStmt v =>
    match v with
    | VImport i => quoted (im_location i)
    | VField f => is_ident (f_name f) /\ is_int (f_number f) /\ one_label (f_repeated f) (f_required f) (f_optional f)
    | VMapField f => is_ident (mf_name f) /\ is_int (mf_number f) /\ In (mf_keyType f) map_keys
    | VGroupField g => is_ident (g_name g) /\ is_int (g_number g) /\ upper_start (g_name g) /\ one_label (g_repeated g) (g_required g) (g_optional g)
    | VOneof o => is_ident (oo_name o) /\ (oo_fields o <> [] \/ oo_options o <> [])
    | VEnumField f => is_ident (ef_ident f) /\ (is_int (ef_number f) \/ exists n, ef_number f = lit "-" ++ n /\ is_int n)
    | VRPC r => is_ident (r_name r)
    | VReserved r => Forall range_ok (rs_ranges r) /\ Forall (fun x => quoted x \/ is_ident x) (rs_names r) /\
        ((rs_ranges r = [] /\ rs_names r <> []) \/ (rs_ranges r <> [] /\ rs_names r = []))
    | VExtensions x => xs_ranges x <> [] /\ Forall range_ok (xs_ranges x)
    | VMessage b | VEnum b | VService b => is_ident (b_name b)
    | _ => True
    end
  | _ => True
  end.

(** Settled texts (in particular those without the heading of a group), and trees
    without an empty statement directly inside a message or group.  An error inside
    a group followed by a semicolon makes the parser put an empty statement in
    place of the group, from text that it may read twice; this is what the
    condition leaves out. *)
Definition no_empty_in_messages (p : proto) : Prop := forall e l x, element p e ->
  match e with EStmt (VMessage _) | EStmt (VGroupField _) => True | _ => False end ->
  In l (children e) -> ~ In (EStmt (VEmpty x)) l.
Definition regular (input : list rune) (p : proto) : Prop :=
  settled input \/ no_empty_in_messages p.
