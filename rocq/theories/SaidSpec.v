(** What a node of the AST says, as the words of its statement.  Specification
    only; the words are put together from the exported fields. *)
From Coq Require Import List NArith ZArith Bool String Ascii.
From Verif Require Import Base Token Scanner Ast Grammar Tree BareSpec PartSpec.
Import ListNotations.

(** a word, or the value of an option *)
Inductive part := Word (w : str) | Val (w : str).
Definition word (s : string) : part := Word (lit s).

(** The tokens [g] spell a part: put one behind the other they are its text.  The
    permissive mode joins string literals, taking away quotes, and separates the
    fields of message literals by newlines; there the texts of values are compared
    without quotes and newlines.  It takes any token for the one that closes a list;
    of a value with a list some tokens of the text may stand for closing brackets. *)
Definition loose (x : str) : str := filter (fun c => negb (existsb (N.eqb c) [SQ; DQ; NL])) x.
Definition closing (g g' : list str) : Prop := Forall2 (fun x y => x = y \/ y = lit "]") g g'.
Definition piece (perm : bool) (g : list str) (a : part) : Prop :=
  g <> [] /\
  match a with
  | Word w => List.concat g = w
  | Val w => if perm then (~ In (ch "[") w -> loose (List.concat g) = loose w) /\ (exists g', closing g g' /\ loose (List.concat g') = loose w)
             else List.concat g = w
  end.
(** the tokens spell the parts, one after the other, and nothing else *)
Definition spell (perm : bool) (ts : list str) (l : list part) : Prop :=
  exists gs, List.concat gs = ts /\ Forall2 (piece perm) gs l.

Fixpoint separated (l : list (list part)) : list part :=
  match l with [] => [] | [x] => x | x :: l => x ++ [word ","] ++ separated l end.
Definition in_brackets (os : list (str * str)) : list part :=
  match os with
  | [] => []
  | _ => [word "["] ++ separated (map (fun o => [Word (fst o); word "="; Val (snd o)]) os) ++ [word "]"]
  end.
Definition of_fields (os : list fieldOption) : list (str * str) := map (fun o => (fo_name o, fo_constant o)) os.
Definition of_values (os : list enumValueOption) : list (str * str) := map (fun o => (ev_name o, ev_constant o)) os.
Definition label (rp rq op : bool) : list part :=
  (if rp then [word "repeated"] else []) ++ (if rq then [word "required"] else []) ++ (if op then [word "optional"] else []).
Definition said_option (o : option_) : list part := [word "option"; Word (op_name o); word "="; Val (op_constant o); word ";"].
Definition said_range (r : range) : list part := map Word (range_toks r).
Definition said_param (p : rpcParam) : list part :=
  [word "("] ++ (if rp_stream p then [word "stream"] else []) ++ [Word (rp_type p); word ")"].

(** Statements without a body, from the first to the last token.  Missing: an
    import without modifier, a reserved statement with names (C33), an extensions
    statement with declarations. *)
Definition said (e : elem) : option (list part) :=
  match e with
  | ESyntax s => Some [word "syntax"; word "="; Word (sy_versionQuote s); word ";"]
  | EEdition s => Some [word "edition"; word "="; Word (ed_editionQuote s); word ";"]
  | EOption o | EStmt (VOption o) => Some (said_option o)
  | EStmt (VPackage p) => Some [word "package"; Word (pk_name p); word ";"]
  | EStmt (VImport i) =>
    match im_modifier i with
    | ImportModifierNone => None
    | ImportModifierPublic => Some [word "import"; word "public"; Word (im_location i); word ";"]
    | ImportModifierWeak => Some [word "import"; word "weak"; Word (im_location i); word ";"]
    end
  | EStmt (VField f) =>
    Some (label (f_repeated f) (f_required f) (f_optional f) ++
          [Word (f_type f); Word (f_name f); word "="; Word (f_number f)] ++ in_brackets (of_fields (f_options f)) ++ [word ";"])
  | EStmt (VMapField f) =>
    Some ([word "map"; word "<"; Word (mf_keyType f); word ","; Word (mf_type f); word ">"; Word (mf_name f); word "="; Word (mf_number f)] ++
          in_brackets (of_fields (mf_options f)) ++ [word ";"])
  | EOneofField f =>
    Some ([Word (oof_type f); Word (oof_name f); word "="; Word (oof_number f)] ++ in_brackets (of_fields (oof_options f)) ++ [word ";"])
  | EStmt (VEnumField f) =>
    Some ([Word (ef_ident f); word "="; Word (ef_number f)] ++ in_brackets (of_values (ef_options f)) ++ [word ";"])
  | EParam p => Some (said_param p)
  | EStmt (VReserved r) =>
    match rs_names r with
    | [] => Some ([word "reserved"] ++ separated (map said_range (rs_ranges r)) ++ [word ";"])
    | _ => None
    end
  | EStmt (VExtensions x) =>
    match xs_declarations x with
    | [] => Some ([word "extensions"] ++ separated (map said_range (xs_ranges x)) ++ [word ";"])
    | _ => None
    end
  | _ => None
  end.
(** Statements with a body: from the first token to the one that opens it; of an
    RPC, to the closing parenthesis of the response. *)
Definition heading (e : elem) : option (list part) :=
  let named key n := Some [word key; Word n; word "{"] in
  match e with
  | EStmt (VMessage b) => named "message"%string (b_name b)
  | EStmt (VEnum b) => named "enum"%string (b_name b)
  | EStmt (VService b) => named "service"%string (b_name b)
  | EStmt (VExtend b) => named "extend"%string (b_name b)
  | EStmt (VOneof o) => named "oneof"%string (oo_name o)
  | EStmt (VGroupField g) =>
    Some (label (g_repeated g) (g_required g) (g_optional g) ++ [word "group"; Word (g_name g); word "="; Word (g_number g); word "{"])
  | EStmt (VRPC r) =>
    Some ([word "rpc"; Word (r_name r)] ++ said_param (r_request r) ++ [word "returns"] ++ said_param (r_response r))
  | EStmt (VExtensions x) =>
    match xs_declarations x with
    | [] => None
    | _ => Some ([word "extensions"] ++ separated (map said_range (xs_ranges x)) ++ [word "["])
    end
  | EDeclaration _ => Some [word "declaration"; word "="; word "{"]
  | _ => None
  end.
(** An import without modifier: its location stands behind the word import or behind
    one more token, which is not a modifier. *)
Definition imports (ts : list str) (i : import) : Prop :=
  ts = [lit "import"; im_location i; lit ";"] \/
  exists w, ts = [lit "import"; w; im_location i; lit ";"] /\ w <> lit "public" /\ w <> lit "weak".
