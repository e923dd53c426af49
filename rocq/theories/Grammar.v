(** Specification of the protobuf language the library parses: the grammar of
    the language specification with the AST each production builds.

    A text is laid out as a list of items, tokens and comments with their
    positions ([Lay]); the productions are relations between lists of items and
    AST nodes.  They name neither scanner, lexer nor parser.

    Three switches:
    - [perm]: the productions the documentation of WithPermissive adds;
    - [bic]: trailing comments of bodies become elements
      (WithBodyIncludingComments);
    - [junk]: the productions the parser accepts beyond the language
      specification.  [junk = false] is the documented grammar; each production
      marked [junk = true] is a deviation of the code. *)
From Coq Require Import List NArith ZArith Bool String Ascii.
From Verif Require Import Base Token Scanner Lexing ScanRefine Ast LexSpec.
Import ListNotations.
Open Scope N_scope.

(** ** Layout *)

Inductive item := Tok (x : str) (p : mpos) | Com (x : str) (p : mpos).

Definition puncts : list rune := lit ";:=(){}[]<>,.-+" ++ [DQ; SQ; 0xFEFF].

Definition no_ident_char (r : list rune) : Prop := match r with [] => True | c :: _ => ~ ident_char c end.
Definition no_digit (r : list rune) : Prop := match r with [] => True | c :: _ => ~ digit c end.

(** [x] starts neither with white space nor with a comment.  A comment that is
    not terminated is no comment; it extends to the end of the text. *)
Definition token_start (x : str) (r : list rune) : Prop :=
  match x with
  | [] => False
  | c :: l =>
    isSpace c = false /\
    (c = ch "/" ->
      match l with
      | [] => r = []
      | d :: b => d <> ch "/" /\ (d = ch "*" -> r = [] /\ ~ exists a b', b = a ++ lit "*/" ++ b')
      end)
  end.
(** [x] is a token when the text [r] follows.  In the strict form numbers are
    delimited and every token is one the language knows; otherwise any piece of
    text is a token, and only identifiers are known to be maximal. *)
Definition token_at (strict : bool) (x : str) (r : list rune) : Prop :=
  if strict then
    (is_ident x /\ no_ident_char r) \/
    ((is_int x \/ is_plain_float x) /\ delimited r) \/
    is_str x \/
    (exists c, x = [c] /\ In c puncts /\ (c = ch "." -> no_digit r))
  else token_start x r /\ (is_ident x -> no_ident_char r).

(** From position [p] the text [r] reads as the items; then the text [r'] is left
    at position [p']. *)
Inductive Lay (strict : bool) : mpos -> list rune -> list item -> mpos -> list rune -> Prop :=
| lay_nil p r : Lay strict p r [] p r
| lay_tok p sp x r its p' r' :
    Spaces sp -> token_at strict x r -> Lay strict (posafter p (sp ++ x)) r its p' r' ->
    Lay strict p (sp ++ x ++ r) (Tok x (posafter p sp) :: its) p' r'
| lay_line p sp x r its p' r' :
    Spaces sp -> is_line_comment x -> Lay strict (posafter p (sp ++ x ++ [NL])) r its p' r' ->
    Lay strict p (sp ++ x ++ NL :: r) (Com x (posafter p sp) :: its) p' r'
| lay_line_end p sp x :
    Spaces sp -> is_line_comment x ->
    Lay strict p (sp ++ x) [Com x (posafter p sp)] (posafter p (sp ++ x)) []
| lay_block p sp x r its p' r' :
    Spaces sp -> is_block_comment x -> Lay strict (posafter p (sp ++ x)) r its p' r' ->
    Lay strict p (sp ++ x ++ r) (Com x (posafter p sp) :: its) p' r'.

(** the whole text *)
Definition Layout (strict : bool) (p : mpos) (r : list rune) (its : list item) : Prop :=
  exists p' sp, Lay strict p r its p' sp /\ Spaces sp.

(** a comment of the text as an AST node; it ends at its last character *)
Definition node (c : str * mpos) : comment :=
  mkComment (fst c) (mkMeta (snd c) (posafter (snd c) (removelast (fst c)))).
Definition nodes (cs : list (str * mpos)) : list comment := map node cs.
Definition coms (cs : list (str * mpos)) : list item := map (fun c => Com (fst c) (snd c)) cs.
(** an optional inline comment *)
Definition icom (c : option (str * mpos)) : list item := match c with Some c => [Com (fst c) (snd c)] | None => [] end.
Definition inode (c : option (str * mpos)) : option comment := option_map node c.

(** the comments among items *)
Fixpoint comments_in (ts : list item) : list comment :=
  match ts with
  | [] => []
  | Tok _ _ :: ts => comments_in ts
  | Com x p :: ts => node (x, p) :: comments_in ts
  end.

(** the next and the last token *)
Fixpoint next_tok (ts : list item) : option str :=
  match ts with [] => None | Tok x _ :: _ => Some x | Com _ _ :: ts => next_tok ts end.
Fixpoint last_tok (ts : list item) : option (str * mpos) :=
  match ts with
  | [] => None
  | Com _ _ :: ts => last_tok ts
  | Tok x p :: ts => match last_tok ts with Some y => Some y | None => Some (x, p) end
  end.
Fixpoint first_tok (ts : list item) : option (str * mpos) :=
  match ts with [] => None | Tok x p :: _ => Some (x, p) | Com _ _ :: ts => first_tok ts end.
(** the tokens among the items *)
Fixpoint toks (its : list item) : list str :=
  match its with [] => [] | Tok x _ :: its => x :: toks its | Com _ _ :: its => toks its end.
Definition no_com (ts : list item) : Prop := match ts with Com _ _ :: _ => False | _ => True end.
(** no comment comes next on the line [l] *)
Definition no_com_on (l : Z) (ts : list item) : Prop :=
  match ts with Com _ q :: _ => Line q <> l | _ => True end.

(** After a token on line [l]: the inline comment is the comment that comes next,
    if it starts on that line. *)
Definition Inline (l : Z) (c : option (str * mpos)) (rest : list item) : Prop :=
  match c with Some c => Line (snd c) = l | None => no_com_on l rest end.

(** ** Terminals: a token and the comments in front of it *)
Definition T (ts : list item) (x : str) (p : mpos) : Prop := exists cs, ts = coms cs ++ [Tok x p].
Definition K (ts : list item) (x : string) : Prop := exists p, T ts (lit x) p.

Definition words (l : list string) (x : str) : Prop := In x (map lit l).
Definition not_first (ts : list item) (l : list string) : Prop :=
  match next_tok ts with Some x => ~ words l x | None => True end.

Definition capitalized (x : str) : Prop := exists c l, x = c :: l /\ 65 <= c <= 90.

(** ** Statements that break off

    The words of a field, an enum field or a group that is not complete when a
    semicolon comes: the parser takes them, with the semicolon, for an empty
    statement.  A list of options and the body of a group may break off anywhere. *)
Inductive LabelWords : list str -> Prop :=
| lw_none : LabelWords []
| lw_one x : words ["repeated"; "required"; "optional"]%string x -> LabelWords [x].
(** identifiers separated by dots; [false]: one is missing behind the last dot *)
Inductive NameWords : bool -> list str -> Prop :=
| nw_none : NameWords false []
| nw_one x : is_ident x -> NameWords true [x]
| nw_dot b x l : is_ident x -> NameWords b l -> NameWords b (x :: lit "." :: l).
Inductive TypeWords (b : bool) : list str -> Prop :=
| tw_name l : NameWords b l -> TypeWords b l
| tw_dot l : NameWords b l -> TypeWords b (lit "." :: l).
(** what is there of a field behind the type *)
Inductive CutTail : list str -> Prop :=
| ct_none : CutTail []
| ct_name x : is_ident x -> CutTail [x]
| ct_equals x : is_ident x -> CutTail [x; lit "="]
| ct_options x n l : is_ident x -> is_int n -> CutTail (x :: lit "=" :: n :: lit "[" :: l).
Inductive CutField : list str -> Prop :=
| cf_type l t : LabelWords l -> TypeWords false t -> CutField (l ++ t)
| cf_tail l t r : LabelWords l -> TypeWords true t -> CutTail r -> CutField (l ++ t ++ r).
Inductive CutEnumField : list str -> Prop :=
| ce_none : CutEnumField []
| ce_name x : is_ident x -> CutEnumField [x]
| ce_equals x : is_ident x -> CutEnumField [x; lit "="]
| ce_minus x : is_ident x -> CutEnumField [x; lit "="; lit "-"]
| ce_options x n l : is_ident x -> is_int n -> CutEnumField (x :: lit "=" :: n :: lit "[" :: l)
| ce_minus_options x n l : is_ident x -> is_int n -> CutEnumField (x :: lit "=" :: lit "-" :: n :: lit "[" :: l).
Inductive CutGroup : list str -> Prop :=
| cg_intro l x n r : LabelWords l -> is_ident x -> capitalized x -> is_int n ->
    CutGroup (l ++ lit "group" :: x :: lit "=" :: n :: lit "{" :: r).
Definition not_head (l : list str) (ws : list string) : Prop :=
  match l with x :: _ => ~ words ws x | [] => True end.

Section Productions.
Variables perm bic junk : bool.

(** ** Names *)

Inductive FullIdent : list item -> str -> mpos -> Prop :=
| fi_one ts x p : T ts x p -> is_ident x -> FullIdent ts x p
| fi_dot ts x p td ts' v p' :
    T ts x p -> is_ident x -> K td "." -> FullIdent ts' v p' ->
    FullIdent (ts ++ td ++ ts') (x ++ lit "." ++ v) p.

Inductive MessageType : list item -> str -> mpos -> Prop :=
| mt_name ts v p : FullIdent ts v p -> MessageType ts v p
| mt_dot td p ts v p' : T td (lit ".") p -> FullIdent ts v p' -> MessageType (td ++ ts) (lit "." ++ v) p.

Definition scalars : list string :=
  ["double"; "float"; "int32"; "int64"; "uint32"; "uint64"; "sint32"; "sint64"; "fixed32"; "fixed64";
   "sfixed32"; "sfixed64"; "bool"; "string"; "bytes"]%string.
Definition key_types : list string :=
  ["int32"; "int64"; "uint32"; "uint64"; "sint32"; "sint64"; "fixed32"; "fixed64";
   "sfixed32"; "sfixed64"; "bool"; "string"]%string.

Inductive Type_ : list item -> str -> mpos -> Prop :=
| ty_scalar ts x p : T ts x p -> words scalars x -> Type_ ts x p
| ty_message ts v p : MessageType ts v p -> not_first ts scalars -> Type_ ts v p.

(** ** Constants *)

Definition number (x : str) : Prop := is_int x \/ is_plain_float x.

(** Permissive mode joins adjacent strings: the text between the quotes of each,
    put between quotes of the first.  The code removes quotes [q] from both ends,
    as many as there are. *)
Fixpoint drop_quotes (q : rune) (x : str) : str :=
  match x with c :: x' => if c =? q then drop_quotes q x' else x | [] => [] end.
Definition strip (q : rune) (x : str) : str := rev (drop_quotes q (rev (drop_quotes q x))).
Definition first_quote (xs : list str) : rune := match xs with (c :: _) :: _ => c | _ => 0 end.
Definition joined (xs : list str) : str :=
  [first_quote xs] ++ flat_map (strip (first_quote xs)) xs ++ [first_quote xs].

Inductive Strings : list item -> list str -> mpos -> Prop :=
| ss_one ts x p : T ts x p -> is_str x -> Strings ts [x] p
| ss_more ts x p ts' xs p' : T ts x p -> is_str x -> Strings ts' xs p' -> Strings (ts ++ ts') (x :: xs) p.

(** [true], [false], [inf] and [nan] are no names in a constant *)
Definition literals : list string := ["true"; "false"; "inf"; "nan"]%string.

Inductive Constant : list item -> str -> Prop :=
| c_string ts x p : perm = false -> T ts x p -> is_str x -> Constant ts x
| c_strings ts xs p : perm = true -> Strings ts xs p -> Constant ts (joined xs)
| c_number ts x p : T ts x p -> number x -> Constant ts x
| c_bool ts x p : T ts x p -> words ["true"; "false"]%string x -> Constant ts x
| c_name ts v p : FullIdent ts v p -> not_first ts literals -> Constant ts v
| c_signed ts s p ts' x p' :
    T ts s p -> words ["-"; "+"]%string s -> T ts' x p' -> number x -> Constant (ts ++ ts') (s ++ x).

(** ** Options *)

Inductive NamePart : list item -> str -> Prop :=
| np_ident ts x p : T ts x p -> is_ident x -> NamePart ts x
| np_paren t1 t2 v p t3 : K t1 "(" -> FullIdent t2 v p -> K t3 ")" ->
    NamePart (t1 ++ t2 ++ t3) (lit "(" ++ v ++ lit ")")
| np_dotted t1 t2 t3 v p t4 : perm = true -> K t1 "(" -> K t2 "." -> FullIdent t3 v p -> K t4 ")" ->
    NamePart (t1 ++ t2 ++ t3 ++ t4) (lit "(." ++ v ++ lit ")").
Inductive OptionName : list item -> str -> Prop :=
| on_one ts v : NamePart ts v -> OptionName ts v
| on_more ts v td ts' v' : NamePart ts v -> K td "." -> OptionName ts' v' ->
    OptionName (ts ++ td ++ ts') (v ++ lit "." ++ v').

Definition opens (ts : list item) (o : bool) : Prop := o = true <-> next_tok ts = Some (lit "{").
Definition separator (o : bool) (x : str) : Prop := x = lit "," \/ (x = lit ";" /\ o = false).

(** Option values.  In permissive mode also message literals and lists; their
    text is put together without white space.  [Entries] is what follows the
    opening brace: fields, each followed by a separator, or by none, which gives
    a newline.  [Entry open]: [open] after [name: {..}], where a semicolon belongs
    to the field and is not the separator. *)
Inductive Value : list item -> str -> Prop :=
| v_constant ts v : Constant ts v -> Value ts v
| v_empty_message t1 t2 : perm = true -> K t1 "{" -> K t2 "}" -> Value (t1 ++ t2) (lit "{}")
| v_message t1 ts v : perm = true -> K t1 "{" -> Entries ts v -> Value (t1 ++ ts) (lit "{" ++ v)
| v_empty_list t1 t2 : perm = true -> K t1 "[" -> K t2 "]" -> Value (t1 ++ t2) (lit "[]")
| v_list t1 ts v t2 x p : perm = true -> K t1 "[" -> Values ts v -> T t2 x p -> (junk = true \/ x = lit "]") ->
    Value (t1 ++ ts ++ t2) (lit "[" ++ v ++ lit "]")
with Values : list item -> str -> Prop :=
| vs_one ts v : Value ts v -> Values ts v
| vs_more ts v td ts' v' : Value ts v -> K td "," -> Values ts' v' ->
    Values (ts ++ td ++ ts') (v ++ lit "," ++ v')
with Entries : list item -> str -> Prop :=
| e_last o ts v t : Entry o ts v -> K t "}" -> Entries (ts ++ t) (v ++ lit "}")
| e_last_sep o ts v t x p t' : Entry o ts v -> T t x p -> separator o x -> K t' "}" ->
    Entries (ts ++ t ++ t') (v ++ x ++ lit "}")
| e_more_sep o ts v t x p ts' v' : Entry o ts v -> T t x p -> separator o x -> Entries ts' v' ->
    Entries (ts ++ t ++ ts') (v ++ x ++ v')
| e_more o ts v ts' v' : Entry o ts v -> Entries ts' v' -> Entries (ts ++ ts') (v ++ [NL] ++ v')
with Entry : bool -> list item -> str -> Prop :=
| en_colon t1 x p t2 t3 v o : T t1 x p -> is_ident x -> K t2 ":" -> Value t3 v -> opens t3 o ->
    Entry o (t1 ++ t2 ++ t3) (x ++ lit ":" ++ v)
| en_colon_semi t1 x p t2 t3 v t4 : T t1 x p -> is_ident x -> K t2 ":" -> Value t3 v -> opens t3 true -> K t4 ";" ->
    Entry false (t1 ++ t2 ++ t3 ++ t4) (x ++ lit ":" ++ v ++ lit ";")
| en_message t1 x p t2 v : T t1 x p -> is_ident x -> Value t2 v -> opens t2 true ->
    Entry false (t1 ++ t2) (x ++ v).

(** A statement [option], field or enum value option *)
Inductive Option (cs : list comment) (il : option comment) : list item -> option_ -> Prop :=
| option_intro t1 p1 t2 name t3 t4 v t5 p5 :
    T t1 (lit "option") p1 -> OptionName t2 name -> K t3 "=" -> Value t4 v -> T t5 (lit ";") p5 ->
    Option cs il (t1 ++ t2 ++ t3 ++ t4 ++ t5) (mkOption name v cs il (mkMeta p1 p5)).

Inductive FieldOption : list item -> str * str -> Prop :=
| fo_intro t1 name t2 t3 v : OptionName t1 name -> K t2 "=" -> Value t3 v ->
    FieldOption (t1 ++ t2 ++ t3) (name, v).
Inductive FieldOptionList : list item -> list (str * str) -> Prop :=
| fol_one ts o : FieldOption ts o -> FieldOptionList ts [o]
| fol_more ts o td ts' os : FieldOption ts o -> K td "," -> FieldOptionList ts' os ->
    FieldOptionList (ts ++ td ++ ts') (o :: os).
Inductive FieldOptions : list item -> list (str * str) -> Prop :=
| fos_none : FieldOptions [] []
| fos_some t1 ts os t2 : K t1 "[" -> FieldOptionList ts os -> K t2 "]" -> FieldOptions (t1 ++ ts ++ t2) os.
Definition fopts (os : list (str * str)) : list fieldOption := map (fun o => mkFieldOption (fst o) (snd o)) os.
Definition evopts (os : list (str * str)) : list enumValueOption := map (fun o => mkEnumValueOption (fst o) (snd o)) os.

(** ** Syntax, edition, import, package *)

Definition quotes_match (q q' : str) : Prop := junk = true \/ q = q'.
Definition is_quote (q : str) : Prop := q = [DQ] \/ q = [SQ].

Inductive Syntax (cs : list comment) (il : option comment) : list item -> syntax -> Prop :=
| syntax_intro t1 p1 t2 t3 q p3 t4 v p4 t5 q' p5 t6 p6 :
    T t1 (lit "syntax") p1 -> K t2 "=" -> T t3 q p3 -> is_quote q -> T t4 v p4 -> words ["proto2"; "proto3"]%string v ->
    T t5 q' p5 -> is_quote q' -> quotes_match q q' -> T t6 (lit ";") p6 ->
    Syntax cs il (t1 ++ t2 ++ t3 ++ t4 ++ t5 ++ t6) (mkSyntax v (q ++ v ++ q') cs il (mkMeta p1 p6)).
Inductive Edition (cs : list comment) (il : option comment) : list item -> edition -> Prop :=
| edition_intro t1 p1 t2 t3 q p3 t4 v p4 t5 q' p5 t6 p6 :
    T t1 (lit "edition") p1 -> K t2 "=" -> T t3 q p3 -> is_quote q -> T t4 v p4 -> is_int v ->
    T t5 q' p5 -> is_quote q' -> quotes_match q q' -> T t6 (lit ";") p6 ->
    Edition cs il (t1 ++ t2 ++ t3 ++ t4 ++ t5 ++ t6) (mkEdition v (q ++ v ++ q') cs il (mkMeta p1 p6)).

Inductive ImportMod : list item -> importModifier -> Prop :=
| imod_none : ImportMod [] ImportModifierNone
| imod_public ts : K ts "public" -> ImportMod ts ImportModifierPublic
| imod_weak ts : K ts "weak" -> ImportMod ts ImportModifierWeak
| imod_junk ts x p : junk = true -> T ts x p -> ~ words ["public"; "weak"]%string x -> ImportMod ts ImportModifierNone.
Inductive Import (cs : list comment) (il : option comment) : list item -> import -> Prop :=
| import_intro t1 p1 t2 m t3 x p3 t4 p4 :
    T t1 (lit "import") p1 -> ImportMod t2 m -> T t3 x p3 -> is_str x -> T t4 (lit ";") p4 ->
    Import cs il (t1 ++ t2 ++ t3 ++ t4) (mkImport m x cs il (mkMeta p1 p4)).
Inductive Package (cs : list comment) (il : option comment) : list item -> package -> Prop :=
| package_intro t1 p1 t2 v p2 t3 p3 :
    T t1 (lit "package") p1 -> FullIdent t2 v p2 -> T t3 (lit ";") p3 ->
    Package cs il (t1 ++ t2 ++ t3) (mkPackage v cs il (mkMeta p1 p3)).

(** ** Fields *)

(** a label, or none: then the next token, at [p], is no label *)
Inductive Label : list item -> list item -> mpos -> bool -> bool -> bool -> Prop :=
| lb_repeated ts p rest : T ts (lit "repeated") p -> Label ts rest p true false false
| lb_required ts p rest : T ts (lit "required") p -> Label ts rest p false true false
| lb_optional ts p rest : T ts (lit "optional") p -> Label ts rest p false false true
| lb_none x p rest : first_tok rest = Some (x, p) -> ~ words ["repeated"; "required"; "optional"]%string x ->
    Label [] rest p false false false.

(** name, number, options and semicolon *)
Inductive FieldEnd : list item -> str -> str -> list (str * str) -> mpos -> Prop :=
| fe_intro t1 name p1 t2 t3 num p3 t4 os t5 p5 :
    T t1 name p1 -> is_ident name -> K t2 "=" -> T t3 num p3 -> is_int num -> FieldOptions t4 os -> T t5 (lit ";") p5 ->
    FieldEnd (t1 ++ t2 ++ t3 ++ t4 ++ t5) name num os p5.

Inductive Field (cs : list comment) (il : option comment) : list item -> field -> Prop :=
| field_intro t1 p1 rp rq op t2 ty p2 t3 name num os p3 :
    Label t1 t2 p1 rp rq op -> Type_ t2 ty p2 -> FieldEnd t3 name num os p3 ->
    Field cs il (t1 ++ t2 ++ t3) (mkField rp rq op ty name num (fopts os) cs il (mkMeta p1 p3)).
Inductive MapField (cs : list comment) (il : option comment) : list item -> mapField -> Prop :=
| map_intro t1 p1 t2 t3 kt p3 t4 t5 ty p5 t6 t7 name num os p7 :
    T t1 (lit "map") p1 -> K t2 "<" -> T t3 kt p3 -> words key_types kt -> K t4 "," -> Type_ t5 ty p5 -> K t6 ">" ->
    FieldEnd t7 name num os p7 ->
    MapField cs il (t1 ++ t2 ++ t3 ++ t4 ++ t5 ++ t6 ++ t7) (mkMapField kt ty name num (fopts os) cs il (mkMeta p1 p7)).
Inductive OneofField (cs : list comment) (il : option comment) : list item -> oneofField -> Prop :=
| oneof_field_intro t1 ty p1 t2 name num os p2 :
    Type_ t1 ty p1 -> FieldEnd t2 name num os p2 ->
    OneofField cs il (t1 ++ t2) (mkOneofField ty name num (fopts os) cs il (mkMeta p1 p2)).

(** The closing brace of a block; in permissive mode a semicolon may follow and
    is then the end of the block. *)
Inductive Close : list item -> mpos -> Prop :=
| close_brace ts p : T ts (lit "}") p -> Close ts p
| close_semi ts p ts' p' : perm = true -> T ts (lit "}") p -> T ts' (lit ";") p' -> Close (ts ++ ts') p'.
(** a block that ends with its brace is not followed by a semicolon *)
Definition closed (ts rest : list item) : Prop :=
  junk = true \/ perm = false \/
  match last_tok ts with Some (x, _) => x = lit "}" -> next_tok rest <> Some (lit ";") | None => True end.

(** ** Oneof *)

(** Semicolons are skipped in front of an element, not behind the last one. *)
Inductive OneofElems : list item -> list oneofField -> list option_ -> Prop :=
| oe_skip cs p ts fs os : OneofElems ts fs os -> OneofElems (coms cs ++ Tok (lit ";") p :: ts) fs os
| oe_option cs ts o x q il rest fs os :
    Option (nodes cs) (inode il) ts o -> no_com ts -> last_tok ts = Some (x, q) -> Inline (Line q) il rest ->
    OneofRest rest fs os -> OneofElems (coms cs ++ ts ++ icom il ++ rest) fs (o :: os)
| oe_field cs ts f x q il rest fs os :
    OneofField (nodes cs) (inode il) ts f -> no_com ts -> not_first ts ["option"]%string ->
    last_tok ts = Some (x, q) -> Inline (Line q) il rest ->
    OneofRest rest fs os -> OneofElems (coms cs ++ ts ++ icom il ++ rest) (f :: fs) os
with OneofRest : list item -> list oneofField -> list option_ -> Prop :=
| or_end ts p : Close ts p -> OneofRest ts [] []
| or_more ts fs os : OneofElems ts fs os -> OneofRest ts fs os.

Inductive Oneof (cs : list comment) (il : option comment) : list item -> oneof -> Prop :=
| oneof_intro t1 p1 t2 name p2 t3 p3 lc t4 fs os x q :
    T t1 (lit "oneof") p1 -> T t2 name p2 -> is_ident name -> T t3 (lit "{") p3 -> Inline (Line p3) lc t4 ->
    OneofElems t4 fs os -> last_tok t4 = Some (x, q) ->
    Oneof cs il (t1 ++ t2 ++ t3 ++ icom lc ++ t4) (mkOneof fs name os cs il (inode lc) (mkMeta p1 q)).

(** ** Reserved and extensions *)

Inductive Range : list item -> range -> Prop :=
| rg_one ts x p : T ts x p -> is_int x -> Range ts (mkRange x [])
| rg_to t1 x p t2 t3 y p3 : T t1 x p -> is_int x -> K t2 "to" -> T t3 y p3 -> (is_int y \/ y = lit "max") ->
    Range (t1 ++ t2 ++ t3) (mkRange x y).
Inductive Ranges : list item -> list range -> Prop :=
| rgs_one ts r : Range ts r -> Ranges ts [r]
| rgs_more ts r td ts' rs : Range ts r -> K td "," -> Ranges ts' rs -> Ranges (ts ++ td ++ ts') (r :: rs).
Inductive FieldNames : list item -> list str -> Prop :=
| fns_one ts x p : T ts x p -> (is_str x \/ is_ident x) -> FieldNames ts [x]
| fns_more ts x p td ts' xs : T ts x p -> (is_str x \/ is_ident x) -> K td "," \/ (junk = true /\ td = []) ->
    FieldNames ts' xs -> FieldNames (ts ++ td ++ ts') (x :: xs).
(** Ranges the parser gives up: what it read is skipped *)
Inductive Lost : list item -> Prop :=
| lost_none : Lost []
| lost_comma ts rs td : Ranges ts rs -> K td "," -> Lost (ts ++ td)
| lost_to ts t1 x p t2 t3 y p3 : Lost ts -> T t1 x p -> is_int x -> K t2 "to" -> T t3 y p3 -> Lost (ts ++ t1 ++ t2 ++ t3).
Inductive Reserved (cs : list comment) (il : option comment) : list item -> reserved -> Prop :=
| reserved_ranges t1 p1 t2 rs t3 p3 : T t1 (lit "reserved") p1 -> Ranges t2 rs -> T t3 (lit ";") p3 ->
    Reserved cs il (t1 ++ t2 ++ t3) (mkReserved rs [] cs il (mkMeta p1 p3))
| reserved_names t1 p1 tj t2 xs t3 p3 :
    T t1 (lit "reserved") p1 -> (junk = true /\ Lost tj) \/ tj = [] -> FieldNames t2 xs -> T t3 (lit ";") p3 ->
    Reserved cs il (t1 ++ tj ++ t2 ++ t3) (mkReserved [] xs cs il (mkMeta p1 p3)).

Inductive DeclField : list item -> string * str -> Prop :=
| df_number t1 t2 t3 x p : K t1 "number" -> K t2 ":" -> T t3 x p -> is_int x ->
    DeclField (t1 ++ t2 ++ t3) ("number"%string, x)
| df_string key t1 t2 t3 x p : In key ["full_name"; "type"]%string -> K t1 key -> K t2 ":" -> T t3 x p -> is_str x ->
    DeclField (t1 ++ t2 ++ t3) (key, x)
| df_bool key t1 t2 t3 x p : In key ["repeated"; "reserved"]%string -> K t1 key -> K t2 ":" -> T t3 x p -> is_ident x ->
    DeclField (t1 ++ t2 ++ t3) (key, x).
(** fields separated by commas; [first]: no comma in front *)
Inductive DeclFields : bool -> list item -> list (string * str) -> Prop :=
| dfs_nil first : DeclFields first [] []
| dfs_cons first sep ts kv ts' kvs :
    (K sep "," /\ (junk = true \/ first = false)) \/ (sep = [] /\ (junk = true \/ first = true)) ->
    DeclField ts kv -> DeclFields false ts' kvs -> DeclFields first (sep ++ ts ++ ts') (kv :: kvs).
(** the last value given for a key *)
Fixpoint last_value (key : string) (kvs : list (string * str)) : str :=
  match kvs with
  | [] => []
  | (k, v) :: kvs =>
    if String.eqb k key && negb (existsb (fun kv => String.eqb (fst kv) key) kvs) then v else last_value key kvs
  end.
Definition is_true_ (x : str) : bool := if list_eq_dec N.eq_dec x (lit "true") then true else false.
Inductive Declaration (cs : list comment) (il : option comment) : list item -> declaration -> Prop :=
| declaration_intro t1 p1 t2 t3 p3 lc t4 kvs t5 p5 :
    T t1 (lit "declaration") p1 -> K t2 "=" -> T t3 (lit "{") p3 -> Inline (Line p3) lc (t4 ++ t5) ->
    DeclFields true t4 kvs -> T t5 (lit "}") p5 ->
    Declaration cs il (t1 ++ t2 ++ t3 ++ icom lc ++ t4 ++ t5)
      (mkDeclaration (last_value "number" kvs) (last_value "full_name" kvs) (last_value "type" kvs)
        (is_true_ (last_value "reserved" kvs)) (is_true_ (last_value "repeated" kvs)) cs il (inode lc) (mkMeta p1 p5)).
(** Up to two inline comments follow the comma or bracket behind a declaration,
    the second on the line of the first; the last one is kept. *)
Definition Inlines (l : Z) (c1 c2 : option (str * mpos)) (rest : list item) : Prop :=
  Inline l c1 (icom c2 ++ rest) /\
  match c1 with Some c => Inline (Line (snd c)) c2 rest | None => c2 = None end.
Definition last_some {A} (a b : option A) : option A := match b with Some _ => b | None => a end.
(** [fol]: the items behind the declarations *)
Inductive Declarations (fol : list item) : list item -> list declaration -> Prop :=
| ds_last cs ts d t p c1 c2 :
    Declaration (nodes cs) (inode (last_some c1 c2)) ts d -> no_com ts -> T t (lit "]") p -> Inlines (Line p) c1 c2 fol ->
    Declarations fol (coms cs ++ ts ++ t ++ icom c1 ++ icom c2) [d]
| ds_more cs ts d t p c1 c2 rest ds :
    Declaration (nodes cs) (inode (last_some c1 c2)) ts d -> no_com ts -> T t (lit ",") p ->
    Inlines (Line p) c1 c2 (rest ++ fol) -> Declarations fol rest ds ->
    Declarations fol (coms cs ++ ts ++ t ++ icom c1 ++ icom c2 ++ rest) (d :: ds).
Inductive Extensions (cs : list comment) (il : option comment) : list item -> extensions -> Prop :=
| extensions_ranges t1 p1 t2 rs t3 p3 : T t1 (lit "extensions") p1 -> Ranges t2 rs -> T t3 (lit ";") p3 ->
    Extensions cs il (t1 ++ t2 ++ t3) (mkExtensions rs [] cs il None (mkMeta p1 p3))
| extensions_decls t1 p1 t2 rs t3 p3 lc t4 ds t5 p5 :
    T t1 (lit "extensions") p1 -> Ranges t2 rs -> T t3 (lit "[") p3 -> Inline (Line p3) lc (t4 ++ t5) ->
    Declarations t5 t4 ds -> T t5 (lit ";") p5 ->
    Extensions cs il (t1 ++ t2 ++ t3 ++ icom lc ++ t4 ++ t5) (mkExtensions rs ds cs il (inode lc) (mkMeta p1 p5)).

(** ** Bodies *)

(** Statements, each with the comments in front of it and its inline comment,
    and the comments that are left at the end. *)
Inductive Stmts (S : list comment -> option comment -> list item -> visitee -> Prop)
  : list item -> list visitee -> list (str * mpos) -> Prop :=
| sts_nil cs : Stmts S (coms cs) [] cs
| sts_cons cs ts v x q il rest vs tcs :
    S (nodes cs) (inode il) ts v -> no_com ts -> last_tok ts = Some (x, q) -> Inline (Line q) il rest ->
    closed ts rest -> Stmts S rest vs tcs ->
    Stmts S (coms cs ++ ts ++ icom il ++ rest) (v :: vs) tcs.

Definition trailing (tcs : list (str * mpos)) : list visitee := if bic then map VComment (nodes tcs) else [].

(** A body in braces.  Bodies of messages and extends ([drop]) without a
    statement lose the comments in them. *)
Inductive Body (drop : bool) (S : list comment -> option comment -> list item -> visitee -> Prop)
  : list item -> list visitee -> option comment -> mpos -> Prop :=
| body_stmts t1 p1 lc ts vs tcs t2 q :
    T t1 (lit "{") p1 -> Inline (Line p1) lc (ts ++ t2) -> Stmts S ts vs tcs -> no_com t2 -> Close t2 q ->
    (drop = false \/ vs <> []) ->
    Body drop S (t1 ++ icom lc ++ ts ++ t2) (vs ++ trailing tcs) (inode lc) q
| body_empty t1 p1 lc t2 q :
    drop = true -> T t1 (lit "{") p1 -> Inline (Line p1) lc t2 -> Close t2 q ->
    Body drop S (t1 ++ icom lc ++ t2) [] None q.

(** An empty statement; the parser also takes a statement that breaks off at a
    semicolon, described by [cut], for one. *)
Inductive Empty (cut : list str -> Prop) (il : option comment) : list item -> visitee -> Prop :=
| empty_intro p : Empty cut il [Tok (lit ";") p] (VEmpty (mkEmpty il))
| empty_junk ts t p : junk = true -> toks ts <> [] -> cut (toks ts) -> T t (lit ";") p ->
    Empty cut il (ts ++ t) (VEmpty (mkEmpty il)).

(** ** Enum *)

Inductive Sign : list item -> str -> Prop :=
| sign_none : Sign [] []
| sign_minus ts : K ts "-" -> Sign ts (lit "-").
Inductive EnumField (cs : list comment) (il : option comment) : list item -> enumField -> Prop :=
| enum_field_intro t1 name p1 t2 t3 sg t4 num p4 t5 os t6 p6 :
    T t1 name p1 -> is_ident name -> K t2 "=" -> Sign t3 sg -> T t4 num p4 -> is_int num -> FieldOptions t5 os ->
    T t6 (lit ";") p6 ->
    EnumField cs il (t1 ++ t2 ++ t3 ++ t4 ++ t5 ++ t6) (mkEnumField name (sg ++ num) (evopts os) cs il (mkMeta p1 p6)).
Inductive EnumStmt (cs : list comment) (il : option comment) : list item -> visitee -> Prop :=
| es_option ts o : Option cs il ts o -> EnumStmt cs il ts (VOption o)
| es_reserved ts r : Reserved cs il ts r -> EnumStmt cs il ts (VReserved r)
| es_field ts f : EnumField cs il ts f -> not_first ts ["option"; "reserved"]%string -> EnumStmt cs il ts (VEnumField f)
| es_empty ts v : Empty (fun l => CutEnumField l /\ not_head l ["option"; "reserved"]%string) il ts v -> EnumStmt cs il ts v.
Inductive Enum (cs : list comment) (il : option comment) : list item -> block -> Prop :=
| enum_intro t1 p1 t2 name p2 t3 vs lc q :
    T t1 (lit "enum") p1 -> T t2 name p2 -> is_ident name -> Body false EnumStmt t3 vs lc q ->
    Enum cs il (t1 ++ t2 ++ t3) (mkBlock name vs cs il lc (mkMeta p1 q)).

(** ** Extend *)

Inductive ExtendStmt (cs : list comment) (il : option comment) : list item -> visitee -> Prop :=
| xs_field ts f : Field cs il ts f -> ExtendStmt cs il ts (VField f)
| xs_empty ts v : Empty CutField il ts v -> ExtendStmt cs il ts v.
Inductive Extend (cs : list comment) (il : option comment) : list item -> block -> Prop :=
| extend_intro t1 p1 t2 v p2 t3 vs lc q :
    T t1 (lit "extend") p1 -> MessageType t2 v p2 -> Body true ExtendStmt t3 vs lc q ->
    Extend cs il (t1 ++ t2 ++ t3) (mkBlock v vs cs il lc (mkMeta p1 q)).

(** ** Message and group *)

Definition message_words : list string :=
  ["enum"; "message"; "option"; "oneof"; "map"; "extend"; "reserved"; "extensions"]%string.

Inductive MessageStmt (cs : list comment) (il : option comment) : list item -> visitee -> Prop :=
| ms_enum ts e : Enum cs il ts e -> MessageStmt cs il ts (VEnum e)
| ms_message t1 p1 t2 name p2 t3 vs lc q :
    T t1 (lit "message") p1 -> T t2 name p2 -> is_ident name -> Body true MessageStmt t3 vs lc q ->
    MessageStmt cs il (t1 ++ t2 ++ t3) (VMessage (mkBlock name vs cs il lc (mkMeta p1 q)))
| ms_option ts o : Option cs il ts o -> MessageStmt cs il ts (VOption o)
| ms_oneof ts o : Oneof cs il ts o -> MessageStmt cs il ts (VOneof o)
| ms_map ts m : MapField cs il ts m -> MessageStmt cs il ts (VMapField m)
| ms_extend ts x : Extend cs il ts x -> MessageStmt cs il ts (VExtend x)
| ms_reserved ts r : Reserved cs il ts r -> MessageStmt cs il ts (VReserved r)
| ms_extensions ts x : Extensions cs il ts x -> MessageStmt cs il ts (VExtensions x)
| ms_field ts f : Field cs il ts f -> not_first ts message_words -> MessageStmt cs il ts (VField f)
| ms_group t1 p1 rp rq op t2 t3 name p3 t4 t5 num p5 t6 vs lc q :
    Label t1 t2 p1 rp rq op -> K t2 "group" -> T t3 name p3 -> is_ident name -> capitalized name -> K t4 "=" ->
    T t5 num p5 -> is_int num -> Body true MessageStmt t6 vs lc q ->
    MessageStmt cs il (t1 ++ t2 ++ t3 ++ t4 ++ t5 ++ t6)
      (VGroupField (mkGroupField rp rq op name vs num cs il lc (mkMeta p1 q)))
| ms_empty ts v : Empty (fun l => (CutField l /\ not_head l message_words) \/ CutGroup l) il ts v -> MessageStmt cs il ts v.
Inductive Message (cs : list comment) (il : option comment) : list item -> block -> Prop :=
| message_intro t1 p1 t2 name p2 t3 vs lc q :
    T t1 (lit "message") p1 -> T t2 name p2 -> is_ident name -> Body true MessageStmt t3 vs lc q ->
    Message cs il (t1 ++ t2 ++ t3) (mkBlock name vs cs il lc (mkMeta p1 q)).

(** ** Service *)

Inductive Stream : list item -> list item -> bool -> Prop :=
| stream_yes ts rest : K ts "stream" -> Stream ts rest true
| stream_no rest : not_first rest ["stream"]%string -> Stream [] rest false.
Inductive RPCParam : list item -> rpcParam -> Prop :=
| rpc_param_intro t1 p1 t2 st t3 v p3 t4 p4 :
    T t1 (lit "(") p1 -> Stream t2 t3 st -> MessageType t3 v p3 -> T t4 (lit ")") p4 ->
    RPCParam (t1 ++ t2 ++ t3 ++ t4) (mkRPCParam st v (mkMeta p1 p4)).
(** options and empty statements in braces; comments are skipped *)
Inductive RPCBody : list item -> list option_ -> Prop :=
| rb_nil : RPCBody [] []
| rb_option ts o ts' os : Option [] None ts o -> RPCBody ts' os -> RPCBody (ts ++ ts') (o :: os)
| rb_empty ts ts' os : K ts ";" -> RPCBody ts' os -> RPCBody (ts ++ ts') os.
(** [RPCEnd first ...]: [first] is the semicolon or the opening brace *)
Inductive RPCEnd : list item -> list item -> list option_ -> option comment -> mpos -> Prop :=
| re_semi ts p : T ts (lit ";") p -> RPCEnd ts [] [] None p
| re_block t1 p1 lc ts os t2 q : T t1 (lit "{") p1 -> Inline (Line p1) lc (ts ++ t2) -> RPCBody ts os -> Close t2 q ->
    RPCEnd t1 (icom lc ++ ts ++ t2) os (inode lc) q.
Inductive RPC (cs : list comment) (il : option comment) : list item -> rpc -> Prop :=
| rpc_intro cs1 p1 t2 name p2 t3 rq t4 t5 rs t6 t7 os lc q :
    T t2 name p2 -> is_ident name -> RPCParam t3 rq -> K t4 "returns" -> RPCParam t5 rs -> RPCEnd t6 t7 os lc q ->
    RPC cs il ((coms cs1 ++ [Tok (lit "rpc") p1]) ++ t2 ++ t3 ++ t4 ++ t5 ++ t6 ++ t7)
      (mkRPC name rq rs os cs il lc (comments_in (t2 ++ t3 ++ t4 ++ t5 ++ t6)) (mkMeta p1 q)).
Inductive ServiceStmt (cs : list comment) (il : option comment) : list item -> visitee -> Prop :=
| ss_option ts o : Option cs il ts o -> ServiceStmt cs il ts (VOption o)
| ss_rpc ts r : RPC cs il ts r -> ServiceStmt cs il ts (VRPC r)
| ss_empty p : ServiceStmt cs il [Tok (lit ";") p] (VEmpty (mkEmpty il)).
Inductive Service (cs : list comment) (il : option comment) : list item -> block -> Prop :=
| service_intro t1 p1 t2 name p2 t3 vs lc q :
    T t1 (lit "service") p1 -> T t2 name p2 -> is_ident name -> Body false ServiceStmt t3 vs lc q ->
    Service cs il (t1 ++ t2 ++ t3) (mkBlock name vs cs il lc (mkMeta p1 q)).

(** ** File *)

Inductive FileStmt (cs : list comment) (il : option comment) : list item -> visitee -> Prop :=
| fs_import ts i : Import cs il ts i -> FileStmt cs il ts (VImport i)
| fs_package ts p : Package cs il ts p -> FileStmt cs il ts (VPackage p)
| fs_option ts o : Option cs il ts o -> FileStmt cs il ts (VOption o)
| fs_message ts m : Message cs il ts m -> FileStmt cs il ts (VMessage m)
| fs_enum ts e : Enum cs il ts e -> FileStmt cs il ts (VEnum e)
| fs_service ts s : Service cs il ts s -> FileStmt cs il ts (VService s)
| fs_extend ts x : Extend cs il ts x -> FileStmt cs il ts (VExtend x).
(** Deviation: an empty statement at the top level gives two elements, the second
    nil, and no inline comment may follow (the code panics). *)
Inductive FileStmts : list item -> list visitee -> list (str * mpos) -> Prop :=
| fss_nil cs : FileStmts (coms cs) [] cs
| fss_cons cs ts v x q il rest vs tcs :
    FileStmt (nodes cs) (inode il) ts v -> no_com ts -> last_tok ts = Some (x, q) -> Inline (Line q) il rest ->
    closed ts rest -> FileStmts rest vs tcs ->
    FileStmts (coms cs ++ ts ++ icom il ++ rest) (v :: vs) tcs
| fss_empty cs p rest vs tcs :
    no_com_on (Line p) rest -> FileStmts rest vs tcs ->
    FileStmts (coms cs ++ Tok (lit ";") p :: rest) (VEmpty (mkEmpty None) :: VNil :: vs) tcs.

Inductive Bom : list item -> Prop :=
| bom_none : Bom []
| bom_mark cs p : Bom (coms cs ++ [Tok [0xFEFF] p]).

(** The header and what is left of the leading comments: they belong to the
    syntax and edition statements. *)
Inductive SyntaxPart (cs : list comment) : list item -> option syntax -> list item -> Prop :=
| sp_none rest : not_first rest ["syntax"]%string -> SyntaxPart cs [] None rest
| sp_some ts s x q il rest : Syntax cs (inode il) ts s -> last_tok ts = Some (x, q) -> Inline (Line q) il rest ->
    SyntaxPart cs (ts ++ icom il) (Some s) rest.
Inductive EditionPart (cs : list comment) : list item -> option edition -> list item -> Prop :=
| ep_none rest : not_first rest ["edition"]%string -> EditionPart cs [] None rest
| ep_some ts e x q il rest : Edition cs (inode il) ts e -> last_tok ts = Some (x, q) -> Inline (Line q) il rest ->
    EditionPart cs (ts ++ icom il) (Some e) rest.

Inductive File (fn : str) : list item -> proto -> Prop :=
| file_intro tb cs ts sy te ed rest vs tcs :
    Bom tb -> no_com (ts ++ te ++ rest) -> SyntaxPart (nodes cs) ts sy (te ++ rest) -> EditionPart (nodes cs) te ed rest ->
    FileStmts rest vs tcs ->
    File fn (tb ++ coms cs ++ ts ++ te ++ rest) (mkProto sy ed (vs ++ trailing tcs) fn).

End Productions.
