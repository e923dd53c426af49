(** Specification of the lexical structure: what whitespace, comments,
    identifiers, numbers and strings are.  Nothing here refers to the scanner;
    the character classes are those of the protobuf language specification. *)
From Coq Require Import List NArith ZArith Bool String Ascii.
From Verif Require Import Base Token Scanner.
Import ListNotations.
Open Scope N_scope.

(** ** Characters *)
Definition letter (c : rune) : Prop := (65 <= c <= 90) \/ (97 <= c <= 122).
Definition digit (c : rune) : Prop := 48 <= c <= 57.
Definition octal_digit (c : rune) : Prop := 48 <= c <= 55.
Definition hex_digit (c : rune) : Prop := digit c \/ (65 <= c <= 70) \/ (97 <= c <= 102).
Definition underscore : rune := ch "_".
Definition ident_start (c : rune) : Prop := letter c \/ c = underscore.
Definition ident_char (c : rune) : Prop := letter c \/ digit c \/ c = underscore.
Definition backslash : rune := 92.

(** ** Identifiers: letter or underscore, then letters, digits, underscores *)
Definition is_ident (x : str) : Prop :=
  exists c l, x = c :: l /\ ident_start c /\ Forall ident_char l.

(** ** Comments *)
(** [b] closes at its end and not before: no [*/] in [b], also not overlapping
    the closing one *)
Definition block_body (b : str) : Prop := forall x y, b ++ lit "*/" = x ++ lit "*/" ++ y -> y = [].
Definition is_line_comment (x : str) : Prop := exists b, x = lit "//" ++ b /\ ~ In NL b.
Definition is_block_comment (x : str) : Prop := exists b, x = lit "/*" ++ b ++ lit "*/" /\ block_body b.
Definition is_comment (x : str) : Prop := is_line_comment x \/ is_block_comment x.

(** Text between two tokens: whitespace and comments.  The second component lists
    the comments, each with the part of the text that precedes it. *)
Definition shift (w : list rune) (l : list (list rune * str)) : list (list rune * str) :=
  map (fun pc => (w ++ fst pc, snd pc)) l.
Inductive Gap : list rune -> list (list rune * str) -> Prop :=
| gap_nil : Gap [] []
| gap_space c g cs : isSpace c = true -> Gap g cs -> Gap (c :: g) (shift [c] cs)
| gap_line x g cs : is_line_comment x -> Gap g cs ->
    Gap (x ++ [NL] ++ g) (([], x) :: shift (x ++ [NL]) cs)
| gap_block x g cs : is_block_comment x -> Gap g cs ->
    Gap (x ++ g) (([], x) :: shift x cs).
(** ... at the end of the text, where the last line comment needs no newline *)
Inductive EndGap : list rune -> list (list rune * str) -> Prop :=
| egap_gap g cs : Gap g cs -> EndGap g cs
| egap_line g cs x : Gap g cs -> is_line_comment x -> EndGap (g ++ x) (cs ++ [(g, x)]).
Definition Spaces (g : list rune) : Prop := Forall (fun c => isSpace c = true) g.

(** ** Numbers *)
Definition decimals (x : str) : Prop := x <> [] /\ Forall digit x.
Definition is_decimal (x : str) : Prop := exists c l, x = c :: l /\ 49 <= c <= 57 /\ Forall digit l.
Definition is_octal (x : str) : Prop := exists l, x = ch "0" :: l /\ Forall octal_digit l.
Definition is_hex (x : str) : Prop :=
  exists e l, x = ch "0" :: e :: l /\ (e = ch "x" \/ e = ch "X") /\ l <> [] /\ Forall hex_digit l.
Definition is_int (x : str) : Prop := is_decimal x \/ is_octal x \/ is_hex x.
Definition exponent (x : str) : Prop :=
  exists e sg d, x = e :: sg ++ d /\ (e = ch "e" \/ e = ch "E") /\ (sg = [] \/ sg = lit "+" \/ sg = lit "-") /\ decimals d.
Definition opt (P : str -> Prop) (x : str) : Prop := x = [] \/ P x.
Inductive is_float : str -> Prop :=
| float_point a b e : decimals a -> opt decimals b -> opt exponent e -> is_float (a ++ lit "." ++ b ++ e)
| float_exp a e : decimals a -> exponent e -> is_float (a ++ e)
| float_frac b e : decimals b -> opt exponent e -> is_float (lit "." ++ b ++ e)
| float_inf : is_float (lit "inf")
| float_nan : is_float (lit "nan").
(** what may not follow a number literal for it to be delimited *)
Definition delimited (r : list rune) : Prop :=
  match r with [] => True | c :: _ => ~ ident_char c /\ c <> ch "." end.
(** the decimals in front of the point or exponent do not start with 0, or are 0 *)
Definition plain_decimals (a : str) : Prop := a = lit "0" \/ is_decimal a.
Inductive is_plain_float : str -> Prop :=
| pfloat_point a b e : plain_decimals a -> opt decimals b -> opt exponent e -> is_plain_float (a ++ lit "." ++ b ++ e)
| pfloat_exp a e : plain_decimals a -> exponent e -> is_plain_float (a ++ e)
| pfloat_frac b e : decimals b -> opt exponent e -> is_plain_float (lit "." ++ b ++ e)
| pfloat_inf : is_plain_float (lit "inf")
| pfloat_nan : is_plain_float (lit "nan").

(** ** Strings *)
(** the body of a string between quotes [q]: a backslash takes the next character
    with it, an unescaped quote [q] does not occur *)
Inductive str_body (q : rune) : str -> Prop :=
| sb_nil : str_body q []
| sb_plain c b : c <> q -> c <> backslash -> c <> NL -> c <> 0 -> str_body q b -> str_body q (c :: b)
| sb_esc c b : c <> NL -> c <> 0 -> str_body q b -> str_body q (backslash :: c :: b).
Definition is_str (x : str) : Prop := exists q b, (q = SQ \/ q = DQ) /\ x = [q] ++ b ++ [q] /\ str_body q b.
(** the documented grammar: only these escapes *)
Definition char_escape (c : rune) : Prop := In c (lit "abfnrtv" ++ [backslash; SQ; DQ]).
Inductive doc_body (q : rune) : str -> Prop :=
| db_nil : doc_body q []
| db_plain c b : c <> q -> c <> backslash -> c <> NL -> c <> 0 -> doc_body q b -> doc_body q (c :: b)
| db_hex x d1 d2 b : x = ch "x" \/ x = ch "X" -> hex_digit d1 -> hex_digit d2 -> doc_body q b ->
    doc_body q (backslash :: x :: d1 :: d2 :: b)
| db_oct d1 d2 d3 b : octal_digit d1 -> octal_digit d2 -> octal_digit d3 -> doc_body q b ->
    doc_body q (backslash :: d1 :: d2 :: d3 :: b)
| db_char c b : char_escape c -> doc_body q b -> doc_body q (backslash :: c :: b).
Definition is_doc_str (x : str) : Prop := exists q b, (q = SQ \/ q = DQ) /\ x = [q] ++ b ++ [q] /\ doc_body q b.

(** ** Reserved words *)
Definition keywords : list (string * token) :=
  [ ("syntax", TSYNTAX); ("edition", TEDITION); ("service", TSERVICE); ("rpc", TRPC);
    ("returns", TRETURNS); ("message", TMESSAGE); ("extend", TEXTEND); ("import", TIMPORT);
    ("package", TPACKAGE); ("option", TOPTION); ("repeated", TREPEATED); ("required", TREQUIRED);
    ("optional", TOPTIONAL); ("weak", TWEAK); ("public", TPUBLIC); ("oneof", TONEOF); ("map", TMAP);
    ("reserved", TRESERVED); ("extensions", TEXTENSIONS); ("number", TNUMBER);
    ("full_name", TFULLNAME); ("type", TTYPE); ("declaration", TDECLARATION); ("enum", TENUM);
    ("stream", TSTREAM); ("group", TGROUP) ]%string.

(** ** Positions of a text: bytes, lines and columns counted directly *)
(** Unicode scalar values: what a UTF-8 decoder can return *)
Definition valid_rune (c : rune) : Prop := c < 0xD800 \/ 0xE000 <= c <= 0x10FFFF.
Definition utf8_bytes (l : list rune) : Z := Z.of_nat (List.length (flat_map encode_rune l)).
Definition newlines (l : list rune) : Z := Z.of_nat (count_occ N.eq_dec l NL).
Fixpoint since_newline (n : Z) (l : list rune) : Z :=
  match l with [] => n | c :: l' => since_newline (if (c =? NL)%N then 0 else n + 1) l' end%Z.

(** position [p] is reached from [p0] over the text [w] *)
Definition moved (p0 : mpos) (w : list rune) (p : mpos) : Prop :=
  Filename p = Filename p0 /\
  (Offset p = Offset p0 + utf8_bytes w /\
   Line p = Line p0 + newlines w /\
   Column p = 1 + since_newline (Column p0 - 1) w)%Z.

(** the text in front of a token in mode [m]: in comment mode comments are tokens *)
Definition gap_in (m : smode) (g : list rune) (cs : list (list rune * str)) : Prop :=
  if has m ScanComment then Spaces g /\ cs = [] else Gap g cs.

(** text a decoder can deliver and that has no NUL *)
Definition readable (l : list rune) : Prop := Forall (fun c => valid_rune c /\ c <> 0) l.
