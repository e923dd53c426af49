(** Model of the text of an error: parser/meta/error.go, parser/meta/position.go,
    parser/error.go, lexer/error.go, lexer/scanner/error.go and the Error methods
    of the pairs (parser/message.go:15-21, enum.go:15-21, extend.go:15-21,
    reserved.go:15-17).

    [%q] is strconv.Quote.  Which runes it writes as they are depends on the
    Unicode tables of the Go library; [printable] stands for strconv.IsPrint and
    may be any function here.  The source file and line that runtime.Caller finds
    are not modelled; [where_] gives them, any text. *)
From Coq Require Import List NArith ZArith Bool String Ascii DecimalString DecimalZ.
From Verif Require Import Base Token Scanner.
Import ListNotations.
Open Scope N_scope.

(** [%d], [%v] of an int *)
Definition dec (z : Z) : str := lit (NilZero.string_of_int (Z.to_int z)).

(** strconv: lowerhex *)
Definition hexdigit (d : N) : rune := if d <? 10 then 48 + d else 87 + d.
Fixpoint hex (n : nat) (c : N) : str :=
  match n with
  | O => []
  | S n' => hexdigit ((c / 16 ^ N.of_nat n') mod 16) :: hex n' c
  end.
(** the rune of a Go string: [string(r)] is U+FFFD for an r that is no rune *)
Definition go_rune (c : rune) : rune :=
  if (c <? 0xD800) || ((0xE000 <=? c) && (c <=? 0x10FFFF)) then c else 0xFFFD.
Definition go_string (x : str) : str := map go_rune x.

Section Text.
Variable printable : rune -> bool.
(** strconv/quote.go appendEscapedRune with the double quote, ASCIIonly = graphicOnly = false *)
Definition escaped (c : rune) : str :=
  if (c =? DQ) || (c =? BSL) then [BSL; c]
  else if printable c then [c]
  else if c =? 7 then [BSL; ch "a"]
  else if c =? 8 then [BSL; ch "b"]
  else if c =? 12 then [BSL; ch "f"]
  else if c =? 10 then [BSL; ch "n"]
  else if c =? 13 then [BSL; ch "r"]
  else if c =? 9 then [BSL; ch "t"]
  else if c =? 11 then [BSL; ch "v"]
  else if (c <? 32) || (c =? 127) then BSL :: ch "x" :: hex 2 c
  else if c <? 0x10000 then BSL :: ch "u" :: hex 4 c
  else BSL :: ch "U" :: hex 8 c.
Definition quoted (x : str) : str := DQ :: List.concat (map escaped (go_string x)) ++ [DQ].

(** the value of the constant (token.go:7-69, iota) *)
Definition token_num (t : token) : Z :=
  match t with
  | TILLEGAL => 0 | TEOF => 1 | TIDENT => 2 | TINTLIT => 3 | TFLOATLIT => 4 | TBOOLLIT => 5 | TSTRLIT => 6 | TCOMMENT => 7
  | TSEMICOLON => 8 | TCOLON => 9 | TEQUALS => 10 | TQUOTE => 11 | TLEFTPAREN => 12 | TRIGHTPAREN => 13 | TLEFTCURLY => 14
  | TRIGHTCURLY => 15 | TLEFTSQUARE => 16 | TRIGHTSQUARE => 17 | TLESS => 18 | TGREATER => 19 | TCOMMA => 20 | TDOT => 21
  | TMINUS => 22 | TBOM => 23 | TSYNTAX => 24 | TEDITION => 25 | TSERVICE => 26 | TRPC => 27 | TRETURNS => 28 | TMESSAGE => 29
  | TEXTEND => 30 | TIMPORT => 31 | TPACKAGE => 32 | TOPTION => 33 | TREPEATED => 34 | TREQUIRED => 35 | TOPTIONAL => 36
  | TWEAK => 37 | TPUBLIC => 38 | TONEOF => 39 | TMAP => 40 | TRESERVED => 41 | TEXTENSIONS => 42 | TDECLARATION => 43
  | TNUMBER => 44 | TFULLNAME => 45 | TTYPE => 46 | TENUM => 47 | TSTREAM => 48 | TGROUP => 49
  end%Z.

(** parser/meta/position.go:20-27 String *)
Definition shown_name (p : mpos) : str := match Filename p with [] => lit "<input>" | fn => fn end.
Definition pos_text (p : mpos) : str :=
  shown_name p ++ lit ":" ++ dec (Line p) ++ lit ":" ++ dec (Column p).

(** the field Found: scanner/error.go:14, lexer/error.go:13, parser/error.go:15 *)
Definition found_text (e : err) : str :=
  match e with
  | EScan _ _ c => go_string [c]
  | ELex _ _ x => x
  | EParse p _ x t => quoted x ++ lit "(Token=" ++ dec (token_num t) ++ lit ", Pos=" ++ pos_text p ++ lit ")"
  | EPair _ _ => []
  end.
(** the field Expected; parser/groupField.go:90 puts the group's name into it *)
Definition group_expected : string := "groupName must begin with capital letter.".
Definition expected_text (e : err) : str :=
  match e with
  | EScan _ x _ | ELex _ x _ => lit x
  | EParse _ x txt _ => if String.eqb x group_expected then lit "groupName " ++ quoted txt ++ lit " must begin with capital letter." else lit x
  | EPair _ _ => []
  end.
(** parser/meta/error.go:15-20 Error; the lexer gives the place in the Go source in
    debug mode only (lexer/error.go:15-18) *)
Definition leaf_text (where_ : str) (e : err) : str :=
  lit "found " ++ quoted (found_text e) ++ lit " but expected [" ++ expected_text e ++ lit "]" ++
  match e with
  | ELex _ _ _ => []
  | _ => lit " at " ++ where_
  end.
(** The texts of an error *)
Inductive Text : err -> str -> Prop :=
| text_scan p x c w : Text (EScan p x c) (leaf_text w (EScan p x c))
| text_lex p x t w : Text (ELex p x t) (leaf_text w (ELex p x t))
| text_parse p x t k w : Text (EParse p x t k) (leaf_text w (EParse p x t k))
| text_pair a b x y : Text a x -> Text b y -> Text (EPair a b) (x ++ lit ":" ++ y).
End Text.
