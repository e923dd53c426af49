(** Tokens and modes: lexer/scanner/token.go, lexer/scanner/mode.go. *)
From Coq Require Import List NArith Bool String Ascii.
From Verif Require Import Base.
Import ListNotations.
Open Scope N_scope.

(** lexer/scanner/token.go:4-70 Token *)
Inductive token :=
| TILLEGAL | TEOF
| TIDENT
| TINTLIT | TFLOATLIT | TBOOLLIT | TSTRLIT
| TCOMMENT
| TSEMICOLON | TCOLON | TEQUALS | TQUOTE | TLEFTPAREN | TRIGHTPAREN
| TLEFTCURLY | TRIGHTCURLY | TLEFTSQUARE | TRIGHTSQUARE | TLESS | TGREATER
| TCOMMA | TDOT | TMINUS | TBOM
| TSYNTAX | TEDITION | TSERVICE | TRPC | TRETURNS | TMESSAGE | TEXTEND | TIMPORT
| TPACKAGE | TOPTION | TREPEATED | TREQUIRED | TOPTIONAL | TWEAK | TPUBLIC | TONEOF
| TMAP | TRESERVED | TEXTENSIONS | TDECLARATION | TNUMBER | TFULLNAME | TTYPE
| TENUM | TSTREAM | TGROUP.

Definition token_eq_dec (a b : token) : {a = b} + {a <> b}.
Proof. decide equality. Defined.
Definition tok_eqb (a b : token) : bool := if token_eq_dec a b then true else false.

(** lexer/scanner/token.go:71-95 asMiscToken *)
Definition asMiscToken (c : rune) : token :=
  if c =? ch ";" then TSEMICOLON
  else if c =? ch ":" then TCOLON
  else if c =? ch "=" then TEQUALS
  else if c =? DQ then TQUOTE
  else if c =? SQ then TQUOTE
  else if c =? ch "(" then TLEFTPAREN
  else if c =? ch ")" then TRIGHTPAREN
  else if c =? ch "{" then TLEFTCURLY
  else if c =? ch "}" then TRIGHTCURLY
  else if c =? ch "[" then TLEFTSQUARE
  else if c =? ch "]" then TRIGHTSQUARE
  else if c =? ch "<" then TLESS
  else if c =? ch ">" then TGREATER
  else if c =? ch "," then TCOMMA
  else if c =? ch "." then TDOT
  else if c =? ch "-" then TMINUS
  else if c =? 0xFEFF then TBOM
  else TILLEGAL.

(** lexer/scanner/token.go:97-131 asKeywordToken: the map literal as an
    association list. *)
Definition keyword_table : list (str * token) :=
  [ (lit "syntax", TSYNTAX);
    (lit "edition", TEDITION);
    (lit "service", TSERVICE);
    (lit "rpc", TRPC);
    (lit "returns", TRETURNS);
    (lit "message", TMESSAGE);
    (lit "extend", TEXTEND);
    (lit "import", TIMPORT);
    (lit "package", TPACKAGE);
    (lit "option", TOPTION);
    (lit "repeated", TREPEATED);
    (lit "required", TREQUIRED);
    (lit "optional", TOPTIONAL);
    (lit "weak", TWEAK);
    (lit "public", TPUBLIC);
    (lit "oneof", TONEOF);
    (lit "map", TMAP);
    (lit "reserved", TRESERVED);
    (lit "extensions", TEXTENSIONS);
    (lit "number", TNUMBER);
    (lit "full_name", TFULLNAME);
    (lit "type", TTYPE);
    (lit "declaration", TDECLARATION);
    (lit "enum", TENUM);
    (lit "stream", TSTREAM);
    (lit "group", TGROUP) ].

Fixpoint assoc_str (k : str) (l : list (str * token)) : option token :=
  match l with
  | [] => None
  | (k', v) :: l' => if str_eqb k k' then Some v else assoc_str k l'
  end.

Definition asKeywordToken (st : str) : token :=
  match assoc_str st keyword_table with
  | Some t => t
  | None => TILLEGAL
  end.

(** lexer/scanner/mode.go:4-15 Mode bits *)
Definition smode := N.
Definition ScanIdent : smode := 1.
Definition ScanNumberLit : smode := 2.
Definition ScanStrLit : smode := 4.
Definition ScanBoolLit : smode := 8.
Definition ScanKeyword : smode := 16.
Definition ScanComment : smode := 32.
Definition ScanLit : smode := N.lor ScanNumberLit (N.lor ScanStrLit ScanBoolLit).

(** [s.Mode & bit != 0] *)
Definition has (m bit : smode) : bool := negb (N.land m bit =? 0).

(** lexer/scanner/boolLit.go:4-11 isBoolLit *)
Definition isBoolLit (ident : str) : bool :=
  str_eqb ident (lit "true") || str_eqb ident (lit "false").

(** lexer/scanner/floatLit.go:4-11 isFloatLitKeyword *)
Definition isFloatLitKeyword (ident : str) : bool :=
  str_eqb ident (lit "inf") || str_eqb ident (lit "nan").
