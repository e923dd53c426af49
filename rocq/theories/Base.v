(** Runes, Go strings as rune lists, character classes, UTF-8.

    Go strings handled by the code are always built from runes returned by
    [bufio.Reader.ReadRune], so a string is modelled as the list of its runes
    ([str]); bytes only matter at the reader boundary ([utf8_decode]) and in
    the byte offset of positions ([rune_len]). *)
From Coq Require Import List NArith ZArith Bool String Ascii.
Import ListNotations.
Open Scope N_scope.

(** Go [rune] (int32).  Negative runes never occur. *)
Definition rune := N.
(** Go [string], as its sequence of runes. *)
Definition str := list rune.

(** Literals: [lit "abc"] is the Go string literal. *)
Fixpoint lit (s : string) : str :=
  match s with
  | EmptyString => []
  | String a s' => N_of_ascii a :: lit s'
  end.

Definition ch (a : ascii) : rune := N_of_ascii a.
Arguments ch a%char.

Fixpoint str_eqb (a b : str) : bool :=
  match a, b with
  | [], [] => true
  | x :: a', y :: b' => (x =? y) && str_eqb a' b'
  | _, _ => false
  end.

(** Membership in a set of strings (Go [map[string]struct{}]). *)
Definition str_mem (a : str) (l : list str) : bool := existsb (str_eqb a) l.

(** lexer/scanner/scanner.go:9  [var eof = rune(0)] *)
Definition eof : rune := 0.
Definition NL : rune := 10.

(** lexer/scanner/lettersdigits.go:8-22 isLetter *)
Definition isLetter (r : rune) : bool :=
  if r <? ch "A" then false
  else if ch "z" <? r then false
  else if (ch "Z" <? r) && (r <? ch "a") then false
  else true.

(** lexer/scanner/lettersdigits.go:25-27 isDecimalDigit *)
Definition isDecimalDigit (r : rune) : bool := (ch "0" <=? r) && (r <=? ch "9").

(** lexer/scanner/lettersdigits.go:30-32 isOctalDigit *)
Definition isOctalDigit (r : rune) : bool := (ch "0" <=? r) && (r <=? ch "7").

(** lexer/scanner/lettersdigits.go:35-46 isHexDigit *)
Definition isHexDigit (r : rune) : bool :=
  if (ch "0" <=? r) && (r <=? ch "9") then true
  else if (ch "A" <=? r) && (r <=? ch "F") then true
  else if (ch "a" <=? r) && (r <=? ch "f") then true
  else false.

(** lexer/scanner/quote.go:5-12 isQuote (39 is the single quote, 34 the double quote) *)
Definition SQ : rune := 39.
Definition DQ : rune := 34.
Definition isQuote (r : rune) : bool := (r =? SQ) || (r =? DQ).

(** unicode.IsSpace (Go standard library, unicode/graphic.go): Latin-1
    '\t','\n','\v','\f','\r',' ',U+0085,U+00A0 and, above Latin-1, the
    White_Space property. *)
Definition isSpace (r : rune) : bool :=
  ((9 <=? r) && (r <=? 13)) || (r =? 32) || (r =? 0x85) || (r =? 0xA0)
  || (r =? 0x1680) || ((0x2000 <=? r) && (r <=? 0x200A))
  || (r =? 0x2028) || (r =? 0x2029) || (r =? 0x202F) || (r =? 0x205F)
  || (r =? 0x3000).

(** utf8.RuneLen (Go standard library): -1 for surrogates and out of range. *)
Definition rune_len (r : rune) : Z :=
  if r <? 0x80 then 1
  else if r <? 0x800 then 2
  else if (0xD800 <=? r) && (r <=? 0xDFFF) then (-1)
  else if r <? 0x10000 then 3
  else if r <=? 0x10FFFF then 4
  else (-1).

(** utf8.RuneError *)
Definition rune_error : rune := 0xFFFD.

(** utf8.DecodeRune (Go standard library): rune and width consumed.  [None] on
    empty input.  The accepted second byte range depends on the first byte
    (no overlong forms, no surrogates, nothing above U+10FFFF); any failure
    yields (RuneError, 1). *)
Definition isCont (b : N) : bool := (0x80 <=? b) && (b <=? 0xBF).

Definition decode_rune (bs : list N) : option (rune * list N) :=
  match bs with
  | [] => None
  | b0 :: t =>
    let bad := Some (rune_error, t) in
    if b0 <? 0x80 then Some (b0, t)
    else if (0xC2 <=? b0) && (b0 <=? 0xDF) then
      match t with
      | b1 :: t' => if isCont b1 then Some ((b0 - 0xC0) * 64 + (b1 - 0x80), t') else bad
      | _ => bad
      end
    else if (0xE0 <=? b0) && (b0 <=? 0xEF) then
      match t with
      | b1 :: b2 :: t' =>
        let lo := if b0 =? 0xE0 then 0xA0 else 0x80 in
        let hi := if b0 =? 0xED then 0x9F else 0xBF in
        if (lo <=? b1) && (b1 <=? hi) && isCont b2
        then Some ((b0 - 0xE0) * 4096 + (b1 - 0x80) * 64 + (b2 - 0x80), t') else bad
      | _ => bad
      end
    else if (0xF0 <=? b0) && (b0 <=? 0xF4) then
      match t with
      | b1 :: b2 :: b3 :: t' =>
        let lo := if b0 =? 0xF0 then 0x90 else 0x80 in
        let hi := if b0 =? 0xF4 then 0x8F else 0xBF in
        if (lo <=? b1) && (b1 <=? hi) && isCont b2 && isCont b3
        then Some ((b0 - 0xF0) * 262144 + (b1 - 0x80) * 4096 + (b2 - 0x80) * 64 + (b3 - 0x80), t')
        else bad
      | _ => bad
      end
    else bad
  end.

(** bufio.Reader.ReadRune over a whole byte sequence: the runes the scanner
    gets from [s.r.ReadRune()] (lexer/scanner/scanner.go:71). *)
Fixpoint utf8_decode_fuel (n : nat) (bs : list N) : list rune :=
  match n with
  | O => []
  | S n' => match decode_rune bs with
            | None => []
            | Some (r, t) => r :: utf8_decode_fuel n' t
            end
  end.
Definition utf8_decode (bs : list N) : list rune := utf8_decode_fuel (List.length bs) bs.

(** utf8.EncodeRune, for valid runes. *)
Definition encode_rune (r : rune) : list N :=
  if r <? 0x80 then [r]
  else if r <? 0x800 then [0xC0 + r / 64; 0x80 + r mod 64]
  else if r <? 0x10000 then [0xE0 + r / 4096; 0x80 + (r / 64) mod 64; 0x80 + r mod 64]
  else [0xF0 + r / 262144; 0x80 + (r / 4096) mod 64; 0x80 + (r / 64) mod 64; 0x80 + r mod 64].
