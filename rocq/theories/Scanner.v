(** Model of package lexer/scanner.

    One flat record [st] holds the fields of [scanner.Scanner] and of the
    [lexer.Lexer] that points to it (lexer/lexer.go:12-34), so that scanner,
    lexer and parser share one state and error monad.

    Simplifications, all observationally justified:
    - [lastReadBuffer] and the bufio.Reader are represented by the single list
      [rest] (top of the un-read stack first, then the runes still in the
      reader).  ReadBuffer.v models the two-buffer version and proves that the
      single list is a refinement of it.
    - A read error of the io.Reader is a NUL rune in the input: [read]
      (scanner.go:66-75) returns [eof] = 0 for both.
    - [columns] is one map shared by all copies of a Position (Go maps are
      references), so it lives in the state, not in the positions.
    - The log output of [Lexer.Error] and of debug mode is not modelled. *)
From Coq Require Import List NArith ZArith Bool String Ascii.
From Verif Require Import Base Token.
Import ListNotations.
Open Scope N_scope.

(** parser/meta/position.go:8-17 meta.Position *)
Record mpos := mkPos { Filename : str; Offset : Z; Line : Z; Column : Z }.

(** lexer/scanner/position.go:14  columns map[int]int (missing key reads 0) *)
Definition colmap := list (Z * Z).
Fixpoint col_get (m : colmap) (k : Z) : Z :=
  match m with
  | [] => 0%Z
  | (k', v) :: m' => if (k =? k')%Z then v else col_get m' k
  end.
Definition col_set (m : colmap) (k v : Z) : colmap := (k, v) :: m.

(** lexer/scanner/position.go:35-47 Position.Advance *)
Definition Advance (pc : mpos * colmap) (r : rune) : mpos * colmap :=
  let '(p, cols) := pc in
  let off := (Offset p + rune_len r)%Z in
  if r =? NL
  then (mkPos (Filename p) off (Line p + 1) 1, col_set cols (Line p) (Column p))
  else (mkPos (Filename p) off (Line p) (Column p + 1), cols).

(** lexer/scanner/position.go:60-70 Position.Revert *)
Definition Revert (pc : mpos * colmap) (r : rune) : mpos * colmap :=
  let '(p, cols) := pc in
  let off := (Offset p - rune_len r)%Z in
  if r =? NL
  then (mkPos (Filename p) off (Line p - 1) (col_get cols (Line p - 1)), cols)
  else (mkPos (Filename p) off (Line p) (Column p - 1), cols).

(** lexer/scanner/position.go:50-57 Position.AdvancedBulk.  The receiver is a
    copy but the columns map is shared, so the map is returned too.
    utf8.DecodeLastRuneInString("") is RuneError. *)
Definition AdvancedBulk (p : mpos) (cols : colmap) (s : str) : mpos * colmap :=
  Revert (fold_left Advance s (p, cols)) (last s rune_error).

(** lexer/scanner/scanner.go:12-15 Text *)
Record text := mkText { Literal : str; TPos : mpos }.

(** Errors: parser/meta/error.go:6-13 meta.Error without the Go source
    location; one constructor per place that builds it, and the pair errors of
    parser/message.go:10-13, enum.go:10-13, extend.go:10-13, reserved.go:10-13.
    For parser.unexpected the formatted Found string is kept as its
    arguments (text, token, position). *)
Inductive err :=
| EScan (p : mpos) (expected : string) (found : rune)              (* scanner/error.go:9-18 *)
| ELex (p : mpos) (expected : string) (found : str)                (* lexer/error.go:9-20 *)
| EParse (p : mpos) (expected : string) (txt : str) (tok : token)  (* parser/error.go:10-19 *)
| EPair (e1 e2 : err).

(** State: lexer/scanner/scanner.go:18-32 and lexer/lexer.go:13-34. *)
Record st := mkSt {
  rest : list rune;        (* lastReadBuffer (top first) ++ unread input *)
  raw : list rune;         (* lastScanRaw *)
  pos : mpos;              (* *s.pos *)
  cols : colmap;           (* s.pos.columns *)
  mode : smode;            (* Mode *)
  comments : list text;    (* comments *)
  ltok : token;            (* lex.Token *)
  ltext : str;             (* lex.Text *)
  lraw : list rune;        (* lex.RawText *)
  lpos : mpos;             (* lex.Pos *)
  scanErr : option err     (* lex.scanErr *)
}.

Definition set_rest (r : list rune) (s : st) : st :=
  mkSt r (raw s) (pos s) (cols s) (mode s) (comments s) (ltok s) (ltext s) (lraw s) (lpos s) (scanErr s).
Definition set_raw (r : list rune) (s : st) : st :=
  mkSt (rest s) r (pos s) (cols s) (mode s) (comments s) (ltok s) (ltext s) (lraw s) (lpos s) (scanErr s).
Definition set_pc (pc : mpos * colmap) (s : st) : st :=
  mkSt (rest s) (raw s) (fst pc) (snd pc) (mode s) (comments s) (ltok s) (ltext s) (lraw s) (lpos s) (scanErr s).
Definition set_mode (m : smode) (s : st) : st :=
  mkSt (rest s) (raw s) (pos s) (cols s) m (comments s) (ltok s) (ltext s) (lraw s) (lpos s) (scanErr s).
Definition set_comments (c : list text) (s : st) : st :=
  mkSt (rest s) (raw s) (pos s) (cols s) (mode s) c (ltok s) (ltext s) (lraw s) (lpos s) (scanErr s).
Definition set_lex (t : token) (x : str) (p : mpos) (e : option err) (s : st) : st :=
  mkSt (rest s) (raw s) (pos s) (cols s) (mode s) (comments s) t x (raw s) p
       (match e with Some _ => e | None => scanErr s end).
Definition set_tokpos (t : token) (p : mpos) (s : st) : st :=
  mkSt (rest s) (raw s) (pos s) (cols s) (mode s) (comments s) t (ltext s) (lraw s) p (scanErr s).

(** State and error monad.  [Fuel] is the explicit out-of-fuel value of the
    model's loops, [Panic] a Go run-time panic.  The state survives an error
    because the code recovers from errors (parser/message.go:229-246 etc.). *)
Inductive res (A : Type) := Ok (a : A) | Err (e : err) | Panic | Fuel.
Arguments Ok {A}. Arguments Err {A}. Arguments Panic {A}. Arguments Fuel {A}.

Definition M (A : Type) := st -> res A * st.
Definition ret {A} (a : A) : M A := fun s => (Ok a, s).
Definition fail {A} (e : err) : M A := fun s => (Err e, s).
Definition panic {A} : M A := fun s => (Panic, s).
Definition oof {A} : M A := fun s => (Fuel, s).
Definition bind {A B} (m : M A) (f : A -> M B) : M B :=
  fun s => match m s with
           | (Ok a, s') => f a s'
           | (Err e, s') => (Err e, s')
           | (Panic, s') => (Panic, s')
           | (Fuel, s') => (Fuel, s')
           end.
(** [try m f]: run [m]; [f] receives either the value or the error. *)
Definition try {A B} (m : M A) (f : A + err -> M B) : M B :=
  fun s => match m s with
           | (Ok a, s') => f (inl a) s'
           | (Err e, s') => f (inr e) s'
           | (Panic, s') => (Panic, s')
           | (Fuel, s') => (Fuel, s')
           end.
Definition gets {A} (f : st -> A) : M A := fun s => (Ok (f s), s).
Definition modify (f : st -> st) : M unit := fun s => (Ok tt, f s).

Declare Scope monad_scope.
Delimit Scope monad_scope with monad.
Open Scope monad_scope.
Notation "x <- m ;; k" := (bind m (fun x => k))
  (at level 61, m at next level, right associativity) : monad_scope.
Notation "' p <- m ;; k" := (bind m (fun x => match x with p => k end))
  (at level 61, p pattern, m at next level, right associativity) : monad_scope.
Notation "m ;; k" := (bind m (fun _ => k)) (at level 61, right associativity) : monad_scope.

(** lexer/scanner/scanner.go:56-76 read: 0 at end of input (also after
    consuming a NUL); otherwise the rune is recorded and the position moved. *)
Definition read : M rune := fun s =>
  match rest s with
  | [] => (Ok eof, s)
  | c :: r =>
    if c =? eof then (Ok eof, set_rest r s)
    else (Ok c, set_pc (Advance (pos s, cols s) c) (set_raw (raw s ++ [c]) (set_rest r s)))
  end.

(** lexer/scanner/scanner.go:78-82 unread *)
Definition unread (c : rune) (s : st) : st :=
  set_pc (Revert (pos s, cols s) c) (set_rest (c :: rest s) s).

(** lexer/scanner/scanner.go:84-91 peek *)
Definition peek : M rune :=
  c <- read;;
  if c =? eof then ret c
  else modify (fun s => unread c (set_raw (removelast (raw s)) s));; ret c.

(** lexer/scanner/scanner.go:94-103 UnScan (state part; it returns *s.pos).
    Note that lastScanRaw keeps its value. *)
Definition UnScan (s : st) : st := fold_left (fun s c => unread c s) (rev (raw s)) s.

(** lexer/scanner/eof.go:3-6 isEOF *)
Definition isEOF : M bool := c <- peek;; ret (c =? eof).

(** lexer/scanner/error.go:9-18 unexpected *)
Definition s_unexpected {A} (found : rune) (expected : string) : M A :=
  p <- gets pos;; fail (EScan p expected found).

(** Fuel for the loops below: one more than the runes left. *)
Definition fuel_here : M nat := gets (fun s => S (List.length (rest s))).

(** lexer/scanner/ident.go:4-16 scanIdent: the loop *)
Fixpoint ident_loop (n : nat) (ident : str) : M str :=
  match n with
  | O => oof
  | S n' =>
    next <- peek;;
    if isLetter next || isDecimalDigit next || (next =? ch "_")
    then c <- read;; ident_loop n' (ident ++ [c])
    else ret ident
  end.
Definition scanIdent : M str :=
  c <- read;; n <- fuel_here;; ident_loop n [c].

(** lexer/scanner/comment.go:9-17: the // loop.  [c] is the Go variable [ch]. *)
Fixpoint line_loop (n : nat) (l : str) (c : rune) : M str :=
  match n with
  | O => oof
  | S n' =>
    if c =? NL then ret l
    else
      let l := l ++ [c] in
      e <- isEOF;;
      if e then ret l
      else c' <- read;; line_loop n' l c'
  end.

(** lexer/scanner/comment.go:18-32: the block comment loop. *)
Fixpoint block_loop (n : nat) (l : str) (c : rune) : M str :=
  match n with
  | O => oof
  | S n' =>
    e <- isEOF;;
    if e then s_unexpected eof "\n"
    else
      let l := l ++ [c] in
      c' <- read;;
      chn <- peek;;
      if (c' =? ch "*") && (chn =? ch "/")
      then d <- read;; ret (l ++ [c'] ++ [d])
      else block_loop n' l c'
  end.

(** lexer/scanner/comment.go:4-38 scanComment *)
Definition scanComment : M str :=
  a <- read;;
  c <- read;;
  n <- fuel_here;;
  if c =? ch "/" then line_loop n [a] c
  else if c =? ch "*" then block_loop n [a] c
  else s_unexpected c "/ or *".

(** The loop shape shared by numberLit.go:22-27, 53-58, 62-67, 165-170:
    [for !s.isEOF() { if !cls(s.peek()) { break }; lit += string(s.read()) }] *)
Fixpoint digits_loop (n : nat) (cls : rune -> bool) (l : str) : M str :=
  match n with
  | O => oof
  | S n' =>
    e <- isEOF;;
    if e then ret l
    else
      c <- peek;;
      if negb (cls c) then ret l
      else d <- read;; digits_loop n' cls (l ++ [d])
  end.

(** lexer/scanner/numberLit.go:158-172 scanDecimals *)
Definition scanDecimals : M str :=
  c <- peek;;
  if negb (isDecimalDigit c) then s_unexpected c "decimalDigit"
  else d <- read;; n <- fuel_here;; digits_loop n isDecimalDigit [d].

Definition is_e (c : rune) : bool := (c =? ch "e") || (c =? ch "E").

(** lexer/scanner/numberLit.go:137-155 scanExponent *)
Definition scanExponent : M str :=
  c <- peek;;
  if is_e c then
    l <- read;;
    c2 <- peek;;
    if (c2 =? ch "+") || (c2 =? ch "-")
    then sg <- read;; d <- scanDecimals;; ret ([l] ++ [sg] ++ d)
    else d <- scanDecimals;; ret ([l] ++ d)
  else s_unexpected c "e or E".

(** lexer/scanner/numberLit.go:93-115 scanFractionPart *)
Definition scanFractionPart : M str :=
  c <- peek;;
  l <- (if isDecimalDigit c then scanDecimals else ret []);;
  c2 <- peek;;
  if is_e c2 then e <- scanExponent;; ret (l ++ e) else ret l.

(** lexer/scanner/numberLit.go:118-134 scanFractionPartNoOmit *)
Definition scanFractionPartNoOmit : M str :=
  d <- scanDecimals;;
  c <- peek;;
  if is_e c then e <- scanExponent;; ret (d ++ e) else ret d.

(** lexer/scanner/numberLit.go:9-90 scanNumberLit *)
Definition scanNumberLit : M (token * str) :=
  c0 <- read;;
  let l := [c0] in
  c <- peek;;
  if (c0 =? ch "0") && ((c =? ch "x") || (c =? ch "X")) then
    x <- read;;
    h <- peek;;
    if negb (isHexDigit h) then (h2 <- peek;; s_unexpected h2 "hexDigit")
    else
      d <- read;;
      n <- fuel_here;;
      r <- digits_loop n isHexDigit (l ++ [x] ++ [d]);;
      ret (TINTLIT, r)
  else if c0 =? ch "." then
    f <- scanFractionPartNoOmit;; ret (TFLOATLIT, l ++ f)
  else if c =? ch "." then
    d <- read;; f <- scanFractionPart;; ret (TFLOATLIT, l ++ [d] ++ f)
  else if is_e c then
    e <- scanExponent;; ret (TFLOATLIT, l ++ e)
  else if c0 =? ch "0" then
    n <- fuel_here;; r <- digits_loop n isOctalDigit l;; ret (TINTLIT, r)
  else
    n <- fuel_here;;
    r <- digits_loop n isDecimalDigit l;;
    c2 <- peek;;
    if c2 =? ch "." then
      d <- read;; f <- scanFractionPart;; ret (TFLOATLIT, r ++ [d] ++ f)
    else if is_e c2 then
      e <- scanExponent;; ret (TFLOATLIT, r ++ e)
    else ret (TINTLIT, r).

Definition BSL : rune := 92. (* backslash *)

(** lexer/scanner/strLit.go:43-51 isCharEscape *)
Definition isCharEscape (r : rune) : bool :=
  existsb (N.eqb r)
    [ch "a"; ch "b"; ch "f"; ch "n"; ch "r"; ch "t"; ch "v"; BSL; SQ; DQ].

(** strLit.go:58-63, 65-70: [for i := 0; i < k; i++ { if !cls(peek) return lit; lit += read }] *)
Fixpoint escape_digits (k : nat) (cls : rune -> bool) (l : str) : M str :=
  match k with
  | O => ret l
  | S k' =>
    c <- peek;;
    if negb (cls c) then ret l
    else d <- read;; escape_digits k' cls (l ++ [d])
  end.

(** lexer/scanner/strLit.go:40-76 tryScanEscape *)
Definition tryScanEscape : M str :=
  b <- read;;
  let l := [b] in
  c <- peek;;
  if (c =? ch "x") || (c =? ch "X") then
    x <- read;; escape_digits 2 isHexDigit (l ++ [x])
  else if isOctalDigit c then escape_digits 3 isOctalDigit l
  else if isCharEscape c then d <- read;; ret (l ++ [d])
  else ret l.

(** lexer/scanner/strLit.go:24-35 scanCharValue *)
Definition scanCharValue : M str :=
  c <- peek;;
  if (c =? eof) || (c =? NL) then s_unexpected c "/[^\0\n\\]"
  else if c =? BSL then tryScanEscape
  else d <- read;; ret [d].

(** lexer/scanner/strLit.go:4-21 scanStrLit *)
Fixpoint str_loop (n : nat) (quote : rune) (l : str) (c : rune) : M str :=
  match n with
  | O => oof
  | S n' =>
    if c =? quote then d <- read;; ret (l ++ [d])
    else
      cv <- scanCharValue;;
      c' <- peek;;
      str_loop n' quote (l ++ cv) c'
  end.
Definition scanStrLit : M str :=
  quote <- read;;
  c <- peek;;
  n <- fuel_here;;
  str_loop n quote [quote] c.

(** lexer/scanner/scanner.go:143-191 scan.  The Go function returns
    (Token, string, Position, error); errors are part of the value here
    because the lexer stores them and goes on. *)
Definition scanned := (token * str * mpos * option err)%type.

Definition or_illegal (p : mpos) (m : M (token * str)) : M scanned :=
  try m (fun r => match r with
                  | inl (t, l) => ret (t, l, p, None)
                  | inr e => ret (TILLEGAL, [], p, Some e)
                  end).

Fixpoint scan (n : nat) : M scanned :=
  match n with
  | O => oof
  | S n' =>
    c <- peek;;
    startPos <- gets pos;;
    if isSpace c then read;; scan n'
    else
      e <- isEOF;;
      if e then ret (TEOF, [], startPos, None)
      else if isLetter c || (c =? ch "_") then
        ident <- scanIdent;;
        m <- gets mode;;
        if has m ScanBoolLit && isBoolLit ident then ret (TBOOLLIT, ident, startPos, None)
        else if has m ScanNumberLit && isFloatLitKeyword ident then ret (TFLOATLIT, ident, startPos, None)
        else if has m ScanKeyword && negb (tok_eqb (asKeywordToken ident) TILLEGAL)
        then ret (asKeywordToken ident, ident, startPos, None)
        else ret (TIDENT, ident, startPos, None)
      else if c =? ch "/" then
        try scanComment (fun r =>
          match r with
          | inr e => ret (TILLEGAL, [], startPos, Some e)
          | inl l =>
            modify (fun s => set_comments (comments s ++ [mkText l startPos]) s);;
            m <- gets mode;;
            if has m ScanComment then ret (TCOMMENT, l, startPos, None)
            else scan n'
          end)
      else
        m <- gets mode;;
        if isQuote c && has m ScanStrLit then
          or_illegal startPos (l <- scanStrLit;; ret (TSTRLIT, l))
        else if (isDecimalDigit c || (c =? ch ".")) && has m ScanNumberLit then
          or_illegal startPos scanNumberLit
        else
          d <- read;; ret (asMiscToken c, [d], startPos, None)
  end.

(** lexer/scanner/scanner.go:106-109 Scan *)
Definition Scan : M scanned :=
  modify (set_raw []);; n <- fuel_here;; scan n.

(** lexer/scanner/scanner.go:124-141 GetScannedComments: first occurrences,
    identity being (offset, literal). *)
Definition same_comment (a b : text) : bool :=
  (Offset (TPos a) =? Offset (TPos b))%Z && str_eqb (Literal a) (Literal b).
Fixpoint unique_comments (acc : list text) (l : list text) : list text :=
  match l with
  | [] => acc
  | c :: l' => if existsb (fun uc => same_comment c uc) acc
               then unique_comments acc l'
               else unique_comments (acc ++ [c]) l'
  end.
Definition GetScannedComments (s : st) : list text := unique_comments [] (comments s).

(** lexer/scanner/scanner.go:45-54 NewScanner (with WithFilename, 38-42) and
    lexer/lexer.go:54-65 NewLexer: initial state over the decoded input. *)
Definition zero_pos : mpos := mkPos [] 0 0 0.
Definition init_st (filename : str) (input : list rune) : st :=
  mkSt input [] (mkPos filename 0 1 1) [] 0 [] TILLEGAL [] [] zero_pos None.
