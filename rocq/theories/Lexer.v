(** Model of package lexer. *)
From Coq Require Import List NArith ZArith Bool String Ascii.
From Verif Require Import Base Token Scanner.
Import ListNotations.
Open Scope N_scope.
Open Scope monad_scope.

(** lexer/lexer.go:68-92 Next (without debug and error logging) *)
Definition Next : M unit :=
  r <- Scan;;
  match r with
  | (t, x, p, e) => modify (set_lex t x p e)
  end.

(** lexer/lexer.go:95-100 NextN *)
Fixpoint NextN (n : nat) : M unit :=
  match n with
  | O => ret tt
  | S n' => Next;; NextN n'
  end.

(** lexer/lexer.go:132-140 nextWithSpecificMode.  The deferred restore runs
    also on a panic; [Next] has none. *)
Definition nextWithSpecificMode (m : smode) : M unit :=
  m0 <- gets mode;;
  modify (set_mode m);;
  Next;;
  modify (set_mode m0).

(** lexer/lexer.go:103-130 *)
Definition NextKeywordOrStrLit : M unit := nextWithSpecificMode (N.lor ScanKeyword ScanStrLit).
Definition NextKeyword : M unit := nextWithSpecificMode ScanKeyword.
Definition NextStrLit : M unit := nextWithSpecificMode ScanStrLit.
Definition NextLit : M unit := nextWithSpecificMode ScanLit.
Definition NextNumberLit : M unit := nextWithSpecificMode ScanNumberLit.
Definition NextComment : M unit := nextWithSpecificMode ScanComment.

(** lexer/lexer.go:175-178 UnNext *)
Definition UnNext : M unit :=
  modify (fun s => let s' := UnScan s in set_tokpos TILLEGAL (pos s') s').

(** lexer/lexer.go:181-184 UnNextTo *)
Definition UnNextTo (lastScan : list rune) : M unit :=
  modify (set_raw lastScan);; UnNext.

(** lexer/lexer.go:143-145 IsEOF *)
Definition lex_IsEOF : M bool := gets (fun s => tok_eqb (ltok s) TEOF).

(** lexer/lexer.go:153-157 Peek *)
Definition Peek : M token :=
  Next;; t <- gets ltok;; UnNext;; ret t.

(** lexer/lexer.go:160-172 PeekN *)
Fixpoint nexts_raw (n : nat) (lasts : list (list rune)) : M (list (list rune)) :=
  match n with
  | O => ret lasts
  | S n' => Next;; r <- gets lraw;; nexts_raw n' (r :: lasts)
  end.
Fixpoint unnext_all (lasts : list (list rune)) : M unit :=
  match lasts with
  | [] => ret tt
  | r :: l => UnNextTo r;; unnext_all l
  end.
Definition PeekN (n : nat) : M token :=
  lasts <- nexts_raw n [];;
  t <- gets ltok;;
  unnext_all lasts;;
  ret t.

(** lexer/lexer.go:187-193 ConsumeToken *)
Definition ConsumeToken (t : token) : M unit :=
  Next;;
  t' <- gets ltok;;
  if tok_eqb t' t then ret tt else UnNext.

(** lexer/lexer.go:196-205 FindMidComments *)
Definition FindMidComments (from to : mpos) (s : st) : list text :=
  filter (fun c => (Offset from <? Offset (TPos c))%Z && (Offset (TPos c) <? Offset to)%Z)
         (GetScannedComments s).

(** lexer/error.go:9-20 unexpected *)
Definition l_unexpected {A} (expected : string) : M A :=
  fun s => (Err (ELex (lpos s) expected (ltext s)), s).

(** lexer/emptyStatement.go:12-20 ReadEmptyStatement *)
Definition ReadEmptyStatement : M unit :=
  Next;;
  t <- gets ltok;;
  if tok_eqb t TSEMICOLON then ret tt
  else UnNext;; l_unexpected ";".

(** lexer/fullIdent.go:17-29: the loop *)
Fixpoint fullIdent_loop (n : nat) (acc : str) : M str :=
  match n with
  | O => oof
  | S n' =>
    e <- lex_IsEOF;;
    if e then ret acc
    else
      t <- gets ltok;;
      if negb (tok_eqb t TDOT) then UnNext;; ret acc
      else
        Next;;
        t2 <- gets ltok;;
        if negb (tok_eqb t2 TIDENT) then l_unexpected "TIDENT"
        else
          x <- gets ltext;;
          Next;;
          fullIdent_loop n' (acc ++ [ch "."] ++ x)
  end.

(** lexer/fullIdent.go:7-31 ReadFullIdent *)
Definition ReadFullIdent : M (str * mpos) :=
  Next;;
  t <- gets ltok;;
  if negb (tok_eqb t TIDENT) then l_unexpected "TIDENT"
  else
    startPos <- gets lpos;;
    x <- gets ltext;;
    Next;;
    n <- fuel_here;;
    r <- fullIdent_loop n x;;
    ret (r, startPos).

(** lexer/messageType.go:20-34: the loop *)
Fixpoint messageType_loop (n : nat) (acc : str) : M str :=
  match n with
  | O => oof
  | S n' =>
    e <- lex_IsEOF;;
    if e then ret acc
    else
      t <- gets ltok;;
      if negb (tok_eqb t TIDENT) then l_unexpected "ident"
      else
        x <- gets ltext;;
        let acc := acc ++ x in
        Next;;
        t2 <- gets ltok;;
        if negb (tok_eqb t2 TDOT) then UnNext;; ret acc
        else
          x2 <- gets ltext;;
          Next;;
          messageType_loop n' (acc ++ x2)
  end.

(** lexer/messageType.go:8-37 ReadMessageType; lexer/enumType.go:8-10
    ReadEnumType is the same function. *)
Definition ReadMessageType : M (str * mpos) :=
  Next;;
  startPos <- gets lpos;;
  t <- gets ltok;;
  acc <- (if tok_eqb t TDOT then gets ltext else UnNext;; ret []);;
  Next;;
  n <- fuel_here;;
  r <- messageType_loop n acc;;
  ret (r, startPos).
Definition ReadEnumType : M (str * mpos) := ReadMessageType.

(** strings.Trim(s, q) for a one-character cutset *)
Fixpoint trim_left (q : rune) (s : str) : str :=
  match s with
  | c :: s' => if c =? q then trim_left q s' else s
  | [] => []
  end.
Definition trim (q : rune) (s : str) : str := rev (trim_left q (rev (trim_left q s))).

(** lexer/constant.go:57-61: the loop of mergeMultilineStrLit *)
Fixpoint merge_loop (n : nat) (q : rune) (b : str) : M str :=
  match n with
  | O => oof
  | S n' =>
    t <- gets ltok;;
    if tok_eqb t TSTRLIT then
      x <- gets ltext;;
      NextLit;;
      merge_loop n' q (b ++ trim q x)
    else ret b
  end.

(** lexer/constant.go:50-65 mergeMultilineStrLit *)
Definition mergeMultilineStrLit : M str :=
  x <- gets ltext;;
  let q := match x with c :: _ => if c =? DQ then DQ else SQ | [] => SQ end in
  n <- fuel_here;;
  b <- merge_loop (S n) q [q];;
  UnNext;;
  ret (b ++ [q]).

(** lexer/constant.go:11-47 ReadConstant *)
Definition ReadConstant (permissive : bool) : M (str * mpos) :=
  NextLit;;
  startPos <- gets lpos;;
  cons <- gets ltext;;
  t <- gets ltok;;
  match t with
  | TSTRLIT =>
    if permissive then b <- mergeMultilineStrLit;; ret (b, startPos)
    else ret (cons, startPos)
  | TBOOLLIT => ret (cons, startPos)
  | TIDENT => UnNext;; ReadFullIdent
  | TINTLIT | TFLOATLIT => ret (cons, startPos)
  | _ =>
    if str_eqb cons (lit "-") || str_eqb cons (lit "+") then
      NextLit;;
      t2 <- gets ltok;;
      match t2 with
      | TINTLIT | TFLOATLIT => x <- gets ltext;; ret (cons ++ x, startPos)
      | _ => l_unexpected "TINTLIT or TFLOATLIT"
      end
    else l_unexpected "constant"
  end.
