(** The pure recursive descent parser on cursors.

    One function per parse function of Parser.v (same name, prefix q).  It is an
    intermediate step of the proofs, not part of the model: Refine.v proves that
    the model computes it. *)
From Coq Require Import List NArith ZArith Bool String Ascii.
From Verif Require Import Base Token Scanner Lexer Lexing ScanRefine Ast Parser Cursor.
Import ListNotations.
Open Scope N_scope.
Open Scope pure_scope.

Section Pure.
Variable p0 : mpos.
Notation ptok := (ptok p0).
Notation ppeek := (ppeek p0).
Notation pexpect := (pexpect p0).

(** ** Lexer functions *)

Definition qReadEmptyStatement : PM unit :=
  t <-- ptok 0;; if tok_eqb (tk t) TSEMICOLON then pret tt else pbal t.

Fixpoint qFullIdent_loop (n : nat) (acc : str) (y : ti) : PM str :=
  match n with
  | O => poof
  | S n' =>
    if tok_eqb (tk y) TEOF then pret acc
    else if negb (tok_eqb (tk y) TDOT) then pback y;;; pret acc
    else
      z <-- pexpect 0 TIDENT;;
      y' <-- ptok 0;;
      qFullIdent_loop n' (acc ++ [ch "."] ++ tx z) y'
  end.
Definition qReadFullIdent : PM (str * mpos) :=
  x <-- pexpect 0 TIDENT;;
  y <-- ptok 0;;
  n <-- pfuel;;
  r <-- qFullIdent_loop n (tx x) y;;
  pret (r, tp x).

Fixpoint qMessageType_loop (n : nat) (acc : str) (y : ti) : PM str :=
  match n with
  | O => poof
  | S n' =>
    if tok_eqb (tk y) TEOF then pret acc
    else if negb (tok_eqb (tk y) TIDENT) then perr y
    else
      z <-- ptok 0;;
      if negb (tok_eqb (tk z) TDOT) then pback z;;; pret (acc ++ tx y)
      else y' <-- ptok 0;; qMessageType_loop n' ((acc ++ tx y) ++ tx z) y'
  end.
Definition qReadMessageType : PM (str * mpos) :=
  x <-- ptok 0;;
  acc <-- (if tok_eqb (tk x) TDOT then pret (tx x) else pback x;;; pret []);;
  y <-- ptok 0;;
  n <-- pfuel;;
  r <-- qMessageType_loop n acc y;;
  pret (r, tp x).

(** string literals from token [y] on *)
Fixpoint qMerge_loop (n : nat) (q : rune) (b : str) (y : ti) : PM (str * ti) :=
  match n with
  | O => poof
  | S n' =>
    if tok_eqb (tk y) TSTRLIT then
      y' <-- ptok ScanLit;; qMerge_loop n' q (b ++ trim q (tx y)) y'
    else pret (b, y)
  end.
Definition qMerge (x : ti) : PM str :=
  let q := match tx x with c :: _ => if c =? DQ then DQ else SQ | [] => SQ end in
  n <-- pfuel;;
  '(b, y) <-- qMerge_loop (S n) q [q] x;;
  pback y;;;
  pret (b ++ [q]).

Definition qReadConstant (perm : bool) : PM (str * mpos) :=
  x <-- ptok ScanLit;;
  match tk x with
  | TSTRLIT => if perm then b <-- qMerge x;; pret (b, tp x) else pret (tx x, tp x)
  | TBOOLLIT => pret (tx x, tp x)
  | TIDENT => pback x;;; qReadFullIdent
  | TINTLIT | TFLOATLIT => pret (tx x, tp x)
  | _ =>
    if str_eqb (tx x) (lit "-") || str_eqb (tx x) (lit "+") then
      y <-- ptok ScanLit;;
      match tk y with
      | TINTLIT | TFLOATLIT => pret (tx x ++ tx y, tp x)
      | _ => perr y
      end
    else perr x
  end.

(** ** Comments *)

(** LastPos is the position of the last rune of the comment *)
Definition qcomment (p : mpos) (l : str) : comment := mkComment l (mkMeta p (posafter p (removelast l))).

Fixpoint qComments_loop (n : nat) (acc : list comment) : PM (list comment) :=
  match n with
  | O => poof
  | S n' =>
    t <-- ptok ScanComment;;
    if tok_eqb (tk t) TCOMMENT then qComments_loop n' (acc ++ [qcomment (tp t) (tx t)])
    else pback t;;; pret acc
  end.
Definition qParseComments : PM (list comment) := n <-- pfuel;; qComments_loop n [].

Definition qInline : PM (option comment) :=
  p <-- plast;;
  t <-- ptok ScanComment;;
  if tok_eqb (tk t) TCOMMENT && (Line p =? Line (tp t))%Z
  then pret (Some (qcomment (tp t) (tx t)))
  else pback t;;; pret None.

Definition qMaybeInline {A} (set : comment -> A -> option A) (x : A) : PM A :=
  ic <-- qInline;;
  match ic with
  | None => pret x
  | Some c => match set c x with Some x' => pret x' | None => ppanic end
  end.

(** comments recorded between two positions *)
Definition qEmbedded (from to : mpos) : PM (list comment) := fun k =>
  POk (map (fun t => qcomment (TPos t) (Literal t))
        (filter (fun c => (Offset from <? Offset (TPos c))%Z && (Offset (TPos c) <? Offset to)%Z)
                (unique_comments [] (cm k)))) k.

(** ** Options *)

Definition qParenName (perm : bool) (name : str) : PM str :=
  name <-- (if perm then
              t <-- ptok 0;;
              if tok_eqb (tk t) TDOT then pret (name ++ [ch "."]) else pback t;;; pret name
            else pret name);;
  fi <-- qReadFullIdent;;
  t <-- pexpect 0 TRIGHTPAREN;;
  pret (name ++ fst fi ++ tx t).

Fixpoint qOptionName_loop (perm : bool) (n : nat) (name : str) : PM str :=
  match n with
  | O => poof
  | S n' =>
    t <-- ptok 0;;
    if negb (tok_eqb (tk t) TDOT) then pback t;;; pret name
    else
      t2 <-- ptok 0;;
      match tk t2 with
      | TIDENT => qOptionName_loop perm n' ((name ++ tx t) ++ tx t2)
      | TLEFTPAREN => name <-- qParenName perm ((name ++ tx t) ++ tx t2);; qOptionName_loop perm n' name
      | _ => perr t2
      end
  end.
Definition qOptionName (perm : bool) : PM str :=
  t <-- ptok 0;;
  name <-- match tk t with
           | TIDENT => pret (tx t)
           | TLEFTPAREN => qParenName perm (tx t)
           | _ => perr t
           end;;
  n <-- pfuel;;
  qOptionName_loop perm n name.

Fixpoint qCloud_loop (perm : bool) (pc : PM str) (n : nat) (r : str) : PM str :=
  match n with
  | O => poof
  | S n' =>
    t <-- pexpect 0 TIDENT;;
    let r := r ++ tx t in
    t <-- ptok 0;;
    '(r, needSemi) <--
      match tk t with
      | TLEFTCURLY => if negb perm then perr t else pback t;;; pret (r, false)
      | TCOLON => pk <-- ppeek 0;; pret (r ++ tx t, tok_eqb (tk pk) TLEFTCURLY && perm)
      | _ => perr t
      end;;
    constant <-- pc;;
    let r := r ++ constant in
    t2 <-- ptok 0;;
    '(r, t3) <-- (if tok_eqb (tk t2) TSEMICOLON && needSemi && perm
                  then t3 <-- ptok 0;; pret (r ++ tx t2, t3)
                  else pret (r, t2));;
    match tk t3 with
    | TCOMMA | TSEMICOLON =>
      let r := r ++ tx t3 in
      pk <-- ppeek 0;;
      if tok_eqb (tk pk) TRIGHTCURLY && perm
      then t4 <-- ptok 0;; pret (r ++ tx t4)
      else qCloud_loop perm pc n' r
    | TRIGHTCURLY => pret (r ++ tx t3)
    | _ => pback t3;;; qCloud_loop perm pc n' (r ++ [NL])
    end
  end.
Definition qCloud (perm : bool) (pc : PM str) (n : nat) : PM str :=
  t <-- pexpect 0 TLEFTCURLY;;
  qCloud_loop perm pc n (tx t).

Fixpoint qConstants_loop (pc : PM str) (n : nat) (opts : list str) : PM (list str) :=
  match n with
  | O => poof
  | S n' =>
    t <-- ptok 0;;
    if negb (tok_eqb (tk t) TCOMMA) then pback t;;; pret opts
    else opt <-- pc;; qConstants_loop pc n' (opts ++ [opt])
  end.
Definition qConstants (pc : PM str) (n : nat) : PM str :=
  opt <-- pc;;
  opts <-- qConstants_loop pc n [opt];;
  pret (join (lit ",") opts).

(** the second next token, nothing consumed *)
Definition ppeek2 : PM ti :=
  t1 <-- ptok 0;;
  t2 <-- ptok 0;;
  (fun k => POk t2 (mkCur (cc (kb t1)) (cr (kb t1)) (cm k) (lp (kb t1)))).

Fixpoint qOptionConstant (perm : bool) (n : nat) : PM str :=
  match n with
  | O => poof
  | S n' =>
    t <-- ppeek 0;;
    match tk t with
    | TLEFTCURLY =>
      if negb perm then pbal t
      else
        t2 <-- ppeek2;;
        if tok_eqb (tk t2) TRIGHTCURLY then ptok 0;;; ptok 0;;; pret (lit "{}")
        else qCloud perm (qOptionConstant perm n') n'
    | TLEFTSQUARE =>
      if negb perm then pbal t
      else
        ptok 0;;;
        t2 <-- ppeek 0;;
        if tok_eqb (tk t2) TRIGHTSQUARE then ptok 0;;; pret (lit "[]")
        else
          constant <-- qConstants (qOptionConstant perm n') n';;
          ptok 0;;;
          pret (lit "[" ++ constant ++ lit "]")
    | _ => c <-- qReadConstant perm;; pret (fst c)
    end
  end.
Definition qConstant (perm : bool) : PM str := n <-- pfuel;; qOptionConstant perm n.

Definition qParseOption (perm : bool) : PM option_ :=
  t <-- pexpect ScanKeyword TOPTION;;
  name <-- qOptionName perm;;
  pexpect 0 TEQUALS;;;
  constant <-- qConstant perm;;
  e <-- pexpect 0 TSEMICOLON;;
  pret (mkOption name constant [] None (mkMeta (tp t) (tp e))).

(** ** Syntax, edition, import, package *)

Definition qParseSyntax : PM (option syntax) :=
  t <-- ptok ScanKeyword;;
  if negb (tok_eqb (tk t) TSYNTAX) then pback t;;; pret None
  else
    pexpect 0 TEQUALS;;;
    lq <-- pexpect 0 TQUOTE;;
    v <-- ptok 0;;
    if negb (str_eqb (tx v) (lit "proto3")) && negb (str_eqb (tx v) (lit "proto2")) then perr v
    else
      tq <-- pexpect 0 TQUOTE;;
      e <-- pexpect 0 TSEMICOLON;;
      pret (Some (mkSyntax (tx v) (tx lq ++ tx v ++ tx tq) [] None (mkMeta (tp t) (tp e)))).

Definition qParseEdition : PM (option edition) :=
  t <-- ptok ScanKeyword;;
  if negb (tok_eqb (tk t) TEDITION) then pback t;;; pret None
  else
    pexpect 0 TEQUALS;;;
    lq <-- pexpect 0 TQUOTE;;
    v <-- pexpect ScanNumberLit TINTLIT;;
    tq <-- pexpect 0 TQUOTE;;
    e <-- pexpect 0 TSEMICOLON;;
    pret (Some (mkEdition (tx v) (tx lq ++ tx v ++ tx tq) [] None (mkMeta (tp t) (tp e)))).

Definition qParseImport : PM import :=
  t <-- pexpect ScanKeyword TIMPORT;;
  m <-- ptok (N.lor ScanKeyword ScanStrLit);;
  modifier <-- match tk m with
               | TPUBLIC => pret ImportModifierPublic
               | TWEAK => pret ImportModifierWeak
               | TSTRLIT => pback m;;; pret ImportModifierNone
               | _ => pret ImportModifierNone
               end;;
  l <-- pexpect ScanStrLit TSTRLIT;;
  e <-- pexpect 0 TSEMICOLON;;
  pret (mkImport modifier (tx l) [] None (mkMeta (tp t) (tp e))).

Definition qParsePackage : PM package :=
  t <-- pexpect ScanKeyword TPACKAGE;;
  ident <-- qReadFullIdent;;
  e <-- pexpect 0 TSEMICOLON;;
  pret (mkPackage (fst ident) [] None (mkMeta (tp t) (tp e))).

(** ** Fields *)

Definition qType : PM (str * mpos) :=
  t <-- ptok 0;;
  if str_mem (tx t) typeConstants then pret (tx t, tp t)
  else pback t;;; qReadMessageType.

Definition qFieldNumber : PM str := t <-- pexpect ScanNumberLit TINTLIT;; pret (tx t).

Definition qFieldOption (perm : bool) : PM fieldOption :=
  name <-- qOptionName perm;;
  pexpect 0 TEQUALS;;;
  constant <-- qConstant perm;;
  pret (mkFieldOption name constant).

Fixpoint qFieldOptions_loop (perm : bool) (n : nat) (opts : list fieldOption) : PM (list fieldOption) :=
  match n with
  | O => poof
  | S n' =>
    t <-- ptok 0;;
    if negb (tok_eqb (tk t) TCOMMA) then pback t;;; pret opts
    else
      opt <-- qFieldOption perm;;
      qFieldOptions_loop perm n' (opts ++ [opt])
  end.
Definition qFieldOptions (perm : bool) : PM (list fieldOption) :=
  opt <-- qFieldOption perm;;
  n <-- pfuel;;
  qFieldOptions_loop perm n [opt].
Definition qFieldOptionsOption (perm : bool) : PM (list fieldOption) :=
  t <-- ptok 0;;
  if tok_eqb (tk t) TLEFTSQUARE then
    fieldOptions <-- qFieldOptions perm;;
    pexpect 0 TRIGHTSQUARE;;;
    pret fieldOptions
  else pback t;;; pret [].

Definition qLabel : PM (mpos * (bool * bool * bool)) :=
  t <-- ptok ScanKeyword;;
  match tk t with
  | TREPEATED => pret (tp t, (true, false, false))
  | TREQUIRED => pret (tp t, (false, true, false))
  | TOPTIONAL => pret (tp t, (false, false, true))
  | _ => pback t;;; pret (tp t, (false, false, false))
  end.

Definition qParseField (perm : bool) : PM field :=
  '(startPos, (isRepeated, isRequired, isOptional)) <-- qLabel;;
  typeValue <-- qType;;
  name <-- pexpect 0 TIDENT;;
  pexpect 0 TEQUALS;;;
  fieldNumber <-- qFieldNumber;;
  fieldOptions <-- qFieldOptionsOption perm;;
  e <-- pexpect 0 TSEMICOLON;;
  pret (mkField isRepeated isRequired isOptional (fst typeValue) (tx name) fieldNumber fieldOptions
                [] None (mkMeta startPos (tp e))).

Definition qKeyType : PM str :=
  t <-- ptok 0;; if str_mem (tx t) keyTypeConstants then pret (tx t) else perr t.

Definition qParseMapField (perm : bool) : PM mapField :=
  t <-- pexpect ScanKeyword TMAP;;
  pexpect 0 TLESS;;;
  keyType <-- qKeyType;;
  pexpect 0 TCOMMA;;;
  typeValue <-- qType;;
  pexpect 0 TGREATER;;;
  name <-- pexpect 0 TIDENT;;
  pexpect 0 TEQUALS;;;
  fieldNumber <-- qFieldNumber;;
  fieldOptions <-- qFieldOptionsOption perm;;
  e <-- pexpect 0 TSEMICOLON;;
  pret (mkMapField keyType (fst typeValue) (tx name) fieldNumber fieldOptions [] None (mkMeta (tp t) (tp e))).

(** The look-ahead of peekIsGroup: everything read is un-read, the comments
    stay recorded. *)
Definition pdefer {A} (t : ti) (q : PM A) : PM A := fun k =>
  match q k with
  | POk a k' => POk a (mkCur (cc (kb t)) (cr (kb t)) (cm k') (lp (kb t)))
  | r => r
  end.
Definition qIsGroup_tail : PM bool :=
  t <-- ptok ScanKeyword;;
  pdefer t (
    if negb (tok_eqb (tk t) TGROUP) then pret false
    else
      t <-- ptok 0;;
      pdefer t (
        if negb (tok_eqb (tk t) TIDENT) then pret false
        else if negb (isCapitalized (tx t)) then pret false
        else
          t <-- ptok 0;;
          pdefer t (
            if negb (tok_eqb (tk t) TEQUALS) then pret false
            else
              t <-- ptok ScanNumberLit;;
              pdefer t (
                if negb (tok_eqb (tk t) TINTLIT) then pret false
                else
                  t <-- ptok 0;;
                  pdefer t (pret (tok_eqb (tk t) TLEFTCURLY)))))).
Definition qIsGroup : PM bool :=
  t <-- ptok ScanKeyword;;
  match tk t with
  | TREPEATED | TREQUIRED | TOPTIONAL => pdefer t qIsGroup_tail
  | _ => pback t;;; qIsGroup_tail
  end.

Definition qBlockEnd (perm : bool) : PM mpos :=
  lastPos <-- plast;;
  if perm then
    t <-- ptok 0;;
    if tok_eqb (tk t) TSEMICOLON then pret (tp t) else pback t;;; pret lastPos
  else pret lastPos.

(** ** Oneof *)

Definition qOneofField (perm : bool) : PM oneofField :=
  typeValue <-- qType;;
  name <-- pexpect 0 TIDENT;;
  pexpect 0 TEQUALS;;;
  fieldNumber <-- qFieldNumber;;
  fieldOptions <-- qFieldOptionsOption perm;;
  e <-- pexpect 0 TSEMICOLON;;
  pret (mkOneofField (fst typeValue) (tx name) fieldNumber fieldOptions [] None
                     (mkMeta (snd typeValue) (tp e))).

Fixpoint qOneof_loop (perm : bool) (n : nat) (fields : list oneofField) (options : list option_)
  : PM (list oneofField * list option_) :=
  match n with
  | O => poof
  | S n' =>
    comments <-- qParseComments;;
    t <-- ptok 0;;
    if tok_eqb (tk t) TSEMICOLON then qOneof_loop perm n' fields options
    else
      pback t;;;
      t <-- ppeek ScanKeyword;;
      '(fields, options) <--
        (if tok_eqb (tk t) TOPTION then
           option <-- qParseOption perm;;
           option <-- qMaybeInline (total_set set_op_inline) (set_op_comments comments option);;
           pret (fields, options ++ [option])
         else
           oneofField <-- qOneofField perm;;
           oneofField <-- qMaybeInline (total_set set_oof_inline) (set_oof_comments comments oneofField);;
           pret (fields ++ [oneofField], options));;
      t <-- ptok 0;;
      if tok_eqb (tk t) TRIGHTCURLY then pret (fields, options)
      else pback t;;; qOneof_loop perm n' fields options
  end.

Definition qParseOneof (perm : bool) : PM oneof :=
  t <-- pexpect ScanKeyword TONEOF;;
  name <-- pexpect 0 TIDENT;;
  pexpect 0 TLEFTCURLY;;;
  inlineLeftCurly <-- qInline;;
  n <-- pfuel;;
  '(fields, options) <-- qOneof_loop perm n [] [];;
  lastPos <-- qBlockEnd perm;;
  pret (mkOneof fields (tx name) options [] None inlineLeftCurly (mkMeta (tp t) lastPos)).

(** ** Reserved *)

Definition qRange : PM range :=
  t <-- ptok ScanNumberLit;;
  if negb (tok_eqb (tk t) TINTLIT) then pbal t
  else
    t2 <-- ptok 0;;
    if negb (str_eqb (tx t2) (lit "to")) then pback t2;;; pret (mkRange (tx t) [])
    else
      t3 <-- ptok ScanNumberLit;;
      if tok_eqb (tk t3) TINTLIT || str_eqb (tx t3) (lit "max") then pret (mkRange (tx t) (tx t3))
      else perr t3.

Fixpoint qRanges_loop (n : nat) (ranges : list range) : PM (list range) :=
  match n with
  | O => poof
  | S n' =>
    t <-- ptok 0;;
    if negb (tok_eqb (tk t) TCOMMA) then pback t;;; pret ranges
    else r <-- qRange;; qRanges_loop n' (ranges ++ [r])
  end.
Definition qRanges : PM (list range) :=
  r <-- qRange;; n <-- pfuel;; qRanges_loop n [r].

Definition qFieldName : PM str :=
  t <-- ptok ScanStrLit;;
  if tok_eqb (tk t) TSTRLIT then pret (tx t)
  else
    pback t;;;
    t <-- ptok 0;;
    if negb (tok_eqb (tk t) TIDENT) then pbal t else pret (tx t).

Fixpoint qFieldNames_loop (n : nat) (names : list str) : PM (list str) :=
  match n with
  | O => poof
  | S n' =>
    t <-- ptok 0;;
    if tok_eqb (tk t) TCOMMA then
      x <-- qFieldName;; qFieldNames_loop n' (names ++ [x])
    else
      pback t;;;
      ptry qFieldName (fun r =>
        match r with
        | None => pret names
        | Some x => qFieldNames_loop n' (names ++ [x])
        end)
  end.
Definition qFieldNames : PM (list str) :=
  x <-- qFieldName;; n <-- pfuel;; qFieldNames_loop n [x].

Definition qParseReserved : PM reserved :=
  t <-- pexpect ScanKeyword TRESERVED;;
  '(ranges, fieldNames) <--
    ptry qRanges (fun r =>
      match r with
      | Some ranges => pret (ranges, [])
      | None => names <-- qFieldNames;; pret ([], names)
      end);;
  e <-- pexpect 0 TSEMICOLON;;
  pret (mkReserved ranges fieldNames [] None (mkMeta (tp t) (tp e))).

(** ** Extensions *)

Fixpoint qDeclaration_loop (n : nat) (v : decl_vars) : PM decl_vars :=
  match n with
  | O => poof
  | S n' =>
    t <-- ptok 0;;
    if tok_eqb (tk t) TRIGHTCURLY then pret v
    else
      (if negb (tok_eqb (tk t) TCOMMA) then pback t else pret tt);;;
      t2 <-- ptok ScanKeyword;;
      v' <-- match tk t2 with
             | TNUMBER =>
               pexpect 0 TCOLON;;;
               x <-- pexpect ScanNumberLit TINTLIT;;
               pret (mkDecl (tx x) (dv_fullName v) (dv_type v) (dv_repeated v) (dv_reserved v))
             | TFULLNAME =>
               pexpect 0 TCOLON;;;
               x <-- pexpect ScanStrLit TSTRLIT;;
               pret (mkDecl (dv_number v) (tx x) (dv_type v) (dv_repeated v) (dv_reserved v))
             | TTYPE =>
               pexpect 0 TCOLON;;;
               x <-- pexpect ScanStrLit TSTRLIT;;
               pret (mkDecl (dv_number v) (dv_fullName v) (tx x) (dv_repeated v) (dv_reserved v))
             | TREPEATED =>
               pexpect 0 TCOLON;;;
               x <-- pexpect 0 TIDENT;;
               pret (mkDecl (dv_number v) (dv_fullName v) (dv_type v) (str_eqb (tx x) (lit "true")) (dv_reserved v))
             | TRESERVED =>
               pexpect 0 TCOLON;;;
               x <-- pexpect 0 TIDENT;;
               pret (mkDecl (dv_number v) (dv_fullName v) (dv_type v) (dv_repeated v) (str_eqb (tx x) (lit "true")))
             | _ => perr t2
             end;;
      qDeclaration_loop n' v'
  end.

Definition qParseDeclaration : PM declaration :=
  t <-- pexpect ScanKeyword TDECLARATION;;
  pexpect 0 TEQUALS;;;
  pexpect 0 TLEFTCURLY;;;
  inlineLeftCurly <-- qInline;;
  n <-- pfuel;;
  v <-- qDeclaration_loop n (mkDecl [] [] [] false false);;
  lastPos <-- plast;;
  pret (mkDeclaration (dv_number v) (dv_fullName v) (dv_type v) (dv_reserved v) (dv_repeated v)
                      [] None inlineLeftCurly (mkMeta (tp t) lastPos)).

(** parseInlineComment followed by an error *)
Definition qInlineErr {A} : PM A :=
  p <-- plast;;
  t <-- ptok ScanComment;;
  if tok_eqb (tk t) TCOMMENT && (Line p =? Line (tp t))%Z then perr t else pbal t.

Fixpoint qDeclarations_loop (n : nat) (ds : list declaration) : PM (list declaration) :=
  match n with
  | O => poof
  | S n' =>
    comments <-- qParseComments;;
    d <-- qParseDeclaration;;
    let d := set_d_comments comments d in
    t <-- ptok 0;;
    if tok_eqb (tk t) TRIGHTSQUARE then
      ic1 <-- qInline;;
      ic2 <-- qInline;; pret (ds ++ [assignInlineComments d [ic1; ic2]])
    else if negb (tok_eqb (tk t) TCOMMA) then qInlineErr
    else
      ic1 <-- qInline;;
      ic2 <-- qInline;;
      qDeclarations_loop n' (ds ++ [assignInlineComments d [ic1; ic2]])
  end.
Definition qDeclarations : PM (list declaration * option comment) :=
  t <-- ptok 0;;
  if negb (tok_eqb (tk t) TLEFTSQUARE) then pback t;;; pret ([], None)
  else
    inlineLeftSquare <-- qInline;;
    n <-- pfuel;;
    ds <-- qDeclarations_loop n [];;
    pret (ds, inlineLeftSquare).

Definition qParseExtensions : PM extensions :=
  t <-- pexpect ScanKeyword TEXTENSIONS;;
  ranges <-- qRanges;;
  '(declarations, inlineLeftSquare) <-- qDeclarations;;
  e <-- pexpect 0 TSEMICOLON;;
  pret (mkExtensions ranges declarations [] None inlineLeftSquare (mkMeta (tp t) (tp e))).

(** ** Bodies *)

(** Un-reading twice the text [w], in front of the text [r]: can a later empty
    statement be read there?  [fatal] says no. *)
Definition fatal (w r : list rune) : bool :=
  let x := lex 0 w in
  match lx_tok x with
  | TSEMICOLON => false
  | TEOF => tok_eqb (lx_tok (lex 0 (w ++ [ch ";"]))) TSEMICOLON && (match r with [] => true | _ => false end)
  | TILLEGAL => match lx_txt x, lx_raw x with [], [_; d] => negb (d =? ch "*") | [], _ => false | _, _ => true end
  | _ => true
  end.
Definition precover {A} (q : PM A) (ok : A -> visitee) : PM visitee := fun k =>
  match q k with
  | POk a k' => POk (ok a) k'
  | PErr kb _ =>
    (t <-- ptok 0;; if tok_eqb (tk t) TSEMICOLON then pret (VEmpty (mkEmpty None)) else pbal t) kb
  | PBal k' w => if fatal w (skipn (List.length w) (cr k')) then PFatal else PBad
  | PFatal => PFatal
  | PBad => PBad
  | PPanic => PPanic
  | PFuel => PFuel
  end.

Definition qEnumValueOption (perm : bool) : PM enumValueOption :=
  name <-- qOptionName perm;;
  pexpect 0 TEQUALS;;;
  constant <-- qConstant perm;;
  pret (mkEnumValueOption name constant).
Fixpoint qEnumValueOptions_loop (perm : bool) (n : nat) (opts : list enumValueOption) : PM (list enumValueOption) :=
  match n with
  | O => poof
  | S n' =>
    t <-- ptok 0;;
    if negb (tok_eqb (tk t) TCOMMA) then pback t;;; pret opts
    else
      opt <-- qEnumValueOption perm;;
      qEnumValueOptions_loop perm n' (opts ++ [opt])
  end.
Definition qEnumValueOptions (perm : bool) : PM (list enumValueOption) :=
  t <-- ptok 0;;
  if negb (tok_eqb (tk t) TLEFTSQUARE) then pback t;;; pret []
  else
    opt <-- qEnumValueOption perm;;
    n <-- pfuel;;
    opts <-- qEnumValueOptions_loop perm n [opt];;
    pexpect 0 TRIGHTSQUARE;;;
    pret opts.

Definition qEnumField (perm : bool) : PM enumField :=
  name <-- pexpect 0 TIDENT;;
  pexpect 0 TEQUALS;;;
  t <-- ptok 0;;
  sign <-- (if tok_eqb (tk t) TMINUS then pret (lit "-") else pback t;;; pret []);;
  x <-- pexpect ScanNumberLit TINTLIT;;
  opts <-- qEnumValueOptions perm;;
  e <-- pexpect 0 TSEMICOLON;;
  pret (mkEnumField (tx name) (sign ++ tx x) opts [] None (mkMeta (tp name) (tp e))).

(** the closing brace of a body *)
Definition qBodyEnd (perm bic : bool) (ilc : option comment) (stmts : list visitee) (comments : list comment)
  : PM body_result :=
  ptok 0;;;
  lastPos <-- qBlockEnd perm;;
  pret (stmts ++ body_comments bic comments, ilc, lastPos).

Fixpoint qEnumBody_loop (perm bic : bool) (ilc : option comment) (n : nat) (stmts : list visitee) : PM body_result :=
  match n with
  | O => poof
  | S n' =>
    comments <-- qParseComments;;
    t <-- ppeek ScanKeyword;;
    match tk t with
    | TRIGHTCURLY => qBodyEnd perm bic ilc stmts comments
    | _ =>
      stmt <-- match tk t with
               | TOPTION => o <-- qParseOption perm;; pret (with_comments comments (VOption o))
               | TRESERVED => r <-- qParseReserved;; pret (with_comments comments (VReserved r))
               | _ => precover (qEnumField perm) (fun f => with_comments comments (VEnumField f))
               end;;
      stmt <-- qMaybeInline set_inline stmt;;
      qEnumBody_loop perm bic ilc n' (stmts ++ [stmt])
    end
  end.
Definition qEnumBody (perm bic : bool) : PM body_result :=
  pexpect 0 TLEFTCURLY;;;
  inlineLeftCurly <-- qInline;;
  n <-- pfuel;;
  qEnumBody_loop perm bic inlineLeftCurly n [].
Definition qParseEnum (perm bic : bool) : PM block :=
  t <-- pexpect ScanKeyword TENUM;;
  name <-- pexpect 0 TIDENT;;
  '(body, ilc, lastPos) <-- qEnumBody perm bic;;
  pret (mkBlock (tx name) body [] None ilc (mkMeta (tp t) lastPos)).

Definition qEmptyBody (perm : bool) : PM (option mpos) :=
  t <-- ptok 0;;
  if tok_eqb (tk t) TRIGHTCURLY then p <-- qBlockEnd perm;; pret (Some p)
  else pback t;;; pret None.

Fixpoint qExtendBody_loop (perm bic : bool) (ilc : option comment) (n : nat) (stmts : list visitee) : PM body_result :=
  match n with
  | O => poof
  | S n' =>
    comments <-- qParseComments;;
    t <-- ppeek ScanKeyword;;
    match tk t with
    | TRIGHTCURLY => qBodyEnd perm bic ilc stmts comments
    | _ =>
      stmt <-- precover (qParseField perm) (fun f => with_comments comments (VField f));;
      stmt <-- qMaybeInline set_inline stmt;;
      qExtendBody_loop perm bic ilc n' (stmts ++ [stmt])
    end
  end.
Definition qExtendBody (perm bic : bool) : PM body_result :=
  pexpect 0 TLEFTCURLY;;;
  inlineLeftCurly <-- qInline;;
  eb <-- qEmptyBody perm;;
  match eb with
  | Some lastPos => pret ([], None, lastPos)
  | None => n <-- pfuel;; qExtendBody_loop perm bic inlineLeftCurly n []
  end.
Definition qParseExtend (perm bic : bool) : PM block :=
  t <-- pexpect ScanKeyword TEXTEND;;
  messageType <-- qReadMessageType;;
  '(body, ilc, lastPos) <-- qExtendBody perm bic;;
  pret (mkBlock (fst messageType) body [] None ilc (mkMeta (tp t) lastPos)).

Definition qParseGroupField (mb : PM body_result) : PM groupField :=
  '(startPos, (isRepeated, isRequired, isOptional)) <-- qLabel;;
  pexpect ScanKeyword TGROUP;;;
  name <-- pexpect 0 TIDENT;;
  if negb (isCapitalized (tx name)) then perr name
  else
    pexpect 0 TEQUALS;;;
    fieldNumber <-- qFieldNumber;;
    '(body, ilc, lastPos) <-- mb;;
    pret (mkGroupField isRepeated isRequired isOptional (tx name) body fieldNumber [] None ilc
                       (mkMeta startPos lastPos)).

Definition qParseMessage_ (mb : PM body_result) : PM block :=
  t <-- pexpect ScanKeyword TMESSAGE;;
  name <-- pexpect 0 TIDENT;;
  '(body, ilc, lastPos) <-- mb;;
  pret (mkBlock (tx name) body [] None ilc (mkMeta (tp t) lastPos)).

Definition qMessageStmt (perm bic : bool) (mb : PM body_result) (token : token) (comments : list comment) : PM visitee :=
  match token with
  | TENUM => e <-- qParseEnum perm bic;; pret (with_comments comments (VEnum e))
  | TMESSAGE => m <-- qParseMessage_ mb;; pret (with_comments comments (VMessage m))
  | TOPTION => o <-- qParseOption perm;; pret (with_comments comments (VOption o))
  | TONEOF => o <-- qParseOneof perm;; pret (with_comments comments (VOneof o))
  | TMAP => m <-- qParseMapField perm;; pret (with_comments comments (VMapField m))
  | TEXTEND => x <-- qParseExtend perm bic;; pret (with_comments comments (VExtend x))
  | TRESERVED => r <-- qParseReserved;; pret (with_comments comments (VReserved r))
  | TEXTENSIONS => x <-- qParseExtensions;; pret (with_comments comments (VExtensions x))
  | _ =>
    isGroup <-- qIsGroup;;
    if isGroup then precover (qParseGroupField mb) (fun g => with_comments comments (VGroupField g))
    else precover (qParseField perm) (fun f => with_comments comments (VField f))
  end.

Fixpoint qMessageBody_loop (perm bic : bool) (mb : PM body_result) (ilc : option comment) (n : nat)
         (stmts : list visitee) : PM body_result :=
  match n with
  | O => poof
  | S n' =>
    comments <-- qParseComments;;
    t <-- ppeek ScanKeyword;;
    match tk t with
    | TRIGHTCURLY => qBodyEnd perm bic ilc stmts comments
    | _ =>
      stmt <-- qMessageStmt perm bic mb (tk t) comments;;
      stmt <-- qMaybeInline set_inline stmt;;
      qMessageBody_loop perm bic mb ilc n' (stmts ++ [stmt])
    end
  end.

Fixpoint qMessageBody (perm bic : bool) (n : nat) : PM body_result :=
  match n with
  | O => poof
  | S n' =>
    pexpect 0 TLEFTCURLY;;;
    inlineLeftCurly <-- qInline;;
    eb <-- qEmptyBody perm;;
    match eb with
    | Some lastPos => pret ([], None, lastPos)
    | None => qMessageBody_loop perm bic (qMessageBody perm bic n') inlineLeftCurly n' []
    end
  end.
Definition qParseMessage (perm bic : bool) (n : nat) : PM block := qParseMessage_ (qMessageBody perm bic n).

(** ** Service *)

Fixpoint qRpcOptions_loop (perm : bool) (n : nat) (options : list option_) : PM (list option_) :=
  match n with
  | O => poof
  | S n' =>
    t <-- ppeek ScanKeyword;;
    options <-- match tk t with
                | TOPTION => o <-- qParseOption perm;; pret (options ++ [o])
                | TRIGHTCURLY => pret options
                | _ => qReadEmptyStatement;;; pret options
                end;;
    t <-- ptok 0;;
    if tok_eqb (tk t) TRIGHTCURLY then pret options
    else pback t;;; qRpcOptions_loop perm n' options
  end.
Definition qRpcOptions (perm : bool) : PM (list option_ * option comment) :=
  pexpect 0 TLEFTCURLY;;;
  inlineLeftCurly <-- qInline;;
  n <-- pfuel;;
  options <-- qRpcOptions_loop perm n [];;
  pret (options, inlineLeftCurly).

Definition qRpcParam : PM rpcParam :=
  t <-- pexpect 0 TLEFTPAREN;;
  s <-- ptok ScanKeyword;;
  isStream <-- (if negb (tok_eqb (tk s) TSTREAM) then pback s;;; pret false else pret true);;
  messageType <-- qReadMessageType;;
  e <-- pexpect 0 TRIGHTPAREN;;
  pret (mkRPCParam isStream (fst messageType) (mkMeta (tp t) (tp e))).

Definition qRPC (perm : bool) : PM rpc :=
  t <-- pexpect ScanKeyword TRPC;;
  name <-- pexpect 0 TIDENT;;
  rpcRequest <-- qRpcParam;;
  pexpect ScanKeyword TRETURNS;;;
  rpcResponse <-- qRpcParam;;
  e <-- ptok 0;;
  embedded <-- qEmbedded (tp t) (tp e);;
  '(opts, ilc, lastPos) <--
    match tk e with
    | TLEFTCURLY =>
      pback e;;;
      '(opts, ilc) <-- qRpcOptions perm;;
      lastPos <-- qBlockEnd perm;;
      pret (opts, ilc, lastPos)
    | TSEMICOLON => pret ([], None, tp e)
    | _ => perr e
    end;;
  pret (mkRPC (tx name) rpcRequest rpcResponse opts [] None ilc embedded (mkMeta (tp t) lastPos)).

Fixpoint qServiceBody_loop (perm bic : bool) (ilc : option comment) (n : nat) (stmts : list visitee) : PM body_result :=
  match n with
  | O => poof
  | S n' =>
    comments <-- qParseComments;;
    t <-- ppeek ScanKeyword;;
    match tk t with
    | TRIGHTCURLY => qBodyEnd perm bic ilc stmts comments
    | _ =>
      stmt <-- match tk t with
               | TOPTION => o <-- qParseOption perm;; pret (with_comments comments (VOption o))
               | TRPC => r <-- qRPC perm;; pret (with_comments comments (VRPC r))
               | _ => qReadEmptyStatement;;; pret (VEmpty (mkEmpty None))
               end;;
      stmt <-- qMaybeInline set_inline stmt;;
      qServiceBody_loop perm bic ilc n' (stmts ++ [stmt])
    end
  end.
Definition qServiceBody (perm bic : bool) : PM body_result :=
  pexpect 0 TLEFTCURLY;;;
  inlineLeftCurly <-- qInline;;
  n <-- pfuel;;
  qServiceBody_loop perm bic inlineLeftCurly n [].
Definition qParseService (perm bic : bool) : PM block :=
  t <-- pexpect ScanKeyword TSERVICE;;
  name <-- pexpect 0 TIDENT;;
  '(body, ilc, lastPos) <-- qServiceBody perm bic;;
  pret (mkBlock (tx name) body [] None ilc (mkMeta (tp t) lastPos)).

(** ** File *)

Definition qBOM : PM unit :=
  t <-- ptok 0;; if tok_eqb (tk t) TBOM then pret tt else pback t.

Definition qProtoStmt (perm bic : bool) (n : nat) (token : token) (comments : list comment)
  : PM (list visitee * visitee) :=
  match token with
  | TIMPORT => i <-- qParseImport;; pret ([], with_comments comments (VImport i))
  | TPACKAGE => p <-- qParsePackage;; pret ([], with_comments comments (VPackage p))
  | TOPTION => o <-- qParseOption perm;; pret ([], with_comments comments (VOption o))
  | TMESSAGE => m <-- qParseMessage perm bic n;; pret ([], with_comments comments (VMessage m))
  | TENUM => e <-- qParseEnum perm bic;; pret ([], with_comments comments (VEnum e))
  | TSERVICE => s <-- qParseService perm bic;; pret ([], with_comments comments (VService s))
  | TEXTEND => x <-- qParseExtend perm bic;; pret ([], with_comments comments (VExtend x))
  | _ => qReadEmptyStatement;;; pret ([VEmpty (mkEmpty None)], VNil)
  end.

Fixpoint qProtoBody_loop (perm bic : bool) (n : nat) (body : list visitee) : PM (list visitee) :=
  match n with
  | O => poof
  | S n' =>
    comments <-- qParseComments;;
    e <-- ppeek 0;;
    if tok_eqb (tk e) TEOF then pret (body ++ body_comments bic comments)
    else
      t <-- ppeek ScanKeyword;;
      '(pre, stmt) <-- qProtoStmt perm bic n' (tk t) comments;;
      stmt <-- qMaybeInline set_inline stmt;;
      qProtoBody_loop perm bic n' (body ++ pre ++ [stmt])
  end.

Definition qParseProto (perm bic : bool) (n : nat) : PM proto :=
  qBOM;;;
  comments <-- qParseComments;;
  syntax <-- qParseSyntax;;
  syntax <-- match syntax with
             | None => pret None
             | Some x =>
               x <-- qMaybeInline (total_set set_sy_inline)
                      (mkSyntax (sy_version x) (sy_versionQuote x) comments (sy_inline x) (sy_meta x));;
               pret (Some x)
             end;;
  edition <-- qParseEdition;;
  edition <-- match edition with
              | None => pret None
              | Some x =>
                x <-- qMaybeInline (total_set set_ed_inline)
                       (mkEdition (ed_edition x) (ed_editionQuote x) comments (ed_inline x) (ed_meta x));;
                pret (Some x)
              end;;
  body <-- qProtoBody_loop perm bic n [];;
  p <-- plast;;
  pret (mkProto syntax edition body (Filename p)).
End Pure.
