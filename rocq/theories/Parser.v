(** Model of package parser: the Parse functions.

    [perm] and [bic] are Parser.permissive and Parser.bodyIncludingComments
    (parser/parser.go:6-11).  Every loop and recursion of the Go code takes
    fuel; [Fuel] is returned when it runs out.  Recursive parse functions are
    passed as arguments to the loops that call them. *)
From Coq Require Import List NArith ZArith Bool String Ascii.
From Verif Require Import Base Token Scanner Lexer Ast.
Import ListNotations.
Open Scope N_scope.
Open Scope monad_scope.

(** parser/error.go:10-19 unexpected (unexpectedf, 21-26, formats the text only) *)
Definition p_unexpected {A} (expected : string) : M A :=
  fun s => (Err (EParse (lpos s) expected (ltext s) (ltok s)), s).

(** [p.lex.Token != t => return p.unexpected(expected)] *)
Definition expect (t : token) (expected : string) : M unit :=
  t' <- gets ltok;; if tok_eqb t' t then ret tt else p_unexpected expected.

(** parser/parser.go:43-47 IsEOF *)
Definition p_IsEOF : M bool := Next;; b <- lex_IsEOF;; UnNext;; ret b.

(** Next token in keyword mode, then put it back (message.go:136-138 and the
    same three lines in the other bodies). *)
Definition peekKeyword : M token := NextKeyword;; t <- gets ltok;; UnNext;; ret t.

(** A comment node at a scanned text: comment.go:67-73, 82-88.  AdvancedBulk
    writes the shared columns map. *)
Definition mk_comment (p : mpos) (l : str) : M comment := fun s =>
  let '(lp, cl) := AdvancedBulk p (cols s) l in
  (Ok (mkComment l (mkMeta p lp)), set_pc (pos s, cl) s).

(** parser/comment.go:64-77 parseComment *)
Definition parseComment : M comment :=
  NextComment;;
  t <- gets ltok;;
  if tok_eqb t TCOMMENT then
    x <- gets ltext;; p <- gets lpos;; mk_comment p x
  else
    fun s => let e := EParse (lpos s) "comment" (ltext s) (ltok s) in
             (UnNext;; fail e) s.

(** parser/comment.go:51-61 ParseComments *)
Fixpoint parseComments_loop (n : nat) (acc : list comment) : M (list comment) :=
  match n with
  | O => oof
  | S n' =>
    try parseComment (fun r =>
      match r with
      | inr _ => ret acc
      | inl c => parseComments_loop n' (acc ++ [c])
      end)
  end.
Definition ParseComments : M (list comment) :=
  n <- fuel_here;; parseComments_loop n [].

(** parser/comment.go:79-91 findEmbeddedComments *)
Fixpoint mk_comments (l : list text) : M (list comment) :=
  match l with
  | [] => ret []
  | c :: l' =>
    x <- mk_comment (TPos c) (Literal c);;
    xs <- mk_comments l';;
    ret (x :: xs)
  end.
Definition findEmbeddedComments (from to : mpos) : M (list comment) :=
  l <- gets (FindMidComments from to);; mk_comments l.

(** parser/inlineComment.go:19-33 parseInlineComment *)
Definition parseInlineComment : M (option comment) :=
  currentPos <- gets lpos;;
  try parseComment (fun r =>
    match r with
    | inr _ => ret None
    | inl c =>
      if negb (Line currentPos =? Line (Pos (c_meta c)))%Z
      then UnNext;; ret None
      else ret (Some c)
    end).

(** parser/inlineComment.go:9-17 MaybeScanInlineComment, for a setter [set]
    returning None when the receiver is a nil interface *)
Definition MaybeScanInlineComment {A} (set : comment -> A -> option A) (x : A) : M A :=
  ic <- parseInlineComment;;
  match ic with
  | None => ret x
  | Some c => match set c x with Some x' => ret x' | None => panic end
  end.
Definition total_set {A} (set : comment -> A -> A) (c : comment) (x : A) : option A := Some (set c x).

(** parser/option.go:165-184 (same as 205-224): after "(" *)
Definition parseParenName (perm : bool) (name : str) : M str :=
  name <- (if perm then
             Next;;
             t <- gets ltok;;
             if tok_eqb t TDOT then ret (name ++ [ch "."]) else UnNext;; ret name
           else ret name);;
  fi <- ReadFullIdent;;
  Next;;
  expect TRIGHTPAREN ")";;
  x <- gets ltext;;
  ret (name ++ fst fi ++ x).

(** parser/option.go:189-228: the loop of parseOptionName *)
Fixpoint optionName_loop (perm : bool) (n : nat) (name : str) : M str :=
  match n with
  | O => oof
  | S n' =>
    Next;;
    t <- gets ltok;;
    if negb (tok_eqb t TDOT) then UnNext;; ret name
    else
      x <- gets ltext;;
      let name := name ++ x in
      Next;;
      t2 <- gets ltok;;
      x2 <- gets ltext;;
      match t2 with
      | TIDENT => optionName_loop perm n' (name ++ x2)
      | TLEFTPAREN =>
        name <- parseParenName perm (name ++ x2);; optionName_loop perm n' name
      | _ => p_unexpected "ident or bracedFullIdent"
      end
  end.

(** parser/option.go:154-230 parseOptionName *)
Definition parseOptionName (perm : bool) : M str :=
  Next;;
  t <- gets ltok;;
  x <- gets ltext;;
  name <- match t with
          | TIDENT => ret x
          | TLEFTPAREN => parseParenName perm x
          | _ => p_unexpected "ident or left paren"
          end;;
  n <- fuel_here;;
  optionName_loop perm n name.

(** parser/option.go:96-150: the loop of parseCloudEndpointsOptionConstant.
    [pc] is parseOptionConstant. *)
Fixpoint cloud_loop (perm : bool) (pc : M str) (n : nat) (r : str) : M str :=
  match n with
  | O => oof
  | S n' =>
    Next;;
    expect TIDENT "ident";;
    x <- gets ltext;;
    let r := r ++ x in
    Next;;
    t <- gets ltok;;
    '(r, needSemi) <-
      match t with
      | TLEFTCURLY =>
        if negb perm then p_unexpected ":" else UnNext;; ret (r, false)
      | TCOLON =>
        c <- gets ltext;;
        pk <- Peek;;
        ret (r ++ c, tok_eqb pk TLEFTCURLY && perm)
      | _ => if perm then p_unexpected "{ or :" else p_unexpected ":"
      end;;
    constant <- pc;;
    let r := r ++ constant in
    Next;;
    t2 <- gets ltok;;
    r <- (if tok_eqb t2 TSEMICOLON && needSemi && perm
          then x2 <- gets ltext;; Next;; ret (r ++ x2)
          else ret r);;
    t3 <- gets ltok;;
    x3 <- gets ltext;;
    match t3 with
    | TCOMMA | TSEMICOLON =>
      let r := r ++ x3 in
      pk <- Peek;;
      if tok_eqb pk TRIGHTCURLY && perm
      then Next;; x4 <- gets ltext;; ret (r ++ x4)
      else cloud_loop perm pc n' r
    | TRIGHTCURLY => ret (r ++ x3)
    | _ => UnNext;; cloud_loop perm pc n' (r ++ [NL])
    end
  end.

(** parser/option.go:87-151 parseCloudEndpointsOptionConstant *)
Definition parseCloudEndpointsOptionConstant (perm : bool) (pc : M str) (n : nat) : M str :=
  Next;;
  expect TLEFTCURLY "{";;
  x <- gets ltext;;
  cloud_loop perm pc n x.

(** strings.Join(opts, ",") for a non-empty list *)
Fixpoint join (sep : str) (l : list str) : str :=
  match l with
  | [] => []
  | [x] => x
  | x :: l' => x ++ sep ++ join sep l'
  end.

(** parser/option.go:289-301 *)
Fixpoint constants_loop (pc : M str) (n : nat) (opts : list str) : M (list str) :=
  match n with
  | O => oof
  | S n' =>
    Next;;
    t <- gets ltok;;
    if negb (tok_eqb t TCOMMA) then UnNext;; ret opts
    else
      try pc (fun r =>
        match r with
        | inr _ => p_unexpected "optionConstant"
        | inl opt => constants_loop pc n' (opts ++ [opt])
        end)
  end.

(** parser/option.go:280-303 parseOptionConstants *)
Definition parseOptionConstants (pc : M str) (n : nat) : M str :=
  opt <- pc;;
  opts <- constants_loop pc n [opt];;
  ret (join (lit ",") opts).

(** parser/option.go:232-277 parseOptionConstant *)
Fixpoint parseOptionConstant (perm : bool) (n : nat) : M str :=
  match n with
  | O => oof
  | S n' =>
    pk <- Peek;;
    match pk with
    | TLEFTCURLY =>
      if negb perm then p_unexpected "constant or permissive mode"
      else
        pk2 <- PeekN 2;;
        if tok_eqb pk2 TRIGHTCURLY then NextN 2;; ret (lit "{}")
        else parseCloudEndpointsOptionConstant perm (parseOptionConstant perm n') n'
    | TLEFTSQUARE =>
      if negb perm then p_unexpected "constant or permissive mode"
      else
        Next;;
        pk2 <- Peek;;
        if tok_eqb pk2 TRIGHTSQUARE then Next;; ret (lit "[]")
        else
          constant <- parseOptionConstants (parseOptionConstant perm n') n';;
          Next;;
          ret (lit "[" ++ constant ++ lit "]")
    | _ => c <- ReadConstant perm;; ret (fst c)
    end
  end.

(** Fuel for one constant: depth and loop counts are bounded by the runes left. *)
Definition parseConstant (perm : bool) : M str :=
  n <- fuel_here;; parseOptionConstant perm n.

(** parser/option.go:47-82 ParseOption *)
Definition ParseOption (perm : bool) : M option_ :=
  NextKeyword;;
  expect TOPTION "option";;
  startPos <- gets lpos;;
  name <- parseOptionName perm;;
  Next;;
  expect TEQUALS "=";;
  constant <- parseConstant perm;;
  Next;;
  expect TSEMICOLON ";";;
  lastPos <- gets lpos;;
  ret (mkOption name constant [] None (mkMeta startPos lastPos)).

(** parser/syntax.go:60-104 ParseSyntax *)
Definition ParseSyntax : M (option syntax) :=
  NextKeyword;;
  t <- gets ltok;;
  if negb (tok_eqb t TSYNTAX) then UnNext;; ret None
  else
    startPos <- gets lpos;;
    Next;; expect TEQUALS "=";;
    Next;; expect TQUOTE "quote";;
    lq <- gets ltext;;
    Next;;
    version <- gets ltext;;
    if negb (str_eqb version (lit "proto3")) && negb (str_eqb version (lit "proto2"))
    then p_unexpected "proto3 or proto2"
    else
      Next;; expect TQUOTE "quote";;
      tq <- gets ltext;;
      Next;; expect TSEMICOLON ";";;
      lastPos <- gets lpos;;
      ret (Some (mkSyntax version (lq ++ version ++ tq) [] None (mkMeta startPos lastPos))).

(** parser/edition.go:47-91 ParseEdition *)
Definition ParseEdition : M (option edition) :=
  NextKeyword;;
  t <- gets ltok;;
  if negb (tok_eqb t TEDITION) then UnNext;; ret None
  else
    startPos <- gets lpos;;
    Next;; expect TEQUALS "=";;
    Next;; expect TQUOTE "quote";;
    lq <- gets ltext;;
    NextNumberLit;; expect TINTLIT "intLit";;
    edition <- gets ltext;;
    Next;; expect TQUOTE "quote";;
    tq <- gets ltext;;
    Next;; expect TSEMICOLON ";";;
    lastPos <- gets lpos;;
    ret (Some (mkEdition edition (lq ++ edition ++ tq) [] None (mkMeta startPos lastPos))).

(** parser/import.go:55-93 ParseImport *)
Definition ParseImport : M import :=
  NextKeyword;; expect TIMPORT """import""";;
  startPos <- gets lpos;;
  NextKeywordOrStrLit;;
  t <- gets ltok;;
  modifier <- match t with
              | TPUBLIC => ret ImportModifierPublic
              | TWEAK => ret ImportModifierWeak
              | TSTRLIT => UnNext;; ret ImportModifierNone
              | _ => ret ImportModifierNone
              end;;
  NextStrLit;; expect TSTRLIT "strLit";;
  location <- gets ltext;;
  Next;; expect TSEMICOLON ";";;
  lastPos <- gets lpos;;
  ret (mkImport modifier location [] None (mkMeta startPos lastPos)).

(** [x, err := m; if err != nil { return nil, p.unexpected(expected) }] *)
Definition or_unexpected {A} (m : M A) (expected : string) : M A :=
  try m (fun r => match r with inl a => ret a | inr _ => p_unexpected expected end).

(** parser/package.go:44-68 ParsePackage *)
Definition ParsePackage : M package :=
  NextKeyword;; expect TPACKAGE "package";;
  startPos <- gets lpos;;
  ident <- or_unexpected ReadFullIdent "fullIdent";;
  Next;; expect TSEMICOLON ";";;
  lastPos <- gets lpos;;
  ret (mkPackage (fst ident) [] None (mkMeta startPos lastPos)).

(** parser/field.go:190-206 typeConstants *)
Definition typeConstants : list str :=
  map lit ["double"; "float"; "int32"; "int64"; "uint32"; "uint64"; "sint32"; "sint64";
           "fixed32"; "fixed64"; "sfixed32"; "sfixed64"; "bool"; "string"; "bytes"]%string.
(** parser/mapField.go:116-129 keyTypeConstants *)
Definition keyTypeConstants : list str :=
  map lit ["int32"; "int64"; "uint32"; "uint64"; "sint32"; "sint64";
           "fixed32"; "fixed64"; "sfixed32"; "sfixed64"; "bool"; "string"]%string.

(** parser/field.go:214-226 parseType *)
Definition parseType : M (str * mpos) :=
  Next;;
  x <- gets ltext;;
  if str_mem x typeConstants then p <- gets lpos;; ret (x, p)
  else UnNext;; ReadMessageType.

(** parser/field.go:230-236 parseFieldNumber *)
Definition parseFieldNumber : M str :=
  NextNumberLit;; expect TINTLIT "intLit";; gets ltext.

(** parser/field.go:168-188 parseFieldOption *)
Definition parseFieldOption (perm : bool) : M fieldOption :=
  name <- parseOptionName perm;;
  Next;; expect TEQUALS "=";;
  constant <- parseConstant perm;;
  ret (mkFieldOption name constant).

(** parser/field.go:150-162 *)
Fixpoint fieldOptions_loop (perm : bool) (n : nat) (opts : list fieldOption) : M (list fieldOption) :=
  match n with
  | O => oof
  | S n' =>
    Next;;
    t <- gets ltok;;
    if negb (tok_eqb t TCOMMA) then UnNext;; ret opts
    else
      opt <- or_unexpected (parseFieldOption perm) "fieldOption";;
      fieldOptions_loop perm n' (opts ++ [opt])
  end.

(** parser/field.go:141-164 parseFieldOptions *)
Definition parseFieldOptions (perm : bool) : M (list fieldOption) :=
  opt <- parseFieldOption perm;;
  n <- fuel_here;;
  fieldOptions_loop perm n [opt].

(** parser/field.go:121-137 parseFieldOptionsOption *)
Definition parseFieldOptionsOption (perm : bool) : M (list fieldOption) :=
  Next;;
  t <- gets ltok;;
  if tok_eqb t TLEFTSQUARE then
    fieldOptions <- parseFieldOptions perm;;
    Next;; expect TRIGHTSQUARE "]";;
    ret fieldOptions
  else UnNext;; ret [].

(** field.go:61-75 and groupField.go:64-78: the label; (repeated, required, optional) *)
Definition parseLabel : M (mpos * (bool * bool * bool)) :=
  NextKeyword;;
  startPos <- gets lpos;;
  t <- gets ltok;;
  match t with
  | TREPEATED => ret (startPos, (true, false, false))
  | TREQUIRED => ret (startPos, (false, true, false))
  | TOPTIONAL => ret (startPos, (false, false, true))
  | _ => UnNext;; ret (startPos, (false, false, false))
  end.

(** parser/field.go:60-118 ParseField *)
Definition ParseField (perm : bool) : M field :=
  '(startPos, (isRepeated, isRequired, isOptional)) <- parseLabel;;
  typeValue <- or_unexpected parseType "type";;
  Next;; expect TIDENT "fieldName";;
  fieldName <- gets ltext;;
  Next;; expect TEQUALS "=";;
  fieldNumber <- or_unexpected parseFieldNumber "fieldNumber";;
  fieldOptions <- parseFieldOptionsOption perm;;
  Next;; expect TSEMICOLON ";";;
  lastPos <- gets lpos;;
  ret (mkField isRepeated isRequired isOptional (fst typeValue) fieldName fieldNumber fieldOptions
               [] None (mkMeta startPos lastPos)).

(** parser/mapField.go:136-142 parseKeyType *)
Definition parseKeyType : M str :=
  Next;;
  x <- gets ltext;;
  if str_mem x keyTypeConstants then ret x else p_unexpected "keyType constant".

(** parser/mapField.go:48-114 ParseMapField *)
Definition ParseMapField (perm : bool) : M mapField :=
  NextKeyword;; expect TMAP "map";;
  startPos <- gets lpos;;
  Next;; expect TLESS "<";;
  keyType <- parseKeyType;;
  Next;; expect TCOMMA ",";;
  typeValue <- or_unexpected parseType "type";;
  Next;; expect TGREATER ">";;
  Next;; expect TIDENT "mapName";;
  mapName <- gets ltext;;
  Next;; expect TEQUALS "=";;
  fieldNumber <- or_unexpected parseFieldNumber "fieldNumber";;
  fieldOptions <- parseFieldOptionsOption perm;;
  Next;; expect TSEMICOLON ";";;
  lastPos <- gets lpos;;
  ret (mkMapField keyType (fst typeValue) mapName fieldNumber fieldOptions [] None (mkMeta startPos lastPos)).

(** parser/groupField.go:173-183 isCapitalized, isUpper *)
Definition isCapitalized (s : str) : bool :=
  match s with
  | [] => false
  | r :: _ => (ch "A" <=? r) && (r <=? ch "Z")
  end.

(** [defer p.lex.UnNextTo(p.lex.RawText)] around the rest of the function *)
Definition deferUnNext {A} (k : M A) : M A :=
  r <- gets lraw;; a <- k;; UnNextTo r;; ret a.

(** parser/groupField.go:125-169 peekIsGroup *)
Definition peekIsGroup_tail : M bool :=
  NextKeyword;;
  deferUnNext (
    t <- gets ltok;;
    if negb (tok_eqb t TGROUP) then ret false
    else
      Next;;
      deferUnNext (
        t <- gets ltok;;
        x <- gets ltext;;
        if negb (tok_eqb t TIDENT) then ret false
        else if negb (isCapitalized x) then ret false
        else
          Next;;
          deferUnNext (
            t <- gets ltok;;
            if negb (tok_eqb t TEQUALS) then ret false
            else
              try parseFieldNumber (fun r =>
                deferUnNext (
                  match r with
                  | inr _ => ret false
                  | inl _ =>
                    Next;;
                    deferUnNext (
                      t <- gets ltok;;
                      ret (tok_eqb t TLEFTCURLY))
                  end))))).
Definition peekIsGroup : M bool :=
  NextKeyword;;
  t <- gets ltok;;
  match t with
  | TREPEATED | TREQUIRED | TOPTIONAL => deferUnNext peekIsGroup_tail
  | _ => UnNext;; peekIsGroup_tail
  end.

(** [lastPos := p.lex.Pos] and the optional semicolon behind a block in
    permissive mode: message.go:117-124, 154-161, enum.go:176-183,
    service.go:176-183, 255-262, extend.go:115-122, 152-159, oneof.go:149-156 *)
Definition blockEnd (perm : bool) : M mpos :=
  lastPos <- gets lpos;;
  if perm then
    ConsumeToken TSEMICOLON;;
    t <- gets ltok;;
    if tok_eqb t TSEMICOLON then gets lpos else ret lastPos
  else ret lastPos.

(** parser/oneof.go:172-211 parseOneofField *)
Definition parseOneofField (perm : bool) : M oneofField :=
  typeValue <- or_unexpected parseType "type";;
  Next;; expect TIDENT "fieldName";;
  fieldName <- gets ltext;;
  Next;; expect TEQUALS "=";;
  fieldNumber <- or_unexpected parseFieldNumber "fieldNumber";;
  fieldOptions <- parseFieldOptionsOption perm;;
  Next;; expect TSEMICOLON ";";;
  lastPos <- gets lpos;;
  ret (mkOneofField (fst typeValue) fieldName fieldNumber fieldOptions [] None
                    (mkMeta (snd typeValue) lastPos)).

Definition set_op_comments (c : list comment) (x : option_) :=
  mkOption (op_name x) (op_constant x) c (op_inline x) (op_meta x).
Definition set_oof_comments (c : list comment) (x : oneofField) :=
  mkOneofField (oof_type x) (oof_name x) (oof_number x) (oof_options x) c (oof_inline x) (oof_meta x).

(** parser/oneof.go:111-147: the loop of ParseOneof *)
Fixpoint oneof_loop (perm : bool) (n : nat) (fields : list oneofField) (options : list option_)
  : M (list oneofField * list option_) :=
  match n with
  | O => oof
  | S n' =>
    comments <- ParseComments;;
    try ReadEmptyStatement (fun e =>
      match e with
      | inl _ => oneof_loop perm n' fields options
      | inr _ =>
        token <- peekKeyword;;
        '(fields, options) <-
          (if tok_eqb token TOPTION then
             option <- ParseOption perm;;
             option <- MaybeScanInlineComment (total_set set_op_inline) (set_op_comments comments option);;
             ret (fields, options ++ [option])
           else
             oneofField <- parseOneofField perm;;
             oneofField <- MaybeScanInlineComment (total_set set_oof_inline) (set_oof_comments comments oneofField);;
             ret (fields ++ [oneofField], options));;
        Next;;
        t <- gets ltok;;
        if tok_eqb t TRIGHTCURLY then ret (fields, options)
        else UnNext;; oneof_loop perm n' fields options
      end)
  end.

(** parser/oneof.go:89-168 ParseOneof *)
Definition ParseOneof (perm : bool) : M oneof :=
  NextKeyword;; expect TONEOF "oneof";;
  startPos <- gets lpos;;
  Next;; expect TIDENT "oneofName";;
  oneofName <- gets ltext;;
  Next;; expect TLEFTCURLY "{";;
  inlineLeftCurly <- parseInlineComment;;
  n <- fuel_here;;
  '(fields, options) <- oneof_loop perm n [] [];;
  lastPos <- blockEnd perm;;
  ret (mkOneof fields oneofName options [] None inlineLeftCurly (mkMeta startPos lastPos)).

(** parser/reserved.go:134-162 parseRange *)
Definition parseRange : M range :=
  NextNumberLit;;
  t <- gets ltok;;
  if negb (tok_eqb t TINTLIT) then UnNext;; p_unexpected "intLit"
  else
    begin_ <- gets ltext;;
    Next;;
    x <- gets ltext;;
    if negb (str_eqb x (lit "to")) then UnNext;; ret (mkRange begin_ [])
    else
      NextNumberLit;;
      t2 <- gets ltok;;
      x2 <- gets ltext;;
      if tok_eqb t2 TINTLIT || str_eqb x2 (lit "max") then ret (mkRange begin_ x2)
      else p_unexpected """intLit | ""max""".

(** parser/reserved.go:116-128 *)
Fixpoint ranges_loop (n : nat) (ranges : list range) : M (list range) :=
  match n with
  | O => oof
  | S n' =>
    Next;;
    t <- gets ltok;;
    if negb (tok_eqb t TCOMMA) then UnNext;; ret ranges
    else r <- parseRange;; ranges_loop n' (ranges ++ [r])
  end.

(** parser/reserved.go:108-130 parseRanges *)
Definition parseRanges : M (list range) :=
  r <- parseRange;; n <- fuel_here;; ranges_loop n [r].

(** parser/reserved.go:225-232 parseQuotedFieldName *)
Definition parseQuotedFieldName : M str :=
  NextStrLit;;
  t <- gets ltok;;
  if negb (tok_eqb t TSTRLIT) then UnNext;; p_unexpected "quotedFieldName"
  else gets ltext.

(** parser/reserved.go:207-220 parseFieldName *)
Definition parseFieldName : M str :=
  try parseQuotedFieldName (fun r =>
    match r with
    | inl q => ret q
    | inr _ =>
      Next;;
      t <- gets ltok;;
      if negb (tok_eqb t TIDENT) then UnNext;; p_unexpected "fieldName or quotedFieldName"
      else gets ltext
    end).

(** parser/reserved.go:178-202 *)
Fixpoint fieldNames_loop (n : nat) (names : list str) : M (list str) :=
  match n with
  | O => oof
  | S n' =>
    Next;;
    t <- gets ltok;;
    if tok_eqb t TCOMMA then
      x <- parseFieldName;; fieldNames_loop n' (names ++ [x])
    else
      UnNext;;
      try parseFieldName (fun r =>
        match r with
        | inr _ => ret names
        | inl x => fieldNames_loop n' (names ++ [x])
        end)
  end.

(** parser/reserved.go:169-204 parseFieldNames *)
Definition parseFieldNames : M (list str) :=
  x <- parseFieldName;; n <- fuel_here;; fieldNames_loop n [x].

(** parser/reserved.go:65-104 ParseReserved *)
Definition ParseReserved : M reserved :=
  NextKeyword;; expect TRESERVED "reserved";;
  startPos <- gets lpos;;
  '(ranges, fieldNames) <-
    try parseRanges (fun r =>
      match r with
      | inl ranges => ret (ranges, [])
      | inr err =>
        try parseFieldNames (fun f =>
          match f with
          | inl names => ret ([], names)
          | inr ferr => fail (EPair err ferr)
          end)
      end);;
  Next;; expect TSEMICOLON ";";;
  lastPos <- gets lpos;;
  ret (mkReserved ranges fieldNames [] None (mkMeta startPos lastPos)).

(** parser/declaration.go:84-147: the loop of ParseDeclaration; the local
    variables number, full_name, type, repeated, reserved are threaded. *)
Record decl_vars := mkDecl { dv_number : str; dv_fullName : str; dv_type : str; dv_repeated : bool; dv_reserved : bool }.

Fixpoint declaration_loop (n : nat) (v : decl_vars) : M decl_vars :=
  match n with
  | O => oof
  | S n' =>
    Next;;
    t <- gets ltok;;
    if tok_eqb t TRIGHTCURLY then ret v
    else
      (if negb (tok_eqb t TCOMMA) then UnNext else ret tt);;
      NextKeyword;;
      t2 <- gets ltok;;
      v' <- match t2 with
            | TNUMBER =>
              Next;; expect TCOLON ":";;
              NextNumberLit;; expect TINTLIT "number";;
              x <- gets ltext;;
              ret (mkDecl x (dv_fullName v) (dv_type v) (dv_repeated v) (dv_reserved v))
            | TFULLNAME =>
              Next;; expect TCOLON ":";;
              NextStrLit;; expect TSTRLIT "full_name string";;
              x <- gets ltext;;
              ret (mkDecl (dv_number v) x (dv_type v) (dv_repeated v) (dv_reserved v))
            | TTYPE =>
              Next;; expect TCOLON ":";;
              NextStrLit;; expect TSTRLIT "type string";;
              x <- gets ltext;;
              ret (mkDecl (dv_number v) (dv_fullName v) x (dv_repeated v) (dv_reserved v))
            | TREPEATED =>
              Next;; expect TCOLON ":";;
              Next;; expect TIDENT "repeated bool";;
              x <- gets ltext;;
              ret (mkDecl (dv_number v) (dv_fullName v) (dv_type v) (str_eqb x (lit "true")) (dv_reserved v))
            | TRESERVED =>
              Next;; expect TCOLON ":";;
              Next;; expect TIDENT "reserved bool";;
              x <- gets ltext;;
              ret (mkDecl (dv_number v) (dv_fullName v) (dv_type v) (dv_repeated v) (str_eqb x (lit "true")))
            | _ => p_unexpected "number, full_name, type, repeated, reserved, or }"
            end;;
      declaration_loop n' v'
  end.

(** parser/declaration.go:59-158 ParseDeclaration *)
Definition ParseDeclaration : M declaration :=
  NextKeyword;; expect TDECLARATION "declaration";;
  startPos <- gets lpos;;
  Next;; expect TEQUALS "=";;
  Next;; expect TLEFTCURLY "{";;
  inlineLeftCurly <- parseInlineComment;;
  n <- fuel_here;;
  v <- declaration_loop n (mkDecl [] [] [] false false);;
  lastPos <- gets lpos;;
  ret (mkDeclaration (dv_number v) (dv_fullName v) (dv_type v) (dv_reserved v) (dv_repeated v)
                     [] None inlineLeftCurly (mkMeta startPos lastPos)).

(** parser/extensions.go:120-126 assignInlineComments *)
Definition assignInlineComments (d : declaration) (l : list (option comment)) : declaration :=
  fold_left (fun d c => match c with Some c => set_d_inline c d | None => d end) l d.
Definition set_d_comments (c : list comment) (x : declaration) :=
  mkDeclaration (d_number x) (d_fullName x) (d_type x) (d_reserved x) (d_repeated x)
                c (d_inline x) (d_inlineLC x) (d_meta x).

(** parser/extensions.go:94-115.  The Go code appends the pointer before it
    sets the inline comment; here the completed value is appended. *)
Fixpoint declarations_loop (n : nat) (ds : list declaration) : M (list declaration) :=
  match n with
  | O => oof
  | S n' =>
    comments <- ParseComments;;
    d <- ParseDeclaration;;
    let d := set_d_comments comments d in
    Next;;
    token <- gets ltok;;
    ic1 <- parseInlineComment;;
    if tok_eqb token TRIGHTSQUARE then
      ic2 <- parseInlineComment;; ret (ds ++ [assignInlineComments d [ic1; ic2]])
    else if negb (tok_eqb token TCOMMA) then p_unexpected ", or ]"
    else
      ic2 <- parseInlineComment;;
      declarations_loop n' (ds ++ [assignInlineComments d [ic1; ic2]])
  end.

(** parser/extensions.go:85-117 parseDeclarations *)
Definition parseDeclarations : M (list declaration * option comment) :=
  Next;;
  t <- gets ltok;;
  if negb (tok_eqb t TLEFTSQUARE) then UnNext;; ret ([], None)
  else
    inlineLeftSquare <- parseInlineComment;;
    n <- fuel_here;;
    ds <- declarations_loop n [];;
    ret (ds, inlineLeftSquare).

(** parser/extensions.go:50-78 ParseExtensions *)
Definition ParseExtensions : M extensions :=
  NextKeyword;; expect TEXTENSIONS "extensions";;
  startPos <- gets lpos;;
  ranges <- parseRanges;;
  '(declarations, inlineLeftSquare) <- parseDeclarations;;
  Next;; expect TSEMICOLON ";";;
  lastPos <- gets lpos;;
  ret (mkExtensions ranges declarations [] None inlineLeftSquare (mkMeta startPos lastPos)).

(** parser/enum.go:310-330 parseEnumValueOption *)
Definition parseEnumValueOption (perm : bool) : M enumValueOption :=
  name <- parseOptionName perm;;
  Next;; expect TEQUALS "=";;
  constant <- parseConstant perm;;
  ret (mkEnumValueOption name constant).

(** parser/enum.go:287-299 *)
Fixpoint enumValueOptions_loop (perm : bool) (n : nat) (opts : list enumValueOption) : M (list enumValueOption) :=
  match n with
  | O => oof
  | S n' =>
    Next;;
    t <- gets ltok;;
    if negb (tok_eqb t TCOMMA) then UnNext;; ret opts
    else
      opt <- or_unexpected (parseEnumValueOption perm) "enumValueOption";;
      enumValueOptions_loop perm n' (opts ++ [opt])
  end.

(** parser/enum.go:272-306 parseEnumValueOptions *)
Definition parseEnumValueOptions (perm : bool) : M (list enumValueOption) :=
  Next;;
  t <- gets ltok;;
  if negb (tok_eqb t TLEFTSQUARE) then UnNext;; ret []
  else
    opt <- or_unexpected (parseEnumValueOption perm) "enumValueOption";;
    n <- fuel_here;;
    opts <- enumValueOptions_loop perm n [opt];;
    Next;; expect TRIGHTSQUARE "]";;
    ret opts.

(** parser/enum.go:228-269 parseEnumField *)
Definition parseEnumField (perm : bool) : M enumField :=
  Next;; expect TIDENT "ident";;
  startPos <- gets lpos;;
  ident <- gets ltext;;
  Next;; expect TEQUALS "=";;
  ConsumeToken TMINUS;;
  t <- gets ltok;;
  let sign := if tok_eqb t TMINUS then lit "-" else [] in
  NextNumberLit;; expect TINTLIT "intLit";;
  x <- gets ltext;;
  opts <- parseEnumValueOptions perm;;
  Next;; expect TSEMICOLON ";";;
  lastPos <- gets lpos;;
  ret (mkEnumField ident (sign ++ x) opts [] None (mkMeta startPos lastPos)).

(** [if p.bodyIncludingComments { append comments }] *)
Definition body_comments (bic : bool) (comments : list comment) : list visitee :=
  if bic then map VComment comments else [].

(** Error recovery shared by message.go:229-251, enum.go:207-218,
    extend.go:168-179: UnNext, then an empty statement or the pair error. *)
Definition recoverEmpty (ferr : err) : M visitee :=
  UnNext;;
  try ReadEmptyStatement (fun r =>
    match r with
    | inl _ => ret (VEmpty (mkEmpty None))
    | inr emptyErr => fail (EPair ferr emptyErr)
    end).

(** The setters [x.Comments = comments] *)
Definition with_comments (cs : list comment) (v : visitee) : visitee :=
  match v with
  | VNil => VNil
  | VComment x => VComment x
  | VEmpty x => VEmpty x
  | VImport x => VImport (mkImport (im_modifier x) (im_location x) cs (im_inline x) (im_meta x))
  | VPackage x => VPackage (mkPackage (pk_name x) cs (pk_inline x) (pk_meta x))
  | VOption x => VOption (set_op_comments cs x)
  | VField x => VField (mkField (f_repeated x) (f_required x) (f_optional x) (f_type x) (f_name x)
                    (f_number x) (f_options x) cs (f_inline x) (f_meta x))
  | VMapField x => VMapField (mkMapField (mf_keyType x) (mf_type x) (mf_name x) (mf_number x)
                    (mf_options x) cs (mf_inline x) (mf_meta x))
  | VGroupField x => VGroupField (mkGroupField (g_repeated x) (g_required x) (g_optional x) (g_name x)
                    (g_body x) (g_number x) cs (g_inline x) (g_inlineLC x) (g_meta x))
  | VOneof x => VOneof (mkOneof (oo_fields x) (oo_name x) (oo_options x) cs (oo_inline x)
                    (oo_inlineLC x) (oo_meta x))
  | VEnumField x => VEnumField (mkEnumField (ef_ident x) (ef_number x) (ef_options x) cs
                    (ef_inline x) (ef_meta x))
  | VRPC x => VRPC (mkRPC (r_name x) (r_request x) (r_response x) (r_options x) cs (r_inline x)
                    (r_inlineLC x) (r_embedded x) (r_meta x))
  | VReserved x => VReserved (mkReserved (rs_ranges x) (rs_names x) cs (rs_inline x) (rs_meta x))
  | VExtensions x => VExtensions (mkExtensions (xs_ranges x) (xs_declarations x) cs (xs_inline x)
                    (xs_inlineLS x) (xs_meta x))
  | VMessage x => VMessage (mkBlock (b_name x) (b_body x) cs (b_inline x) (b_inlineLC x) (b_meta x))
  | VEnum x => VEnum (mkBlock (b_name x) (b_body x) cs (b_inline x) (b_inlineLC x) (b_meta x))
  | VService x => VService (mkBlock (b_name x) (b_body x) cs (b_inline x) (b_inlineLC x) (b_meta x))
  | VExtend x => VExtend (mkBlock (b_name x) (b_body x) cs (b_inline x) (b_inlineLC x) (b_meta x))
  end.

Definition body_result := (list visitee * option comment * mpos)%type.

(** parser/enum.go:155-224: the loop of parseEnumBody *)
Fixpoint enumBody_loop (perm bic : bool) (ilc : option comment) (n : nat) (stmts : list visitee) : M body_result :=
  match n with
  | O => oof
  | S n' =>
    comments <- ParseComments;;
    token <- peekKeyword;;
    match token with
    | TRIGHTCURLY =>
      Next;;
      lastPos <- blockEnd perm;;
      ret (stmts ++ body_comments bic comments, ilc, lastPos)
    | _ =>
      stmt <- match token with
              | TOPTION => o <- ParseOption perm;; ret (with_comments comments (VOption o))
              | TRESERVED => r <- ParseReserved;; ret (with_comments comments (VReserved r))
              | _ =>
                try (parseEnumField perm) (fun r =>
                  match r with
                  | inl f => ret (with_comments comments (VEnumField f))
                  | inr e => recoverEmpty e
                  end)
              end;;
      stmt <- MaybeScanInlineComment set_inline stmt;;
      enumBody_loop perm bic ilc n' (stmts ++ [stmt])
    end
  end.

(** parser/enum.go:140-225 parseEnumBody *)
Definition parseEnumBody (perm bic : bool) : M body_result :=
  Next;; expect TLEFTCURLY "{";;
  inlineLeftCurly <- parseInlineComment;;
  n <- fuel_here;;
  enumBody_loop perm bic inlineLeftCurly n [].

(** parser/enum.go:109-136 ParseEnum *)
Definition ParseEnum (perm bic : bool) : M block :=
  NextKeyword;; expect TENUM "enum";;
  startPos <- gets lpos;;
  Next;; expect TIDENT "enumName";;
  name <- gets ltext;;
  '(body, ilc, lastPos) <- parseEnumBody perm bic;;
  ret (mkBlock name body [] None ilc (mkMeta startPos lastPos)).

(** message.go:114-129 and extend.go:112-127: the empty body shortcut.  Some
    lastPos when the body is empty; the inline comment is dropped. *)
Definition emptyBody (perm : bool) : M (option mpos) :=
  Next;;
  t <- gets ltok;;
  if tok_eqb t TRIGHTCURLY then p <- blockEnd perm;; ret (Some p)
  else UnNext;; ret None.

(** parser/extend.go:131-184: the loop of parseExtendBody *)
Fixpoint extendBody_loop (perm bic : bool) (ilc : option comment) (n : nat) (stmts : list visitee) : M body_result :=
  match n with
  | O => oof
  | S n' =>
    comments <- ParseComments;;
    token <- peekKeyword;;
    match token with
    | TRIGHTCURLY =>
      Next;;
      lastPos <- blockEnd perm;;
      ret (stmts ++ body_comments bic comments, ilc, lastPos)
    | _ =>
      stmt <- try (ParseField perm) (fun r =>
                match r with
                | inl f => ret (with_comments comments (VField f))
                | inr e => recoverEmpty e
                end);;
      stmt <- MaybeScanInlineComment set_inline stmt;;
      extendBody_loop perm bic ilc n' (stmts ++ [stmt])
    end
  end.

(** parser/extend.go:99-185 parseExtendBody *)
Definition parseExtendBody (perm bic : bool) : M body_result :=
  Next;; expect TLEFTCURLY "{";;
  inlineLeftCurly <- parseInlineComment;;
  eb <- emptyBody perm;;
  match eb with
  | Some lastPos => ret ([], None, lastPos)
  | None => n <- fuel_here;; extendBody_loop perm bic inlineLeftCurly n []
  end.

(** parser/extend.go:70-96 ParseExtend *)
Definition ParseExtend (perm bic : bool) : M block :=
  NextKeyword;; expect TEXTEND "extend";;
  startPos <- gets lpos;;
  messageType <- ReadMessageType;;
  '(body, ilc, lastPos) <- parseExtendBody perm bic;;
  ret (mkBlock (fst messageType) body [] None ilc (mkMeta startPos lastPos)).

(** parser/groupField.go:63-123 ParseGroupField; [mb] is parseMessageBody.  The
    expected text of line 90 is kept without its %q argument. *)
Definition ParseGroupField (mb : M body_result) : M groupField :=
  '(startPos, (isRepeated, isRequired, isOptional)) <- parseLabel;;
  NextKeyword;; expect TGROUP "group";;
  Next;; expect TIDENT "groupName";;
  groupName <- gets ltext;;
  if negb (isCapitalized groupName) then p_unexpected "groupName must begin with capital letter."
  else
    Next;; expect TEQUALS "=";;
    fieldNumber <- or_unexpected parseFieldNumber "fieldNumber";;
    '(body, ilc, lastPos) <- mb;;
    ret (mkGroupField isRepeated isRequired isOptional groupName body fieldNumber [] None ilc
                      (mkMeta startPos lastPos)).

(** parser/message.go:70-97 ParseMessage; [mb] is parseMessageBody *)
Definition ParseMessage_ (mb : M body_result) : M block :=
  NextKeyword;; expect TMESSAGE "message";;
  startPos <- gets lpos;;
  Next;; expect TIDENT "messageName";;
  name <- gets ltext;;
  '(body, ilc, lastPos) <- mb;;
  ret (mkBlock name body [] None ilc (mkMeta startPos lastPos)).

(** parser/message.go:163-252: the statement switch of parseMessageBody *)
Definition messageStmt (perm bic : bool) (mb : M body_result) (token : token) (comments : list comment) : M visitee :=
  match token with
  | TENUM => e <- ParseEnum perm bic;; ret (with_comments comments (VEnum e))
  | TMESSAGE => m <- ParseMessage_ mb;; ret (with_comments comments (VMessage m))
  | TOPTION => o <- ParseOption perm;; ret (with_comments comments (VOption o))
  | TONEOF => o <- ParseOneof perm;; ret (with_comments comments (VOneof o))
  | TMAP => m <- ParseMapField perm;; ret (with_comments comments (VMapField m))
  | TEXTEND => x <- ParseExtend perm bic;; ret (with_comments comments (VExtend x))
  | TRESERVED => r <- ParseReserved;; ret (with_comments comments (VReserved r))
  | TEXTENSIONS => x <- ParseExtensions;; ret (with_comments comments (VExtensions x))
  | _ =>
    isGroup <- peekIsGroup;;
    if isGroup then
      try (ParseGroupField mb) (fun r =>
        match r with
        | inl g => ret (with_comments comments (VGroupField g))
        | inr e => recoverEmpty e
        end)
    else
      try (ParseField perm) (fun r =>
        match r with
        | inl f => ret (with_comments comments (VField f))
        | inr e => recoverEmpty e
        end)
  end.

(** parser/message.go:133-256: the loop of parseMessageBody *)
Fixpoint messageBody_loop (perm bic : bool) (mb : M body_result) (ilc : option comment) (n : nat)
         (stmts : list visitee) : M body_result :=
  match n with
  | O => oof
  | S n' =>
    comments <- ParseComments;;
    token <- peekKeyword;;
    match token with
    | TRIGHTCURLY =>
      Next;;
      lastPos <- blockEnd perm;;
      ret (stmts ++ body_comments bic comments, ilc, lastPos)
    | _ =>
      stmt <- messageStmt perm bic mb token comments;;
      stmt <- MaybeScanInlineComment set_inline stmt;;
      messageBody_loop perm bic mb ilc n' (stmts ++ [stmt])
    end
  end.

(** parser/message.go:101-257 parseMessageBody *)
Fixpoint parseMessageBody (perm bic : bool) (n : nat) : M body_result :=
  match n with
  | O => oof
  | S n' =>
    Next;; expect TLEFTCURLY "{";;
    inlineLeftCurly <- parseInlineComment;;
    eb <- emptyBody perm;;
    match eb with
    | Some lastPos => ret ([], None, lastPos)
    | None => messageBody_loop perm bic (parseMessageBody perm bic n') inlineLeftCurly n' []
    end
  end.

(** parser/message.go:70-97 ParseMessage *)
Definition ParseMessage (perm bic : bool) (n : nat) : M block :=
  ParseMessage_ (parseMessageBody perm bic n).

(** parser/service.go:360-387: the loop of parseRPCOptions *)
Fixpoint rpcOptions_loop (perm : bool) (n : nat) (options : list option_) : M (list option_) :=
  match n with
  | O => oof
  | S n' =>
    token <- peekKeyword;;
    options <- match token with
               | TOPTION => o <- ParseOption perm;; ret (options ++ [o])
               | TRIGHTCURLY => ret options
               | _ => ReadEmptyStatement;; ret options
               end;;
    Next;;
    t <- gets ltok;;
    if tok_eqb t TRIGHTCURLY then ret options
    else UnNext;; rpcOptions_loop perm n' options
  end.

(** parser/service.go:351-388 parseRPCOptions *)
Definition parseRPCOptions (perm : bool) : M (list option_ * option comment) :=
  Next;; expect TLEFTCURLY "{";;
  inlineLeftCurly <- parseInlineComment;;
  n <- fuel_here;;
  options <- rpcOptions_loop perm n [];;
  ret (options, inlineLeftCurly).

(** parser/service.go:285-314 parseRPCRequest and 318-347 parseRPCResponse
    (textually the same up to the result type) *)
Definition parseRPCParam : M rpcParam :=
  Next;; expect TLEFTPAREN "(";;
  startPos <- gets lpos;;
  NextKeyword;;
  t <- gets ltok;;
  isStream <- (if negb (tok_eqb t TSTREAM) then UnNext;; ret false else ret true);;
  messageType <- ReadMessageType;;
  Next;; expect TRIGHTPAREN ")";;
  lastPos <- gets lpos;;
  ret (mkRPCParam isStream (fst messageType) (mkMeta startPos lastPos)).

(** parser/service.go:215-281 parseRPC *)
Definition parseRPC (perm : bool) : M rpc :=
  NextKeyword;; expect TRPC "rpc";;
  startPos <- gets lpos;;
  Next;; expect TIDENT "serviceName";;
  rpcName <- gets ltext;;
  rpcRequest <- parseRPCParam;;
  NextKeyword;; expect TRETURNS "returns";;
  rpcResponse <- parseRPCParam;;
  Next;;
  lastPos <- gets lpos;;
  embedded <- findEmbeddedComments startPos lastPos;;
  t <- gets ltok;;
  '(opts, ilc, lastPos) <-
    match t with
    | TLEFTCURLY =>
      UnNext;;
      '(opts, ilc) <- parseRPCOptions perm;;
      lastPos <- blockEnd perm;;
      ret (opts, ilc, lastPos)
    | TSEMICOLON => ret ([], None, lastPos)
    | _ => p_unexpected "{ or ;"
    end;;
  ret (mkRPC rpcName rpcRequest rpcResponse opts [] None ilc embedded (mkMeta startPos lastPos)).

(** parser/service.go:155-209: the loop of parseServiceBody *)
Fixpoint serviceBody_loop (perm bic : bool) (ilc : option comment) (n : nat) (stmts : list visitee) : M body_result :=
  match n with
  | O => oof
  | S n' =>
    comments <- ParseComments;;
    token <- peekKeyword;;
    match token with
    | TRIGHTCURLY =>
      Next;;
      lastPos <- blockEnd perm;;
      ret (stmts ++ body_comments bic comments, ilc, lastPos)
    | _ =>
      stmt <- match token with
              | TOPTION => o <- ParseOption perm;; ret (with_comments comments (VOption o))
              | TRPC => r <- parseRPC perm;; ret (with_comments comments (VRPC r))
              | _ => ReadEmptyStatement;; ret (VEmpty (mkEmpty None))
              end;;
      stmt <- MaybeScanInlineComment set_inline stmt;;
      serviceBody_loop perm bic ilc n' (stmts ++ [stmt])
    end
  end.

(** parser/service.go:141-210 parseServiceBody *)
Definition parseServiceBody (perm bic : bool) : M body_result :=
  Next;; expect TLEFTCURLY "{";;
  inlineLeftCurly <- parseInlineComment;;
  n <- fuel_here;;
  serviceBody_loop perm bic inlineLeftCurly n [].

(** parser/service.go:110-137 ParseService *)
Definition ParseService (perm bic : bool) : M block :=
  NextKeyword;; expect TSERVICE "service";;
  startPos <- gets lpos;;
  Next;; expect TIDENT "serviceName";;
  name <- gets ltext;;
  '(body, ilc, lastPos) <- parseServiceBody perm bic;;
  ret (mkBlock name body [] None ilc (mkMeta startPos lastPos)).

(** parser/proto.go:78-84 parseBOM *)
Definition parseBOM : M unit :=
  Next;; t <- gets ltok;; if tok_eqb t TBOM then ret tt else UnNext.

(** parser/proto.go:113-169: the statement switch of parseProtoBody.  The
    result is the list of nodes appended before [stmt] (the EmptyStatement of
    line 168) and [stmt] itself, nil in the default case. *)
Definition protoStmt (perm bic : bool) (n : nat) (token : token) (comments : list comment)
  : M (list visitee * visitee) :=
  match token with
  | TIMPORT => i <- ParseImport;; ret ([], with_comments comments (VImport i))
  | TPACKAGE => p <- ParsePackage;; ret ([], with_comments comments (VPackage p))
  | TOPTION => o <- ParseOption perm;; ret ([], with_comments comments (VOption o))
  | TMESSAGE => m <- ParseMessage perm bic n;; ret ([], with_comments comments (VMessage m))
  | TENUM => e <- ParseEnum perm bic;; ret ([], with_comments comments (VEnum e))
  | TSERVICE => s <- ParseService perm bic;; ret ([], with_comments comments (VService s))
  | TEXTEND => x <- ParseExtend perm bic;; ret ([], with_comments comments (VExtend x))
  | _ => ReadEmptyStatement;; ret ([VEmpty (mkEmpty None)], VNil)
  end.

(** parser/proto.go:92-173: the loop of parseProtoBody *)
Fixpoint protoBody_loop (perm bic : bool) (n : nat) (body : list visitee) : M (list visitee) :=
  match n with
  | O => oof
  | S n' =>
    comments <- ParseComments;;
    e <- p_IsEOF;;
    if e then ret (body ++ body_comments bic comments)
    else
      token <- peekKeyword;;
      '(pre, stmt) <- protoStmt perm bic n' token comments;;
      stmt <- MaybeScanInlineComment set_inline stmt;;
      protoBody_loop perm bic n' (body ++ pre ++ [stmt])
  end.

(** parser/proto.go:40-75 ParseProto.  [n] is the fuel of the body loop and of
    message nesting. *)
Definition ParseProto (perm bic : bool) (n : nat) : M proto :=
  parseBOM;;
  comments <- ParseComments;;
  syntax <- ParseSyntax;;
  syntax <- match syntax with
            | None => ret None
            | Some x =>
              x <- MaybeScanInlineComment (total_set set_sy_inline)
                     (mkSyntax (sy_version x) (sy_versionQuote x) comments (sy_inline x) (sy_meta x));;
              ret (Some x)
            end;;
  edition <- ParseEdition;;
  edition <- match edition with
             | None => ret None
             | Some x =>
               x <- MaybeScanInlineComment (total_set set_ed_inline)
                      (mkEdition (ed_edition x) (ed_editionQuote x) comments (ed_inline x) (ed_meta x));;
               ret (Some x)
             end;;
  body <- protoBody_loop perm bic n [];;
  filename <- gets (fun s => Filename (lpos s));;
  ret (mkProto syntax edition body filename).
