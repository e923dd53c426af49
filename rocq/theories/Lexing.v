(** A pure lexer on rune lists.

    [plex m r] describes what one Scan in mode [m] does on a NUL-free remaining
    input [r]: the skipped gap, the comments met in it, the token, its text, the
    runes it consumed and the input left.  There is no state, no position and
    no un-reading.  ScanRefine.v proves that the model's [Scan] computes it. *)
From Coq Require Import List NArith ZArith Bool String Ascii Lia.
From Verif Require Import Base Token Scanner.
Import ListNotations.
Open Scope N_scope.

Fixpoint span (p : rune -> bool) (l : list rune) : list rune * list rune :=
  match l with
  | c :: l' => if p c then let '(a, b) := span p l' in (c :: a, b) else ([], l)
  | [] => ([], [])
  end.

Definition identStart (c : rune) : bool := isLetter c || (c =? ch "_").
Definition identChar (c : rune) : bool := isLetter c || isDecimalDigit c || (c =? ch "_").

(** Text up to and including the first [*/]. *)
Fixpoint find_close (l : list rune) : option (list rune * list rune) :=
  match l with
  | [] => None
  | c :: l' =>
    if (c =? ch "*") && (match l' with d :: _ => d =? ch "/" | [] => false end)
    then match l' with d :: l'' => Some ([c; d], l'') | [] => None end
    else match find_close l' with
         | Some (b, r) => Some (c :: b, r)
         | None => None
         end
  end.

(** Results of the literal scanners: success, runes consumed, runes left. *)
Definition lout := (bool * list rune * list rune)%type.

Definition head_is (p : rune -> bool) (l : list rune) : bool :=
  match l with c :: _ => p c | [] => false end.

(** exponent, starting at its letter *)
Definition pexp (l : list rune) : lout :=
  match l with
  | e :: l1 =>
    if head_is (fun c => (c =? ch "+") || (c =? ch "-")) l1 then
      match l1 with
      | sg :: l2 => let '(d, l3) := span isDecimalDigit l2 in
                    (negb (match d with [] => true | _ => false end), e :: sg :: d, l3)
      | [] => (false, [e], [])
      end
    else let '(d, l2) := span isDecimalDigit l1 in
         (negb (match d with [] => true | _ => false end), e :: d, l2)
  | [] => (false, [], [])
  end.

(** optional exponent behind the digits [d] *)
Definition popt_exp (d l : list rune) : lout :=
  if head_is is_e l then let '(ok, x, l2) := pexp l in (ok, d ++ x, l2) else (true, d, l).

Definition pfrac (l : list rune) : lout :=
  let '(d, l1) := span isDecimalDigit l in popt_exp d l1.
Definition pfracno (l : list rune) : lout :=
  let '(d, l1) := span isDecimalDigit l in
  match d with
  | [] => (false, [], l1)
  | _ => popt_exp d l1
  end.

Definition cons_out (w : list rune) (o : lout) : lout :=
  let '(ok, x, l) := o in (ok, w ++ x, l).

(** number literal starting with [c0] *)
Definition pnum (c0 : rune) (l : list rune) : token * lout :=
  if (c0 =? ch "0") && head_is (fun c => (c =? ch "x") || (c =? ch "X")) l then
    match l with
    | x :: l1 => let '(h, l2) := span isHexDigit l1 in
                 (TINTLIT, (negb (match h with [] => true | _ => false end), c0 :: x :: h, l2))
    | [] => (TINTLIT, (false, [], l))
    end
  else if c0 =? ch "." then (TFLOATLIT, cons_out [c0] (pfracno l))
  else if head_is (fun c => c =? ch ".") l then
    match l with
    | d :: l1 => (TFLOATLIT, cons_out [c0; d] (pfrac l1))
    | [] => (TFLOATLIT, (false, [], l))
    end
  else if head_is is_e l then (TFLOATLIT, cons_out [c0] (pexp l))
  else if c0 =? ch "0" then
    let '(d, l1) := span isOctalDigit l in (TINTLIT, (true, c0 :: d, l1))
  else
    let '(d, l1) := span isDecimalDigit l in
    if head_is (fun c => c =? ch ".") l1 then
      match l1 with
      | dt :: l2 => (TFLOATLIT, cons_out (c0 :: d ++ [dt]) (pfrac l2))
      | [] => (TFLOATLIT, (false, [], l))
      end
    else if head_is is_e l1 then (TFLOATLIT, cons_out (c0 :: d) (pexp l1))
    else (TINTLIT, (true, c0 :: d, l1)).

(** at most [k] runes of the class *)
Fixpoint upto (k : nat) (p : rune -> bool) (l : list rune) : list rune * list rune :=
  match k, l with
  | S k', c :: l' => if p c then let '(a, b) := upto k' p l' in (c :: a, b) else ([], l)
  | _, _ => ([], l)
  end.

(** what belongs to an escape, behind its backslash *)
Definition pesc (l : list rune) : list rune * list rune :=
  match l with
  | [] => ([], [])
  | c :: l' =>
    if (c =? ch "x") || (c =? ch "X") then let '(a, b) := upto 2 isHexDigit l' in (c :: a, b)
    else if isOctalDigit c then upto 3 isOctalDigit l
    else if isCharEscape c then ([c], l')
    else ([], l)
  end.

(** string literal behind its opening quote [q] *)
Fixpoint pstr (n : nat) (q : rune) (l : list rune) : lout :=
  match n with
  | O => (false, [], l)
  | S n' =>
    match l with
    | [] => (false, [], [])
    | c :: l' =>
      if c =? q then (true, [c], l')
      else if c =? NL then (false, [], l)
      else if c =? BSL then
        let '(a, b) := pesc l' in cons_out (c :: a) (pstr n' q b)
      else cons_out [c] (pstr n' q l')
    end
  end.

(** One token with what precedes it.  Comments are given with the runes of the
    gap that precede them. *)
Record lexed := mkLexed {
  lx_gap : list rune; lx_cms : list (list rune * str);
  lx_tok : token; lx_txt : str; lx_raw : list rune; lx_rest : list rune }.

Definition skip (w : list rune) (cm : list (list rune * str)) (x : lexed) : lexed :=
  mkLexed (w ++ lx_gap x) (cm ++ map (fun pc => (w ++ fst pc, snd pc)) (lx_cms x))
          (lx_tok x) (lx_txt x) (lx_raw x) (lx_rest x).

Definition identToken (m : smode) (ident : str) : token :=
  if has m ScanBoolLit && isBoolLit ident then TBOOLLIT
  else if has m ScanNumberLit && isFloatLitKeyword ident then TFLOATLIT
  else if has m ScanKeyword && negb (tok_eqb (asKeywordToken ident) TILLEGAL) then asKeywordToken ident
  else TIDENT.

(** a literal, or the illegal token with no text when it is malformed *)
Definition lit_token (t : token) (o : lout) : lexed :=
  let '(ok, w, r) := o in
  if ok then mkLexed [] [] t w w r else mkLexed [] [] TILLEGAL [] w r.

(** A comment with literal [l] and raw text [w] in front of [r]. *)
Definition comment_token (l w r : list rune) : lexed := mkLexed [] [([], l)] TCOMMENT l w r.

Fixpoint plex (n : nat) (m : smode) (r : list rune) : lexed :=
  match n with
  | O => mkLexed [] [] TILLEGAL [] [] r
  | S n' =>
    match r with
    | [] => mkLexed [] [] TEOF [] [] []
    | c :: r' =>
      if isSpace c then skip [c] [] (plex n' m r')
      else if identStart c then
        let '(x, r1) := span identChar r' in
        mkLexed [] [] (identToken m (c :: x)) (c :: x) (c :: x) r1
      else if c =? ch "/" then
        if head_is (fun d => d =? ch "/") r' then
          let '(b, r2) := span (fun d => negb (d =? NL)) r' in
          let nl := match r2 with d :: _ => [d] | [] => [] end in
          let r3 := match r2 with _ :: r3 => r3 | [] => [] end in
          if has m ScanComment then comment_token (c :: b) (c :: b ++ nl) r3
          else skip (c :: b ++ nl) [([], c :: b)] (plex n' m r3)
        else if head_is (fun d => d =? ch "*") r' then
          match r' with
          | d :: r2 =>
            match find_close r2 with
            | Some (b, r3) =>
              if has m ScanComment then comment_token (c :: d :: b) (c :: d :: b) r3
              else skip (c :: d :: b) [([], c :: d :: b)] (plex n' m r3)
            | None => mkLexed [] [] TILLEGAL [] r []
            end
          | [] => mkLexed [] [] TILLEGAL [] r []
          end
        else match r' with
             | d :: r2 => mkLexed [] [] TILLEGAL [] [c; d] r2
             | [] => mkLexed [] [] TILLEGAL [] [c] []
             end
      else if isQuote c && has m ScanStrLit then
        lit_token TSTRLIT (cons_out [c] (pstr (S (List.length r')) c r'))
      else if (isDecimalDigit c || (c =? ch ".")) && has m ScanNumberLit then
        let '(t, o) := pnum c r' in lit_token t o
      else mkLexed [] [] (asMiscToken c) [c] [c] r'
    end
  end.

(** enough fuel for [r] *)
Definition lex (m : smode) (r : list rune) : lexed := plex (S (List.length r)) m r.
