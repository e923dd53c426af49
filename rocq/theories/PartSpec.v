(** What the parts of a statement say.  Specification only. *)
From Coq Require Import List NArith ZArith Bool String Ascii.
From Verif Require Import Base Token Scanner Ast LexSpec RefineFile Grammar Tree BareSpec.
Import ListNotations.

(** in the text, the token [w] at [p], then [mid], then the token [y] at [q] *)
Definition between (fn : str) (input : list rune) (w : str) (p : mpos) (mid : list item) (y : str) (q : mpos) : Prop :=
  exists a b, Layout false (pos0 fn) input (a ++ Tok w p :: mid ++ Tok y q :: b).

(** the tokens of a range, of ranges *)
Definition range_toks (r : range) : list str :=
  match rg_end r with [] => [rg_begin r] | e => [rg_begin r; lit "to"; e] end.
Fixpoint commas (l : list (list str)) : list str :=
  match l with [] => [] | [x] => x | x :: l => x ++ [lit ","] ++ commas l end.
Definition not_comma (x : str) : bool := if list_eq_dec N.eq_dec x (lit ",") then false else true.

(** string literals with the quote [q] and what they hold *)
Definition quoted (q : rune) (s : str) : str := [q] ++ s ++ [q].
Definition clear_of (q : rune) (s : str) : Prop := (forall s', s <> q :: s') /\ (forall s', s <> s' ++ [q]).

(** The text of a body and its elements: comment nodes stand for comments; every
    other element has the comments in front of it (an EmptyStatement has no field
    for them), reaches from its first token to its last one, and has the comment
    behind it.  No other comment is left outside the elements. *)
Inductive covered : list item -> list elem -> Prop :=
| cov_nil : covered [] []
| cov_comment x q ts l : covered ts l -> covered (Com x q :: ts) (EStmt (VComment (node (x, q))) :: l)
| cov_stmt cs ts il rest v l m : e_meta (EStmt v) = Some m -> (exists x mid y, ts = Tok x (Pos m) :: mid ++ [Tok y (LastPos m)]) ->
    e_comments (EStmt v) = nodes cs -> e_inline (EStmt v) = inode il -> covered rest l ->
    covered (coms cs ++ ts ++ icom il ++ rest) (EStmt v :: l)
| cov_empty cs ts il rest p l : covered rest l ->
    covered (coms cs ++ ts ++ [Tok (lit ";") p] ++ icom il ++ rest) (EStmt (VEmpty (mkEmpty (inode il))) :: l).
(** comment behind the opening brace *)
Definition brace_comment (e : elem) : option comment :=
  match e with
  | EStmt (VMessage b) | EStmt (VEnum b) | EStmt (VService b) | EStmt (VExtend b) => b_inlineLC b
  | EStmt (VGroupField g) => g_inlineLC g
  | _ => None
  end.
Definition keeps_empty (e : elem) : Prop := match e with EStmt (VEnum _) | EStmt (VService _) => True | _ => False end.
