(** Which comments of the text belong to an element: specification, in terms of
    the text only. *)
From Coq Require Import List NArith ZArith Bool String Ascii.
From Verif Require Import Base Token Scanner Ast LexSpec Tree.
Import ListNotations.

(** the node of the comment [x] that starts behind the text [w] *)
Definition comment_at (fn : str) (w : list rune) (x : str) (c : comment) : Prop :=
  c_raw c = x /\ at_text fn w (Pos (c_meta c)) /\ at_text fn (w ++ removelast x) (LastPos (c_meta c)).
(** the nodes of the comments of a gap behind the text [w] *)
Definition comments_at (fn : str) (w : list rune) (gs : list (list rune * str)) (cs : list comment) : Prop :=
  Forall2 (fun g c => comment_at fn (w ++ fst g) (snd g) c) gs cs.

(** Behind a token that starts behind [a] the gap's comments [gs] follow, [w] being
    the text up to the gap.  A first comment on the line of the token is the
    token's. *)
Definition without_inline (a w : list rune) (gs : list (list rune * str)) : list (list rune * str) :=
  match gs with
  | g :: gs' => if (newlines a =? newlines (w ++ fst g))%Z then gs' else gs
  | [] => []
  end.
(** a comment and what follows it *)
Definition comment_head (x r : list rune) : Prop :=
  is_block_comment x \/ (is_line_comment x /\ (r = [] \/ exists r', r = NL :: r')).
(** The token [y] starts behind [w]; the text [r] follows.  The inline comment is
    the comment that comes next, if it starts on the line of [y]. *)
Inductive Followed (fn : str) (w y r : list rune) : option comment -> Prop :=
| fl_some sp x r' c :
    r = sp ++ x ++ r' -> Spaces sp -> comment_head x r' -> newlines (w ++ y ++ sp) = newlines w ->
    comment_at fn (w ++ y ++ sp) x c -> Followed fn w y r (Some c)
| fl_none :
    (forall sp x r', r = sp ++ x ++ r' -> Spaces sp -> comment_head x r' -> newlines (w ++ y ++ sp) <> newlines w) ->
    Followed fn w y r None.

(** Element [e], with meta [m], in the text: in front of it the token [x], which
    starts behind [a], and a gap; behind its last token [y] the text [r].  Its
    comments are those of the gap that [lead] selects. *)
Definition leading := list rune -> list rune -> list (list rune * str) -> list (list rune * str) -> Prop.
Definition Attached (fn : str) (input : list rune) (pred : list rune -> str -> Prop) (lead : leading) (e : elem) (m : meta) : Prop :=
  exists a x g gs gs' body y r,
    input = a ++ x ++ g ++ body ++ y ++ r /\ pred a x /\ Gap g gs /\
    at_text fn (a ++ x ++ g) (Pos m) /\ at_text fn (a ++ x ++ g ++ body) (LastPos m) /\ ends_with e y /\
    lead a (a ++ x) gs gs' /\ comments_at fn (a ++ x) gs' (e_comments e) /\
    Followed fn (a ++ x ++ g ++ body) y r (e_inline e).
(** all but the inline comment of the token in front *)
Definition but_inline : leading := fun a w gs gs' => gs' = without_inline a w gs.
Definition every : leading := fun _ _ gs gs' => gs' = gs.
(** In a oneof the semicolons between the elements have no inline comment, so that
    the first comment of the gap may belong to the element. *)
Definition either : leading := fun a w gs gs' => but_inline a w gs gs' \/ every a w gs gs'.

(** The token in front of an element: the opening brace, the last token of the
    element before it, a semicolon if that is an empty statement (which has no
    position). *)
Definition behind (fn : str) (prev : option elem) (a : list rune) (x : str) : Prop :=
  match prev with
  | None => x = lit "{"
  | Some p => match e_meta p with Some m => at_text fn a (LastPos m) /\ ends_with p x | None => x = lit ";" end
  end.
(** ... of a field or option of a oneof *)
Definition in_oneof (a : list rune) (x : str) : Prop := x = lit "{" \/ x = lit ";".
(** ... of the first statement of a file: a byte order mark or nothing *)
Definition at_start (a : list rune) (x : str) : Prop :=
  (a = [] /\ x = []) \/ (x = [0xFEFF%N] /\ exists gs, Gap a gs).

Fixpoint last_of (l : list elem) : option elem := match l with [] => None | [e] => Some e | _ :: l => last_of l end.
Definition block_of (e : elem) : Prop :=
  match e with
  | EStmt (VMessage _) | EStmt (VEnum _) | EStmt (VService _) | EStmt (VExtend _) | EStmt (VGroupField _) => True
  | _ => False
  end.
Definition is_comment_node (e : elem) : Prop := exists c, e = EStmt (VComment c).
