(** Which comments of the text belong to a declaration of an extension range:
    specification, in terms of the text only. *)
From Coq Require Import List NArith ZArith Bool String Ascii.
From Verif Require Import Base Token Scanner Ast LexSpec Tree AttachSpec.
Import ListNotations.

(** A comma has up to two inline comments: the second starts on the line of the first. *)
Definition without_inlines (a w : list rune) (gs : list (list rune * str)) : list (list rune * str) :=
  match gs with
  | g :: gs' => if (newlines a =? newlines (w ++ fst g))%Z then without_inline (w ++ fst g) w gs' else gs
  | [] => []
  end.
(** The token [y] starts behind [w]; the text [r] follows.  The last of up to two
    inline comments behind [y]. *)
Inductive Followed2 (fn : str) (w y r : list rune) : option comment -> Prop :=
| f2_none : Followed fn w y r None -> Followed2 fn w y r None
| f2_one sp x r' c :
    r = sp ++ x ++ r' -> Spaces sp -> comment_head x r' -> comment_at fn (w ++ y ++ sp) x c -> Followed fn w y r (Some c) ->
    Followed fn (w ++ y ++ sp) x r' None -> Followed2 fn w y r (Some c)
| f2_two sp x r' c c2 :
    r = sp ++ x ++ r' -> Spaces sp -> comment_head x r' -> comment_at fn (w ++ y ++ sp) x c -> Followed fn w y r (Some c) ->
    Followed fn (w ++ y ++ sp) x r' (Some c2) -> Followed2 fn w y r (Some c2).

(** The declaration [d] between [l1] and [l2]: in front of it a bracket or comma [x],
    which starts behind [a], and a gap; behind its closing brace a gap, a comma or
    bracket [z] and the text [r]. *)
Definition Declared (fn : str) (input : list rune) (l1 : list declaration) (d : declaration) (l2 : list declaration) : Prop :=
  exists a x g gs body g2 gs2 z r,
    input = a ++ x ++ g ++ body ++ lit "}" ++ g2 ++ z ++ r /\
    x = match l1 with [] => lit "[" | _ => lit "," end /\ Gap g gs /\
    at_text fn (a ++ x ++ g) (Pos (d_meta d)) /\ at_text fn (a ++ x ++ g ++ body) (LastPos (d_meta d)) /\
    comments_at fn (a ++ x) (match l1 with [] => without_inline a (a ++ x) gs | _ => without_inlines a (a ++ x) gs end) (d_comments d) /\
    Gap g2 gs2 /\ z = match l2 with [] => lit "]" | _ => lit "," end /\
    Followed2 fn (a ++ x ++ g ++ body ++ lit "}" ++ g2) z r (d_inline d).
