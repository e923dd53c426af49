(** The heading of a group in a text.  Specification only. *)
From Coq Require Import List NArith ZArith Bool String Ascii.
From Verif Require Import Base Token Scanner LexSpec.
Import ListNotations.
Open Scope N_scope.

(** "group Name = 1 {": the word, a capitalized name, an integer and the brace, with white space and
    comments between them *)
Inductive GroupHeading : list rune -> Prop :=
| group_heading g1 c1 c l g2 c2 g3 c3 num g4 c4 :
    Gap g1 c1 -> g1 <> [] -> is_ident (c :: l) -> ch "A" <= c <= ch "Z" -> Gap g2 c2 -> Gap g3 c3 -> is_int num -> Gap g4 c4 ->
    GroupHeading (lit "group" ++ g1 ++ (c :: l) ++ g2 ++ lit "=" ++ g3 ++ num ++ g4 ++ lit "{").
(** No heading of a group stands anywhere in the text, not even in a comment, in a string or
    as a part of longer words.  The word group may. *)
Definition no_groups (r : list rune) : Prop := forall a h b, GroupHeading h -> r <> a ++ h ++ b.

(** Every block comment that is opened is closed, every line comment ends in a
    newline, and the last character is no slash.  (Strings count as well: "//"
    in a string asks for a newline somewhere behind it.) *)
Definition comments_closed (r : list rune) : Prop :=
  (forall a b, r = a ++ lit "//" ++ b -> In NL b) /\
  (forall a b, r = a ++ lit "/*" ++ b -> exists x y, b = x ++ lit "*/" ++ y) /\
  (forall a, r <> a ++ lit "/").
Definition without (w r : list rune) : Prop := forall a b, r <> a ++ w ++ b.
(** The text behind each heading of a group is closed and has neither the word
    "extensions" nor the word "reserved".  A text without the heading of a group
    is settled. *)
Definition settled (r : list rune) : Prop := forall a h b, GroupHeading h -> r = a ++ h ++ b ->
  comments_closed b /\ without (lit "extensions") b /\ without (lit "reserved") b.
