(** Specification of the full identifier and the message type at the front of a text. *)
From Coq Require Import List NArith ZArith Bool String Ascii.
From Verif Require Import Base Token Scanner LexSpec.
Import ListNotations.
Open Scope N_scope.

(** the text [t] starts with the identifier [x], not followed by a further character of it *)
Definition ident_then (t : list rune) (x : str) (r : list rune) : Prop :=
  t = x ++ r /\ is_ident x /\ match r with [] => True | c :: _ => ~ ident_char c end.

(** [.ident]* as far as it goes: whitespace and comments may stand around the dots.  What is left is [r]. *)
Inductive DotTail : list rune -> str -> list rune -> Prop :=
| dt_end r : ~ (exists g cs t, Gap g cs /\ r = g ++ ch "." :: t) -> DotTail r [] r
| dt_dot g cs g' cs' t x r v r' : Gap g cs -> Gap g' cs' -> ident_then t x r -> DotTail r v r' ->
    DotTail (g ++ ch "." :: g' ++ t) (ch "." :: x ++ v) r'.
(** whitespace and comments [g], then ident[.ident]*: the name [v], the text [r] left *)
Inductive FullIdentAt : list rune -> list rune -> str -> list rune -> Prop :=
| fi_at g cs t x r v r' : Gap g cs -> ident_then t x r -> DotTail r v r' -> FullIdentAt (g ++ t) g (x ++ v) r'.
(** the same with an optional leading dot *)
Inductive MessageTypeAt : list rune -> list rune -> str -> list rune -> Prop :=
| mt_at t g v r : FullIdentAt t g v r -> MessageTypeAt t g v r
| mt_dot g cs t g' v r : Gap g cs -> FullIdentAt t g' v r -> MessageTypeAt (g ++ ch "." :: t) g (ch "." :: v) r.
(** what the reader leaves: [r], or nothing if only whitespace and comments follow *)
Definition left_over (r r' : list rune) : Prop := r' = r \/ (r' = [] /\ exists cs, EndGap r cs).
(** a name the text broke off: nothing, or ending in a dot *)
Definition cut (v : str) : Prop := v = [] \/ exists w, v = w ++ lit ".".
