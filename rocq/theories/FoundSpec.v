(** Specification of what an error tells about the text. *)
From Coq Require Import List NArith ZArith Bool String Ascii.
From Verif Require Import Base Token Scanner Ast LexSpec Tree.
Import ListNotations.

(** the positions of an error, each with the text found there *)
Fixpoint err_found (e : err) : list (mpos * str) :=
  match e with
  | EScan p _ c => [(p, [c])]
  | ELex p _ x => [(p, x)]
  | EParse p _ x _ => [(p, x)]
  | EPair a b => err_found a ++ err_found b
  end.

(** The text [x] stands in [input] at the position [p], or behind the white space and
    the comments that start at [p].  Nothing is found at the end of the text, where the
    last line comment needs no newline. *)
Definition Shown (fn : str) (input : list rune) (p : mpos) (x : str) : Prop :=
  exists a g cs b, input = a ++ g ++ x ++ b /\ (Gap g cs \/ (EndGap g cs /\ x = [] /\ b = [])) /\
    (at_text fn a p \/ at_text fn (a ++ g) p).
