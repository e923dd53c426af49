(** C55: how far the scanner looks.  Theorems, concrete cases and nothing else. *)
From Coq Require Import List NArith ZArith Bool String Ascii.
From Verif Require Import Base Token Scanner ScanRefine ScanProps Lexer LookSpec Look.
Import ListNotations.

(** C55: a token, its position and the comments in front of it depend on the text
    taken and the character [b] behind it, and on nothing behind that. *)
Theorem C55 : forall s s' u b v v' y t x p e s1,
  nonul (rest s) -> nonul (rest s') -> mode s' = mode s -> pos s' = pos s -> rest s = u ++ b :: v -> rest s' = u ++ b :: v' ->
  Scan s = (Ok (t, x, p, e), s1) -> rest s1 = y ++ b :: v ->
  exists e' s1', Scan s' = (Ok (t, x, p, e'), s1') /\ (e = None <-> e' = None) /\ rest s1' = y ++ b :: v' /\ pos s1' = pos s1 /\
    exists l, comments s1 = comments s ++ l /\ comments s1' = comments s' ++ l.
Proof. exact one_look. Qed.
Print Assumptions C55.

(** The same for Next of the lexer: Token, Text, RawText and Pos. *)
Theorem C55_next : forall s s' u b v v' y s1,
  nonul (rest s) -> nonul (rest s') -> mode s' = mode s -> pos s' = pos s -> rest s = u ++ b :: v -> rest s' = u ++ b :: v' ->
  Next s = (Ok tt, s1) -> rest s1 = y ++ b :: v ->
  exists s1', Next s' = (Ok tt, s1') /\ ltok s1' = ltok s1 /\ ltext s1' = ltext s1 /\ lraw s1' = lraw s1 /\ lpos s1' = lpos s1 /\ rest s1' = y ++ b :: v' /\ pos s1' = pos s1 /\
    exists l, comments s1 = comments s ++ l /\ comments s1' = comments s' ++ l.
Proof. exact next_look. Qed.
Print Assumptions C55_next.

(** Any sequence of Scan, in any modes, and UnScan, not twice in a row. *)
Theorem C55_history : forall fn u b v v' ops, nonul (u ++ b :: v) -> nonul (u ++ b :: v') -> spaced ops ->
  stays ops (init_st fn (u ++ b :: v)) (b :: v) ->
  answers ops (init_st fn (u ++ b :: v')) = answers ops (init_st fn (u ++ b :: v)) /\ stays ops (init_st fn (u ++ b :: v')) (b :: v').
Proof. exact history_look. Qed.
Print Assumptions C55_history.
Example C55_case : let u := lit "a /* x */ 1.5e+2" in let v := lit ";  foo" in let v' := lit ";" ++ [NL] ++ lit "/* never closed" in
  nonul (u ++ v) /\ nonul (u ++ v') /\ spaced look_ops /\ stays look_ops (init_st [] (u ++ v)) v /\
  answers look_ops (init_st [] (u ++ v')) = [Some (TIDENT, lit "a", mkPos [] 0 1 1, false); Some (TFLOATLIT, lit "1.5e+2", mkPos [] 10 1 11, false); Some (TCOMMENT, lit "/* x */", mkPos [] 2 1 3, false)].
Proof. exact look_case. Qed.

(** The one character is needed. *)
Theorem C55_tight : exists u v v' s1 s1' t x p x', nonul (u ++ v) /\ nonul (u ++ v') /\ Scan (init_st [] (u ++ v)) = (Ok (t, x, p, None), s1) /\ rest s1 = v /\
  Scan (init_st [] (u ++ v')) = (Ok (t, x', p, None), s1') /\ x' <> x.
Proof. exact no_look. Qed.
Print Assumptions C55_tight.
