(** Vocabulary for comparing two results of the parser.  Specification only. *)
From Coq Require Import List NArith ZArith Bool String Ascii.
From Verif Require Import Base Token Scanner Ast LexSpec Tree.
Import ListNotations.

(** a position with another file name *)
Definition relabel (fn : str) (p : mpos) : mpos := mkPos fn (Offset p) (Line p) (Column p).
Definition named (fn : str) (m : meta) : Prop := Filename (Pos m) = fn /\ Filename (LastPos m) = fn.
(** all comments of an element *)
Definition e_all (e : elem) : list comment := e_comments e ++ opt_list (fun c => c) (e_inline e) ++ e_inner e.
(** the positions in an error *)
Fixpoint err_positions (e : err) : list mpos :=
  match e with EScan p _ _ | ELex p _ _ | EParse p _ _ _ => [p] | EPair a b => err_positions a ++ err_positions b end.

(** the byte order mark *)
Definition BOM : rune := 0xFEFF%N.
(** a text whose first token is a byte order mark *)
Definition starts_with_bom (input : list rune) : Prop := exists g cs r, Gap g cs /\ input = g ++ BOM :: r.
(** a position without its column, and the same with the three bytes of a byte
    order mark in front of the text *)
Definition plain (p : mpos) : mpos := mkPos (Filename p) (Offset p) (Line p) 0.
Definition behind (p : mpos) : mpos := mkPos (Filename p) (Offset p + 3) (Line p) 0.
