(** Texts un-read with UnNextTo: property theorems. *)
From Coq Require Import List NArith ZArith Bool Arith String Ascii.
From Verif Require Import Base Token Scanner Lexer Slices SlicesProof SlicesCase.
Import ListNotations.
Local Open Scope nat_scope.

(** C52: every UnNext and UnNextTo puts back the text as it was handed out, if no text is
    un-read again after the lexer has read on from it; whatever capacities append chooses.
    Missing for C52: texts un-read a second time; false of the code, see C52_refuted. *)
Theorem C52_partial : forall grow l, (forall n, n < grow n) -> fresh l -> run grow l start = v_run l (mkLV [] []).
Proof. exact slices_values. Qed.
Print Assumptions C52_partial.
(** The lexer and the parser themselves un-read only texts they have just read, so that for
    them the values of Scanner.v and Lexer.v are right. *)
Theorem C52_library_partial : forall grow l, (forall n, n < grow n) -> library 0 l -> run grow l start = v_run l (mkLV [] []).
Proof. exact library_values. Qed.
Print Assumptions C52_library_partial.
Example C52_case : library 0 peek_calls /\ fresh peek_calls /\
  run go_grow peek_calls start = [None; None; Some [32; 61]%N; Some [97; 98]%N; None; Some [97; 98]%N].
Proof. exact peek_case. Qed.
(** A program keeps the text of the string literal of the input (quote, a, b, quote), un-reads
    it, reads two tokens and un-reads it again: a, b and two quotes are put back. *)
Theorem C52_refuted :
  fst (twice_program (init_st (lit "f") twice_input)) = Ok [[34; 97; 98; 34]; [34]; [97; 98]]%N /\
  run go_grow twice_calls start = [None; Some [34; 97; 98; 34]; None; None; Some [97; 98; 34; 34]]%N /\
  v_run twice_calls (mkLV [] []) = [None; Some [34; 97; 98; 34]; None; None; Some [34; 97; 98; 34]]%N.
Proof. exact twice_case. Qed.
Print Assumptions C52_refuted.
