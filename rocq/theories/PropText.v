(** The message of an error: property theorems. *)
From Coq Require Import List NArith ZArith Bool String Ascii.
From Verif Require Import Base Token Scanner Ast Parser Api Spec ErrText ErrTextFacts ErrMade ErrTextCase.
Import ListNotations.

(** C46: if two errors have the same message, and the first error in each was built
    by the parser, they name the same file, line and column, the same kind of token and the
    same text found there, whatever runes the Go library takes for printable and
    whatever lines of the parser raised them.
    Missing for C46, for which it is false (C46_refuted): errors built by the lexer. *)
Theorem C46_partial : forall printable e1 e2 m p1 x1 t1 k1 p2 x2 t2 k2, Text printable e1 m -> Text printable e2 m ->
  first_error e1 = EParse p1 x1 t1 k1 -> first_error e2 = EParse p2 x2 t2 k2 ->
  go_string t1 = go_string t2 /\ k1 = k2 /\ Line p1 = Line p2 /\ Column p1 = Column p2 /\ go_string (shown_name p1) = go_string (shown_name p2).
Proof. exact text_place. Qed.
Print Assumptions C46_partial.
Example C46_partial_case : exists e1 e2 m, Parse [] (lit "enum E }") = Err e1 /\ Parse [] (lit "enum E } enum F { }") = Err e2 /\
  Text ascii_printable e1 m /\ Text ascii_printable e2 m /\
  (exists p x t k, first_error e1 = EParse p x t k) /\ (exists p x t k, first_error e2 = EParse p x t k) /\
  m = lit "found ""\""}\""(Token=15, Pos=<input>:1:8)"" but expected [{] at enum.go:141".
Proof. exact same_message. Qed.

(** C46, errors of any kind: the message determines the field Found of the first. *)
Theorem C46_found_partial : forall printable e1 e2 m, Text printable e1 m -> Text printable e2 m ->
  go_string (found_text printable (first_error e1)) = go_string (found_text printable (first_error e2)).
Proof. exact text_found. Qed.
Print Assumptions C46_found_partial.

(** C46 does not hold of an error built by the lexer: its message has no place. *)
Theorem C46_refuted : exists input1 input2 e1 e2 m, Parse [] input1 = Err e1 /\ Parse [] input2 = Err e2 /\
  (forall printable, Text printable e1 (m printable)) /\ (forall printable, Text printable e2 (m printable)) /\
  map Line (err_positions e1) = [1%Z] /\ map Line (err_positions e2) = [2%Z].
Proof. exact unplaced. Qed.
Print Assumptions C46_refuted.

(** C47 is false throughout: an error that Parse returns consists of errors built by
    the lexer and the parser; none of the scanner's is ever among them. *)
Theorem C47_refuted : forall opts input e, Parse opts input = Err e -> Made e.
Proof. exact errors_made. Qed.
Print Assumptions C47_refuted.
Example C47_refuted_case : exists e s, ParseProto true false 100 (init_st [] (lit "option a = ""abc")) = (Err e, s) /\ Parse [] (lit "option a = ""abc") = Err e /\
  (exists p x c, scanErr s = Some (EScan p x c)) /\ exists p, e = ELex p "constant" [].
Proof. exact unsurfaced. Qed.
