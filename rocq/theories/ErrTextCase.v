(** Cases for the theorems on the text of errors. *)
From Coq Require Import List NArith ZArith Bool String Ascii.
From Verif Require Import Base Token Scanner Ast Parser Api Refuted ErrText ErrTextFacts ErrMade.
Import ListNotations.
Local Open Scope string_scope.

Definition ascii_printable (c : rune) : bool := N.leb 32 c && N.ltb c 127.
Definition message_of (where_ : string) (e : err) : str := leaf_text ascii_printable (lit where_) e.
Definition unwrap_err (r : res proto) : err := match r with Err e => e | _ => EPair (ELex zero_pos "" []) (ELex zero_pos "" []) end.

(** two texts that differ behind the error, with the same message *)
Lemma same_message : exists e1 e2 m, Parse [] (lit "enum E }") = Err e1 /\ Parse [] (lit "enum E } enum F { }") = Err e2 /\
  Text ascii_printable e1 m /\ Text ascii_printable e2 m /\
  (exists p x t k, first_error e1 = EParse p x t k) /\ (exists p x t k, first_error e2 = EParse p x t k) /\
  m = lit "found ""\""}\""(Token=15, Pos=<input>:1:8)"" but expected [{] at enum.go:141".
Proof.
  exists (unwrap_err (Parse [] (lit "enum E }"))), (unwrap_err (Parse [] (lit "enum E } enum F { }"))), (message_of "enum.go:141" (unwrap_err (Parse [] (lit "enum E }")))).
  split; [vm_compute; reflexivity|]. split; [vm_compute; reflexivity|].
  set (e := unwrap_err (Parse [] (lit "enum E }"))). assert (E : unwrap_err (Parse [] (lit "enum E } enum F { }")) = e) by (vm_compute; reflexivity). rewrite E.
  assert (X : exists p x t k, e = EParse p x t k) by (vm_compute; do 4 eexists; reflexivity). destruct X as (p & x & t & k & X).
  assert (Y : message_of "enum.go:141" e = lit "found ""\""}\""(Token=15, Pos=<input>:1:8)"" but expected [{] at enum.go:141") by (vm_compute; reflexivity).
  rewrite X in *. split; [apply text_parse|]. split; [apply text_parse|]. split; [do 4 eexists; reflexivity|]. split; [do 4 eexists; reflexivity|exact Y].
Qed.
(** two texts with errors on different lines and the same message *)
Lemma unplaced : exists input1 input2 e1 e2 m, Parse [] input1 = Err e1 /\ Parse [] input2 = Err e2 /\
  (forall printable, Text printable e1 (m printable)) /\ (forall printable, Text printable e2 (m printable)) /\
  map Line (Spec.err_positions e1) = [1%Z] /\ map Line (Spec.err_positions e2) = [2%Z].
Proof.
  exists (lit ("option a = ""abc")), (lit (nl ++ "option a = ""abc")), (unwrap_err (Parse [] (lit ("option a = ""abc")))), (unwrap_err (Parse [] (lit (nl ++ "option a = ""abc")))), (fun printable => leaf_text printable [] (unwrap_err (Parse [] (lit ("option a = ""abc"))))).
  split; [vm_compute; reflexivity|]. split; [vm_compute; reflexivity|].
  assert (A : exists p, unwrap_err (Parse [] (lit ("option a = ""abc"))) = ELex p "constant" [] /\ Line p = 1%Z) by (vm_compute; eexists; split; reflexivity).
  assert (B : exists p, unwrap_err (Parse [] (lit (nl ++ "option a = ""abc"))) = ELex p "constant" [] /\ Line p = 2%Z) by (vm_compute; eexists; split; reflexivity).
  destruct A as (p & -> & LP). destruct B as (q & -> & LQ). split; [intros; apply text_lex|]. split; [intros pr; exact (text_lex pr q "constant" [] [])|].
  cbn. rewrite LP, LQ. auto.
Qed.

(** a string without end: the scanner has an error, Parse returns another one *)
Lemma unsurfaced : exists e s, ParseProto true false 100 (init_st [] (lit "option a = ""abc")) = (Err e, s) /\ Parse [] (lit "option a = ""abc") = Err e /\
  (exists p x c, scanErr s = Some (EScan p x c)) /\ exists p, e = ELex p "constant" [].
Proof. eexists. eexists. split; [vm_compute; reflexivity|]. split; [vm_compute; reflexivity|]. split; [do 3 eexists; reflexivity|eexists; reflexivity]. Qed.
