(** No comment is held twice: property theorems. *)
From Coq Require Import List NArith ZArith Bool String Ascii.
From Verif Require Import Base Token Scanner Ast Parser Api LexSpec Tree SimSpec HeldSpec Regular Refuted AttachCase Held HeldCase.
Import ListNotations.

(** C50: no two comments an AST holds, wherever they are in it, start at the same
    place of the text; but if there are a syntax and an edition, both hold the
    comments in front of the syntax.
    Missing for C50: texts that are not settled (as in C01) and have empty statements
    in messages outside the documented grammar; and the comments of an edition behind
    a syntax, for which it is false (the last theorem). *)
Theorem C50_partial : forall opts input pr c, c = config_of opts -> readable input -> ordinary c input pr -> Parse opts input = Ok pr ->
  NoDup (map c_start (held_proto false pr)) /\
  (forall s e, p_syntax pr = Some s -> p_edition pr = Some e -> ed_comments e = sy_comments s).
Proof. exact held_once. Qed.
Print Assumptions C50_partial.
Example C50_case : readable (lit attach_text) /\ ordinary (config_of []) (lit attach_text) attach_proto /\ Parse [] (lit attach_text) = Ok attach_proto /\
  map c_raw (held_proto true attach_proto) = map c_raw (held_proto false attach_proto) /\ (5 < List.length (held_proto false attach_proto))%nat.
Proof. exact held_case. Qed.

(** The comments meant are those of the elements a client reaches. *)
Theorem C50_meaning : forall pr c, In c (held_proto true pr) <-> exists e, element pr e /\ In c (e_all e).
Proof. exact held_elements. Qed.
Print Assumptions C50_meaning.

(** C50 refuted: a comment held by the syntax and by the edition. *)
Theorem C50_refuted : exists p c, Parse [] (lit ("// c" ++ nl ++ "syntax = ""proto3""; edition = ""2023"";")) = Ok p /\ held_proto true p = [c; c].
Proof. exact held_twice. Qed.
Print Assumptions C50_refuted.
