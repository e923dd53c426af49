(** A case for C50, and texts for which it is false. *)
From Coq Require Import List NArith ZArith Bool String Ascii.
From Verif Require Import Base Token Scanner Ast Parser Api LexSpec Tree SimSpec HeldSpec Regular SndCase Refuted AttachCase.
Import ListNotations.
Local Open Scope string_scope.

Lemma held_case : readable (lit attach_text) /\ ordinary (config_of []) (lit attach_text) attach_proto /\ Parse [] (lit attach_text) = Ok attach_proto /\
  map c_raw (held_proto true attach_proto) = map c_raw (held_proto false attach_proto) /\ (5 < List.length (held_proto false attach_proto))%nat.
Proof. destruct attach_parse as (A & B & C). split; [exact A|]. split; [left; exact B|]. split; [exact C|]. split; [reflexivity|]. vm_compute. repeat constructor. Qed.
Lemma held_twice : exists p c, Parse [] (lit ("// c" ++ nl ++ "syntax = ""proto3""; edition = ""2023"";")) = Ok p /\ held_proto true p = [c; c].
Proof. eexists. eexists. vm_compute. split; reflexivity. Qed.
