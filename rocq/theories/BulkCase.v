(** A case for C51. *)
From Coq Require Import List NArith ZArith Bool String Ascii.
From Verif Require Import Base Token Scanner Ast Parser Api LexSpec HeldSpec BulkSpec Regular AttachCase.
Import ListNotations.

Lemma bulk_case : readable (lit attach_text) /\ ordinary (config_of []) (lit attach_text) attach_proto /\ Parse [] (lit attach_text) = Ok attach_proto /\
  ast_size attach_proto = 155%nat /\ List.length (lit attach_text) = 197%nat.
Proof. destruct attach_parse as (A & B & C). split; [exact A|]. split; [left; exact B|]. split; [exact C|]. vm_compute. split; reflexivity. Qed.
