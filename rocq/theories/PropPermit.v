(** Permissive mode: property theorem. *)
From Coq Require Import List NArith ZArith Bool String Ascii.
From Verif Require Import Base Scanner Ast Api LexSpec Lexing ScanRefine AgreeSpec LockFile PermitFile.
Import ListNotations.

(** C23: every text without NUL that is accepted with permissive false is accepted
    with permissive true, the other options being the same.
    Missing for C23, for which it is false (C23_refuted): texts with NUL. *)
Theorem C23_partial : forall opts input pr, nonul input ->
  Parse (opts ++ [WithPermissive false]) input = Ok pr ->
  exists pr', Parse (opts ++ [WithPermissive true]) input = Ok pr'.
Proof. exact permissive_accepts. Qed.
Print Assumptions C23_partial.
Example C23_partial_case : both_accept permit_text /\ both_accept permit_recovered /\ both_accept permit_twice /\ both_accept permit_exposed.
Proof. exact (conj permit_case (conj permit_recovery (conj permit_twice_case permit_exposed_case))). Qed.

(** C23: false with NUL characters.  Behind the block the permissive parser looks for a
    semicolon, and the other one does not. *)
Theorem C23_refuted : exists input pr, Parse [WithPermissive false] input = Ok pr /\ (forall pr', Parse [WithPermissive true] input <> Ok pr') /\
  input = lit "message M {}" ++ repeat 0%N 6 ++ lit "x".
Proof. exact permit_refuted. Qed.
Print Assumptions C23_refuted.

(** C53: for every text without NUL that is accepted with permissive false, the AST with
    permissive true says the same: the same syntax, edition and statements in the same
    order with the same names, types, numbers and options, up to positions, comments and
    empty statements.  String constants that end in an escaped quote lose it ([collapse]).
    Missing for C53, for which it is false: these constants (C53_refuted), and texts with
    NUL (C23_refuted). *)
Theorem C53_partial : forall opts input pr, nonul input ->
  Parse (opts ++ [WithPermissive false]) input = Ok pr ->
  exists pr', Parse (opts ++ [WithPermissive true]) input = Ok pr' /\ agree pr pr'.
Proof. exact permissive_all. Qed.
Print Assumptions C53_partial.
Example C53_partial_case : nonul (lit says_text) /\ Parse [WithPermissive false] (lit says_text) = Ok says_strict /\ Parse [WithPermissive true] (lit says_text) = Ok says_permissive /\
  List.length (p_body says_strict) = 10%nat /\ List.length (p_body says_permissive) = 6%nat /\ List.length (say_body collapse (p_body says_strict)) = 6%nat /\
  say_body collapse (p_body says_strict) <> say_body (fun c => c) (p_body says_strict).
Proof. exact says_case. Qed.

(** C53: false as it stands; a constant that ends in an escaped quote is longer with
    permissive false. *)
Theorem C53_refuted : exists input pr pr', nonul input /\ Parse [WithPermissive false] input = Ok pr /\ Parse [WithPermissive true] input = Ok pr' /\
  say_proto (fun c => c) pr <> say_proto (fun c => c) pr'.
Proof. exact says_refuted. Qed.
Print Assumptions C53_refuted.
