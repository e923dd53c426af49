(** Panics on arbitrary texts: property theorems. *)
From Coq Require Import List NArith ZArith Bool String Ascii.
From Verif Require Import Base Token Scanner Ast Parser Api NoPanic.
Import ListNotations.

(** C02, for every text, with groups and NUL characters: a text without a
    semicolon or without a slash makes no Parse panic.
    Missing for C02, for which it is false (C02_refuted): texts with both. *)
Theorem C02_chars_partial : forall opts input, Parse opts input = Panic -> In (ch ";") input /\ In (ch "/") input.
Proof. exact panic_chars. Qed.
Print Assumptions C02_chars_partial.
Example C02_chars_case : exists input, Parse [] input = Panic /\ (exists a b, input = a ++ lit "group" ++ b) /\ In 0%N input.
Proof. exact chars_case. Qed.

(** C02 for the other exported methods of Parser: none of them panics, in any
    state of the lexer whatever was read before; MaybeScanInlineComment does not
    for a setter that is not nil.
    Missing for C02: ParseProto, for which it is false. *)
Theorem C02_methods_partial : forall A (m : M A), method A m -> forall s, fst (m s) <> Panic.
Proof. exact method_calm. Qed.
Print Assumptions C02_methods_partial.
Example C02_methods_case : fst (ParseMessage true false 100 (init_st [] (lit "message M { ; // c"))) <> Panic /\
  (exists b, fst (ParseMessage true false 100 (init_st [] (lit "message M { ; /* c */ }"))) = Ok b /\ List.length (b_body b) = 1%nat) /\
  Parse [] (lit "; // c") = Panic.
Proof. exact method_case. Qed.
