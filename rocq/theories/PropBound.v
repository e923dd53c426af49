(** Positions of errors: property theorems.  The specification is in Spec.v
    ([err_positions]) and LexSpec.v ([utf8_bytes], [newlines]). *)
From Coq Require Import List NArith ZArith Bool String Ascii.
From Verif Require Import Base Token Scanner Ast Api Spec LexSpec Utf8 Bound.
Import ListNotations.

(** C35: whatever the text, groups and NUL characters included, every position in the
    error returned is at most the end of the text.  Missing for C35: the offset can be
    negative (C35_refuted). *)
Theorem C35_partial : forall opts input e p, Forall valid_rune input -> Parse opts input = Err e -> In p (err_positions e) ->
  (Offset p <= utf8_bytes input)%Z /\ (Line p <= 1 + newlines input)%Z.
Proof. exact error_positions. Qed.
Print Assumptions C35_partial.
Example C35_case : exists e p, Parse [] (lit "message M { int32 a = }") = Err e /\ In p (err_positions e) /\ Offset p = 22%Z /\
  utf8_bytes (lit "message M { int32 a = }") = 23%Z.
Proof. exact position_case. Qed.

(** C35 on bytes: for well-formed UTF-8 the offset is at most the number of bytes. *)
Theorem C35_bytes_partial : forall opts rs e p, Forall valid_rune rs -> ParseBytes opts (flat_map encode_rune rs) = Err e ->
  In p (err_positions e) -> (Offset p <= Z.of_nat (List.length (flat_map encode_rune rs)))%Z.
Proof. exact error_positions_bytes. Qed.
Print Assumptions C35_bytes_partial.
