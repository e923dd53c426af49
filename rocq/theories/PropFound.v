(** What errors tell about the text: property theorems.  The specification is in
    FoundSpec.v ([err_found], [Shown]), LexSpec.v ([Gap], [EndGap]) and Tree.v ([at_text]). *)
From Coq Require Import List NArith ZArith Bool String Ascii.
From Verif Require Import Base Token Scanner Ast Api Spec LexSpec Tree GroupSpec FoundSpec Found Few ErrSize StrictFound.
Import ListNotations.

(** C43: the text an error reports as found stands in the source at the position the
    error reports, or behind the white space and comments that start there.  Missing for
    C43: the strict mode, where it is false (C43_strict_refuted), and texts with the
    heading of a group (false, C43_refuted) or with a NUL. *)
Theorem C43_partial : forall opts input e p x, readable input -> cfg_permissive (config_of opts) = true ->
  no_groups input ->
  Parse opts input = Err e -> In (p, x) (err_found e) -> Shown (cfg_filename (config_of opts)) input p x.
Proof. exact error_found. Qed.
Print Assumptions C43_partial.
Example C43_case : readable found_text /\ (exists e p1 p2, Parse [] found_text = Err e /\
  err_found e = [(p1, lit "}"); (p2, lit "}")] /\ Offset p1 = 34%Z /\ Offset p2 = 21%Z) /\ no_groups found_text.
Proof. exact found_case. Qed.

(** C43: false with groups. *)
Theorem C43_refuted : exists input e p x, Parse [] input = Err e /\ In (p, x) (err_found e) /\ ~ Shown [] input p x.
Proof. exact not_shown. Qed.
Print Assumptions C43_refuted.

(** C43: false in strict mode, without groups too: behind a field option the brace is
    un-read twice, and the error reports it where the equals sign stands. *)
Theorem C43_strict_refuted : readable strict_found /\ no_groups strict_found /\
  exists e p x, Parse [WithPermissive false] strict_found = Err e /\ In (p, x) (err_found e) /\ ~ Shown [] strict_found p x.
Proof. exact strict_shifted. Qed.
Print Assumptions C43_strict_refuted.

(** C35: without groups the position of an error is in the text. *)
Theorem C35_inside_partial : forall opts input e p, readable input -> cfg_permissive (config_of opts) = true ->
  no_groups input ->
  Parse opts input = Err e -> In p (err_positions e) -> (0 <= Offset p <= utf8_bytes input)%Z.
Proof. exact error_inside. Qed.
Print Assumptions C35_inside_partial.

(** C36: on texts without groups the size of the error is at most quadratic in the length
    of the text.  Missing for C36: texts with groups, for which it is false (C36_refuted);
    the strict mode; the work done. *)
Theorem C36_partial : forall opts input e, readable input -> cfg_permissive (config_of opts) = true ->
  no_groups input ->
  Parse opts input = Err e -> (err_size e <= (N.of_nat (List.length input) + 4) * (N.of_nat (List.length input) + 1))%N.
Proof. exact error_size. Qed.
Print Assumptions C36_partial.

(** C36: for any text, in any mode, the number of places an error reports is at most
    linear in the length of the text. *)
Theorem C36_places_partial : forall opts input e, Parse opts input = Err e ->
  (List.length (err_found e) <= List.length input + 4)%nat.
Proof. exact error_places. Qed.
Print Assumptions C36_places_partial.
Example C36_case : readable found_text /\ (exists e p1 p2, Parse [] found_text = Err e /\
  err_found e = [(p1, lit "}"); (p2, lit "}")] /\ Offset p1 = 34%Z /\ Offset p2 = 21%Z) /\ no_groups found_text.
Proof. exact found_case. Qed.
