(** Grammar soundness and panics: property theorems. *)
From Coq Require Import List NArith ZArith Bool String Ascii.
From Verif Require Import Base Token Scanner ScanRefine Ast Parser Api LexSpec RefineFile Tree GroupSpec Grammar GramFile GramCase GramPanic SettledCase SndFile SndCase.
Import ListNotations.

(** C02: every panic on a settled text (as in C01) comes from a comment
    behind a semicolon at the top level, on the line of the semicolon, the text
    up to and including the semicolon being a file of the grammar.
    Missing for C02, for which it is false (C02_refuted): other files with groups. *)
Theorem C02_partial : forall opts input c, c = config_of opts -> readable input -> settled input ->
  Parse opts input = Panic ->
  exists its p x q p' rest vs sy ed,
    Lay false (pos0 (cfg_filename c)) input (its ++ [Tok (lit ";") p; Com x q]) p' rest /\ Line q = Line p /\
    File (cfg_permissive c) (cfg_bodyIncludingComments c) true (cfg_filename c) (its ++ [Tok (lit ";") p])
      (mkProto sy ed (vs ++ [VEmpty (mkEmpty None); VNil]) (cfg_filename c)).
Proof. exact panic_sound. Qed.
Print Assumptions C02_partial.
Example C02_partial_case : (readable (lit panic_text) /\ settled (lit panic_text) /\ Parse [] (lit panic_text) = Panic) /\
  (readable (lit settled_panic) /\ settled (lit settled_panic) /\ Parse [WithPermissive false] (lit settled_panic) = Panic).
Proof. exact (conj panic_case settled_panic_case). Qed.

(** C02, the converse: each such text does make Parse panic, groups or not,
    whatever the options. *)
Theorem C02_class_refuted : forall opts input its p x q R ws pr c, c = config_of opts -> readable input ->
  Layout true (pos0 (cfg_filename c)) input (its ++ Tok (lit ";") p :: Com x q :: R) -> Line q = Line p ->
  File (cfg_permissive c) (cfg_bodyIncludingComments c) false (cfg_filename c) (its ++ [Tok (lit ";") p]) pr ->
  p_body pr = ws ++ [VEmpty (mkEmpty None); VNil] ->
  Parse opts input = Panic.
Proof. exact panic_complete. Qed.
Print Assumptions C02_class_refuted.
Example C02_class_case : exists its p x q R pr, readable (lit panic_text) /\
  Layout true (pos0 []) (lit panic_text) (its ++ Tok (lit ";") p :: Com x q :: R) /\ Line q = Line p /\
  (forall perm bic, File perm bic false [] (its ++ [Tok (lit ";") p]) pr) /\
  p_body pr = [VPackage panic_package] ++ [VEmpty (mkEmpty None); VNil].
Proof.
  exact (ex_intro _ _ (ex_intro _ _ (ex_intro _ _ (ex_intro _ _ (ex_intro _ _ (ex_intro _ _
    (conj panic_readable (conj panic_layout (conj eq_refl (conj panic_file eq_refl)))))))))).
Qed.

(** C04: an accepted text that is settled (as in C01), or without an empty statement
    in the messages and groups of its AST, is laid out as tokens and
    comments, and these are a derivation of the grammar of Grammar.v, with its
    deviations, that denotes the AST.
    Missing for C04, for which it is false (C04_refuted and the theorems next to
    it): the deviations allowed by [File _ _ true], in particular that a field, an
    enum field or a group that breaks off at a semicolon ([CutField],
    [CutEnumField], [CutGroup]) becomes an empty statement; other files with groups
    and with empty statements in messages. *)
Theorem C04_partial : forall opts input pr c, c = config_of opts -> readable input -> regular input pr ->
  Parse opts input = Ok pr ->
  exists its, Layout false (pos0 (cfg_filename c)) input its /\
    File (cfg_permissive c) (cfg_bodyIncludingComments c) true (cfg_filename c) its pr.
Proof. exact regular_sound. Qed.
Print Assumptions C04_partial.
Example C04_partial_case : (readable (lit case_text) /\ regular (lit case_text) case_proto /\ Parse [] (lit case_text) = Ok case_proto) /\
  (readable (lit group_text) /\ regular (lit group_text) group_proto /\ Parse [] (lit group_text) = Ok group_proto) /\
  (readable (lit settled_text) /\ regular (lit settled_text) settled_proto /\ Parse [] (lit settled_text) = Ok settled_proto /\
   ~ no_groups (lit settled_text) /\ ~ no_empty_in_messages settled_proto).
Proof. exact (conj sound_case (conj group_case settled_case)). Qed.
Example C04_partial_cut_case : (readable (lit cut_text) /\ regular (lit cut_text) cut_proto /\ Parse [] (lit cut_text) = Ok cut_proto) /\
  CutField (map lit ["repeated"; "a"; "."]%string) /\ CutField (map lit ["a"; "b"; "="; "1"; "["; "c"]%string) /\
  CutGroup (map lit ["optional"; "group"; "G"; "="; "1"; "{"; "enum"]%string) /\
  CutEnumField (map lit ["A"; "="; "-"]%string) /\ CutField (map lit ["."; "x"; "."]%string).
Proof. exact cut_case. Qed.
