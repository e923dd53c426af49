(** Parse returns on every settled text without NUL. *)
From Coq Require Import List NArith ZArith Bool String Ascii Lia Arith.
From Verif Require Import Base Token Scanner Lexer Ast Parser Api Lexing ScanRefine Cursor Pure Refine RefineFile Term Term2 GroupSpec GroupFree SettledCase.
Import ListNotations.
Open Scope N_scope.

Lemma parse_total n opts input : (List.length input < n)%nat -> nonul input -> settled input ->
  parse_fuel n opts input <> Fuel.
Proof.
  intros L N G. unfold parse_fuel. set (c := config_of opts).
  pose proof (parse_refines (cfg_permissive c) (cfg_bodyIncludingComments c) n (cfg_filename c) input N) as H.
  pose proof (t_proto (pos0 (cfg_filename c)) false (cfg_permissive c) (cfg_bodyIncludingComments c) n (start input) L) as T.
  assert (G' : good false (start input)) by (right; split; assumption). specialize (T G').
  destruct (qParseProto _ _ _ _ _) as [a k|kb ka|k w| | | |]; cbn [Term.OK out] in *; try discriminate; try contradiction.
  - destruct H as (s' & -> & _). discriminate.
  - destruct H as (e & s' & -> & _). discriminate.
  - destruct H as (e & s' & -> & _). discriminate.
  - destruct H as (e & s' & -> & _). discriminate.
  - destruct H as (s' & ->). discriminate.
Qed.

Lemma total_case : (nonul (lit "message A { B group = 1; }") /\ no_groups (lit "message A { B group = 1; }")) /\
  (nonul (lit settled_text) /\ settled (lit settled_text) /\ ~ no_groups (lit settled_text)).
Proof.
  split; [split; [repeat constructor; discriminate|]; apply group_in_free; vm_compute; reflexivity|].
  split; [repeat constructor; discriminate|]. split; [exact settled_ok|exact settled_group].
Qed.
