(** Kinds of statements, UnorderedInterpret and Accept on what Parse returns: C42, C25, C27. *)
From Coq Require Import List NArith ZArith Bool String Ascii.
From Verif Require Import Base Token Scanner Ast Parser Api Unordered Visitor Walk Spec Tree KindSpec VisitSpec Kinds Visits.
Import ListNotations.

(** C42: every body of an accepted file holds only statements that belong there, and
    comments only if asked for. *)
Theorem C42 : forall opts input pr, Parse opts input = Ok pr ->
  file_kinds (cfg_bodyIncludingComments (config_of opts)) (p_body pr) /\
  forall e, element pr e -> body_kinds (cfg_bodyIncludingComments (config_of opts)) e.
Proof. exact parse_kinds. Qed.
Print Assumptions C42.
Example C42_case : Parse [] class_text = Ok class_proto /\ UnorderedInterpret class_proto <> None /\
  exists p, Parse [] (lit "service S { ; }") = Ok p /\ UnorderedInterpret p = None.
Proof. exact class_case. Qed.

(** C25 is false (C25_refuted): these are exactly the accepted files for which
    UnorderedInterpret fails. *)
Theorem C25_partial : forall opts input pr, Parse opts input = Ok pr ->
  (UnorderedInterpret pr = None <->
   (exists x, In (VEmpty x) (p_body pr)) \/
   (exists b x, In (VService b) (p_body pr) /\ In (VEmpty x) (b_body b)) \/
   (exists l c, gone_through pr l /\ In (VComment c) l)).
Proof. exact unordered_class. Qed.
Print Assumptions C25_partial.
Theorem C25_plain_partial : forall opts input pr, Parse opts input = Ok pr ->
  cfg_bodyIncludingComments (config_of opts) = false ->
  (UnorderedInterpret pr = None <->
   (exists x, In (VEmpty x) (p_body pr)) \/
   (exists b x, In (VService b) (p_body pr) /\ In (VEmpty x) (b_body b))).
Proof. exact unordered_class_plain. Qed.
Print Assumptions C25_plain_partial.

(** C27 is false (C27_refuted): a visitor that always answers true is called for exactly
    the elements [shown] and their [shown_comments], and there is no panic unless the
    file has an empty statement at the top level. *)
Theorem C27_partial : forall opts input pr, Parse opts input = Ok pr -> ~ In VNil (p_body pr) ->
  exists log, accept_proto (list node) (logger (fun _ => true)) pr [] = (log, false) /\
    forall n, In n log <-> exists e, shown pr e /\
      (node_of e = Some n \/ exists c, In c (shown_comments e) /\ n = NComment c).
Proof. exact all_calls. Qed.
Print Assumptions C27_partial.
Example C27_case : Parse [] visit_text = Ok visit_proto /\ ~ In VNil (p_body visit_proto) /\
  List.length (fst (accept_proto (list node) (logger (fun _ => true)) visit_proto [])) = 6%nat /\
  exists f, shown visit_proto (EOneofField f) /\ oof_name f = lit "a".
Proof. exact visit_case. Qed.
