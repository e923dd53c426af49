(** Properties that the code does not have: witnesses (see Refuted.v). *)
From Coq Require Import List NArith ZArith Bool String Ascii.
From Verif Require Import Base Token Scanner Ast Parser Api Unordered Visitor Spec Direct Walk Refuted.
Import ListNotations.

(** C02 *)
Theorem C02_refuted : exists opts input, Parse opts input = Panic.
Proof. exact panic_example. Qed.
Print Assumptions C02_refuted.

(** C04: two statements of the accepted text appear as empty statements; an unclosed
    message is accepted; text inside a comment is taken for code. *)
Theorem C04_refuted : exists opts input p,
  Parse opts input = Ok p /\ input = lit "message M { foo ; repeated string x = ; }" /\
  map (fun v => match v with VMessage b => b_body b | _ => [] end) (p_body p)
  = [[VEmpty (mkEmpty None); VEmpty (mkEmpty None)]].
Proof. exact junk_example. Qed.
Print Assumptions C04_refuted.
Theorem C04_refuted_unbalanced : exists input p,
  Parse [] input = Ok p /\ input = lit "message M { optional group A = 1 { reserved ; }".
Proof. exact unbalanced_example. Qed.
Print Assumptions C04_refuted_unbalanced.
Theorem C04_refuted_comment_as_code : exists input p,
  Parse [] input = Ok p /\ input = lit ("message M { group A = 1 { int32 a /*" ++ nl ++ " ; } // */ //c").
Proof. exact comment_as_code_example. Qed.
Print Assumptions C04_refuted_comment_as_code.

(** C21 *)
Theorem C21_refuted :
  Forall (fun input => exists p,
      Parse [WithBodyIncludingComments true] input = Ok p /\ proto_comments p = [])
    [ lit ("message M { // c" ++ nl ++ "}");
      lit ("message M {" ++ nl ++ "// c" ++ nl ++ "}");
      lit ("service S { rpc F (A) returns (B) {" ++ nl ++ "// c" ++ nl ++ "} }");
      lit ("message M {" ++ nl ++ " // c" ++ nl ++ " ; }");
      lit "message M { int32 /* c */ a = 1; }" ].
Proof. exact lost_comment_examples. Qed.
Print Assumptions C21_refuted.

(** C30: the last part, a oneof has a field *)
Theorem C30_refuted_oneof : exists p o,
  Parse [] (lit "message M { oneof a { option b = 1; } }") = Ok p /\
  flat_map (fun v => match v with VMessage b => b_body b | _ => [] end) (p_body p) = [VOneof o] /\
  oo_fields o = [].
Proof. exact empty_oneof_example. Qed.
Print Assumptions C30_refuted_oneof.

(** C31 *)
Theorem C31_refuted : exists r p, rd_end r = ReadFails /\ ParseReader [] r = Ok p.
Proof. exact read_error_example. Qed.
Print Assumptions C31_refuted.

(** C32: an escaped quote at the end of a literal loses its quote; mixed quotes stay inside *)
Theorem C32_refuted :
  (exists p, Parse [] (lit ("option a = " ++ dq ++ "abc\" ++ dq ++ dq ++ ";")) = Ok p /\
             option_values p = [lit (dq ++ "abc\" ++ dq)]) /\
  (exists p, Parse [] (lit ("option a = 'a' " ++ dq ++ "b" ++ dq ++ ";")) = Ok p /\
             option_values p = [lit ("'a" ++ dq ++ "b" ++ dq ++ "'")]).
Proof. exact string_constant_examples. Qed.
Print Assumptions C32_refuted.

(** C33 *)
Theorem C33_refuted : exists p,
  Parse [] (lit ("message M { reserved 1, " ++ dq ++ "foo" ++ dq ++ "; reserved 2 to foo bar; }")) = Ok p /\
  reserveds p = [([], [lit (dq ++ "foo" ++ dq)]); ([], [lit "bar"])].
Proof. exact reserved_example. Qed.
Print Assumptions C33_refuted.

(** C35 *)
Theorem C35_refuted : exists input e p,
  Parse [] input = Err e /\ In p (err_positions e) /\ (Offset p < 0)%Z.
Proof. exact negative_position_example. Qed.
Print Assumptions C35_refuted.

(** C37 *)
Theorem C37_refuted : exists input p,
  Parse [] input = Ok p /\ input = (lit "package a;" ++ [0;0;0;0;0;0]%N ++ lit "garbage {{{")%list /\
  exists q, Parse [] (lit "package a;") = Ok q /\ p = q.
Proof. exact nul_example. Qed.
Print Assumptions C37_refuted.
