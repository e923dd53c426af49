(** Witnesses against properties that the code does not have.  Each lemma is an
    existence statement checked by computation in the model. *)
From Coq Require Import List NArith ZArith Bool String Ascii.
From Verif Require Import Base Token Scanner Lexer Ast Parser Api Unordered Visitor Spec Walk.
Import ListNotations.

Definition nl : string := String (ascii_of_nat 10) EmptyString.
Definition dq : string := String (ascii_of_nat 34) EmptyString.
Local Open Scope string_scope.

(** protoparser.go:52-70 Parse on a reader: the error of the reader is not looked
    at (lexer/scanner/scanner.go:71-74 returns the end-of-file rune for it). *)
Definition ParseReader (opts : list ParseOpt) (r : reader) : res proto := Parse opts (rd_runes r).

Lemma panic_example : exists opts input, Parse opts input = Panic.
Proof. exists [], (lit "; // c"). vm_compute. reflexivity. Qed.

(** text that the AST does not mention: an identifier and a field without number *)
Lemma junk_example : exists opts input p,
  Parse opts input = Ok p /\ input = lit "message M { foo ; repeated string x = ; }" /\
  map (fun v => match v with VMessage b => b_body b | _ => [] end) (p_body p)
  = [[VEmpty (mkEmpty None); VEmpty (mkEmpty None)]].
Proof. exists [], (lit "message M { foo ; repeated string x = ; }"). eexists. vm_compute. repeat split. Qed.

(** an unclosed group is closed by a text inside a comment *)
Lemma comment_as_code_example : exists input p,
  Parse [] input = Ok p /\ input = lit ("message M { group A = 1 { int32 a /*" ++ nl ++ " ; } // */ //c").
Proof. exists (lit ("message M { group A = 1 { int32 a /*" ++ nl ++ " ; } // */ //c")). eexists. vm_compute. repeat split. Qed.

(** unbalanced braces are accepted *)
Lemma unbalanced_example : exists input p,
  Parse [] input = Ok p /\ input = lit "message M { optional group A = 1 { reserved ; }".
Proof. exists (lit "message M { optional group A = 1 { reserved ; }"). eexists. vm_compute. repeat split. Qed.

(** a top level empty statement leaves a nil element in the body *)
Lemma nil_element_example : exists input p,
  Parse [] input = Ok p /\ In VNil (p_body p) /\ In (VEmpty (mkEmpty None)) (p_body p).
Proof. exists (lit ";"). eexists. vm_compute. repeat split; auto. Qed.

(** the walk over it panics *)
Lemma accept_panic_example : exists input p,
  Parse [] input = Ok p /\
  accept_proto (list node) (logger (fun _ => true)) p [] = ([NVisitee (VEmpty (mkEmpty None))], true).
Proof. exists (lit ";"). eexists. vm_compute. split; reflexivity. Qed.

Lemma unordered_fails_example : exists input p,
  Parse [] input = Ok p /\ UnorderedInterpret p = None.
Proof. exists (lit "service S { ; }"). eexists. vm_compute. split; reflexivity. Qed.
Lemma unordered_fails_comments_example : exists input p,
  Parse [WithBodyIncludingComments true] input = Ok p /\ UnorderedInterpret p = None.
Proof. exists (lit ("message M { int32 a = 1;" ++ nl ++ "// c" ++ nl ++ "}")). eexists. vm_compute. split; reflexivity. Qed.

(** the options of an rpc are not visited *)
Lemma unvisited_example : exists input p o,
  Parse [] input = Ok p /\
  In o (flat_map (fun v => match v with
                  | VService b => flat_map (fun w => match w with VRPC r => r_options r | _ => [] end) (b_body b)
                  | _ => [] end) (p_body p)) /\
  ~ In (NVisitee (VOption o)) (fst (accept_proto (list node) (logger (fun _ => true)) p [])).
Proof.
  exists (lit "service S { rpc F (A) returns (B) { option o = 1; } }"). eexists. eexists.
  split; [vm_compute; reflexivity|]. split; [left; reflexivity|].
  vm_compute. intros [H|[H|[]]]; discriminate.
Qed.

(** comments lost although bodyIncludingComments is set *)
Lemma lost_comment_examples :
  Forall (fun input => exists p,
      Parse [WithBodyIncludingComments true] input = Ok p /\ proto_comments p = [])
    [ lit ("message M { // c" ++ nl ++ "}");
      lit ("message M {" ++ nl ++ "// c" ++ nl ++ "}");
      lit ("service S { rpc F (A) returns (B) {" ++ nl ++ "// c" ++ nl ++ "} }");
      lit ("message M {" ++ nl ++ " // c" ++ nl ++ " ; }");
      lit "message M { int32 /* c */ a = 1; }" ].
Proof. repeat constructor; eexists; split; vm_compute; reflexivity. Qed.

(** a file name is cut short by a failing reader *)
Lemma read_error_example : exists r p,
  rd_end r = ReadFails /\ ParseReader [] r = Ok p.
Proof. exists (mkReader (lit "package a;") ReadFails). eexists. split; [reflexivity|]. vm_compute. reflexivity. Qed.

(** NUL characters hide what follows *)
Lemma nul_example : exists input p,
  Parse [] input = Ok p /\ input = (lit "package a;" ++ [0;0;0;0;0;0]%N ++ lit "garbage {{{")%list /\
  exists q, Parse [] (lit "package a;") = Ok q /\ p = q.
Proof.
  exists (lit "package a;" ++ [0;0;0;0;0;0]%N ++ lit "garbage {{{")%list. eexists.
  split; [vm_compute; reflexivity|]. split; [reflexivity|]. eexists. vm_compute. split; reflexivity.
Qed.

Definition option_values (p : proto) : list str :=
  flat_map (fun v => match v with VOption o => [op_constant o] | _ => [] end) (p_body p).
(** quotes of string literals lost or added *)
Lemma string_constant_examples :
  (exists p, Parse [] (lit ("option a = " ++ dq ++ "abc\" ++ dq ++ dq ++ ";")) = Ok p /\
             option_values p = [lit (dq ++ "abc\" ++ dq)]) /\
  (exists p, Parse [] (lit ("option a = 'a' " ++ dq ++ "b" ++ dq ++ ";")) = Ok p /\
             option_values p = [lit ("'a" ++ dq ++ "b" ++ dq ++ "'")]).
Proof. split; eexists; vm_compute; split; reflexivity. Qed.

Definition reserveds (p : proto) : list (list range * list str) :=
  flat_map (fun v => match v with
    | VMessage b => flat_map (fun w => match w with VReserved r => [(rs_ranges r, rs_names r)] | _ => [] end) (b_body b)
    | _ => [] end) (p_body p).
Lemma reserved_example : exists p,
  Parse [] (lit ("message M { reserved 1, " ++ dq ++ "foo" ++ dq ++ "; reserved 2 to foo bar; }")) = Ok p /\
  reserveds p = [([], [lit (dq ++ "foo" ++ dq)]); ([], [lit "bar"])].
Proof. eexists. vm_compute. split; reflexivity. Qed.

(** an oneof without fields *)
Lemma empty_oneof_example : exists p o,
  Parse [] (lit "message M { oneof a { option b = 1; } }") = Ok p /\
  flat_map (fun v => match v with VMessage b => b_body b | _ => [] end) (p_body p) = [VOneof o] /\
  oo_fields o = [].
Proof. eexists. eexists. vm_compute. repeat split. Qed.

(** [d] nested groups, the innermost with a malformed field *)
Fixpoint rep (n : nat) (s : string) : string := match n with O => "" | S n => s ++ rep n s end.
Definition nest (d : nat) : list rune := lit ("message M{" ++ rep d "group A=1{" ++ "int32 a=b").

(** the error position can be negative *)
Lemma negative_position_example : exists input e p,
  Parse [] input = Err e /\ In p (err_positions e) /\ (Offset p < 0)%Z.
Proof.
  exists (nest 8). destruct (Parse [] (nest 8)) as [|e| |] eqn:E; try (vm_compute in E; discriminate).
  exists e. exists (last (err_positions e) zero_pos). split; [reflexivity|].
  vm_compute in E. injection E as <-. vm_compute. split; [intuition | reflexivity].
Qed.

(** oneof.go:86 and extend.go:67 document an empty statement in a oneof and a
    group in an extend; proto.go:86 an empty statement at the top level. *)
Lemma incomplete_examples :
  Forall (fun input => exists e, forall opts, In opts [[]; [WithPermissive false]] -> Parse opts input = Err e)
    [ lit "message M { oneof o { int32 a = 1; ; } }";
      lit "extend M { optional group G = 1 { } }" ]
  /\ Parse [] (lit "; // c") = Panic.
Proof.
  split; [|vm_compute; reflexivity]. repeat constructor; eexists; intros opts [<-|[<-|[]]]; vm_compute; reflexivity.
Qed.
