(** Permissive mode: cases. *)
From Coq Require Import List NArith ZArith Bool String Ascii Lia.
From Verif Require Import Base Token Scanner Lexer Lexing ScanRefine Ast Parser Api LexSpec AgreeSpec LockFile Refuted.
Import ListNotations.
Open Scope N_scope.

Lemma permissive_accepts opts input pr : nonul input -> Parse (opts ++ [WithPermissive false]) input = Ok pr -> exists pr', Parse (opts ++ [WithPermissive true]) input = Ok pr'.
Proof. intros N Q. destruct (permissive_all opts input pr N Q) as (pr' & Q' & _). exists pr'. exact Q'. Qed.
Definition permit_proto (o : list ParseOpt) (s : string) : proto := match Parse o (lit s) with Ok p => p | _ => mkProto None None [] [] end.
(** a text accepted in both modes, with different results *)
Definition both_accept (s : string) : Prop := nonul (lit s) /\ Parse [WithPermissive false] (lit s) = Ok (permit_proto [WithPermissive false] s) /\
  Parse [WithPermissive true] (lit s) = Ok (permit_proto [WithPermissive true] s) /\ permit_proto [WithPermissive true] s <> permit_proto [WithPermissive false] s.
Ltac both := split; [repeat constructor; discriminate|]; split; [vm_compute; reflexivity|]; split; [vm_compute; reflexivity|]; vm_compute; discriminate.
Definition permit_text : string :=
 "syntax = ""proto3"";" ++ nl ++ "option a.(b).c = ""x"";" ++ nl ++ "message M { message N { } // n" ++ nl ++ " ; int32 a = 1 [b = 'x', (c.d) = -1]; oneof o { string s = 2; } ; rpc ; } // m" ++ nl ++ "// k" ++ nl ++ " ; enum E { A = 0; } ;" ++ nl ++
 "service S { rpc R (A) returns (B) { option d = true; } ; ; }".
Lemma permit_case : both_accept permit_text. Proof. both. Qed.
(** the group does not parse; its text ends in a block and a semicolon *)
Definition permit_recovered : string := "message M { optional group G = 1 { message N { } ; option x ; oneof o { int32 y = 2; } ; }".
Lemma permit_recovery : both_accept permit_recovered. Proof. both. Qed.
(** a token is read twice *)
Definition permit_twice : string := "message M { message N { } ; optional group A = 1 { reserved ; }".
Lemma permit_twice_case : both_accept permit_twice. Proof. both. Qed.
(** text in a comment is read as code *)
Definition permit_exposed : string := "message M { enum N { } ; group A = 1 { int32 a /*" ++ nl ++ " ; } // */ //c".
Lemma permit_exposed_case : both_accept permit_exposed. Proof. both. Qed.
(** a text with NUL characters *)
Definition permit_nul : list rune := lit "message M {}" ++ repeat 0 6 ++ lit "x".
Definition permit_nul_proto : proto := match Parse [WithPermissive false] permit_nul with Ok p => p | _ => mkProto None None [] [] end.
Lemma permit_nul_strict : Parse [WithPermissive false] permit_nul = Ok permit_nul_proto. Proof. vm_compute. reflexivity. Qed.
Lemma permit_nul_permissive pr : Parse [WithPermissive true] permit_nul <> Ok pr. Proof. vm_compute. discriminate. Qed.
Lemma permit_refuted : exists input pr, Parse [WithPermissive false] input = Ok pr /\ (forall pr', Parse [WithPermissive true] input <> Ok pr') /\ input = lit "message M {}" ++ repeat 0 6 ++ lit "x".
Proof. exact (ex_intro _ permit_nul (ex_intro _ permit_nul_proto (conj permit_nul_strict (conj permit_nul_permissive eq_refl)))). Qed.

(** ** The same statements in both modes *)
Definition says_text : string :=
 "syntax = ""proto3"";" ++ nl ++ "package a.b; import weak ""x"";" ++ nl ++ "option a.(b).c = ""x \""y\"""";" ++ nl ++ "message M { message N { } // n" ++ nl ++ " ; int32 a = 1 [b = 'x\'', (c.d) = -1]; oneof o { string s = 2; option p = ''; } ; reserved 1 to 3, 5; } // m" ++ nl ++ "// k" ++ nl ++
 " ; enum E { A = 0 [ (e) = ""\\"" ]; } ;" ++ nl ++ "service S { rpc R (stream A) returns (.B.C) { option d = true; } ; ; }".
Definition says_strict := permit_proto [WithPermissive false] says_text.
Definition says_permissive := permit_proto [WithPermissive true] says_text.
Lemma says_case : nonul (lit says_text) /\ Parse [WithPermissive false] (lit says_text) = Ok says_strict /\ Parse [WithPermissive true] (lit says_text) = Ok says_permissive /\
  List.length (p_body says_strict) = 10%nat /\ List.length (p_body says_permissive) = 6%nat /\ List.length (say_body collapse (p_body says_strict)) = 6%nat /\
  say_body collapse (p_body says_strict) <> say_body (fun c => c) (p_body says_strict).
Proof. split; [repeat constructor; discriminate|]. do 5 (split; [vm_compute; reflexivity|]). vm_compute. discriminate. Qed.
(** a literal that ends in an escaped quote *)
Definition lost_text : string := "option a = ""x\"""";".
Definition lost_strict := permit_proto [WithPermissive false] lost_text.
Definition lost_permissive := permit_proto [WithPermissive true] lost_text.
Lemma lost_strict_ok : Parse [WithPermissive false] (lit lost_text) = Ok lost_strict. Proof. vm_compute. reflexivity. Qed.
Lemma lost_permissive_ok : Parse [WithPermissive true] (lit lost_text) = Ok lost_permissive. Proof. vm_compute. reflexivity. Qed.
Lemma lost_differ : say_proto (fun c => c) lost_strict <> say_proto (fun c => c) lost_permissive. Proof. vm_compute. discriminate. Qed.
Lemma says_refuted : exists input pr pr', nonul input /\ Parse [WithPermissive false] input = Ok pr /\ Parse [WithPermissive true] input = Ok pr' /\ say_proto (fun c => c) pr <> say_proto (fun c => c) pr'.
Proof.
  assert (N : nonul (lit lost_text)) by (repeat constructor; discriminate).
  exact (ex_intro _ (lit lost_text) (ex_intro _ lost_strict (ex_intro _ lost_permissive (conj N (conj lost_strict_ok (conj lost_permissive_ok lost_differ)))))).
Qed.
