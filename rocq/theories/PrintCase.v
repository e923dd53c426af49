(** Concrete texts for the round trip through the printer. *)
From Coq Require Import List NArith ZArith Bool String Ascii Lia.
From Verif Require Import Base Token Scanner Lexing ScanRefine Ast Parser Api LexSpec LexFacts LexProofs ScanFacts RefineFile Total Grammar GramFile GramCase Refuted Tree SndCase BareSpec PrintSpec Closed SettledCase.
Import ListNotations.
Open Scope N_scope.

(** a text with all kinds of statements, and with some of what the grammar does
    not allow: junk in front of a semicolon, a word behind "import" *)
Definition print_text : string :=
 "// v" ++ nl ++ "syntax=""proto2"" ; // s" ++ nl ++ "import foo ""a\""b.proto"";package a . b;" ++ nl ++
 "option (x.y).z = -0x1F; option s=""q\""r"" ;" ++ nl ++
 "/* m */ message M{// open" ++ nl ++ " optional .a.B x=1[(o)={ a:1, b { c: [-1, inf] } d : ""t"" }, deprecated=true];// f" ++ nl ++
 " map < string,M > mm=2; oneof o{option k=v;int32 i=3;M j=4;// j" ++ nl ++ "} extensions 100 to max; reserved 5,7 to 9; reserved ""p"",""q"";" ++ nl ++
 " enum E{A=0;B=-1[x=1];option allow_alias=true;reserved 3;} message I{} extend M{repeated float f=101;} junk ; ;}" ++ nl ++
 "service S{option c=1;rpc F(A)returns(stream .a.B){option g=1;} rpc G(stream A) returns (B) ; }" ++ nl ++ "extend M{} // end".
Definition print_proto : proto := Eval vm_compute in match Parse [] (lit print_text) with Ok p => p | _ => mkProto None None [] [] end.
Definition print_out : string :=
 "syntax = ""proto2"" ; import ""a\""b.proto"" ; package a.b ; option (x.y).z = -0x1F ; option s = ""q\""r"" ; message M { ".

Lemma no_sub (w l : str) : occurs w l = false -> forall a b, l <> a ++ w ++ b.
Proof. intros H a b E. pose proof (occurs_app w a b) as X. rewrite <- E, H in X. discriminate X. Qed.
Lemma plain_text l : occurs [backslash; DQ; DQ] l = false -> occurs [backslash; SQ; SQ] l = false -> (existsb (N.eqb DQ) l && existsb (N.eqb SQ) l = false)%bool -> plain_quotes l.
Proof.
  intros A B C. split.
  - intros a b q [-> | ->]; [exact (no_sub _ _ A a b)|exact (no_sub _ _ B a b)].
  - intros [X Y]. assert (E : forall c, In c l -> existsb (N.eqb c) l = true) by (intros c I; apply existsb_exists; exists c; split; [exact I|apply N.eqb_refl]).
    rewrite (E _ X), (E _ Y) in C. discriminate C.
Qed.
Lemma print_case : readable (lit print_text) /\ regular (lit print_text) print_proto /\ header_quotes print_proto /\ plain_quotes (lit print_text) /\ Parse [] (lit print_text) = Ok print_proto /\
  (exists r, print true print_proto = lit print_out ++ r) /\ print true print_proto <> lit print_text.
Proof.
  split; [repeat constructor; try discriminate; vm_compute; intuition discriminate|]. split; [left; apply free_settled, no_group; reflexivity|].
  split; [split; intros x E; [injection E as <-; exists DQ; reflexivity|discriminate E]|]. split; [apply plain_text; reflexivity|]. split; [vm_compute; reflexivity|]. split.
  - apply prefixb_split. vm_compute. reflexivity.
  - intros E. apply (f_equal (hd 0)) in E. vm_compute in E. discriminate E.
Qed.
(** strict mode: quotes of both kinds *)
Definition strict_text : string := "edition='2023';option a=""\"""";option b='""\'' /* c */;message M{A x=1[c='\''];}".
Definition strict_proto : proto := Eval vm_compute in match Parse [WithPermissive false] (lit strict_text) with Ok p => p | _ => mkProto None None [] [] end.
Lemma print_strict_case : readable (lit strict_text) /\ regular (lit strict_text) strict_proto /\ header_quotes strict_proto /\
  Parse [WithPermissive false] (lit strict_text) = Ok strict_proto /\
  print false strict_proto = lit "edition = '2023' ; option a = ""\"""" ; option b = '""\'' ; message M { A x = 1 [ c = '\'' ] ; } ".
Proof.
  split; [repeat constructor; try discriminate; vm_compute; intuition discriminate|]. split; [left; apply free_settled, no_group; reflexivity|].
  split; [split; intros x E; [discriminate E|injection E as <-; exists SQ; reflexivity]|]. split; vm_compute; reflexivity.
Qed.
(** groups *)
Lemma print_group_case : readable (lit group_text) /\ regular (lit group_text) group_proto /\ header_quotes group_proto /\ plain_quotes (lit group_text) /\
  Parse [] (lit group_text) = Ok group_proto.
Proof.
  destruct group_case as (A & B & C). split; [exact A|]. split; [exact B|]. split; [|split; [apply plain_text; reflexivity|exact C]].
  split; intros x E; [injection E as <-; exists DQ; reflexivity|discriminate E].
Qed.

(** permissive mode: joined strings *)
Definition join_text : string := "option a = ""x\""y"" /* c */ ""z""" ++ nl ++ " """";".
Definition join_proto : proto := Eval vm_compute in match Parse [WithPermissive true] (lit join_text) with Ok p => p | _ => mkProto None None [] [] end.
Lemma print_join_case : readable (lit join_text) /\ regular (lit join_text) join_proto /\ header_quotes join_proto /\ plain_quotes (lit join_text) /\
  Parse [WithPermissive true] (lit join_text) = Ok join_proto /\ print true join_proto = lit "option a = ""x\""yz"" ; ".
Proof.
  split; [repeat constructor; try discriminate; vm_compute; intuition discriminate|]. split; [left; apply free_settled, no_group; reflexivity|].
  split; [split; intros x E; discriminate E|]. split; [apply plain_text; reflexivity|]. split; vm_compute; reflexivity.
Qed.

(** the first string ends with an escaped quote: the joined text is no string *)
Definition lost_text : string := "option a = ""x"" ""\"""";".
Definition lost_proto : proto := Eval vm_compute in match Parse [WithPermissive true] (lit lost_text) with Ok p => p | _ => mkProto None None [] [] end.
Lemma lost_case : readable (lit lost_text) /\ Parse [WithPermissive true] (lit lost_text) = Ok lost_proto /\
  print true lost_proto = lit "option a = ""x\"" ; " /\ forall p, Parse [WithPermissive true] (print true lost_proto) <> Ok p.
Proof.
  split; [repeat constructor; try discriminate; vm_compute; intuition discriminate|]. split; [vm_compute; reflexivity|]. split; [vm_compute; reflexivity|].
  intros p E. vm_compute in E. discriminate E.
Qed.
