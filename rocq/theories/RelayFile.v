(** Layout does not matter: the theorem for Parse and its cases (C09). *)
From Coq Require Import List NArith ZArith Bool String Ascii Lia.
From Verif Require Import Base Token Scanner Lexing ScanRefine Ast Parser Api LexFacts LexSpec LexProofs ScanFacts ScanProps RefineFile Grammar GramLex GramFile GramPanic
  GramCase BareSpec Relay Refuted.
Import ListNotations.
Open Scope N_scope.

Lemma relayout opts input input' its its' pr c : c = config_of opts -> readable input' ->
  Layout true (pos0 (cfg_filename c)) input its -> Layout true (pos0 (cfg_filename c)) input' its' -> toks its' = toks its ->
  File (cfg_permissive c) (cfg_bodyIncludingComments c) false (cfg_filename c) its pr ->
  (exists pr', Parse opts input' = Ok pr' /\ bare_proto pr' = bare_proto pr) \/ (Parse opts input' = Panic /\ In VNil (p_body pr)).
Proof.
  intros Ec RD _ LY E HF. destruct (File_move _ _ _ _ _ _ HF _ E) as [(pr' & HF' & EQ)|(IN & its0 & p & x & q & R & ws & pr' & -> & LQ & HF' & EB)].
  - left. exists pr'. split; [exact (parse_complete _ _ _ _ _ Ec RD LY HF')|exact EQ].
  - right. split; [|exact IN]. exact (panic_complete _ _ _ _ _ _ _ _ _ _ Ec RD LY LQ HF' EB).
Qed.
Theorem layout_free opts input input' its its' pr c : c = config_of opts -> readable input -> readable input' ->
  Layout true (pos0 (cfg_filename c)) input its -> Layout true (pos0 (cfg_filename c)) input' its' -> toks its' = toks its ->
  File (cfg_permissive c) (cfg_bodyIncludingComments c) false (cfg_filename c) its pr ->
  Parse opts input = Ok pr /\
  ((exists pr', Parse opts input' = Ok pr' /\ bare_proto pr' = bare_proto pr) \/ (Parse opts input' = Panic /\ In VNil (p_body pr))).
Proof. intros Ec RD RD' LY LY' E HF. split; [exact (parse_complete _ _ _ _ _ Ec RD LY HF)|]. exact (relayout _ _ _ _ _ _ _ Ec RD' LY LY' E HF). Qed.

(** another layout of the file of GramCase.v *)
Definition relay_pieces : list piece :=
 [PTok "" "syntax"; PTok "" "="; PTok "" """"; PTok "" "proto3"; PTok "" """"; PTok " " ";";
  PTok "  " "message"; PLine "" "// a"; PLine "" "// b"; PTok "" "M"; PTok "" "{"; PTok "" "repeated"; PBlock "" "/**/"; PTok "" "."; PTok "" "a"; PTok " " "."; PTok " " "B"; PTok " " "x"; PTok "" "="; PTok "" "1"; PTok "" ";";
  PTok "" "}"; PLine "" "// c";
  PTok "" "service"; PTok " " "S"; PTok "" "{"; PTok "" "rpc"; PTok " " "F"; PTok "" "("; PTok "" "A"; PTok "" ")"; PTok "" "returns";
  PTok "" "("; PTok "" "stream"; PTok " " "B"; PTok "" ")"; PTok "" ";"; PTok "" "}"].
Definition relay_text : string :=
 "syntax=""proto3"" ;  message// a" ++ nl ++ "// b" ++ nl ++ "M{repeated/**/.a . B x=1;}// c" ++ nl ++ "service S{rpc F(A)returns(stream B);}".
Example relay_render : render relay_pieces = lit relay_text. Proof. reflexivity. Qed.
Definition relay_items : list item := Eval vm_compute in items_of (pos0 []) relay_pieces.
Lemma relay_layout : Layout true (pos0 []) (lit relay_text) relay_items.
Proof.
  rewrite <- relay_render. change relay_items with (items_of (pos0 []) relay_pieces). apply render_layout. unfold relay_pieces. cbn [pieces_ok].
  repeat match goal with
  | |- _ /\ _ => split
  | |- True => exact I
  | |- Spaces _ => space
  | |- is_line_comment _ => eexists; split; [reflexivity|cbn; intuition discriminate]
  end.
  all: try (solve [id]). all: try (solve [pct]).
  - exists []. split; [reflexivity|]. block.
  - right. left. split; [left; left; exists (ch "1"), []; split; [reflexivity|split; [vm_compute; split; discriminate|constructor]]|].
    split; [intros H; apply ident_char_iff in H; discriminate H|discriminate].
Qed.
Lemma relay_readable : readable (lit relay_text).
Proof. repeat constructor; try discriminate; vm_compute; intuition discriminate. Qed.
Lemma relay_case : (readable (lit case_text) /\ readable (lit relay_text)) /\ Layout true (pos0 []) (lit case_text) case_items /\ Layout true (pos0 []) (lit relay_text) relay_items /\
  toks relay_items = toks case_items /\ (forall perm bic, File perm bic false [] case_items case_proto) /\ case_items <> relay_items.
Proof.
  split; [split; [exact case_readable|exact relay_readable]|]. split; [exact case_layout|]. split; [exact relay_layout|]. split; [reflexivity|]. split; [exact case_file|discriminate].
Qed.

(** a comment behind a top level semicolon *)
Definition semi_items : list item := [Tok (lit ";") (pos0 [])].
Definition semi_com_items : list item := items_of (pos0 []) [PTok "" ";"; PBlock " " "/**/"].
Lemma layout_matters :
  Layout true (pos0 []) (lit ";") semi_items /\ Layout true (pos0 []) (lit "; /**/") semi_com_items /\ toks semi_com_items = toks semi_items /\
  (exists p, Parse [] (lit ";") = Ok p) /\ Parse [] (lit "; /**/") = Panic.
Proof.
  split; [|split; [|split; [reflexivity|split; [eexists; vm_compute; reflexivity|vm_compute; reflexivity]]]].
  - apply (render_layout [PTok "" ";"] (pos0 [])). cbn [pieces_ok]. split; [|exact I]. split; [space|]. pct.
  - apply (render_layout [PTok "" ";"; PBlock " " "/**/"] (pos0 [])). cbn [pieces_ok]. split; [split; [space|pct]|]. split; [|exact I]. split; [space|]. exists []. split; [reflexivity|]. block.
Qed.

(** a group closed by text inside a comment *)
Fixpoint pieces_before (tail : str) (l : list piece) : Prop :=
  match l with
  | [] => True
  | a :: l =>
    match a with
    | PTok sp x => Spaces (lit sp) /\ token_at true (lit x) (render l ++ tail)
    | PLine sp x => Spaces (lit sp) /\ is_line_comment (lit x)
    | PBlock sp x => Spaces (lit sp) /\ is_block_comment (lit x)
    end /\ pieces_before tail l
  end.
Lemma lay_before tail its p' r' : forall l p, pieces_before tail l -> Lay true (posafter p (render l)) tail its p' r' ->
  Lay true p (render l ++ tail) (items_of p l ++ its) p' r'.
Proof.
  induction l as [|a l IH]; intros p H HL.
  - exact HL.
  - destruct H as [H HR]. cbn [render items_of] in *. rewrite posafter_app in HL. specialize (IH (posafter p (ptext a)) HR HL).
    destruct a as [sp x|sp x|sp x]; destruct H as [S X]; cbn [ptext app] in *; rewrite <- !app_assoc.
    + apply lay_tok; assumption.
    + apply lay_line; assumption.
    + apply lay_block; assumption.
Qed.
Definition hidden_pieces : list piece :=
 [PTok "" "message"; PTok " " "M"; PTok " " "{"; PTok " " "group"; PTok " " "A"; PTok " " "="; PTok " " "1"; PTok " " "{"; PTok " " "int32"; PTok " " "a"].
Definition hidden_block : piece := PBlock " " ("/*" ++ nl ++ " ; } // */").
Definition hidden_text : str := lit ("message M { group A = 1 { int32 a /*" ++ nl ++ " ; } // */ //c").
Definition open_text : str := lit "message M { group A = 1 { int32 a".
Definition hidden_items : list item := items_of (pos0 []) (hidden_pieces ++ [hidden_block]) ++ [Com (lit "//c") (posafter (pos0 []) (render (hidden_pieces ++ [hidden_block]) ++ lit " "))].
Definition open_items : list item := items_of (pos0 []) hidden_pieces.
Definition accepted (r : res proto) : bool := match r with Ok _ => true | _ => false end.
Lemma layout_hides : Layout true (pos0 []) hidden_text hidden_items /\ Layout true (pos0 []) open_text open_items /\ toks hidden_items = toks open_items /\
  accepted (Parse [] hidden_text) = true /\ accepted (Parse [] open_text) = false.
Proof.
  split; [|split; [|split; [vm_compute; reflexivity|split; vm_compute; reflexivity]]].
  - exists (posafter (posafter (pos0 []) (render (hidden_pieces ++ [hidden_block]))) (lit " " ++ lit "//c")), []. split; [|constructor].
    change hidden_text with (render (hidden_pieces ++ [hidden_block]) ++ lit " //c"). unfold hidden_items. apply lay_before.
    + cbn [hidden_pieces app pieces_before].
      repeat match goal with
      | |- _ /\ _ => split
      | |- True => exact I
      | |- Spaces _ => space
      end.
      all: try (solve [id]). all: try (solve [pct]).
      * right. left. split; [left; left; exists (ch "1"), []; split; [reflexivity|split; [vm_compute; split; discriminate|constructor]]|].
        split; [intros H; apply ident_char_iff in H; discriminate H|discriminate].
      * split; [space|]. exists (lit (nl ++ " ; } // ")). split; [reflexivity|]. block.
    + rewrite posafter_app. change (lit " //c") with (lit " " ++ lit "//c"). apply lay_line_end; [space|]. eexists; split; [reflexivity|cbn; intuition discriminate].
  - change open_text with (render hidden_pieces). apply render_layout. cbn [hidden_pieces pieces_ok].
    repeat match goal with
    | |- _ /\ _ => split
    | |- True => exact I
    | |- Spaces _ => space
    end.
    all: try (solve [id]). all: try (solve [pct]).
    + right. left. split; [left; left; exists (ch "1"), []; split; [reflexivity|split; [vm_compute; split; discriminate|constructor]]|].
      split; [intros H; apply ident_char_iff in H; discriminate H|discriminate].
    + left. split; [apply identb_iff; reflexivity|exact I].
Qed.
