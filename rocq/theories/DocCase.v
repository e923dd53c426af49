(** A text of the documented grammar with a group and with empty statements in a message and in a group. *)
From Coq Require Import List NArith ZArith Bool String Ascii Lia.
From Verif Require Import Base Token Scanner Lexing ScanRefine Ast Parser Api LexFacts LexSpec LexProofs ScanFacts ScanProps RefineFile Tree GroupSpec
  Grammar GramLex GramCase Refuted Regular.
Import ListNotations.
Open Scope N_scope.

Definition doc_pieces : list piece :=
 [PTok "" "message"; PTok " " "M"; PTok " " "{"; PTok " " ";"; PLine " " "// m";
  PTok " " "optional"; PTok " " "group"; PTok " " "G"; PTok " " "="; PTok " " "1"; PTok " " "{"; PTok " " ";"; PTok " " "}"; PBlock " " "/* reserved */"; PTok " " "}"].
Definition doc_text : string := "message M { ; // m" ++ nl ++ " optional group G = 1 { ; } /* reserved */ }".
Example doc_render : render doc_pieces = lit doc_text. Proof. reflexivity. Qed.
Definition doc_items : list item := Eval vm_compute in items_of (pos0 []) doc_pieces.
Definition dseg (i n : nat) : list item := firstn n (skipn i doc_items).
Definition dps (i : nat) : mpos := match nth i doc_items (Tok [] zero_pos) with Tok _ p | Com _ p => p end.
Definition dcom (i : nat) : str * mpos := match nth i doc_items (Tok [] zero_pos) with Tok x p | Com x p => (x, p) end.
Definition doc_group : groupField :=
  mkGroupField false false true (lit "G") [VEmpty (mkEmpty None)] (lit "1") [] (Some (node (dcom 13))) None (mkMeta (dps 5) (dps 12)).
Definition doc_message : block :=
  mkBlock (lit "M") [VEmpty (mkEmpty (Some (node (dcom 4)))); VGroupField doc_group] [] None None (mkMeta (dps 0) (dps 14)).
Definition doc_proto : proto := mkProto None None [VMessage doc_message] [].
Lemma doc_parse : Parse [] (lit doc_text) = Ok doc_proto. Proof. vm_compute. reflexivity. Qed.
Lemma doc_readable : readable (lit doc_text).
Proof. repeat constructor; try discriminate; vm_compute; intuition discriminate. Qed.
Lemma doc_layout : Layout true (pos0 []) (lit doc_text) doc_items.
Proof.
  rewrite <- doc_render. change doc_items with (items_of (pos0 []) doc_pieces). apply render_layout. unfold doc_pieces. cbn [pieces_ok].
  repeat match goal with
  | |- _ /\ _ => split
  | |- True => exact I
  | |- Spaces _ => space
  | |- is_line_comment _ => eexists; split; [reflexivity|cbn; intuition discriminate]
  end.
  all: try (solve [id]). all: try (solve [pct]).
  - right. left. split; [left; left; exists (ch "1"), []; split; [reflexivity|split; [vm_compute; split; discriminate|constructor]]|].
    split; [intros H; apply ident_char_iff in H; discriminate H|discriminate].
  - exists (lit " reserved "). split; [reflexivity|]. block.
Qed.
Lemma doc_file_any perm : File perm false false [] doc_items doc_proto.
Proof.
  change doc_items with ([] ++ coms [] ++ [] ++ [] ++ doc_items). change doc_proto with (mkProto None None ([VMessage doc_message] ++ trailing false []) []).
  apply file_intro; [constructor|exact I|constructor; notw|constructor; notw|].
  change doc_items with (coms [] ++ dseg 0 15 ++ icom None ++ coms []).
  apply (fss_cons perm false false [] (dseg 0 15) (VMessage doc_message) (lit "}") (dps 14) None (coms []) [] []); [|exact I|reflexivity|exact I|right; right; discriminate|apply fss_nil].
  apply fs_message. change (dseg 0 15) with (dseg 0 1 ++ dseg 1 1 ++ dseg 2 13).
  apply (message_intro perm false false (nodes []) None _ (dps 0) _ (lit "M") (dps 1) _ _ None (dps 14)); [tok|tok|ident|].
  change (dseg 2 13) with (dseg 2 1 ++ icom None ++ dseg 3 11 ++ dseg 14 1).
  apply (body_stmts perm false false true (MessageStmt perm false false) _ (dps 2) None _ [VEmpty (mkEmpty (Some (node (dcom 4)))); VGroupField doc_group] []);
    [tok|exact I| |exact I|apply close_brace; tok|right; discriminate].
  change (dseg 3 11) with (coms [] ++ dseg 3 1 ++ icom (Some (dcom 4)) ++ dseg 5 9).
  apply (sts_cons perm false (MessageStmt perm false false) [] _ (VEmpty (mkEmpty (Some (node (dcom 4))))) (lit ";") (dps 3) (Some (dcom 4)) _ [VGroupField doc_group] []);
    [apply ms_empty, (empty_intro false _ (Some (node (dcom 4))) (dps 3))|exact I|reflexivity|reflexivity|right; right; discriminate|].
  change (dseg 5 9) with (coms [] ++ dseg 5 8 ++ icom (Some (dcom 13)) ++ coms []).
  apply (sts_cons perm false (MessageStmt perm false false) [] _ (VGroupField doc_group) (lit "}") (dps 12) (Some (dcom 13)) _ [] []);
    [|exact I|reflexivity|reflexivity|right; right; discriminate|apply sts_nil].
  change (dseg 5 8) with (dseg 5 1 ++ dseg 6 1 ++ dseg 7 1 ++ dseg 8 1 ++ dseg 9 1 ++ dseg 10 3).
  apply (ms_group perm false false (nodes []) (Some (node (dcom 13))) _ (dps 5) false false true _ _ (lit "G") (dps 7) _ _ (lit "1") (dps 9) _ _ None (dps 12));
    [apply lb_optional; tok|key|tok|ident|exists (ch "G"), []; split; [reflexivity|vm_compute; split; discriminate]|key|tok| |].
  { left. exists (ch "1"), []. split; [reflexivity|]. split; [vm_compute; split; discriminate|constructor]. }
  change (dseg 10 3) with (dseg 10 1 ++ icom None ++ dseg 11 1 ++ dseg 12 1).
  apply (body_stmts perm false false true (MessageStmt perm false false) _ (dps 10) None _ [VEmpty (mkEmpty None)] []);
    [tok|exact I| |exact I|apply close_brace; tok|right; discriminate].
  change (dseg 11 1) with (coms [] ++ dseg 11 1 ++ icom None ++ coms []).
  apply (sts_cons perm false (MessageStmt perm false false) [] _ (VEmpty (mkEmpty None)) (lit ";") (dps 11) None _ [] []);
    [apply ms_empty, (empty_intro false _ None (dps 11))|exact I|reflexivity|exact I|right; right; discriminate|apply sts_nil].
Qed.
Lemma doc_file : File true false false [] doc_items doc_proto. Proof. exact (doc_file_any true). Qed.
Lemma doc_documented : documented (config_of []) (lit doc_text) doc_proto.
Proof. exists doc_items. split; [exact doc_layout|exact doc_file]. Qed.
Lemma doc_not_regular : ~ regular (lit doc_text) doc_proto.
Proof.
  intros [H|H].
  - destruct (H (lit ("message M { ; // m" ++ nl ++ " optional ")) (lit "group G = 1 {") (lit " ; } /* reserved */ }")) as (_ & _ & W); [|reflexivity|exact (W (lit " ; } /* ") (lit " */ }") eq_refl)].
    apply (group_heading (lit " ") [] (ch "G") [] (lit " ") [] (lit " ") [] (lit "1") (lit " ") []); try (apply (gap_space _ [] []); [reflexivity|constructor]).
    + discriminate.
    + apply identb_iff. reflexivity.
    + vm_compute. split; discriminate.
    + left. exists (ch "1"), []. split; [reflexivity|]. split; [vm_compute; split; discriminate|constructor].
  - apply (H (EStmt (VMessage doc_message)) [EStmt (VEmpty (mkEmpty (Some (node (dcom 4))))); EStmt (VGroupField doc_group)] (mkEmpty (Some (node (dcom 4))))).
    + apply el_root. vm_compute. auto.
    + exact I.
    + vm_compute. auto.
    + left. reflexivity.
Qed.
Lemma doc_case : readable (lit doc_text) /\ ordinary (config_of []) (lit doc_text) doc_proto /\ ~ regular (lit doc_text) doc_proto /\
  Parse [] (lit doc_text) = Ok doc_proto /\ element doc_proto (EStmt (VGroupField doc_group)) /\
  e_meta (EStmt (VGroupField doc_group)) = Some (g_meta doc_group) /\ e_all_comments (EStmt (VGroupField doc_group)) <> [].
Proof.
  split; [exact doc_readable|]. split; [right; exact doc_documented|]. split; [exact doc_not_regular|]. split; [exact doc_parse|].
  split; [|split; [reflexivity|discriminate]].
  apply (el_child _ (EStmt (VMessage doc_message)) [EStmt (VEmpty (mkEmpty (Some (node (dcom 4))))); EStmt (VGroupField doc_group)]).
  - apply el_root. vm_compute. auto.
  - vm_compute. auto.
  - right. left. reflexivity.
Qed.

(** a comment in front of a semicolon that is read twice *)
Definition shifted_text : string := "message M { group A = 1 { reserved /*c*/" ++ nl ++ "; }".
Lemma shifted_comment_example : exists pr e x, Parse [] (lit shifted_text) = Ok pr /\ element pr e /\ In x (e_all_comments e) /\ c_raw x = lit "/*c*/" /\
  forall pre post, lit shifted_text = pre ++ c_raw x ++ post -> ~ at_text [] pre (Pos (c_meta x)).
Proof.
  eexists. eexists (EStmt (VEmpty (mkEmpty (Some _)))). eexists. split; [vm_compute; reflexivity|]. split.
  { eapply el_child; [apply el_root; left; reflexivity|vm_compute; left; reflexivity|left; reflexivity]. }
  split; [left; reflexivity|]. split; [reflexivity|].
  intros pre post E (_ & O & _ & C).
  assert (H : exists n, pre = firstn n (lit shifted_text)) by (exists (List.length pre); rewrite E, firstn_app, Nat.sub_diag, firstn_all, app_nil_r; reflexivity).
  destruct H as [n H].
  cbn [Pos c_meta Offset Column] in O, C. subst pre. clear E.
  assert (Q : forall n, (n <= 50)%nat -> (utf8_bytes (firstn n (lit shifted_text)) =? 35)%Z && (since_newline 0 (firstn n (lit shifted_text)) =? 35)%Z = (utf8_bytes (firstn n (lit shifted_text)) =? 35)%Z).
  { intros m L. do 51 (destruct m as [|m]; [vm_compute; reflexivity|]). lia. }
  assert (K : exists m, (m <= 50)%nat /\ firstn n (lit shifted_text) = firstn m (lit shifted_text)).
  { destruct (Nat.le_gt_cases n 50) as [L|L]; [exists n; auto|]. exists 50%nat. split; [lia|]. rewrite !firstn_all2; [reflexivity|vm_compute; lia|vm_compute in L |- *; lia]. }
  destruct K as (m & L & K). rewrite K in O, C. specialize (Q m L). rewrite <- (Z.add_0_l (utf8_bytes _)), <- O in Q. change (35 =? 35)%Z with true in Q. rewrite andb_true_l in Q. apply Z.eqb_eq in Q. change (1 - 1)%Z with 0%Z in C. rewrite Q in C. discriminate C.
Qed.
