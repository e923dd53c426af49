(** A concrete derivation of the grammar: the hypotheses of the completeness
    theorem are met by an ordinary file. *)
From Coq Require Import List NArith ZArith Bool String Ascii Lia.
From Verif Require Import Base Token Scanner Lexing ScanRefine Ast Parser Api LexFacts LexSpec LexProofs ScanFacts ScanProps RefineFile Grammar GramLex Refuted.
Import ListNotations.
Open Scope N_scope.

(** A text given by its pieces: white space and a token, a line comment with its
    newline, or a block comment. *)
Inductive piece := PTok (sp x : string) | PLine (sp x : string) | PBlock (sp x : string).
Definition ptext (a : piece) : str :=
  match a with PTok sp x | PBlock sp x => lit sp ++ lit x | PLine sp x => lit sp ++ lit x ++ [NL] end.
Fixpoint render (l : list piece) : str := match l with [] => [] | a :: l => ptext a ++ render l end.
Fixpoint items_of (p : mpos) (l : list piece) : list item :=
  match l with
  | [] => []
  | a :: l =>
    match a with PTok sp x => Tok (lit x) (posafter p (lit sp)) | PLine sp x | PBlock sp x => Com (lit x) (posafter p (lit sp)) end
    :: items_of (posafter p (ptext a)) l
  end.
Fixpoint pieces_ok (l : list piece) : Prop :=
  match l with
  | [] => True
  | a :: l =>
    match a with
    | PTok sp x => Spaces (lit sp) /\ token_at true (lit x) (render l)
    | PLine sp x => Spaces (lit sp) /\ is_line_comment (lit x)
    | PBlock sp x => Spaces (lit sp) /\ is_block_comment (lit x)
    end /\ pieces_ok l
  end.
Lemma render_layout l p : pieces_ok l -> Layout true p (render l) (items_of p l).
Proof.
  intros H. exists (posafter p (render l)), []. split; [|constructor]. revert p H. induction l as [|a l IH]; intros p H.
  - apply lay_nil.
  - destruct H as [H HL]. cbn [render items_of]. rewrite posafter_app. specialize (IH (posafter p (ptext a)) HL).
    destruct a as [sp x|sp x|sp x]; destruct H as [S X]; cbn [ptext] in *; rewrite <- !app_assoc.
    + apply lay_tok; assumption.
    + apply lay_line; assumption.
    + apply lay_block; assumption.
Qed.

Definition case_pieces : list piece :=
 [PTok "" "syntax"; PTok " " "="; PTok " " """"; PTok "" "proto3"; PTok "" """"; PTok "" ";"; PLine " " "// v";
  PLine "" "// doc";
  PTok "" "message"; PTok " " "M"; PTok " " "{"; PLine " " "// open";
  PTok "  " "repeated"; PTok " " "."; PTok "" "a"; PTok "" "."; PTok "" "B"; PTok " " "x"; PTok " " "="; PTok " " "1"; PTok " " ";"; PBlock " " "/* in */";
  PTok " " "}";
  PTok " " "service"; PTok " " "S"; PTok " " "{"; PTok " " "rpc"; PTok " " "F"; PTok " " "("; PTok "" "A"; PTok "" ")"; PTok " " "returns"; PBlock " " "/* e */";
  PTok " " "("; PTok "" "stream"; PTok " " "B"; PTok "" ")"; PTok "" ";"; PTok " " "}"].
Definition case_text : string :=
 "syntax = ""proto3""; // v" ++ nl ++ "// doc" ++ nl ++ "message M { // open" ++ nl ++
 "  repeated .a.B x = 1 ; /* in */ } service S { rpc F (A) returns /* e */ (stream B); }".
Example case_render : render case_pieces = lit case_text. Proof. reflexivity. Qed.

Definition case_items : list item := Eval vm_compute in items_of (pos0 []) case_pieces.
Definition seg (i n : nat) : list item := firstn n (skipn i case_items).
(** position of the [i]-th item *)
Definition ps (i : nat) : mpos := match nth i case_items (Tok [] zero_pos) with Tok _ p | Com _ p => p end.
Definition com (i : nat) : str * mpos := match nth i case_items (Tok [] zero_pos) with Tok x p | Com x p => (x, p) end.

Definition case_syntax : syntax := mkSyntax (lit "proto3") (lit """proto3""") [] (Some (node (com 6))) (mkMeta (ps 0) (ps 5)).
Definition case_field : field :=
  mkField true false false (lit ".a.B") (lit "x") (lit "1") [] [] (Some (node (com 21))) (mkMeta (ps 12) (ps 20)).
Definition case_message : block :=
  mkBlock (lit "M") [VField case_field] [node (com 7)] None (Some (node (com 11))) (mkMeta (ps 8) (ps 22)).
Definition case_rpc : rpc :=
  mkRPC (lit "F") (mkRPCParam false (lit "A") (mkMeta (ps 28) (ps 30))) (mkRPCParam true (lit "B") (mkMeta (ps 33) (ps 36)))
    [] [] None None [node (com 32)] (mkMeta (ps 26) (ps 37)).
Definition case_service : block := mkBlock (lit "S") [VRPC case_rpc] [] None None (mkMeta (ps 23) (ps 38)).
Definition case_proto : proto := mkProto (Some case_syntax) None [VMessage case_message; VService case_service] [].

(** the first "*/" in a concrete text is at its end *)
Ltac block := intros x y E; repeat (destruct x as [|? x]; [injection E as E; try discriminate E; auto; fail|injection E as ? E]); try discriminate E; destruct x; discriminate E.
Ltac space := repeat constructor.
Ltac id := left; split; [apply identb_iff; reflexivity|intros H; apply ident_char_iff in H; discriminate H].
Ltac pct := right; right; right; eexists; split; [reflexivity|]; split; [cbn; tauto|]; first [discriminate 1|intros _ H; apply digit_iff in H; discriminate H].
Lemma case_layout : Layout true (pos0 []) (lit case_text) case_items.
Proof.
  rewrite <- case_render. change case_items with (items_of (pos0 []) case_pieces). apply render_layout. unfold case_pieces. cbn [pieces_ok].
  repeat match goal with
  | |- _ /\ _ => split
  | |- True => exact I
  | |- Spaces _ => space
  | |- is_line_comment _ => eexists; split; [reflexivity|cbn; intuition discriminate]
  end.
  all: try (solve [id]). all: try (solve [pct]).
  - right. left. split; [left; left; exists (ch "1"), []; split; [reflexivity|split; [vm_compute; split; discriminate|constructor]]|].
    split; [intros H; apply ident_char_iff in H; discriminate H|discriminate].
  - exists (lit " in "). split; [reflexivity|]. block.
  - exists (lit " e "). split; [reflexivity|]. block.
Qed.

Ltac tok := exists []; reflexivity.
Ltac key := eexists; exists []; reflexivity.
Ltac ident := apply identb_iff; reflexivity.
Ltac word := cbn; tauto.
Ltac notw := cbn; unfold words; cbn; intuition discriminate.
Lemma case_file perm bic : File perm bic false [] case_items case_proto.
Proof.
  change case_items with ([] ++ coms [] ++ (seg 0 6 ++ icom (Some (com 6))) ++ [] ++ seg 7 32).
  assert (E : case_proto = mkProto (Some case_syntax) None ([VMessage case_message; VService case_service] ++ trailing bic []) []) by (destruct bic; reflexivity).
  rewrite E. clear E.
  apply file_intro.
  - constructor.
  - exact I.
  - apply (sp_some false (nodes []) (seg 0 6) case_syntax (lit ";") (ps 5) (Some (com 6))).
    + change (seg 0 6) with (seg 0 1 ++ seg 1 1 ++ seg 2 1 ++ seg 3 1 ++ seg 4 1 ++ seg 5 1).
      apply (syntax_intro false (nodes []) (inode (Some (com 6))) _ (ps 0) _ _ [DQ] (ps 2) _ (lit "proto3") (ps 3) _ [DQ] (ps 4) _ (ps 5)).
      * tok.
      * key.
      * tok.
      * left. reflexivity.
      * tok.
      * word.
      * tok.
      * left. reflexivity.
      * right. reflexivity.
      * tok.
    + reflexivity.
    + reflexivity.
  - constructor. notw.
  - change (seg 7 32) with (coms [com 7] ++ seg 8 15 ++ icom None ++ seg 23 16).
    apply (fss_cons perm bic false [com 7] (seg 8 15) (VMessage case_message) (lit "}") (ps 22) None (seg 23 16) [VService case_service] []).
    + apply fs_message.
      change (seg 8 15) with (seg 8 1 ++ seg 9 1 ++ seg 10 13).
      apply (message_intro perm bic false (nodes [com 7]) None _ (ps 8) _ (lit "M") (ps 9) _ [VField case_field] (Some (node (com 11))) (ps 22)).
      * tok.
      * tok.
      * ident.
      * change (seg 10 13) with (seg 10 1 ++ icom (Some (com 11)) ++ seg 12 10 ++ seg 22 1).
        assert (E : [VField case_field] = [VField case_field] ++ trailing bic []) by (destruct bic; reflexivity). rewrite E. clear E.
        apply (body_stmts perm bic false true (MessageStmt perm bic false) _ (ps 10) (Some (com 11)) _ [VField case_field] []).
        -- tok.
        -- reflexivity.
        -- change (seg 12 10) with (coms [] ++ seg 12 9 ++ icom (Some (com 21)) ++ coms []).
           apply (sts_cons perm false (MessageStmt perm bic false) [] _ (VField case_field) (lit ";") (ps 20) (Some (com 21)) _ [] []).
           ++ apply ms_field.
              ** change (seg 12 9) with (seg 12 1 ++ seg 13 4 ++ seg 17 4).
                 apply (field_intro perm false _ _ _ (ps 12) true false false _ (lit ".a.B") (ps 13) _ (lit "x") (lit "1") [] (ps 20)).
                 --- apply lb_repeated. tok.
                 --- apply ty_message; [|notw]. change (seg 13 4) with (seg 13 1 ++ seg 14 1 ++ seg 15 1 ++ seg 16 1).
                     apply (mt_dot _ (ps 13) _ (lit "a.B") (ps 14)); [tok|].
                     apply (fi_dot _ (lit "a") (ps 14) _ _ (lit "B") (ps 16)); [tok|ident|key|]. apply fi_one; [tok|ident].
                 --- change (seg 17 4) with (seg 17 1 ++ seg 18 1 ++ seg 19 1 ++ [] ++ seg 20 1).
                     apply (fe_intro perm false _ (lit "x") (ps 17) _ _ (lit "1") (ps 19) _ []); [tok|ident|key|tok| |constructor|tok].
                     left. exists (ch "1"), []. split; [reflexivity|]. split; [vm_compute; split; discriminate|constructor].
              ** notw.
           ++ exact I.
           ++ reflexivity.
           ++ reflexivity.
           ++ right. right. discriminate.
           ++ apply sts_nil.
        -- exact I.
        -- apply close_brace. tok.
        -- right. discriminate.
    + exact I.
    + reflexivity.
    + exact I.
    + right. right. discriminate.
    + change (seg 23 16) with (coms [] ++ seg 23 16 ++ icom None ++ coms []).
      apply (fss_cons perm bic false [] (seg 23 16) (VService case_service) (lit "}") (ps 38) None (coms []) [] []).
      * apply fs_service. change (seg 23 16) with (seg 23 1 ++ seg 24 1 ++ seg 25 14).
        apply (service_intro perm bic false (nodes []) None _ (ps 23) _ (lit "S") (ps 24) _ [VRPC case_rpc] None (ps 38)); [tok|tok|ident|].
        change (seg 25 14) with (seg 25 1 ++ icom None ++ seg 26 12 ++ seg 38 1).
        assert (E : [VRPC case_rpc] = [VRPC case_rpc] ++ trailing bic []) by (destruct bic; reflexivity). rewrite E. clear E.
        apply (body_stmts perm bic false false (ServiceStmt perm false) _ (ps 25) None _ [VRPC case_rpc] []); [tok|exact I| |exact I|apply close_brace; tok|left; reflexivity].
        change (seg 26 12) with (coms [] ++ seg 26 12 ++ icom None ++ coms []).
        apply (sts_cons perm false (ServiceStmt perm false) [] _ (VRPC case_rpc) (lit ";") (ps 37) None _ [] []); [|exact I|reflexivity|exact I|right; right; discriminate|apply sts_nil].
        apply ss_rpc. change (seg 26 12) with ((coms [] ++ seg 26 1) ++ seg 27 1 ++ seg 28 3 ++ seg 31 1 ++ seg 32 5 ++ seg 37 1 ++ []).
        change case_rpc with (mkRPC (lit "F") (mkRPCParam false (lit "A") (mkMeta (ps 28) (ps 30))) (mkRPCParam true (lit "B") (mkMeta (ps 33) (ps 36)))
          [] (nodes []) (inode None) None (comments_in (seg 27 1 ++ seg 28 3 ++ seg 31 1 ++ seg 32 5 ++ seg 37 1)) (mkMeta (ps 26) (ps 37))).
        apply (rpc_intro perm false (nodes []) (inode None) [] (ps 26) _ _ (ps 27)); [tok|ident| |key| |constructor; tok].
        -- change (seg 28 3) with (seg 28 1 ++ [] ++ seg 29 1 ++ seg 30 1). eapply rpc_param_intro; [tok|constructor; notw| |tok].
           apply mt_name, (fi_one _ _ (ps 29)); [tok|ident].
        -- change (seg 32 5) with (seg 32 2 ++ seg 34 1 ++ seg 35 1 ++ seg 36 1). eapply rpc_param_intro; [exists [com 32]; reflexivity|constructor; key| |tok].
           apply mt_name, (fi_one _ _ (ps 35)); [tok|ident].
      * exact I.
      * reflexivity.
      * exact I.
      * right. right. discriminate.
      * apply fss_nil.
Qed.
Lemma case_readable : readable (lit case_text).
Proof. repeat constructor; try discriminate; vm_compute; intuition discriminate. Qed.
