(** Cases for the exported Parse methods: a text read by three methods in a row. *)
From Coq Require Import List NArith ZArith Bool String Ascii Lia.
From Verif Require Import Base Token Scanner Lexing ScanRefine Lexer Ast Parser Api LexFacts LexSpec LexProofs ScanFacts ScanProps RefineFile Grammar GramLex Refuted GramCase
  SndCase GroupSpec MethodSpec Methods Closed.
Import ListNotations.
Open Scope N_scope.

Definition meth_pieces : list piece :=
 [PBlock "" "/* c */"; PTok " " "package"; PTok " " "a"; PTok "" "."; PTok "" "b"; PTok "" ";";
  PTok " " "message"; PTok " " "M"; PTok " " "{"; PTok " " "int32"; PTok " " "x"; PTok " " "="; PTok " " "1"; PTok "" ";"; PTok " " "}"; PTok " " "option"].
Definition meth_text : string := "/* c */ package a.b; message M { int32 x = 1; } option".
Example meth_render : render meth_pieces = lit meth_text. Proof. reflexivity. Qed.
Definition meth_items : list item := Eval vm_compute in items_of (pos0 []) meth_pieces.
Definition mseg (i n : nat) : list item := firstn n (skipn i meth_items).
Definition mps (i : nat) : mpos := match nth i meth_items (Tok [] zero_pos) with Tok _ p | Com _ p => p end.
Definition meth_com : str * mpos := (lit "/* c */", mps 0).
Definition meth_package : package := mkPackage (lit "a.b") [] None (mkMeta (mps 1) (mps 5)).
Definition meth_field : field := mkField false false false (lit "int32") (lit "x") (lit "1") [] [] None (mkMeta (mps 9) (mps 13)).
Definition meth_message : block := mkBlock (lit "M") [VField meth_field] [] None None (mkMeta (mps 6) (mps 14)).
Lemma meth_layout : Layout true (pos0 []) (lit meth_text) meth_items.
Proof.
  rewrite <- meth_render. change meth_items with (items_of (pos0 []) meth_pieces). apply render_layout. unfold meth_pieces. cbn [pieces_ok].
  repeat match goal with
  | |- _ /\ _ => split
  | |- True => exact I
  | |- Spaces _ => space
  end.
  all: try (solve [id]). all: try (solve [pct]).
  - exists (lit " c "). split; [reflexivity|]. block.
  - right. left. split; [left; left; exists (ch "1"), []; split; [reflexivity|split; [vm_compute; split; discriminate|constructor]]|].
    split; [intros H; apply ident_char_iff in H; discriminate H|discriminate].
  - left. split; [apply identb_iff; reflexivity|exact I].
Qed.
Lemma meth_package_ok : Package [] None (mseg 1 5) meth_package.
Proof.
  change (mseg 1 5) with (mseg 1 1 ++ mseg 2 3 ++ mseg 5 1). apply (package_intro [] None _ (mps 1) _ (lit "a.b") (mps 2) _ (mps 5)); [tok| |tok].
  change (mseg 2 3) with (mseg 2 1 ++ mseg 3 1 ++ mseg 4 1). apply (fi_dot _ (lit "a") (mps 2) _ _ (lit "b") (mps 4)); [tok|ident|key|]. apply fi_one; [tok|ident].
Qed.
Lemma meth_message_ok perm bic : Message perm bic false [] None (mseg 6 9) meth_message.
Proof.
  change (mseg 6 9) with (mseg 6 1 ++ mseg 7 1 ++ mseg 8 7).
  apply (message_intro perm bic false [] None _ (mps 6) _ (lit "M") (mps 7) _ [VField meth_field] None (mps 14)); [tok|tok|ident|].
  change (mseg 8 7) with (mseg 8 1 ++ icom None ++ mseg 9 5 ++ mseg 14 1).
  assert (E : [VField meth_field] = [VField meth_field] ++ trailing bic []) by (destruct bic; reflexivity). rewrite E. clear E.
  apply (body_stmts perm bic false true (MessageStmt perm bic false) _ (mps 8) None _ [VField meth_field] []).
  - tok.
  - exact I.
  - change (mseg 9 5) with (coms [] ++ mseg 9 5 ++ icom None ++ coms []).
    apply (sts_cons perm false (MessageStmt perm bic false) [] _ (VField meth_field) (lit ";") (mps 13) None _ [] []).
    + apply ms_field; [|notw].
      change (mseg 9 5) with ([] ++ mseg 9 1 ++ mseg 10 4).
      apply (field_intro perm false _ _ _ (mps 9) false false false _ (lit "int32") (mps 9) _ (lit "x") (lit "1") [] (mps 13)).
      * apply (lb_none (lit "int32")); [reflexivity|notw].
      * apply ty_scalar; [tok|word].
      * change (mseg 10 4) with (mseg 10 1 ++ mseg 11 1 ++ mseg 12 1 ++ [] ++ mseg 13 1).
        apply (fe_intro perm false _ (lit "x") (mps 10) _ _ (lit "1") (mps 12) _ []); [tok|ident|key|tok| |constructor|tok].
        left. exists (ch "1"), []. split; [reflexivity|]. split; [vm_compute; split; discriminate|constructor].
    + exact I.
    + reflexivity.
    + exact I.
    + right. right. discriminate.
    + apply sts_nil.
  - exact I.
  - apply close_brace. tok.
  - right. discriminate.
Qed.

(** A program that reads the comments, the package and the message. *)
Lemma meth_readable : readable (lit meth_text) /\ (List.length (lit meth_text) < 100)%nat /\ settled (lit meth_text).
Proof. split; [repeat constructor; try discriminate; vm_compute; intuition discriminate|]. split; [cbn; lia|apply free_settled, no_group; reflexivity]. Qed.
Definition ms0 : st := init_st [] (lit meth_text).
Definition ms1 : st := Eval vm_compute in snd (ParseComments ms0).
Definition ms2 : st := Eval vm_compute in snd (ParsePackage ms1).
Definition ms3 : st := Eval vm_compute in snd (ParseMessage true false 100 ms2).
Lemma meth1 : ParseComments ms0 = (Ok (nodes [meth_com]), ms1). Proof. vm_compute. reflexivity. Qed.
Lemma meth2 : ParsePackage ms1 = (Ok meth_package, ms2). Proof. vm_compute. reflexivity. Qed.
Lemma meth3 : ParseMessage true false 100 ms2 = (Ok meth_message, ms3). Proof. vm_compute. reflexivity. Qed.
Lemma meth_stands : Stands true false 100 [] (lit meth_text) ms2 (mseg 6 9 ++ mseg 15 1).
Proof.
  apply (stands_read true false 100 [] (lit meth_text) _ _ ParsePackage (fun x => x) (fun _ => Package [] None) (fun _ _ => True) ms1 (mseg 1 5) meth_package (mseg 6 9 ++ mseg 15 1) ms2);
    [|apply reads_package|exact meth_package_ok|exact I|exact meth2].
  apply (stands_read true false 100 [] (lit meth_text) _ _ ParseComments nodes (fun _ ts cs => ts = coms cs) (fun _ => no_com) ms0 (mseg 0 1) [meth_com] (mseg 1 5 ++ mseg 6 9 ++ mseg 15 1) ms1);
    [|apply reads_comments|reflexivity|exact I|exact meth1].
  apply stands_start. exact meth_layout.
Qed.
Lemma meth_gone : Gone true false 100 [] (lit meth_text) ms2.
Proof.
  apply (gone_read true false 100 [] (lit meth_text) _ _ ParsePackage (fun x => x) (fun _ => Package [] None) (fun _ _ => True) ms1 meth_package); [|apply reads_package|exact meth2].
  apply (gone_read true false 100 [] (lit meth_text) _ _ ParseComments nodes (fun _ ts cs => ts = coms cs) (fun _ => no_com) ms0 (nodes [meth_com])); [|apply reads_comments|exact meth1].
  apply gone_start.
Qed.
Lemma meth_case : exists s2 s3, readable (lit meth_text) /\ Stands true false 100 [] (lit meth_text) s2 (mseg 6 9 ++ mseg 15 1) /\
  Message true false false [] None (mseg 6 9) meth_message /\ Grammar.closed true false (mseg 6 9) (mseg 15 1) /\
  ParseMessage true false 100 s2 = (Ok meth_message, s3) /\ rest s3 = lit " option" /\ b_name meth_message = lit "M" /\ b_body meth_message = [VField meth_field].
Proof.
  exists ms2, ms3. split; [apply meth_readable|]. split; [exact meth_stands|]. split; [apply meth_message_ok|]. split; [right; right; discriminate|]. split; [exact meth3|]. repeat split.
Qed.
Lemma meth_case2 : exists s2 s3, readable (lit meth_text) /\ settled (lit meth_text) /\ Gone true false 100 [] (lit meth_text) s2 /\
  ParseMessage true false 100 s2 = (Ok meth_message, s3) /\ rest s2 = lit " message M { int32 x = 1; } option" /\ rest s3 = lit " option".
Proof.
  exists ms2, ms3. split; [apply meth_readable|]. split; [apply meth_readable|]. split; [exact meth_gone|]. split; [exact meth3|]. split; reflexivity.
Qed.
Lemma meth_none : exists s s', Gone true false 100 [] (lit meth_text) s /\ ParseSyntax s = (Ok None, s') /\ ParseEdition s = (Ok None, s') /\ s <> s' /\ rest s = lit meth_text.
Proof.
  exists ms0. eexists. split; [apply gone_start|]. split; [vm_compute; reflexivity|]. split; [vm_compute; reflexivity|]. split; [discriminate|reflexivity].
Qed.
