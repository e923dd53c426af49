(** Concrete texts that meet the hypotheses of the soundness and panic theorems. *)
From Coq Require Import List NArith ZArith Bool String Ascii Lia.
From Verif Require Import Base Token Scanner Lexing ScanRefine Ast Parser Api LexSpec LexFacts LexProofs ScanFacts ScanProps RefineFile Total Grammar GramFile GramCase Refuted Tree GroupSpec GroupFree Closed SettledCase.
Import ListNotations.
Open Scope N_scope.

Lemma no_group (s : string) : group_in (lit s) = false -> no_groups (lit s).
Proof. apply group_in_free. Qed.
Lemma sound_case : readable (lit case_text) /\ regular (lit case_text) case_proto /\ Parse [] (lit case_text) = Ok case_proto.
Proof. split; [exact case_readable|]. split; [left; apply free_settled, no_group; reflexivity|vm_compute; reflexivity]. Qed.

(** a text with groups *)
Definition group_text : string :=
 "syntax = ""proto2"";" ++ nl ++ "message M { // m" ++ nl ++ "  repeated group A = 1 { // a" ++ nl ++ " optional /* x */ group B = 2 { required int32 b = 1; } // b" ++ nl ++
 "  optional group.C c = 3; } // c" ++ nl ++ "}".
Definition group_proto : proto := Eval vm_compute in match Parse [] (lit group_text) with Ok p => p | _ => mkProto None None [] [] end.
Fixpoint enum (n : nat) (l : list elem) : list elem := match n with O => l | S n => l ++ enum n (flat_map (fun e => List.concat (children e)) l) end.
Lemma closed (p : proto) (P : elem -> Prop) : Forall P (roots p) -> (forall e l, P e -> In l (children e) -> Forall P l) -> forall e, element p e -> P e.
Proof.
  intros R C e H. induction H as [e H|e l c H IH IL IC]; [rewrite Forall_forall in R; auto|]. pose proof (C _ _ IH IL) as F. rewrite Forall_forall in F. auto.
Qed.
Lemma group_quiet : no_empty_in_messages group_proto.
Proof.
  intros e l x HE HH IL IX.
  assert (IE : In e (enum 6 (roots group_proto))).
  { revert e HE HH l IL IX. intros e HE _ _ _ _. revert e HE. apply closed.
    - vm_compute. repeat (constructor; [repeat (try (left; reflexivity); right)|]). constructor.
    - intros e l I. vm_compute in I. repeat (destruct I as [<-|I]; [cbn; intros J; repeat (destruct J as [<-|J]; [repeat (constructor; [vm_compute; repeat (try (left; reflexivity); right)|]); constructor|]); destruct J|]). destruct I. }
  vm_compute in IE. repeat (destruct IE as [<-|IE]; [try destruct HH; cbn in IL; repeat (destruct IL as [<-|IL]; [cbn in IX; intuition discriminate|]); destruct IL|]). destruct IE.
Qed.
Lemma group_regular : regular (lit group_text) group_proto.
Proof. right. exact group_quiet. Qed.
Lemma group_case : readable (lit group_text) /\ regular (lit group_text) group_proto /\ Parse [] (lit group_text) = Ok group_proto.
Proof. split; [repeat constructor; try discriminate; vm_compute; intuition discriminate|]. split; [exact group_regular|vm_compute; reflexivity]. Qed.

(** a comment behind a semicolon at the top level *)
Definition panic_pieces : list piece :=
 [PTok "" "package"; PTok " " "a"; PTok "" ";"; PTok " " ";"; PLine " " "// c"; PTok "" "}"].
Definition panic_text : string := "package a; ; // c" ++ nl ++ "}".
Example panic_render : render panic_pieces = lit panic_text. Proof. reflexivity. Qed.
Definition panic_items : list item := Eval vm_compute in items_of (pos0 []) panic_pieces.
Definition pps (i : nat) : mpos := match nth i panic_items (Tok [] zero_pos) with Tok _ p | Com _ p => p end.
Lemma panic_layout : Layout true (pos0 []) (lit panic_text) (firstn 3 panic_items ++ Tok (lit ";") (pps 3) :: Com (lit "// c") (pps 4) :: skipn 5 panic_items).
Proof.
  rewrite <- panic_render. change (Layout true (pos0 []) (render panic_pieces) (items_of (pos0 []) panic_pieces)). apply render_layout. unfold panic_pieces. cbn [pieces_ok].
  repeat match goal with
  | |- _ /\ _ => split
  | |- True => exact I
  | |- Spaces _ => space
  | |- is_line_comment _ => eexists; split; [reflexivity|cbn; intuition discriminate]
  end.
  all: try (solve [id]). all: try (solve [pct]).
Qed.
Definition panic_package : package := mkPackage (lit "a") [] None (mkMeta (pps 0) (pps 2)).
Lemma panic_file perm bic : File perm bic false [] (firstn 3 panic_items ++ [Tok (lit ";") (pps 3)])
  (mkProto None None ([VPackage panic_package] ++ [VEmpty (mkEmpty None); VNil]) []).
Proof.
  change (firstn 3 panic_items ++ [Tok (lit ";") (pps 3)]) with ([] ++ coms [] ++ [] ++ [] ++ (coms [] ++ firstn 3 panic_items ++ icom None ++ (coms [] ++ Tok (lit ";") (pps 3) :: coms []))).
  assert (E : forall l, l = l ++ trailing bic []) by (intros l; destruct bic; cbn; rewrite app_nil_r; reflexivity). rewrite (E ([VPackage panic_package] ++ _)). clear E.
  apply file_intro.
  - constructor.
  - exact I.
  - constructor. notw.
  - constructor. notw.
  - apply (fss_cons perm bic false [] (firstn 3 panic_items) (VPackage panic_package) (lit ";") (pps 2) None).
    + apply fs_package. change (firstn 3 panic_items) with (firstn 1 panic_items ++ firstn 1 (skipn 1 panic_items) ++ firstn 1 (skipn 2 panic_items)).
      apply (package_intro [] None _ (pps 0) _ (lit "a") (pps 1) _ (pps 2)); [tok| |tok].
      apply fi_one; [tok|ident].
    + exact I.
    + reflexivity.
    + exact I.
    + right. right. discriminate.
    + apply fss_empty; [exact I|]. apply (fss_nil perm bic false []).
Qed.
Lemma panic_readable : readable (lit panic_text).
Proof. repeat constructor; try discriminate; vm_compute; intuition discriminate. Qed.
Lemma panic_case : readable (lit panic_text) /\ settled (lit panic_text) /\ Parse [] (lit panic_text) = Panic.
Proof. split; [exact panic_readable|]. split; [apply free_settled, no_group; reflexivity|vm_compute; reflexivity]. Qed.
(** a group that does not parse, in a settled text *)
Definition settled_proto : proto := Eval vm_compute in match Parse [] (lit settled_text) with Ok p => p | _ => mkProto None None [] [] end.
Lemma settled_case : readable (lit settled_text) /\ regular (lit settled_text) settled_proto /\ Parse [] (lit settled_text) = Ok settled_proto /\
  ~ no_groups (lit settled_text) /\ ~ no_empty_in_messages settled_proto.
Proof.
  split; [repeat constructor; try discriminate; vm_compute; intuition discriminate|]. split; [left; exact settled_ok|]. split; [vm_compute; reflexivity|].
  split; [exact settled_group|]. intros H. unfold settled_proto in H.
  match type of H with no_empty_in_messages (mkProto _ _ [VMessage ?b] _) => eapply (H (EStmt (VMessage b)) _ (mkEmpty None)) end.
  - apply el_root. vm_compute. auto.
  - exact I.
  - cbn. left. reflexivity.
  - vm_compute. auto.
Qed.
(** statements that break off: a label and a name without its end, options, a group, an enum value and a dotted name *)
Definition cut_text : string := "message M { repeated a.; a b = 1 [ c; optional group G = 1 { enum; } enum E { A = -; B = 0; } extend M { .x.; }".
Definition cut_proto : proto := Eval vm_compute in match Parse [] (lit cut_text) with Ok p => p | _ => mkProto None None [] [] end.
Lemma cut_case : (readable (lit cut_text) /\ regular (lit cut_text) cut_proto /\ Parse [] (lit cut_text) = Ok cut_proto) /\
  CutField (map lit ["repeated"; "a"; "."]%string) /\ CutField (map lit ["a"; "b"; "="; "1"; "["; "c"]%string) /\
  CutGroup (map lit ["optional"; "group"; "G"; "="; "1"; "{"; "enum"]%string) /\
  CutEnumField (map lit ["A"; "="; "-"]%string) /\ CutField (map lit ["."; "x"; "."]%string).
Proof.
  assert (ID : forall x, identb x = true -> is_ident x) by (intros x H; apply identb_iff; exact H).
  split; [split; [repeat constructor; try discriminate; vm_compute; intuition discriminate|]; split; [left; apply settledb_ok; vm_compute; reflexivity|vm_compute; reflexivity]|].
  assert (N1 : is_int (lit "1")) by (left; exists (ch "1"), []; split; [reflexivity|]; split; [vm_compute; intuition discriminate|constructor]).
  split; [apply (cf_type [lit "repeated"] [lit "a"; lit "."]); [apply lw_one; left; reflexivity|apply tw_name, nw_dot; [apply ID; reflexivity|constructor]]|].
  split; [apply (cf_tail [] [lit "a"] [lit "b"; lit "="; lit "1"; lit "["; lit "c"]); [constructor|apply tw_name, nw_one, ID; reflexivity|apply ct_options; [apply ID; reflexivity|exact N1]]|].
  split; [apply (cg_intro [lit "optional"] (lit "G") (lit "1") [lit "enum"]); [apply lw_one; right; right; left; reflexivity|apply ID; reflexivity| |exact N1]|].
  { exists 71, []. split; [reflexivity|]. split; discriminate. }
  split; [apply ce_minus, ID; reflexivity|].
  apply (cf_type [] [lit "."; lit "x"; lit "."]); [constructor|apply tw_dot, nw_dot; [apply ID; reflexivity|constructor]].
Qed.
Definition settled_panic : string := "message M { optional group G = 1 { option x ; int32 y = 2; } ; /* c */ ".
Lemma settled_panic_case : readable (lit settled_panic) /\ settled (lit settled_panic) /\ Parse [WithPermissive false] (lit settled_panic) = Panic.
Proof.
  split; [repeat constructor; try discriminate; vm_compute; intuition discriminate|]. split; [apply settledb_ok|]; vm_compute; reflexivity.
Qed.

Definition inner_group : groupField := Eval vm_compute in
  match p_body group_proto with
  | [VMessage b] => match b_body b with [VGroupField g] => match g_body g with VGroupField g' :: _ => g' | _ => g end | _ => mkGroupField false false false [] [] [] [] None None (mkMeta zero_pos zero_pos) end
  | _ => mkGroupField false false false [] [] [] [] None None (mkMeta zero_pos zero_pos)
  end.
Definition inner_comment : comment := Eval vm_compute in match g_inline inner_group with Some c => c | None => mkComment [] (mkMeta zero_pos zero_pos) end.
Lemma inner_element : element group_proto (EStmt (VGroupField inner_group)) /\ e_meta (EStmt (VGroupField inner_group)) = Some (g_meta inner_group) /\
  In inner_comment (e_all_comments (EStmt (VGroupField inner_group))).
Proof.
  split; [|split; [reflexivity|vm_compute; auto]].
  eapply el_child; [eapply el_child; [apply el_root; right; left; reflexivity|left; reflexivity|left; reflexivity]|left; reflexivity|left; reflexivity].
Qed.
