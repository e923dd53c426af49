(** The elements of the AST are well formed, their comments are comments of the text. *)
From Coq Require Import List NArith ZArith Bool String Ascii Lia Sorted.
From Verif Require Import Base Token Scanner Lexing ScanRefine Ast LexSpec LexFacts LexProofs ScanFacts ScanProps Tree Parser Api RefineFile Grammar GramLex GramRules GramParts SndLex SndNames SndStmts SndFile Deep DeepText Regular.
Import ListNotations.
Open Scope N_scope.

Section Form.
Variables perm bic junk : bool.
Notation Elem := (Elem perm bic junk).

Lemma fullident_dotted ts v p : FullIdent ts v p -> dotted v.
Proof.
  induction 1 as [u x q H I|u x q td ts' v' p' H I K F (l & NE & FA & ->)].
  - exists [x]. split; [discriminate|]. split; [constructor; [exact I|constructor]|reflexivity].
  - exists (x :: l). split; [discriminate|]. split; [constructor; assumption|]. destruct l; [congruence|reflexivity].
Qed.
Lemma messagetype_name ts v p : MessageType ts v p -> type_name v.
Proof. intros [u x q H|td q u x q' H F]; [left; eapply fullident_dotted; exact H|right; eexists; split; [reflexivity|eapply fullident_dotted; exact F]]. Qed.
Lemma type_type_name ts v p : Type_ ts v p -> type_name v.
Proof.
  intros [u x q H W|u x q H _]; [|eapply messagetype_name; exact H]. left. exists [x]. split; [discriminate|]. split; [|reflexivity]. constructor; [|constructor].
  unfold words, scalars in W. cbn [map In] in W. repeat (destruct W as [<-|W]; [apply identb_iff; reflexivity|]). destruct W.
Qed.
Lemma fieldend_form ts name num os q : FieldEnd perm junk ts name num os q -> is_ident name /\ is_int num.
Proof. intros []. auto. Qed.
Lemma label_one t r p a b c : Label t r p a b c -> one_label a b c.
Proof. intros []; repeat split. Qed.
Lemma range_form ts r : Range ts r -> range_ok r.
Proof. intros [ts' x p H I|t1 x p t2 t3 y p3 H1 I H2 H3 O]; (split; [exact I|]); cbn; tauto. Qed.
Lemma ranges_form ts rs : Ranges ts rs -> rs <> [] /\ Forall range_ok rs.
Proof. induction 1 as [ts r H|ts r td ts' rs H K R [_ IH]]; (split; [discriminate|]); constructor; try (eapply range_form; eassumption); [constructor|exact IH]. Qed.
Lemma names_form ts xs : FieldNames junk ts xs -> xs <> [] /\ Forall (fun x => is_str x \/ is_ident x) xs.
Proof. induction 1 as [ts x p H I|ts x p td ts' xs H I K R [_ IH]]; (split; [discriminate|]); constructor; try assumption. constructor. Qed.
Lemma form_field cs il ts f : Field perm junk cs il ts f -> well_formed (EStmt (VField f)).
Proof.
  intros [t1 p1 rp rq op t2 ty p2 t3 name num os p3 HL HT HF]. cbn. destruct (fieldend_form _ _ _ _ _ HF). split; [assumption|]. split; [assumption|]. split; [eapply type_type_name; exact HT|eapply label_one; exact HL].
Qed.
Lemma form_reserved cs il ts r : Reserved junk cs il ts r -> well_formed (EStmt (VReserved r)).
Proof.
  intros [t1 p1 t2 rs t3 p3 H1 HR H3|t1 p1 tj t2 xs t3 p3 H1 J HN H3]; cbn.
  - destruct (ranges_form _ _ HR) as [NE F]. split; [exact F|]. split; [constructor|]. right. auto.
  - destruct (names_form _ _ HN) as [NE F]. split; [constructor|]. split; [exact F|]. left. auto.
Qed.
Lemma form_oneof cs il ts o : Oneof perm junk cs il ts o -> well_formed (EStmt (VOneof o)).
Proof.
  intros [t1 p1 t2 name p2 t3 p3 lc t4 fs os x q H1 H2 I H3 IN HE LT]. split; [exact I|]. cbn.
  clear - HE. induction HE; [assumption|right; discriminate|left; discriminate].
Qed.
Lemma form_empty U il ts v : Empty junk U il ts v -> well_formed (EStmt v).
Proof. intros []; exact I. Qed.
Lemma form_msgstmt cs il ts v : MessageStmt perm bic junk cs il ts v -> well_formed (EStmt v).
Proof.
  intros H. destruct H as [ts e H|t1 p1 t2 name p2 t3 vs lc q H1 H2 I HB|ts o H|ts o H|ts o H|ts o H|ts o H|ts o H|ts o H N|t1 p1 rp rq op t2 t3 name p3 t4 t5 num p5 t6 vs lc q HL H2 H3 I3 CP H4 H5 I5 HB|ts v H].
  - destruct H. assumption.
  - exact I.
  - exact Logic.I.
  - eapply form_oneof; exact H.
  - destruct H as [t1 p1 t2 t3 kt p3 t4 t5 ty p5 t6 t7 name num os p7 H1 H2 H3 W H4 H5 H6 HF]. destruct (fieldend_form _ _ _ _ _ HF). cbn. split; [assumption|]. split; [assumption|]. split; [eapply type_type_name; exact H5|exact W].
  - destruct H. cbn. eapply messagetype_name; eassumption.
  - eapply form_reserved; exact H.
  - destruct H; cbn; eapply ranges_form; eassumption.
  - eapply form_field; exact H.
  - cbn. split; [exact I3|]. split; [exact I5|]. split; [exact CP|eapply label_one; exact HL].
  - eapply form_empty; exact H.
Qed.
Lemma words2 a b x : words [a; b] x -> x = lit a \/ x = lit b.
Proof. intros [H|[H|[]]]; auto. Qed.
Lemma elem_form cs il ts e : Elem cs il ts e -> well_formed e.
Proof.
  intros [ts' s H|ts' s H|ts' v H|ts' v H|ts' v H|ts' v H|ts' v H|ts' v H|ts' v H|ts' v E1 E2 H|ts' v H|x q E1 E2|E1 E2|p E1 E2]; try exact I.
  - destruct H as [t1 p1 t2 t3 q p3 t4 v p4 t5 q' p5 t6 p6 H1 H2 H3 Q H4 W H5 Q' QM H6]. split; [apply words2; assumption|]. exists q, q'. auto.
  - destruct H as [t1 p1 t2 t3 q p3 t4 v p4 t5 q' p5 t6 p6 H1 H2 H3 Q H4 W H5 Q' QM H6]. split; [assumption|]. exists q, q'. auto.
  - destruct H as [? ? H|? ? H|? ? H|? ? H|? ? H|? ? H|? ? H]; destruct H; cbn; try assumption; try exact I; [eapply fullident_dotted; eassumption|eapply messagetype_name; eassumption].
  - destruct H as [? ? H|? ? H|? ? H|? ? H]; [exact I|eapply form_reserved; exact H| |eapply form_empty; exact H]. destruct H as [t1 name p1 t2 t3 sg t4 num p4 t5 os t6 p6 H1 I1 H2 HS H4 I4 HO H6].
    split; [assumption|]. destruct HS; [left; assumption|right; eexists; split; [reflexivity|assumption]].
  - destruct H as [? ? H|? ? H]; [eapply form_field; exact H|eapply form_empty; exact H].
  - eapply form_msgstmt; exact H.
  - destruct H as [? ? H|? ? H|p]; [exact I| |exact I]. destruct H. assumption.
  - destruct H as [t1 ty p1 t2 name num os p2 HT HF]. destruct (fieldend_form _ _ _ _ _ HF). cbn. split; [assumption|]. split; [assumption|eapply type_type_name; exact HT].
  - destruct H. cbn. eapply messagetype_name; eassumption.
Qed.
End Form.

Lemma tree_form opts input pr e : readable input -> ordinary (config_of opts) input pr -> Parse opts input = Ok pr -> element pr e -> well_formed e.
Proof.
  intros RD NG E HE. destruct (parse_sound opts input pr _ eq_refl RD NG E) as (its & LY & HF). destruct (deep _ _ _ _ _ _ _ HF HE) as (a & cs & il & ts & b & EI & EL & _). eapply elem_form; exact EL.
Qed.
Lemma tree_comment opts input pr e x c : c = config_of opts -> readable input -> ordinary c input pr -> Parse opts input = Ok pr -> element pr e ->
  In x (e_all_comments e) -> comment_of (cfg_filename c) input x.
Proof.
  intros Ec RD NG E HE IX. destruct (parse_sound opts input pr c Ec RD NG E) as (its & LY & HF). destruct (deep _ _ _ _ _ _ _ HF HE) as (a & cs & il & ts & b & EI & EL & FC & FI).
  assert (V : Forall valid_rune input) by (eapply Forall_impl; [|exact RD]; cbn beta; tauto).
  assert (FR : from its x).
  { destruct (elem_own _ _ _ _ _ _ _ EL) as (OC & OI & ON). unfold e_all_comments in IX. rewrite !in_app_iff in IX. destruct IX as [IX|[IX|IX]].
    - destruct OC as [OC|(il' & ->)]; [|destruct IX]. rewrite OC in IX. rewrite Forall_forall in FC. auto.
    - rewrite OI in IX. destruct il; [|destruct IX]. destruct IX as [<-|[]]. exact FI.
    - rewrite Forall_forall in ON. eapply from_incl; [|apply ON; exact IX]. rewrite EI. intros i I. rewrite !in_app_iff. tauto. }
  destruct FR as (y & q & -> & IC). apply in_split in IC. destruct IC as (u & v & EU). destruct LY as (p' & sp & L & _). rewrite EU in L. destruct (lay_at _ _ _ _ _ _ _ _ L) as (pre & mid & rest & E1 & E2 & G & _).
  cbn [itext ipos igood] in *. unfold comment_of. cbn [node c_raw c_meta Pos LastPos fst snd]. split; [exact G|]. exists pre, (mid ++ rest). split; [exact E1|]. rewrite E2, <- posafter_app. rewrite E1, !Forall_app in V.
  split; apply posafter_moved; [tauto|]. apply Forall_app. split; [tauto|apply Forall_removelast; tauto].
Qed.

(** a case *)
From Verif Require Import GramCase.
Definition node_in (f : field) : comment := match f_inline f with Some c => c | None => mkComment [] (f_meta f) end.
Lemma field_element : element case_proto (EStmt (VField case_field)).
Proof. apply (el_child _ (EStmt (VMessage case_message)) [EStmt (VField case_field)]); [apply el_root; right; left; reflexivity|left; reflexivity|left; reflexivity]. Qed.
