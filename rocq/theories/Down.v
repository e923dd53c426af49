(** A text further down: every production holds of the items moved down, with the positions in the AST moved. *)
From Coq Require Import List NArith ZArith Bool String Ascii Lia.
From Verif Require Import Base Token Scanner Lexing ScanRefine Ast AstMap LexSpec Grammar BareSpec Relay Junk.
Import ListNotations.
Open Scope N_scope.

Definition down (o l : Z) (p : mpos) : mpos := mkPos (Filename p) (Offset p + o) (Line p + l) (Column p).
Definition idown (o l : Z) (i : item) : item := match i with Tok x p => Tok x (down o l p) | Com x p => Com x (down o l p) end.
Lemma down_padv o l p c : padv (down o l p) c = down o l (padv p c).
Proof. unfold padv. destruct (c =? NL); unfold down; cbn; f_equal; lia. Qed.
Lemma down_after o l w : forall p, posafter (down o l p) w = down o l (posafter p w).
Proof. induction w as [|c w IH]; intros p; [reflexivity|]. cbn. rewrite down_padv. apply IH. Qed.
Lemma Lay_down o l s p r its p' r' : Lay s p r its p' r' -> Lay s (down o l p) r (map (idown o l) its) (down o l p') r'.
Proof.
  induction 1; cbn [map idown]; rewrite <- ?down_after.
  - constructor.
  - constructor; auto. rewrite down_after. assumption.
  - constructor; auto. rewrite down_after. assumption.
  - constructor; auto.
  - constructor; auto. rewrite down_after. assumption.
Qed.
Lemma toks_down o l its : toks (map (idown o l) its) = toks its.
Proof. induction its as [|[] its IH]; cbn [map idown toks]; rewrite ?IH; reflexivity. Qed.

Definition cdown o l (c : str * mpos) : str * mpos := (fst c, down o l (snd c)).
Lemma coms_down o l cs : map (idown o l) (coms cs) = coms (map (cdown o l) cs).
Proof. unfold coms. rewrite !map_map. reflexivity. Qed.
Lemma icom_down o l c : map (idown o l) (icom c) = icom (option_map (cdown o l) c).
Proof. destruct c; reflexivity. Qed.
Lemma last_down o l ts : last_tok (map (idown o l) ts) = option_map (cdown o l) (last_tok ts).
Proof. induction ts as [|[x p|x p] ts IH]; cbn [map idown last_tok]; [reflexivity| |exact IH]. rewrite IH. destruct (last_tok ts); reflexivity. Qed.
Lemma no_com_down o l ts : no_com ts -> no_com (map (idown o l) ts).
Proof. destruct ts as [|[] ts]; auto. Qed.
Lemma no_com_on_down o l n ts : no_com_on n ts -> no_com_on (n + l) (map (idown o l) ts).
Proof. destruct ts as [|[x p|x p] ts]; auto. cbn. lia. Qed.
Lemma next_down o l ts : next_tok (map (idown o l) ts) = next_tok ts.
Proof. rewrite !next_toks, toks_down. reflexivity. Qed.
Lemma tight_down o l ts : tight ts -> tight (map (idown o l) ts).
Proof. intros [|t x p]; [constructor|]. rewrite map_app. constructor. Qed.

Section Down.
Variables (o l : Z) (perm bic junk : bool).
Notation f := (down o l).
Notation I := (map (idown o l)).
Notation C := (map (map_comment f)).
Notation O := (option_map (map_comment f)).
Lemma node_down c : node (cdown o l c) = map_comment f (node c).
Proof. destruct c as [x p]. unfold node, cdown, map_comment, map_meta. cbn [fst snd c_raw c_meta Pos LastPos]. rewrite down_after. reflexivity. Qed.
Lemma nodes_down cs : nodes (map (cdown o l) cs) = C (nodes cs).
Proof. unfold nodes. rewrite !map_map. apply map_ext, node_down. Qed.
Lemma inode_down c : inode (option_map (cdown o l) c) = O (inode c).
Proof. destruct c; [|reflexivity]. cbn [option_map inode]. unfold inode. cbn [option_map]. rewrite node_down. reflexivity. Qed.
Lemma first_down ts : first_tok (I ts) = option_map (cdown o l) (first_tok ts).
Proof. induction ts as [|[] ts IH]; auto. Qed.
Lemma inline_down n c rest : Inline n c rest -> Inline (n + l) (option_map (cdown o l) c) (I rest).
Proof. destruct c as [c|]; cbn [Inline option_map cdown snd down Line]; [congruence|apply no_com_on_down]. Qed.
Lemma D_T ts x p : T ts x p -> T (I ts) x (f p).
Proof. intros (cs & ->). exists (map (cdown o l) cs). rewrite map_app, coms_down. reflexivity. Qed.
Lemma D_K ts x : K ts x -> K (I ts) x.
Proof. intros (p & H). exists (f p). apply D_T. exact H. Qed.
Lemma D_not_first ts w : not_first ts w -> not_first (I ts) w.
Proof. unfold not_first. rewrite next_down. auto. Qed.
Lemma D_opens ts b : opens ts b -> opens (I ts) b.
Proof. unfold opens. rewrite next_down. auto. Qed.
Lemma D_closed ts rest : closed perm junk ts rest -> closed perm junk (I ts) (I rest).
Proof. apply closed_move; apply toks_down. Qed.
Lemma D_no_com ts : no_com ts -> no_com (I ts). Proof. apply no_com_down. Qed.
Lemma D_last ts x p : last_tok ts = Some (x, p) -> last_tok (I ts) = Some (x, f p).
Proof. intros H. rewrite last_down, H. reflexivity. Qed.
Hint Resolve D_T D_K D_not_first D_opens D_closed D_no_com D_last inline_down : core.
Ltac go := rewrite ?map_app, ?coms_down, ?icom_down.

Lemma D_fi ts v p : FullIdent ts v p -> FullIdent (I ts) v (f p).
Proof. induction 1; go; [eapply fi_one|eapply fi_dot]; eauto. Qed.
Hint Resolve D_fi : core.
Lemma D_mt ts v p : MessageType ts v p -> MessageType (I ts) v (f p).
Proof. intros []; go; [eapply mt_name|eapply mt_dot]; eauto. Qed.
Hint Resolve D_mt : core.
Lemma D_type ts v p : Type_ ts v p -> Type_ (I ts) v (f p).
Proof. intros []; go; [eapply ty_scalar|eapply ty_message]; eauto. Qed.
Lemma D_strings ts v p : Strings ts v p -> Strings (I ts) v (f p).
Proof. induction 1; go; [eapply ss_one|eapply ss_more]; eauto. Qed.
Hint Resolve D_type D_strings : core.
Lemma D_constant ts v : Constant perm ts v -> Constant perm (I ts) v.
Proof. intros []; go; [eapply c_string|eapply c_strings|eapply c_number|eapply c_bool|eapply c_name|eapply c_signed]; eauto. Qed.
Lemma D_part ts v : NamePart perm ts v -> NamePart perm (I ts) v.
Proof. intros []; go; [eapply np_ident|eapply np_paren|eapply np_dotted]; eauto. Qed.
Hint Resolve D_constant D_part : core.
Lemma D_name ts v : OptionName perm ts v -> OptionName perm (I ts) v.
Proof. induction 1; go; [eapply on_one|eapply on_more]; eauto. Qed.
Hint Resolve D_name : core.
Lemma D_value ts v : Value perm junk ts v -> Value perm junk (I ts) v.
Proof.
  revert ts v. apply (Value_jnd perm junk (fun ts => Value perm junk (I ts)) (fun ts => Values perm junk (I ts)) (fun ts => Entries perm junk (I ts)) (fun b ts => Entry perm junk b (I ts)));
    intros; go.
  - apply v_constant. auto.
  - apply v_empty_message; auto.
  - apply v_message; auto.
  - apply v_empty_list; auto.
  - eapply v_list; eauto.
  - apply vs_one. assumption.
  - apply vs_more; auto.
  - eapply e_last; eauto.
  - eapply e_last_sep; eauto.
  - eapply e_more_sep; eauto.
  - eapply e_more; eauto.
  - eapply en_colon; eauto.
  - eapply en_colon_semi; eauto.
  - eapply en_message; eauto.
Qed.
Hint Resolve D_value : core.
Lemma D_option cs il ts x : Option perm junk cs il ts x -> Option perm junk (C cs) (O il) (I ts) (map_option f x).
Proof. intros []; go. eapply option_intro; eauto. Qed.
Lemma D_fieldoption ts x : FieldOption perm junk ts x -> FieldOption perm junk (I ts) x.
Proof. intros []; go. eapply fo_intro; eauto. Qed.
Hint Resolve D_option D_fieldoption : core.
Lemma D_fol ts x : FieldOptionList perm junk ts x -> FieldOptionList perm junk (I ts) x.
Proof. induction 1; go; [eapply fol_one|eapply fol_more]; eauto. Qed.
Hint Resolve D_fol : core.
Lemma D_fos ts x : FieldOptions perm junk ts x -> FieldOptions perm junk (I ts) x.
Proof. intros []; go; [eapply fos_none|eapply fos_some]; eauto. Qed.
Hint Resolve D_fos : core.
Lemma D_syntax cs il ts x : Syntax junk cs il ts x -> Syntax junk (C cs) (O il) (I ts) (map_syntax f x).
Proof. intros []; go. eapply syntax_intro; eauto. Qed.
Lemma D_edition cs il ts x : Edition junk cs il ts x -> Edition junk (C cs) (O il) (I ts) (map_edition f x).
Proof. intros []; go. eapply edition_intro; eauto. Qed.
Lemma D_importmod ts x : ImportMod junk ts x -> ImportMod junk (I ts) x.
Proof. intros []; go; [eapply imod_none|eapply imod_public|eapply imod_weak|eapply imod_junk]; eauto. Qed.
Hint Resolve D_syntax D_edition D_importmod : core.
Lemma D_import cs il ts x : Import junk cs il ts x -> Import junk (C cs) (O il) (I ts) (map_import f x).
Proof. intros []; go. eapply import_intro; eauto. Qed.
Lemma D_package cs il ts x : Package cs il ts x -> Package (C cs) (O il) (I ts) (map_package f x).
Proof. intros []; go. eapply package_intro; eauto. Qed.
Lemma D_label ts rest p a b c : Label ts rest p a b c -> Label (I ts) (I rest) (f p) a b c.
Proof. intros []; [eapply lb_repeated|eapply lb_required|eapply lb_optional|eapply lb_none; [rewrite first_down, H; reflexivity|]]; eauto. Qed.
Lemma D_fieldend ts n x os p : FieldEnd perm junk ts n x os p -> FieldEnd perm junk (I ts) n x os (f p).
Proof. intros []; go. eapply fe_intro; eauto. Qed.
Hint Resolve D_import D_package D_label D_fieldend : core.
Lemma D_field cs il ts x : Field perm junk cs il ts x -> Field perm junk (C cs) (O il) (I ts) (map_field f x).
Proof. intros []; go. eapply field_intro; eauto. Qed.
Lemma D_map cs il ts x : MapField perm junk cs il ts x -> MapField perm junk (C cs) (O il) (I ts) (map_mapField f x).
Proof. intros []; go. eapply map_intro; eauto. Qed.
Lemma D_oneoffield cs il ts x : OneofField perm junk cs il ts x -> OneofField perm junk (C cs) (O il) (I ts) (map_oneofField f x).
Proof. intros []; go. eapply oneof_field_intro; eauto. Qed.
Lemma D_close ts p : Close perm ts p -> Close perm (I ts) (f p).
Proof. intros []; go; [eapply close_brace|eapply close_semi]; eauto. Qed.
Hint Resolve D_field D_map D_oneoffield D_close : core.
(** an element with its comments *)
Lemma D_with {A} (P : list comment -> option comment -> list item -> A -> Prop) (g : A -> A) :
  (forall cs il ts x, P cs il ts x -> P (C cs) (O il) (I ts) (g x)) ->
  forall cs il ts x, P (nodes cs) (inode il) ts x -> P (nodes (map (cdown o l) cs)) (inode (option_map (cdown o l) il)) (I ts) (g x).
Proof. intros H cs il ts x HP. rewrite nodes_down, inode_down. apply H. exact HP. Qed.
Lemma D_elems ts fs os : OneofElems perm junk ts fs os -> OneofElems perm junk (I ts) (map (map_oneofField f) fs) (map (map_option f) os).
Proof.
  revert ts fs os. apply (OneofElems_jnd perm junk (fun ts fs os => OneofElems perm junk (I ts) (map (map_oneofField f) fs) (map (map_option f) os))
    (fun ts fs os => OneofRest perm junk (I ts) (map (map_oneofField f) fs) (map (map_option f) os))); intros; go; cbn [map idown].
  - apply oe_skip. assumption.
  - eapply oe_option; eauto; [apply (D_with _ _ D_option); eassumption|apply inline_down; eassumption].
  - eapply oe_field; eauto; [apply (D_with _ _ D_oneoffield); eassumption|apply inline_down; eassumption].
  - eapply or_end; eauto.
  - apply or_more. assumption.
Qed.
Hint Resolve D_elems : core.
Lemma D_oneof cs il ts x : Oneof perm junk cs il ts x -> Oneof perm junk (C cs) (O il) (I ts) (map_oneof f x).
Proof. intros []; go. unfold map_oneof. cbn [oo_fields oo_name oo_options oo_comments oo_inline oo_inlineLC oo_meta map_meta Pos LastPos]. rewrite <- inode_down. eapply oneof_intro; eauto. apply inline_down. assumption. Qed.
Lemma D_range ts x : Range ts x -> Range (I ts) x.
Proof. intros []; go; [eapply rg_one|eapply rg_to]; eauto. Qed.
Hint Resolve D_oneof D_range : core.
Lemma D_ranges ts x : Ranges ts x -> Ranges (I ts) x.
Proof. induction 1; go; [eapply rgs_one|eapply rgs_more]; eauto. Qed.
Lemma D_names ts x : FieldNames junk ts x -> FieldNames junk (I ts) x.
Proof. induction 1; go; [eapply fns_one|eapply fns_more]; eauto. destruct H1 as [H1|[J ->]]; [left; auto|right; auto]. Qed.
Hint Resolve D_ranges D_names : core.
Lemma D_lost ts : Lost ts -> Lost (I ts).
Proof. induction 1; go; [eapply lost_none|eapply lost_comma|eapply lost_to]; eauto. Qed.
Hint Resolve D_lost : core.
Lemma D_reserved cs il ts x : Reserved junk cs il ts x -> Reserved junk (C cs) (O il) (I ts) (map_reserved f x).
Proof. intros []; go; [eapply reserved_ranges|eapply reserved_names]; eauto. destruct H0 as [[J H0]| ->]; [left; auto|right; reflexivity]. Qed.
Lemma D_declfield ts x : DeclField ts x -> DeclField (I ts) x.
Proof. intros []; go; [eapply df_number|eapply df_string|eapply df_bool]; eauto. Qed.
Hint Resolve D_reserved D_declfield : core.
Lemma D_declfields b ts x : DeclFields junk b ts x -> DeclFields junk b (I ts) x.
Proof. induction 1; go; [eapply dfs_nil|eapply dfs_cons]; eauto. destruct H as [[H J]|[-> J]]; [left; auto|right; auto]. Qed.
Hint Resolve D_declfields : core.
Lemma D_declaration cs il ts x : Declaration junk cs il ts x -> Declaration junk (C cs) (O il) (I ts) (map_declaration f x).
Proof.
  intros []; go. unfold map_declaration. cbn [d_number d_fullName d_type d_reserved d_repeated d_comments d_inline d_inlineLC d_meta map_meta Pos LastPos]. rewrite <- inode_down.
  eapply declaration_intro; eauto. rewrite <- map_app. apply inline_down. assumption.
Qed.
Lemma D_inlines n a b rest : Inlines n a b rest -> Inlines (n + l) (option_map (cdown o l) a) (option_map (cdown o l) b) (I rest).
Proof.
  intros [H1 H2]. split; [rewrite <- icom_down, <- map_app; apply inline_down; exact H1|]. destruct a as [a|]; cbn [option_map] in *; [|subst; reflexivity].
  cbn [cdown snd down Line]. apply inline_down. exact H2.
Qed.
Lemma last_some_down a b : option_map (cdown o l) (last_some a b) = last_some (option_map (cdown o l) a) (option_map (cdown o l) b).
Proof. destruct b; reflexivity. Qed.
Lemma D_declarations fol ts ds : Declarations junk fol ts ds -> Declarations junk (I fol) (I ts) (map (map_declaration f) ds).
Proof.
  induction 1; go; cbn [map].
  - eapply ds_last; eauto; [rewrite <- last_some_down; apply (D_with _ _ D_declaration); eassumption|apply D_inlines; assumption].
  - eapply ds_more; eauto; [rewrite <- last_some_down; apply (D_with _ _ D_declaration); eassumption|rewrite <- map_app; apply D_inlines; assumption].
Qed.
Hint Resolve D_declarations : core.
Lemma D_extensions cs il ts x : Extensions junk cs il ts x -> Extensions junk (C cs) (O il) (I ts) (map_extensions f x).
Proof.
  intros []; go; [eapply extensions_ranges; eauto|]. unfold map_extensions. cbn [xs_ranges xs_declarations xs_comments xs_inline xs_inlineLS xs_meta map_meta Pos LastPos]. rewrite <- inode_down.
  eapply extensions_decls; eauto. rewrite <- map_app. apply inline_down. assumption.
Qed.
Hint Resolve D_extensions : core.

Notation V := (map_visitee f false).
Notation B := (map_body f false).
Lemma B_map vs : B vs = map V vs.
Proof. induction vs as [|v vs IH]; [reflexivity|]. unfold map_body in *. cbn [filter]. assert (dropped false v = false) as -> by (destruct v; reflexivity). cbn [negb map]. rewrite IH. reflexivity. Qed.
Lemma B_cons v vs : B (v :: vs) = V v :: B vs. Proof. rewrite !B_map. reflexivity. Qed.
Lemma B_nil vs : B vs = [] -> vs = [].
Proof. rewrite B_map. destruct vs; [reflexivity|discriminate]. Qed.
Lemma trailing_down tcs : B (trailing bic tcs) = trailing bic (map (cdown o l) tcs).
Proof. unfold trailing. destruct bic; [|reflexivity]. rewrite B_map, nodes_down, !map_map. reflexivity. Qed.
Section Bodies.
Variables S : list comment -> option comment -> list item -> visitee -> Prop.
Hypothesis SS : forall cs il ts v, S cs il ts v -> S (C cs) (O il) (I ts) (V v).
Lemma D_stmts ts vs tcs : Stmts perm junk S ts vs tcs -> Stmts perm junk S (I ts) (B vs) (map (cdown o l) tcs).
Proof.
  induction 1 as [cs|cs ts v x q il rest vs tcs A1 A2 A3 A4 A5 A6 IH].
  - rewrite coms_down. exact (sts_nil perm junk S (map (cdown o l) cs)).
  - rewrite !map_app, coms_down, icom_down, B_cons.
    refine (sts_cons perm junk S (map (cdown o l) cs) (I ts) (V v) x (f q) (option_map (cdown o l) il) (I rest) (B vs) (map (cdown o l) tcs) _ (no_com_down o l ts A2) (D_last ts x q A3) (inline_down (Line q) il rest A4) (D_closed ts rest A5) IH).
    rewrite nodes_down, inode_down. exact (SS _ _ _ _ A1).
Defined.
Lemma D_body drop ts vs lc q : Body perm bic junk drop S ts vs lc q -> Body perm bic junk drop S (I ts) (B vs) (O lc) (f q).
Proof.
  intros [t1 p1 lc' ts' vs' tcs t2 q' A1 A2 A3 A4 A5 A6|t1 p1 lc' t2 q' A1 A2 A3 A4].
  - rewrite !map_app, icom_down, map_body_app, trailing_down, <- inode_down.
    refine (body_stmts perm bic junk drop S (I t1) (f p1) (option_map (cdown o l) lc') (I ts') (B vs') (map (cdown o l) tcs) (I t2) (f q') (D_T t1 _ p1 A1) _ (D_stmts _ _ _ A3) (no_com_down o l t2 A4) (D_close t2 q' A5) _).
    + rewrite <- map_app. exact (inline_down (Line p1) lc' (ts' ++ t2) A2).
    + destruct A6 as [A6|A6]; [left; exact A6|right; intros E; exact (A6 (B_nil _ E))].
  - rewrite !map_app, icom_down.
    exact (body_empty perm bic junk drop S (I t1) (f p1) (option_map (cdown o l) lc') (I t2) (f q') A1 (D_T t1 _ p1 A2) (inline_down (Line p1) lc' t2 A3) (D_close t2 q' A4)).
Defined.
End Bodies.
Lemma D_empty U il ts v : Empty junk U il ts v -> Empty junk U (O il) (I ts) (V v).
Proof. intros []; go; [eapply empty_intro|eapply empty_junk; rewrite ?toks_down; eauto]. Qed.
Lemma D_sign ts x : Sign ts x -> Sign (I ts) x.
Proof. intros []; [apply sign_none|apply sign_minus; auto]. Qed.
Hint Resolve D_empty D_sign : core.
Lemma D_enumfield cs il ts x : EnumField perm junk cs il ts x -> EnumField perm junk (C cs) (O il) (I ts) (map_enumField f x).
Proof. intros []; go. eapply enum_field_intro; eauto. Qed.
Hint Resolve D_enumfield : core.
Lemma D_enumstmt cs il ts v : EnumStmt perm junk cs il ts v -> EnumStmt perm junk (C cs) (O il) (I ts) (V v).
Proof. intros []; [apply es_option|apply es_reserved|apply es_field|apply es_empty]; auto. Qed.
Lemma D_enum cs il ts v : Enum perm bic junk cs il ts v -> Enum perm bic junk (C cs) (O il) (I ts) (map_block f B v).
Proof. intros [t1 p1 t2 name p2 t3 vs lc q A1 A2 A3 A4]. apply (D_body _ D_enumstmt) in A4. go. eapply enum_intro; eauto. Qed.
Lemma D_extendstmt cs il ts v : ExtendStmt perm junk cs il ts v -> ExtendStmt perm junk (C cs) (O il) (I ts) (V v).
Proof. intros []; [apply xs_field|apply xs_empty]; auto. Qed.
Lemma D_extend cs il ts v : Extend perm bic junk cs il ts v -> Extend perm bic junk (C cs) (O il) (I ts) (map_block f B v).
Proof. intros [t1 p1 t2 name p2 t3 vs lc q A1 A2 A4]. apply (D_body _ D_extendstmt) in A4. go. eapply extend_intro; eauto. Qed.
Hint Resolve D_enum D_extend : core.
Lemma D_messagestmt : forall cs il ts v, MessageStmt perm bic junk cs il ts v -> MessageStmt perm bic junk (C cs) (O il) (I ts) (V v).
Proof.
  fix IH 5. intros cs il ts v [ts' e H|t1 p1 t2 name p2 t3 vs lc q A1 A2 A3 A4|ts' x H|ts' x H|ts' m H|ts' x H|ts' r H|ts' x H|ts' x H N|
    t1 p1 rp rq op t2 t3 name p3 t4 t5 num p5 t6 vs lc q A1 A2 A3 A4 A5 A6 A7 A8 A9|ts' v' H].
  - rewrite map_enum. apply ms_enum. auto.
  - rewrite map_message, !map_app.
    exact (ms_message perm bic junk (C cs) (O il) (I t1) (f p1) (I t2) name (f p2) (I t3) (B vs) (O lc) (f q) (D_T _ _ _ A1) (D_T _ _ _ A2) A3 (D_body _ IH _ _ _ _ _ A4)).
  - apply ms_option. auto.
  - apply ms_oneof. auto.
  - apply ms_map. auto.
  - rewrite map_extend. apply ms_extend. auto.
  - apply ms_reserved. auto.
  - apply ms_extensions. auto.
  - apply ms_field; auto.
  - rewrite map_groupField, !map_app.
    exact (ms_group perm bic junk (C cs) (O il) (I t1) (f p1) rp rq op (I t2) (I t3) name (f p3) (I t4) (I t5) num (f p5) (I t6) (B vs) (O lc) (f q)
      (D_label _ _ _ _ _ _ A1) (D_K _ _ A2) (D_T _ _ _ A3) A4 A5 (D_K _ _ A6) (D_T _ _ _ A7) A8 (D_body _ IH _ _ _ _ _ A9)).
  - apply ms_empty. auto.
Qed.
Lemma D_message cs il ts v : Message perm bic junk cs il ts v -> Message perm bic junk (C cs) (O il) (I ts) (map_block f B v).
Proof. intros [t1 p1 t2 name p2 t3 vs lc q A1 A2 A3 A4]. apply (D_body _ D_messagestmt) in A4. go. eapply message_intro; eauto. Qed.
Lemma D_stream ts rest b : Stream ts rest b -> Stream (I ts) (I rest) b.
Proof. intros []; [apply stream_yes|apply stream_no]; auto. Qed.
Hint Resolve D_message D_stream : core.
Lemma D_param ts x : RPCParam ts x -> RPCParam (I ts) (map_param f x).
Proof. intros []; go. eapply rpc_param_intro; eauto. Qed.
Lemma D_rpcbody ts os : RPCBody perm junk ts os -> RPCBody perm junk (I ts) (map (map_option f) os).
Proof. induction 1; go; [apply rb_nil|apply rb_option; auto|apply rb_empty; auto]. apply (D_option [] None). assumption. Qed.
Hint Resolve D_param D_rpcbody : core.
Lemma D_rpcend t1 t2 os lc q : RPCEnd perm junk t1 t2 os lc q -> RPCEnd perm junk (I t1) (I t2) (map (map_option f) os) (O lc) (f q).
Proof. intros []; go; [apply re_semi; auto|]. rewrite <- inode_down. eapply re_block; eauto. rewrite <- map_app. apply inline_down. assumption. Qed.
Lemma comments_down ts : comments_in (I ts) = C (comments_in ts).
Proof. induction ts as [|[x p|x p] ts IH]; cbn [map idown comments_in]; [reflexivity|exact IH|]. rewrite IH. f_equal. apply (node_down (x, p)). Qed.
Hint Resolve D_rpcend : core.
Lemma D_rpc cs il ts x : RPC perm junk cs il ts x -> RPC perm junk (C cs) (O il) (I ts) (map_rpc f x).
Proof.
  intros [cs1 p1 t2 name p2 t3 rq t4 t5 rs t6 t7 os lc q A1 A2 A3 A4 A5 A6]. unfold map_rpc. cbn [r_name r_request r_response r_options r_comments r_inline r_inlineLC r_embedded r_meta map_meta Pos LastPos].
  rewrite <- comments_down, !map_app, coms_down. cbn [map idown]. eapply rpc_intro; eauto.
Qed.
Hint Resolve D_rpc : core.
Lemma D_servicestmt cs il ts v : ServiceStmt perm junk cs il ts v -> ServiceStmt perm junk (C cs) (O il) (I ts) (V v).
Proof. intros []; [apply ss_option|apply ss_rpc|apply ss_empty]; auto. Qed.
Lemma D_service cs il ts v : Service perm bic junk cs il ts v -> Service perm bic junk (C cs) (O il) (I ts) (map_block f B v).
Proof. intros [t1 p1 t2 name p2 t3 vs lc q A1 A2 A3 A4]. apply (D_body _ D_servicestmt) in A4. go. eapply service_intro; eauto. Qed.
Hint Resolve D_service : core.
Lemma D_filestmt cs il ts v : FileStmt perm bic junk cs il ts v -> FileStmt perm bic junk (C cs) (O il) (I ts) (V v).
Proof. intros []; rewrite ?map_message, ?map_enum, ?map_service, ?map_extend; [apply fs_import|apply fs_package|apply fs_option|apply fs_message|apply fs_enum|apply fs_service|apply fs_extend]; auto. Qed.
Lemma D_filestmts ts vs tcs : FileStmts perm bic junk ts vs tcs -> FileStmts perm bic junk (I ts) (B vs) (map (cdown o l) tcs).
Proof.
  induction 1; go; rewrite ?B_cons; cbn [map idown].
  - apply fss_nil.
  - eapply fss_cons; eauto; [apply (D_with _ _ D_filestmt); eassumption|apply inline_down; assumption].
  - apply fss_empty; [|assumption]. apply no_com_on_down. assumption.
Qed.
End Down.
