(** Every text of the documented grammar is one of the grammar with the deviations, with the same AST. *)
From Coq Require Import List NArith ZArith Bool String Ascii Lia.
From Verif Require Import Base Token Scanner Lexing ScanRefine Ast LexSpec LexFacts LexProofs ScanFacts ScanProps Grammar GramLex.
Import ListNotations.
Open Scope N_scope.

Scheme Value_jnd := Minimality for Value Sort Prop with Values_jnd := Minimality for Values Sort Prop
  with Entries_jnd := Minimality for Entries Sort Prop with Entry_jnd := Minimality for Entry Sort Prop.
Scheme OneofElems_jnd := Minimality for OneofElems Sort Prop with OneofRest_jnd := Minimality for OneofRest Sort Prop.

Section Wider.
Variables perm bic : bool.
Lemma J_closed ts rest : closed perm true ts rest. Proof. left. reflexivity. Qed.
Hint Resolve J_closed : core.

Lemma J_value ts v : Value perm false ts v -> Value perm true ts v.
Proof.
  intros H.
  revert H. apply (Value_jnd perm false (Value perm true) (Values perm true) (Entries perm true) (Entry perm true)); intros.
  - apply v_constant. assumption.
  - apply v_empty_message; assumption.
  - apply v_message; assumption.
  - apply v_empty_list; assumption.
  - eapply v_list; eauto.
  - apply vs_one. assumption.
  - apply vs_more; assumption.
  - eapply e_last; eassumption.
  - eapply e_last_sep; eassumption.
  - eapply e_more_sep; eassumption.
  - eapply e_more; eassumption.
  - eapply en_colon; eassumption.
  - eapply en_colon_semi; eassumption.
  - eapply en_message; eassumption.
Qed.
Hint Resolve J_value : core.
Lemma J_option cs il ts o : Option perm false cs il ts o -> Option perm true cs il ts o.
Proof. intros []. eapply option_intro; eauto. Qed.
Hint Resolve J_option : core.
Lemma J_fieldoption ts o : FieldOption perm false ts o -> FieldOption perm true ts o.
Proof. intros []. eapply fo_intro; eauto. Qed.
Hint Resolve J_fieldoption : core.
Lemma J_fol ts os : FieldOptionList perm false ts os -> FieldOptionList perm true ts os.
Proof. induction 1; [apply fol_one|apply fol_more]; auto. Qed.
Hint Resolve J_fol : core.
Lemma J_fos ts os : FieldOptions perm false ts os -> FieldOptions perm true ts os.
Proof. intros []; [apply fos_none|apply fos_some]; auto. Qed.
Hint Resolve J_fos : core.
Lemma J_qm q q' : quotes_match false q q' -> quotes_match true q q'. Proof. left. reflexivity. Qed.
Hint Resolve J_qm : core.
Lemma J_syntax cs il ts s : Syntax false cs il ts s -> Syntax true cs il ts s.
Proof. intros []. eapply syntax_intro; eauto. Qed.
Lemma J_edition cs il ts s : Edition false cs il ts s -> Edition true cs il ts s.
Proof. intros []. eapply edition_intro; eauto. Qed.
Lemma J_importmod ts m : ImportMod false ts m -> ImportMod true ts m.
Proof. intros []; [apply imod_none|apply imod_public|apply imod_weak|eapply imod_junk]; eauto. Qed.
Hint Resolve J_syntax J_edition J_importmod : core.
Lemma J_import cs il ts s : Import false cs il ts s -> Import true cs il ts s.
Proof. intros []. eapply import_intro; eauto. Qed.
Hint Resolve J_import : core.
Lemma J_fieldend ts n x os p : FieldEnd perm false ts n x os p -> FieldEnd perm true ts n x os p.
Proof. intros []. eapply fe_intro; eauto. Qed.
Hint Resolve J_fieldend : core.
Lemma J_field cs il ts f : Field perm false cs il ts f -> Field perm true cs il ts f.
Proof. intros []. eapply field_intro; eauto. Qed.
Lemma J_map cs il ts f : MapField perm false cs il ts f -> MapField perm true cs il ts f.
Proof. intros []. eapply map_intro; eauto. Qed.
Lemma J_oneoffield cs il ts f : OneofField perm false cs il ts f -> OneofField perm true cs il ts f.
Proof. intros []. eapply oneof_field_intro; eauto. Qed.
Hint Resolve J_field J_map J_oneoffield : core.
Lemma J_elems ts fs os : OneofElems perm false ts fs os -> OneofElems perm true ts fs os.
Proof.
  apply (OneofElems_jnd perm false (OneofElems perm true) (OneofRest perm true)); intros.
  - apply oe_skip. assumption.
  - eapply oe_option; eauto.
  - eapply oe_field; eauto.
  - eapply or_end; eauto.
  - apply or_more. assumption.
Qed.
Hint Resolve J_elems : core.
Lemma J_oneof cs il ts o : Oneof perm false cs il ts o -> Oneof perm true cs il ts o.
Proof. intros []. eapply oneof_intro; eauto. Qed.
Hint Resolve J_oneof : core.
Lemma J_names ts xs : FieldNames false ts xs -> FieldNames true ts xs.
Proof. induction 1; [eapply fns_one|eapply fns_more]; intuition eauto; discriminate. Qed.
Hint Resolve J_names : core.
Lemma J_reserved cs il ts r : Reserved false cs il ts r -> Reserved true cs il ts r.
Proof. intros []; [eapply reserved_ranges|eapply reserved_names]; intuition eauto; discriminate. Qed.
Lemma J_declfields first ts kvs : DeclFields false first ts kvs -> DeclFields true first ts kvs.
Proof. induction 1; [apply dfs_nil|apply dfs_cons]; auto. intuition. Qed.
Hint Resolve J_reserved J_declfields : core.
Lemma J_declaration cs il ts d : Declaration false cs il ts d -> Declaration true cs il ts d.
Proof. intros []. eapply declaration_intro; eauto. Qed.
Hint Resolve J_declaration : core.
Lemma J_declarations fol ts ds : Declarations false fol ts ds -> Declarations true fol ts ds.
Proof. induction 1; [eapply ds_last|eapply ds_more]; eauto. Qed.
Hint Resolve J_declarations : core.
Lemma J_extensions cs il ts x : Extensions false cs il ts x -> Extensions true cs il ts x.
Proof. intros []; [eapply extensions_ranges|eapply extensions_decls]; eauto. Qed.
Hint Resolve J_extensions : core.

Section Bodies.
Variables S S' : list comment -> option comment -> list item -> visitee -> Prop.
Hypothesis SS : forall cs il ts v, S cs il ts v -> S' cs il ts v.
Lemma J_stmts ts vs tcs : Stmts perm false S ts vs tcs -> Stmts perm true S' ts vs tcs.
Proof. induction 1 as [|cs ts v x q il rest vs tcs A B C D E F IH]; [apply sts_nil|exact (sts_cons perm true S' cs ts v x q il rest vs tcs (SS _ _ _ _ A) B C D (J_closed _ _) IH)]. Defined.
Lemma J_body drop ts vs lc q : Body perm bic false drop S ts vs lc q -> Body perm bic true drop S' ts vs lc q.
Proof. intros [t1 p1 lc' ts' vs' tcs t2 q' A B C D E F|t1 p1 lc' t2 q' A B C D]; [exact (body_stmts perm bic true drop S' t1 p1 lc' ts' vs' tcs t2 q' A B (J_stmts _ _ _ C) D E F)|exact (body_empty perm bic true drop S' t1 p1 lc' t2 q' A B C D)]. Defined.
End Bodies.
Lemma J_empty U il ts v : Empty false U il ts v -> Empty true U il ts v.
Proof. intros []; [apply empty_intro|eapply empty_junk; eauto]. Qed.
Hint Resolve J_empty : core.
Lemma J_enumfield cs il ts f : EnumField perm false cs il ts f -> EnumField perm true cs il ts f.
Proof. intros []. eapply enum_field_intro; eauto. Qed.
Hint Resolve J_enumfield : core.
Lemma J_enumstmt cs il ts v : EnumStmt perm false cs il ts v -> EnumStmt perm true cs il ts v.
Proof. intros []; [apply es_option|apply es_reserved|apply es_field|apply es_empty]; auto. Qed.
Lemma J_enum cs il ts v : Enum perm bic false cs il ts v -> Enum perm bic true cs il ts v.
Proof. intros [t1 p1 t2 name p2 t3 vs lc q A B C D]. apply (J_body _ _ J_enumstmt) in D. eapply enum_intro; eauto. Qed.
Lemma J_extendstmt cs il ts v : ExtendStmt perm false cs il ts v -> ExtendStmt perm true cs il ts v.
Proof. intros []; [apply xs_field|apply xs_empty]; auto. Qed.
Lemma J_extend cs il ts v : Extend perm bic false cs il ts v -> Extend perm bic true cs il ts v.
Proof. intros [t1 p1 t2 name p2 t3 vs lc q A B D]. apply (J_body _ _ J_extendstmt) in D. eapply extend_intro; eauto. Qed.
Hint Resolve J_enum J_extend : core.
Lemma J_messagestmt : forall cs il ts v, MessageStmt perm bic false cs il ts v -> MessageStmt perm bic true cs il ts v.
Proof.
  fix IH 5. intros cs il ts v [ts' e H|t1 p1 t2 name p2 t3 vs lc q A B C D|ts' o H|ts' o H|ts' m H|ts' x H|ts' r H|ts' x H|ts' f H N|
    t1 p1 rp rq op t2 t3 name p3 t4 t5 num p5 t6 vs lc q A B C D E F G H I|ts' v' H].
  - apply ms_enum. auto.
  - exact (ms_message perm bic true cs il t1 p1 t2 name p2 t3 vs lc q A B C (J_body _ _ IH _ _ _ _ _ D)).
  - apply ms_option. auto.
  - apply ms_oneof. auto.
  - apply ms_map. auto.
  - apply ms_extend. auto.
  - apply ms_reserved. auto.
  - apply ms_extensions. auto.
  - apply ms_field; auto.
  - exact (ms_group perm bic true cs il t1 p1 rp rq op t2 t3 name p3 t4 t5 num p5 t6 vs lc q A B C D E F G H (J_body _ _ IH _ _ _ _ _ I)).
  - apply ms_empty. auto.
Qed.
Lemma J_message cs il ts m : Message perm bic false cs il ts m -> Message perm bic true cs il ts m.
Proof. intros [t1 p1 t2 name p2 t3 vs lc q A B C D]. apply (J_body _ _ J_messagestmt) in D. eapply message_intro; eauto. Qed.
Lemma J_rpcbody ts os : RPCBody perm false ts os -> RPCBody perm true ts os.
Proof. induction 1; [apply rb_nil|apply rb_option|apply rb_empty]; auto. Qed.
Hint Resolve J_message J_rpcbody : core.
Lemma J_rpcend t1 t2 os lc q : RPCEnd perm false t1 t2 os lc q -> RPCEnd perm true t1 t2 os lc q.
Proof. intros []; [apply re_semi|eapply re_block]; eauto. Qed.
Hint Resolve J_rpcend : core.
Lemma J_rpc cs il ts r : RPC perm false cs il ts r -> RPC perm true cs il ts r.
Proof. intros []. eapply rpc_intro; eauto. Qed.
Hint Resolve J_rpc : core.
Lemma J_servicestmt cs il ts v : ServiceStmt perm false cs il ts v -> ServiceStmt perm true cs il ts v.
Proof. intros []; [apply ss_option|apply ss_rpc|apply ss_empty]; auto. Qed.
Lemma J_service cs il ts v : Service perm bic false cs il ts v -> Service perm bic true cs il ts v.
Proof. intros [t1 p1 t2 name p2 t3 vs lc q A B C D]. apply (J_body _ _ J_servicestmt) in D. eapply service_intro; eauto. Qed.
Hint Resolve J_service : core.
Lemma J_filestmt cs il ts v : FileStmt perm bic false cs il ts v -> FileStmt perm bic true cs il ts v.
Proof. intros []; [apply fs_import|apply fs_package|apply fs_option|apply fs_message|apply fs_enum|apply fs_service|apply fs_extend]; auto. Qed.
Hint Resolve J_filestmt : core.
Lemma J_filestmts ts vs tcs : FileStmts perm bic false ts vs tcs -> FileStmts perm bic true ts vs tcs.
Proof. induction 1; [apply fss_nil|eapply fss_cons; eauto|apply fss_empty; auto]. Qed.
Hint Resolve J_filestmts : core.
Lemma J_syntaxpart cs ts s rest : SyntaxPart false cs ts s rest -> SyntaxPart true cs ts s rest.
Proof. intros []; [apply sp_none; auto|eapply sp_some; eauto]. Qed.
Lemma J_editionpart cs ts s rest : EditionPart false cs ts s rest -> EditionPart true cs ts s rest.
Proof. intros []; [apply ep_none; auto|eapply ep_some; eauto]. Qed.
Lemma J_file fn its pr : File perm bic false fn its pr -> File perm bic true fn its pr.
Proof. intros []. apply file_intro; auto using J_syntaxpart, J_editionpart. Qed.
End Wider.

(** ** Layout *)
Lemma token_wider x r : token_at true x r -> token_at false x r.
Proof.
  intros H. split.
  - destruct (token_not_slash _ _ H) as (c & y & -> & A & B). split; [exact A|]. intros ->. discriminate B.
  - intros I. destruct H as [[_ H]|[[_ H]|[H|(c & -> & H & _)]]]; [exact H|apply delim_no_ident; exact H|destruct (ident_not_str _ I H)|destruct (ident_not_punct _ I H)].
Qed.
Lemma lay_wider p r its p' r' : Lay true p r its p' r' -> Lay false p r its p' r'.
Proof.
  induction 1; [apply lay_nil|apply lay_tok|apply lay_line|apply lay_line_end|apply lay_block]; auto using token_wider.
Qed.
Lemma layout_wider p r its : Layout true p r its -> Layout false p r its.
Proof. intros (p' & sp & L & S). exists p', sp. split; [apply lay_wider; exact L|exact S]. Qed.
