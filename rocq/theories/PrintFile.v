(** Printing a parsed file and parsing it again (C44). *)
From Coq Require Import List NArith ZArith Bool String Ascii Lia.
From Verif Require Import Base Token Scanner Lexing ScanRefine LexFacts Ast Parser Api LexSpec LexProofs ScanFacts ScanProps RefineFile Direct Grammar GramLex GramFile BareSpec Relay Tree SndFile
  PrintSpec Print PrintParts PrintStmts Regular.
Import ListNotations.
Open Scope N_scope.

Section File.
Variables perm bic junk : bool.
Notation simple := (simple perm).
Notation visitee_words := (visitee_words perm).

Lemma FileStmt_print cs il ts v : FileStmt perm bic junk cs il ts v -> simple ts ->
  exists xs v', Texts (visitee_words v) xs /\ FileStmt perm bic false [] None (tk xs) v' /\ bare v' = bare v /\ (forall c, v <> VComment c) /\ ends perm xs /\
    not_first (tk xs) ["syntax"; "edition"]%string.
Proof.
  assert (KEY : forall xs x, hd_error xs = Some x -> ~ words ["syntax"; "edition"]%string x -> not_first (tk xs) ["syntax"; "edition"]%string) by (intros xs x E N; exact (T_head _ _ _ E N)).
  assert (NW : forall s, existsb (String.eqb s) ["import"; "package"; "option"; "message"; "enum"; "service"; "extend"]%string = true -> ~ words ["syntax"; "edition"]%string (lit s)).
  { intros s H. apply existsb_exists in H. destruct H as (s' & IN & E). apply String.eqb_eq in E. subst s'. cbn in IN.
    intros [W|[W|[]]]; repeat (destruct IN as [<-|IN]; [discriminate W|]); destruct IN. }
  intros H S. destruct H as [ts i H|ts i H|ts o H|ts m H|ts e H|ts s H|ts x H].
  - destruct (Import_print perm _ _ _ _ _ H S) as (xs & e & A & B & C & D & F). exists xs, (VImport e). split; [exact A|]. split; [apply fs_import; exact B|]. split; [cbn; congruence|]. split; [discriminate|]. split; [exact D|].
    eapply KEY; [rewrite F; destruct H as [t1 p1 t2 m t3 x p3 t4 p4 H1 H2 H3 I3 H4]; exact (next_app _ _ _ (next_T _ _ _ H1))|]. apply NW. reflexivity.
  - destruct (Package_print perm _ _ _ _ H S) as (xs & e & A & B & C & D & F). exists xs, (VPackage e). split; [exact A|]. split; [apply fs_package; exact B|]. split; [cbn; congruence|]. split; [discriminate|]. split; [exact D|].
    eapply KEY; [rewrite F; destruct H as [t1 p1 t2 v p2 t3 p3 H1 H2 H3]; exact (next_app _ _ _ (next_T _ _ _ H1))|]. apply NW. reflexivity.
  - destruct (Option_print _ _ _ _ _ _ H S) as (xs & e & A & B & C & D & F). exists xs, (VOption e). split; [exact A|]. split; [apply fs_option; exact B|]. split; [cbn; congruence|]. split; [discriminate|]. split; [exact D|].
    eapply KEY; [rewrite F; destruct H as [t1 p1 t2 name t3 t4 v t5 p5 H1 H2 H3 H4 H5]; exact (next_app _ _ _ (next_T _ _ _ H1))|]. apply NW. reflexivity.
  - destruct (Message_print _ _ _ _ _ _ _ H S) as (xs & b' & A & B & C & D & F). exists xs, (VMessage b'). split; [exact A|]. split; [apply fs_message; exact B|]. split; [rewrite !bare_message, C; reflexivity|].
    split; [discriminate|]. split; [exact D|]. eapply KEY; [exact F|]. apply NW. reflexivity.
  - destruct (Enum_print _ _ _ _ _ _ _ H S) as (xs & b' & A & B & C & D & F). exists xs, (VEnum b'). split; [exact A|]. split; [apply fs_enum; exact B|]. split; [rewrite !bare_enum, C; reflexivity|].
    split; [discriminate|]. split; [exact D|]. eapply KEY; [exact F|]. apply NW. reflexivity.
  - destruct (Service_print _ _ _ _ _ _ _ H S) as (xs & b' & A & B & C & D & F). exists xs, (VService b'). split; [exact A|]. split; [apply fs_service; exact B|]. split; [rewrite !bare_service, C; reflexivity|].
    split; [discriminate|]. split; [exact D|]. eapply KEY; [exact F|]. apply NW. reflexivity.
  - destruct (Extend_print _ _ _ _ _ _ _ H S) as (xs & b' & A & B & C & D & F). exists xs, (VExtend b'). split; [exact A|]. split; [apply fs_extend; exact B|]. split; [rewrite !bare_extend, C; reflexivity|].
    split; [discriminate|]. split; [exact D|]. eapply KEY; [exact F|]. apply NW. reflexivity.
Qed.
Lemma not_first_app a b l : a <> [] -> not_first (tk a) l -> not_first (tk (a ++ b)) l.
Proof. destruct a; [contradiction|]. exact (fun _ H => H). Qed.
Lemma FileStmts_print ts vs tcs : FileStmts perm bic junk ts vs tcs -> simple ts ->
  exists xs vs', Texts (flat_map visitee_words vs) xs /\ FileStmts perm bic false (tk xs) vs' [] /\ bare_body vs' = bare_body vs /\ not_first (tk xs) ["syntax"; "edition"]%string.
Proof.
  induction 1 as [cs|cs ts v x q il rest vs tcs H N L I HC HR IH|cs p rest vs tcs N HR IH]; intros S.
  - exists [], []. split; [constructor|]. split; [apply (fss_nil perm bic false [])|]. split; [reflexivity|exact Logic.I].
  - parted S. destruct (IH S) as (xs' & vs' & HT' & HR' & E' & _). destruct (FileStmt_print _ _ _ _ H S1) as (xs & v' & HT & HV & E & NC & EN & NF). destruct (ends_last _ _ EN) as (y & LY & CL).
    exists (xs ++ xs'), (v' :: vs'). split; [cbn [flat_map]; apply texts_app; assumption|]. split; [|split].
    + rewrite tk_app. change (tk xs ++ tk xs') with (coms [] ++ tk xs ++ icom None ++ tk xs'). eapply fss_cons; [exact HV|apply no_com_tk|exact LY|apply inline_tk|apply CL|exact HR'].
    + rewrite !bare_body_cons; [congruence|exact NC|]. eapply bare_com; eassumption.
    + apply not_first_app; [|exact NF]. destruct EN as (ys & z & -> & _). destruct ys; discriminate.
  - change (Tok (lit ";") p :: rest) with ([Tok (lit ";") p] ++ rest) in S. parted S. destruct (IH S) as (xs' & vs' & HT' & HR' & E' & _).
    exists ([lit ";"] ++ xs'), (VEmpty (mkEmpty None) :: VNil :: vs'). split; [|split; [|split]].
    + cbn [flat_map PrintSpec.visitee_words app]. apply texts_tok; [kw|exact HT'].
    + rewrite tk_app. apply (fss_empty perm bic false [] P0); [apply (inline_tk xs')|exact HR'].
    + cbn [bare_body]. rewrite E'. reflexivity.
    + cbn. intros [W|[W|[]]]; discriminate W.
Qed.
Lemma not_first_both ts l : not_first ts ["syntax"; "edition"]%string -> In l ["syntax"; "edition"]%string -> not_first ts [l].
Proof. unfold not_first. destruct (next_tok ts) as [x|]; [|auto]. intros N IN [W|[]]. apply N. destruct IN as [<-|[<-|[]]]; [left|right; left]; exact W. Qed.
Lemma SyntaxPart_print cs ts sy rest xr : SyntaxPart junk cs ts sy rest -> (forall x, sy = Some x -> exists q, sy_versionQuote x = q :: sy_version x ++ [q]) -> not_first (tk xr) ["syntax"]%string ->
  exists xs sy', Texts (match sy with Some x => syntax_words x | None => [] end) xs /\ SyntaxPart false [] (tk xs) sy' (tk xr) /\ option_map bare_syntax sy' = option_map bare_syntax sy.
Proof.
  intros [r N|t s x q il r H L I] O NF.
  - exists [], None. split; [constructor|]. split; [apply sp_none; exact NF|reflexivity].
  - destruct (Syntax_print perm _ _ _ _ _ H (O s eq_refl)) as (xs & s' & HT & HS & E & EN & _). destruct (ends_last _ _ EN) as (y & LY & _).
    exists xs, (Some s'). split; [exact HT|]. split; [|cbn; congruence]. rewrite <- (app_nil_r (tk xs)). apply (sp_some false [] _ s' y P0 None); [exact HS|exact LY|apply inline_tk].
Qed.
Lemma EditionPart_print cs ts ed rest xr : EditionPart junk cs ts ed rest -> (forall x, ed = Some x -> exists q, ed_editionQuote x = q :: ed_edition x ++ [q]) -> not_first (tk xr) ["edition"]%string ->
  exists xs ed', Texts (match ed with Some x => edition_words x | None => [] end) xs /\ EditionPart false [] (tk xs) ed' (tk xr) /\ option_map bare_edition ed' = option_map bare_edition ed /\
    (xs = [] \/ hd_error xs = Some (lit "edition")).
Proof.
  intros [r N|t s x q il r H L I] O NF.
  - exists [], None. split; [constructor|]. split; [apply ep_none; exact NF|]. split; [reflexivity|left; reflexivity].
  - destruct (Edition_print perm _ _ _ _ _ H (O s eq_refl)) as (xs & s' & HT & HS & E & EN & HD). destruct (ends_last _ _ EN) as (y & LY & _).
    exists xs, (Some s'). split; [exact HT|]. split; [rewrite <- (app_nil_r (tk xs)); apply (ep_some false [] _ s' y P0 None); [exact HS|exact LY|apply inline_tk]|].
    split; [cbn; congruence|]. right. rewrite HD. destruct H as [t1 p1 t2 t3 q1 p3 t4 v p4 t5 q' p5 t6 p6 H1 H2 H3 Q H4 W H5 Q' M H6]. exact (next_app _ _ _ (next_T _ _ _ H1)).
Qed.
Lemma File_print fn its pr : File perm bic junk fn its pr -> simple its -> header_quotes pr ->
  exists xs pr', Texts (proto_words perm pr) xs /\ File perm bic false fn (tk xs) pr' /\ bare_proto pr' = bare_proto pr.
Proof.
  intros [tb cs ts sy te ed rest vs tcs HB N HS HE HR] S O. parted S.
  destruct O as [O1 O2]. cbn [p_syntax p_edition] in O1, O2.
  destruct (FileStmts_print _ _ _ HR S) as (xr & vs' & TR & NR & ER & FR).
  destruct (EditionPart_print _ _ _ _ xr HE O2) as (xe & ed' & TE & NE & EE & HX); [apply not_first_both; [exact FR|cbn; tauto]|].
  destruct (SyntaxPart_print _ _ _ _ (xe ++ xr) HS O1) as (xs & sy' & TS & NS & ES).
  { destruct HX as [-> |HX]; [cbn [app]; apply not_first_both; [exact FR|cbn; tauto]|]. apply (T_head (lit "edition")); [apply hd_app, HX|]. intros [W|[]]. discriminate W. }
  exists (xs ++ xe ++ xr). eexists. split; [|split].
  - unfold proto_words. cbn [p_syntax p_edition p_body]. apply texts_app; [exact TS|]. apply texts_app; [exact TE|]. rewrite flat_map_app, words_trailing, app_nil_r. exact TR.
  - rewrite !tk_app. apply (file_intro perm bic false fn [] [] (tk xs) sy' (tk xe) ed' (tk xr) vs' []); [constructor| | |exact NE|exact NR].
    + rewrite <- !tk_app. apply no_com_tk.
    + rewrite <- tk_app. exact NS.
  - unfold bare_proto. cbn [p_syntax p_edition p_body p_filename]. rewrite !bare_body_app, !bare_trailing, ES, EE, ER. reflexivity.
Qed.
End File.

(** what is printed depends on the tokens of the tree only *)
Lemma options_bare os : flat_map option_words (map bare_option os) = flat_map option_words os.
Proof. induction os as [|o os IH]; [reflexivity|]. cbn [map flat_map]. rewrite IH. reflexivity. Qed.
Lemma fields_bare fs : flat_map oneofField_words (map bare_oneofField fs) = flat_map oneofField_words fs.
Proof. induction fs as [|o os IH]; [reflexivity|]. cbn [map flat_map]. rewrite IH. reflexivity. Qed.
Lemma body_bare perm l : Forall (fun v => visitee_words perm (bare v) = visitee_words perm v) l -> flat_map (visitee_words perm) (bare_body l) = flat_map (visitee_words perm) l.
Proof.
  induction 1 as [|v l H F IH]; [reflexivity|]. destruct v; cbn [bare_body flat_map]; try (rewrite IH; f_equal; exact H). exact IH.
Qed.
Lemma words_bare perm : forall v, visitee_words perm (bare v) = visitee_words perm v.
Proof.
  intros v. induction v as [v IH] using visitee_nested. destruct v as [|c|i|p|o|e|f|m|g|o|e|r|r|x|b|b|b|b]; try reflexivity; cbn [body_of] in IH; pose proof (body_bare _ _ IH) as B.
  - rewrite bare_group. cbn [visitee_words g_repeated g_required g_optional g_name g_number g_body]. rewrite B. reflexivity.
  - cbn [visitee_words bare]. unfold oneof_words, bare_oneof. cbn [oo_name oo_options oo_fields]. rewrite options_bare, fields_bare. reflexivity.
  - cbn [visitee_words bare]. unfold rpc_words, bare_rpc. cbn [r_name r_request r_response r_options]. destruct (r_options r) as [|o os]; [reflexivity|].
    cbn [map]. change (bare_option o :: map bare_option os) with (map bare_option (o :: os)). rewrite options_bare. reflexivity.
  - cbn [visitee_words bare]. unfold extensions_words, bare_extensions. cbn [xs_ranges xs_declarations]. destruct (xs_declarations x) as [|d ds]; [reflexivity|].
    cbn [map]. assert (E : map declaration_words (map bare_declaration ds) = map declaration_words ds) by (rewrite map_map; reflexivity). rewrite E. reflexivity.
  - rewrite bare_message. cbn [visitee_words b_name b_body bare_block]. rewrite B. reflexivity.
  - rewrite bare_enum. cbn [visitee_words b_name b_body bare_block]. rewrite B. reflexivity.
  - rewrite bare_service. cbn [visitee_words b_name b_body bare_block]. rewrite B. reflexivity.
  - rewrite bare_extend. cbn [visitee_words b_name b_body bare_block]. rewrite B. reflexivity.
Qed.
Lemma print_bare perm pr pr' : bare_proto pr' = bare_proto pr -> print perm pr' = print perm pr.
Proof.
  assert (H : forall p, proto_words perm p = proto_words perm (bare_proto p)).
  { intros p. unfold proto_words, bare_proto. cbn [p_syntax p_edition p_body]. rewrite body_bare by (apply Forall_forall; intros v _; apply words_bare).
    destruct (p_syntax p), (p_edition p); reflexivity. }
  intros E. unfold print. rewrite (H pr'), (H pr), E. reflexivity.
Qed.

Lemma print_parse opts its junk pr c : c = config_of opts -> File (cfg_permissive c) (cfg_bodyIncludingComments c) junk (cfg_filename c) its pr -> simple (cfg_permissive c) its -> header_quotes pr ->
  exists pr', Parse opts (print (cfg_permissive c) pr) = Ok pr' /\ bare_proto pr' = bare_proto pr.
Proof.
  intros Ec HF S O. destruct (File_print _ _ _ _ _ _ HF S O) as (xs & pr1 & HT & HF1 & E1).
  destruct (texts_layout _ _ HT [] (pos0 (cfg_filename c)) (Forall_nil _)) as (its' & LY & ET & NC). cbn [app] in LY.
  destruct (File_move _ _ _ _ _ _ HF1 its') as [(pr' & HF' & E')|(_ & its0 & p & x & q & R & ws & pr' & -> & _)]; [rewrite ET, toks_tk; reflexivity| |].
  - exists pr'. split; [|congruence]. eapply parse_complete; [exact Ec|exact (texts_readable _ _ HT)|exact LY|exact HF'].
  - exfalso. apply (NC x q). apply in_or_app. right. right. left. reflexivity.
Qed.

(** string literals of a text without escaped quotes *)
Lemma lay_sub strict p r its p' r' : Lay strict p r its p' r' -> forall x, In x (toks its) -> exists a b, r = a ++ x ++ b.
Proof.
  induction 1 as [p r|p sp x r its p' r' S X H IH|p sp x r its p' r' S X H IH|p sp x S X|p sp x r its p' r' S X H IH]; intros y IN; cbn [toks] in IN.
  - destruct IN.
  - destruct IN as [<-|IN]; [exists sp, r; reflexivity|]. destruct (IH _ IN) as (a & b & ->). exists (sp ++ x ++ a), b. rewrite <- !app_assoc. reflexivity.
  - destruct (IH _ IN) as (a & b & ->). exists (sp ++ x ++ NL :: a), b. rewrite <- !app_assoc. reflexivity.
  - destruct IN.
  - destruct (IH _ IN) as (a & b & ->). exists (sp ++ x ++ a), b. rewrite <- !app_assoc. reflexivity.
Qed.
Lemma body_end q b : str_body q b -> q <> backslash -> forall a, b = a ++ [q] -> exists a', b = a' ++ [backslash; q].
Proof.
  induction 1 as [|c b A B C D H IH|c b C D H IH]; intros NB a E.
  - destruct a; discriminate.
  - destruct a as [|d a]; [injection E as -> _; contradiction|]. injection E as -> E. destruct (IH NB _ E) as (a' & ->). exists (d :: a'). reflexivity.
  - destruct a as [|d a]; [discriminate|]. injection E as <- E. destruct a as [|d a]; [injection E as -> ->; exists []; reflexivity|].
    injection E as <- E. destruct (IH NB _ E) as (a' & ->). exists (backslash :: c :: a'). reflexivity.
Qed.
Lemma layout_simple perm strict p input its : (perm = true -> plain_quotes input) -> readable input -> Layout strict p input its -> simple perm its.
Proof.
  intros PQ RD (p' & sp & LY & _) x IN (q & b & Q & -> & B). destruct (lay_sub _ _ _ _ _ _ LY _ IN) as (a & r & E).
  assert (RX : readable ([q] ++ b ++ [q])) by (rewrite E in RD; apply readable_app in RD; destruct RD as [_ RD]; apply readable_app in RD; exact (proj1 RD)).
  split; [exact RX|]. intros P. destruct (PQ P) as [NE NB]. exists q, b. split; [exact Q|]. split; [reflexivity|]. split; [exact B|].
  assert (IQ : In q input) by (rewrite E; apply in_or_app; right; left; reflexivity).
  assert (IB : forall c, In c b -> In c input) by (intros c I; rewrite E; rewrite !in_app_iff; tauto).
  split; [|split].
  - intros I. apply IB in I. destruct Q as [-> | ->]; cbn in I; apply NB; split; assumption.
  - intros l EL. destruct (body_end q b B) with (a := l) as (a' & ->); [destruct Q as [-> | ->]; discriminate|exact EL|].
    apply (NE (a ++ [q] ++ a') r q); [destruct Q; auto|]. rewrite E, <- !app_assoc. cbn [app]. rewrite <- ?app_assoc. reflexivity.
  - apply readable_app in RX. destruct RX as [_ RX]. apply readable_app in RX. exact (proj1 RX).
Qed.
Theorem reprint opts input pr c : c = config_of opts -> readable input -> ordinary c input pr -> header_quotes pr -> (cfg_permissive c = true -> plain_quotes input) ->
  Parse opts input = Ok pr ->
  exists pr', Parse opts (print (cfg_permissive c) pr) = Ok pr' /\ bare_proto pr' = bare_proto pr /\ print (cfg_permissive c) pr' = print (cfg_permissive c) pr.
Proof.
  intros Ec RD RG HQ PQ E. destruct (parse_sound _ _ _ _ Ec RD RG E) as (its & LY & HF).
  destruct (print_parse _ _ _ _ _ Ec HF (layout_simple _ _ _ _ _ PQ RD LY) HQ) as (pr' & E' & B). exists pr'. split; [exact E'|]. split; [exact B|]. apply print_bare, B.
Qed.
