(** The nodes of the AST say what the text says (C45). *)
From Coq Require Import List NArith ZArith Bool String Ascii Lia.
From Verif Require Import Base Token Scanner Lexing ScanRefine Ast Parser Api LexSpec LexFacts LexProofs RefineFile Tree Grammar GramValues GramParts GramLex BareSpec Relay
  Deep PartSpec Parts SaidSpec Regular.
Import ListNotations.
Open Scope N_scope.

Lemma loose_app a b : loose (a ++ b) = loose a ++ loose b.
Proof. apply filter_app. Qed.
Lemma loose_rev a : loose (rev a) = rev (loose a).
Proof. induction a as [|c a IH]; [reflexivity|]. cbn [rev]. rewrite loose_app, IH. unfold loose at 2 3. cbn [filter]. destruct (negb _); cbn [rev app]; [reflexivity|apply app_nil_r]. Qed.
Definition qmark (q : rune) : Prop := q = SQ \/ q = DQ.
Lemma loose_quote q x : qmark q -> loose (q :: x) = loose x.
Proof. intros [->| ->]; reflexivity. Qed.
Lemma loose_drop q x : qmark q -> loose (drop_quotes q x) = loose x.
Proof. intros Q. induction x as [|c x IH]; [reflexivity|]. cbn [drop_quotes]. destruct (N.eqb_spec c q) as [->|]; [rewrite IH, (loose_quote _ _ Q); reflexivity|reflexivity]. Qed.
Lemma loose_strip q x : qmark q -> loose (strip q x) = loose x.
Proof. intros Q. unfold strip. rewrite loose_rev, (loose_drop _ _ Q), loose_rev, rev_involutive. apply loose_drop. exact Q. Qed.
Lemma loose_joined xs : xs <> [] -> Forall is_str xs -> loose (joined xs) = loose (List.concat xs).
Proof.
  intros N F. assert (Q : qmark (first_quote xs)).
  { destruct xs as [|x xs]; [congruence|]. apply Forall_inv in F. destruct (str_head _ F) as (q & b & Q & -> & _). exact Q. }
  unfold joined. rewrite !loose_app. change (loose [first_quote xs]) with (loose (first_quote xs :: [])). rewrite (loose_quote _ [] Q). change (loose []) with (@nil rune). rewrite app_nil_r. cbn [app].
  set (q := first_quote xs) in *. clearbody q. clear N F. induction xs as [|x xs IH]; [reflexivity|]. cbn [flat_map List.concat]. rewrite !loose_app, IH, (loose_strip _ _ Q). reflexivity.
Qed.

Section Said.
Variables perm bic junk : bool.
Notation flat ts := (List.concat (toks ts)).

(** ** Values *)
Lemma constant_loose ts v : perm = true -> Constant perm ts v -> loose (flat ts) = loose v.
Proof.
  intros P [t x p X H I|t xs p _ H|t x p H I|t x p H I|t w p H N|t s p t' x p' H W H' I]; try congruence; try (rewrite (T_flat _ _ _ H); reflexivity).
  - destruct (strings_toks _ _ _ H) as [-> F]. symmetry. apply loose_joined; [|exact F]. destruct H; discriminate.
  - rewrite (fullident_flat _ _ _ H). reflexivity.
  - rewrite flat_app, (T_flat _ _ _ H), (T_flat _ _ _ H'). reflexivity.
Qed.
Definition no_list (v : str) : Prop := ~ In (ch "[") v.
Lemma no_list_app a b : no_list (a ++ b) -> no_list a /\ no_list b.
Proof. unfold no_list. intros H. split; intros I; apply H, in_or_app; auto. Qed.
Lemma values_loose : perm = true ->
  (forall ts v, Value perm junk ts v -> no_list v -> loose (flat ts) = loose v) /\
  (forall ts v, Values perm junk ts v -> no_list v -> loose (flat ts) = loose v) /\
  (forall ts v, Entries perm junk ts v -> no_list v -> loose (flat ts) = loose v) /\
  (forall o ts v, Entry perm junk o ts v -> no_list v -> loose (flat ts) = loose v).
Proof.
  intros P. apply Value_mutind; intros;
    repeat match goal with
    | H : no_list (_ ++ _) |- _ => apply no_list_app in H; destruct H as [? ?]
    | H : no_list (lit "[") |- _ => exfalso; apply H; left; reflexivity
    end.
  all: try (apply constant_loose; assumption).
  all: try (exfalso; match goal with H : no_list _ |- _ => apply H; left; reflexivity end).
  all: repeat match goal with H : no_list ?v -> loose (flat ?t) = _, N : no_list ?v |- _ => specialize (H N) end.
  all: repeat rewrite flat_app; repeat rewrite loose_app; repeat match goal with
    | H : K ?t ?w |- _ => rewrite (K_flat _ _ H); clear H
    | H : T ?t ?x ?p |- _ => rewrite (T_flat _ _ _ H); clear H
    | H : loose (flat ?t) = _ |- _ => rewrite H; clear H
    end; try reflexivity.
Qed.
Definition Like (ts : list item) (v : str) : Prop := exists g, closing (toks ts) g /\ loose (List.concat g) = loose v.
Lemma closing_refl l : closing l l.
Proof. induction l; constructor; auto. Qed.
Lemma like_flat ts v : loose (flat ts) = loose v -> Like ts v.
Proof. intros H. exists (toks ts). split; [apply closing_refl|exact H]. Qed.
Lemma like_app a b v w : Like a v -> Like b w -> Like (a ++ b) (v ++ w).
Proof. intros (g & A & E) (h & B & F). exists (g ++ h). split; [rewrite toks_app; apply Forall2_app; assumption|]. rewrite concat_app, !loose_app, E, F. reflexivity. Qed.
Lemma like_T ts x p : T ts x p -> Like ts x.
Proof. intros H. apply like_flat. rewrite (T_flat _ _ _ H). reflexivity. Qed.
Lemma like_K ts w : K ts w -> Like ts (lit w).
Proof. intros H. apply like_flat. rewrite (K_flat _ _ H). reflexivity. Qed.
Lemma like_close ts x p : T ts x p -> Like ts (lit "]").
Proof. intros H. exists [lit "]"]. split; [|reflexivity]. rewrite (T_toks _ _ _ H). constructor; [right; reflexivity|constructor]. Qed.
Lemma like_line ts v : Like ts v -> Like ts ([NL] ++ v).
Proof. intros (g & A & E). exists g. split; [exact A|]. rewrite E. reflexivity. Qed.
Lemma values_like : perm = true ->
  (forall ts v, Value perm junk ts v -> Like ts v) /\ (forall ts v, Values perm junk ts v -> Like ts v) /\
  (forall ts v, Entries perm junk ts v -> Like ts v) /\ (forall o ts v, Entry perm junk o ts v -> Like ts v).
Proof.
  intros P. apply Value_mutind; intros.
  1: { apply like_flat, constant_loose; assumption. }
  all: try change (lit "{}") with (lit "{" ++ lit "}"); try change (lit "[]") with (lit "[" ++ lit "]").
  all: repeat first [assumption | eapply like_T; eassumption | apply like_K; assumption | eapply like_close; eassumption
    | apply like_app; [first [assumption | eapply like_T; eassumption | apply like_K; assumption]|] | apply like_line].
Qed.
Lemma value_piece ts v : Value perm junk ts v -> toks ts <> [] -> piece perm (toks ts) (Val v).
Proof.
  intros H N. split; [exact N|]. destruct perm eqn:P.
  - rewrite <- P in H. split; [intros NL; apply (proj1 (values_loose P) _ _ H NL)|exact (proj1 (values_like P) _ _ H)].
  - rewrite <- P in H. apply (value_flat perm junk _ _ P H).
Qed.

(** ** Spelling *)
Notation spell := (spell perm).
Lemma spell_nil : spell [] [].
Proof. exists []. split; [reflexivity|constructor]. Qed.
Lemma spell_app a b l m : spell a l -> spell b m -> spell (a ++ b) (l ++ m).
Proof. intros (g & <- & F) (h & <- & G). exists (g ++ h). split; [apply concat_app|apply Forall2_app; assumption]. Qed.
Lemma spell_one g a : piece perm g a -> spell g [a].
Proof. intros H. exists [g]. split; [apply app_nil_r|constructor; [exact H|constructor]]. Qed.
Lemma spell_word ts w : toks ts <> [] -> flat ts = w -> spell (toks ts) [Word w].
Proof. intros N E. apply spell_one. split; assumption. Qed.
Lemma spell_T ts x p : T ts x p -> spell (toks ts) [Word x].
Proof. intros H. apply spell_word; [rewrite (T_toks _ _ _ H); discriminate|exact (T_flat _ _ _ H)]. Qed.
Lemma spell_K ts w : K ts w -> spell (toks ts) [word w].
Proof. intros (p & H). exact (spell_T _ _ _ H). Qed.
Lemma spell_cons a b x m : spell (toks a) [x] -> spell (toks b) m -> spell (toks (a ++ b)) (x :: m).
Proof. intros A B. rewrite toks_app. exact (spell_app _ _ [x] _ A B). Qed.
Lemma spell_more a b l m : spell (toks a) l -> spell (toks b) m -> spell (toks (a ++ b)) (l ++ m).
Proof. intros A B. rewrite toks_app. apply spell_app; assumption. Qed.
Lemma T_ne ts x p : T ts x p -> toks ts <> [].
Proof. intros H. rewrite (T_toks _ _ _ H). discriminate. Qed.
Lemma K_ne ts w : K ts w -> toks ts <> [].
Proof. intros (p & H). exact (T_ne _ _ _ H). Qed.
Lemma app_ne a b : toks a <> [] -> toks (a ++ b) <> [].
Proof. rewrite toks_app. intros H E. apply app_eq_nil in E. tauto. Qed.
Lemma fullident_ne ts v p : FullIdent ts v p -> toks ts <> [].
Proof. intros [t x q H I|t x q td t' w q' H I HD H']; [exact (T_ne _ _ _ H)|apply app_ne; exact (T_ne _ _ _ H)]. Qed.
Lemma fullident_spell ts v p : FullIdent ts v p -> spell (toks ts) [Word v].
Proof. intros H. apply spell_word; [exact (fullident_ne _ _ _ H)|exact (fullident_flat _ _ _ H)]. Qed.
Lemma messagetype_spell ts v p : MessageType ts v p -> spell (toks ts) [Word v].
Proof.
  intros [t x q H|td q t x q' H F]; [exact (fullident_spell _ _ _ H)|]. apply spell_word; [apply app_ne; exact (T_ne _ _ _ H)|].
  rewrite flat_app, (T_flat _ _ _ H), (fullident_flat _ _ _ F). reflexivity.
Qed.
Lemma type_spell ts v p : Type_ ts v p -> spell (toks ts) [Word v].
Proof. intros [t x q H W|t x q H N]; [exact (spell_T _ _ _ H)|exact (messagetype_spell _ _ _ H)]. Qed.
Lemma optionname_spell ts v : OptionName perm ts v -> spell (toks ts) [Word v].
Proof.
  intros H. apply spell_word; [|exact (optionname_flat _ _ _ H)].
  assert (N : forall ts v, NamePart perm ts v -> toks ts <> []).
  { intros t w [u x p X I|t1 t2 x p t3 X|t1 t2 t3 x p t4 P X]; [exact (T_ne _ _ _ X)|apply app_ne, (K_ne _ _ X)..]. }
  destruct H; [eapply N; eassumption|apply app_ne; eapply N; eassumption].
Qed.
Lemma value_ne ts v : Value perm junk ts v -> toks ts <> [].
Proof.
  intros [t w H|t1 t2 X H1|t1 t w X H1|t1 t2 X H1|t1 t w t2 x p X H1]; try (apply app_ne, (K_ne _ _ H1)).
  destruct H as [t x p X H I|t xs p _ H|t x p H I|t x p H I|t w p H N|t s p t' x p' H W H' I]; try exact (T_ne _ _ _ H); [|exact (fullident_ne _ _ _ H)|apply app_ne, (T_ne _ _ _ H)].
  destruct H as [t x p H I|t x p t2 xs p' H I H2]; [exact (T_ne _ _ _ H)|apply app_ne, (T_ne _ _ _ H)].
Qed.
Lemma value_spell ts v : Value perm junk ts v -> spell (toks ts) [Val v].
Proof. intros H. apply spell_one, value_piece; [exact H|exact (value_ne _ _ H)]. Qed.
Create HintDb said.
Hint Resolve spell_nil spell_T spell_K fullident_spell messagetype_spell type_spell optionname_spell value_spell : said.
Ltac sp := repeat first [apply spell_cons; [eauto 2 with said|]|eauto 2 with said].

Lemma option_spell cs il ts o : Option perm junk cs il ts o -> spell (toks ts) (said_option o).
Proof. intros [t1 p1 t2 name t3 t4 v t5 p5 H1 H2 H3 H4 H5]. unfold said_option. cbn [op_name op_constant]. sp. Qed.
Definition said_fo (o : str * str) : list part := [Word (fst o); word "="; Val (snd o)].
Lemma fieldoption_spell ts o : FieldOption perm junk ts o -> spell (toks ts) (said_fo o).
Proof. intros [t1 name t2 t3 v H1 H2 H3]. unfold said_fo. cbn [fst snd]. sp. Qed.
Lemma separated_cons x l : l <> [] -> separated (x :: l) = x ++ [word ","] ++ separated l.
Proof. destruct l; [congruence|reflexivity]. Qed.
Lemma fieldoptionlist_spell ts os : FieldOptionList perm junk ts os -> os <> [] /\ spell (toks ts) (separated (map said_fo os)).
Proof.
  induction 1 as [ts o H|ts o td t2 os H HD H2 [N IH]]; (split; [discriminate|]); [exact (fieldoption_spell _ _ H)|].
  cbn [map]. rewrite separated_cons by (destruct os; [congruence|discriminate]). apply spell_more; [exact (fieldoption_spell _ _ H)|]. apply spell_more; [sp|exact IH].
Qed.
Lemma fieldoptions_spell ts os : FieldOptions perm junk ts os -> spell (toks ts) (in_brackets os).
Proof.
  intros [|t1 t os' t2 H1 H2 H3]; [apply spell_nil|]. destruct (fieldoptionlist_spell _ _ H2) as [N S]. destruct os' as [|o os']; [congruence|]. unfold in_brackets.
  apply spell_more; [sp|]. apply spell_more; [exact S|sp].
Qed.
Lemma of_fields_fopts os : of_fields (fopts os) = os.
Proof. unfold of_fields, fopts. rewrite map_map. induction os as [|[a b] os IH]; [reflexivity|]. cbn. f_equal. exact IH. Qed.
Lemma of_values_evopts os : of_values (evopts os) = os.
Proof. unfold of_values, evopts. rewrite map_map. induction os as [|[a b] os IH]; [reflexivity|]. cbn. f_equal. exact IH. Qed.
Lemma fieldend_spell ts name num os p : FieldEnd perm junk ts name num os p -> spell (toks ts) ([Word name; word "="; Word num] ++ in_brackets os ++ [word ";"]).
Proof.
  intros [t1 n p1 t2 t3 m p3 t4 os' t5 p5 H1 I1 H2 H3 I3 H4 H5]. cbn [app]. do 3 (apply spell_cons; [eauto 2 with said|]). apply spell_more; [exact (fieldoptions_spell _ _ H4)|sp].
Qed.
Lemma label_spell ts rest p rp rq op : Label ts rest p rp rq op -> spell (toks ts) (label rp rq op).
Proof. intros [t q r H|t q r H|t q r H|x q r F N]; try exact (spell_T _ _ _ H). apply spell_nil. Qed.
Lemma field_spell cs il ts f l : Field perm junk cs il ts f -> said (EStmt (VField f)) = Some l -> spell (toks ts) l.
Proof.
  intros [t1 p1 rp rq op t2 ty p2 t3 name num os p3 H1 H2 H3] E. cbn [said f_repeated f_required f_optional f_type f_name f_number f_options] in E. injection E as <-. rewrite of_fields_fopts.
  apply spell_more; [exact (label_spell _ _ _ _ _ _ H1)|]. cbn [app]. apply spell_cons; [eauto 2 with said|]. exact (fieldend_spell _ _ _ _ _ H3).
Qed.
Lemma param_spell ts p : RPCParam ts p -> spell (toks ts) (said_param p).
Proof.
  intros [t1 p1 t2 st t3 v p3 t4 p4 H1 H2 H3 H4]. unfold said_param. cbn [rp_stream rp_type]. apply spell_more; [sp|]. apply spell_more; [|sp].
  destruct H2 as [t r H|r H]; sp.
Qed.
Lemma words_spell l : spell l (map Word l).
Proof. induction l as [|x l IH]; [apply spell_nil|]. apply (spell_app [x] l [Word x]); [|exact IH]. apply spell_one. split; [discriminate|apply app_nil_r]. Qed.
Lemma range_spell ts r : Range ts r -> spell (toks ts) (said_range r).
Proof. intros H. rewrite (range_spells _ _ H). apply words_spell. Qed.
Lemma ranges_spelled ts rs : Ranges ts rs -> rs <> [] /\ spell (toks ts) (separated (map said_range rs)).
Proof.
  induction 1 as [ts r H|ts r td t2 rs H HD H2 [N IH]]; (split; [discriminate|]); [exact (range_spell _ _ H)|].
  cbn [map]. rewrite separated_cons by (destruct rs; [congruence|discriminate]). apply spell_more; [exact (range_spell _ _ H)|]. apply spell_more; [sp|exact IH].
Qed.
Lemma names_some ts xs : FieldNames junk ts xs -> xs <> [].
Proof. intros []; discriminate. Qed.

Lemma body_open drop S ts vs lc q : Body perm bic junk drop S ts vs lc q -> exists t1 t2, ts = t1 ++ t2 /\ K t1 "{".
Proof. intros [t1 p1 l ts' vs' tcs t2 q' H1 IN HS NC C D|t1 p1 l t2 q' D H1 IN C]; eexists _, _; (split; [reflexivity|exists p1; exact H1]). Qed.

(** ** Elements *)
Definition Said (ts : list item) (e : elem) : Prop :=
  (forall l, said e = Some l -> spell (toks ts) l) /\
  (forall l, heading e = Some l -> exists t1 t2, ts = t1 ++ t2 /\ spell (toks t1) l).
Lemma only_said ts e l : said e = Some l -> heading e = None -> spell (toks ts) l -> Said ts e.
Proof. intros A B C. split; intros l' E; [rewrite A in E; injection E as <-; exact C|congruence]. Qed.
Lemma only_heading t1 t2 e l : said e = None -> heading e = Some l -> spell (toks t1) l -> Said (t1 ++ t2) e.
Proof. intros A B C. split; intros l' E; [congruence|]. rewrite B in E; injection E as <-. eauto. Qed.
Lemma neither ts e : said e = None -> heading e = None -> Said ts e.
Proof. intros A B. split; congruence. Qed.

Lemma said_import cs il ts i : Import junk cs il ts i -> Said ts (EStmt (VImport i)).
Proof.
  intros [t1 p1 t2 m t3 x p3 t4 p4 H1 H2 H3 I3 H4]. destruct H2 as [|t H|t H|t y q J H]; try (apply neither; reflexivity); eapply only_said; try reflexivity; sp.
Qed.
Lemma said_package cs il ts i : Package cs il ts i -> Said ts (EStmt (VPackage i)).
Proof. intros [t1 p1 t2 v p2 t3 p3 H1 H2 H3]. eapply only_said; try reflexivity. sp. Qed.
Lemma said_opt cs il ts o : Option perm junk cs il ts o -> Said ts (EStmt (VOption o)) /\ Said ts (EOption o).
Proof. intros H. split; eapply only_said; try reflexivity; exact (option_spell _ _ _ _ H). Qed.
Lemma said_block key drop S t1 p1 t2 n t3 vs lc q e : T t1 (lit key) p1 -> spell (toks t2) [Word n] -> Body perm bic junk drop S t3 vs lc q ->
  said e = None -> heading e = Some [word key; Word n; word "{"] -> Said (t1 ++ t2 ++ t3) e.
Proof.
  intros H1 H2 HB A B. destruct (body_open _ _ _ _ _ _ HB) as (u1 & u2 & -> & HK). rewrite !app_assoc. eapply only_heading; [exact A|exact B|]. rewrite <- !app_assoc. sp.
Qed.
Lemma said_enum cs il ts b : Enum perm bic junk cs il ts b -> Said ts (EStmt (VEnum b)).
Proof. intros [t1 p1 t2 n p2 t3 vs lc q H1 H2 I2 HB]. eapply said_block; try reflexivity; [exact H1|exact (spell_T _ _ _ H2)|exact HB]. Qed.
Lemma said_service cs il ts b : Service perm bic junk cs il ts b -> Said ts (EStmt (VService b)).
Proof. intros [t1 p1 t2 n p2 t3 vs lc q H1 H2 I2 HB]. eapply said_block; try reflexivity; [exact H1|exact (spell_T _ _ _ H2)|exact HB]. Qed.
Lemma said_message cs il ts b : Message perm bic junk cs il ts b -> Said ts (EStmt (VMessage b)).
Proof. intros [t1 p1 t2 n p2 t3 vs lc q H1 H2 I2 HB]. eapply said_block; try reflexivity; [exact H1|exact (spell_T _ _ _ H2)|exact HB]. Qed.
Lemma said_extend cs il ts b : Extend perm bic junk cs il ts b -> Said ts (EStmt (VExtend b)).
Proof. intros [t1 p1 t2 n p2 t3 vs lc q H1 H2 HB]. eapply said_block; try reflexivity; [exact H1|exact (messagetype_spell _ _ _ H2)|exact HB]. Qed.
Lemma said_empty U il ts v : Empty junk U il ts v -> Said ts (EStmt v).
Proof. intros [p|t u p J H]; apply neither; reflexivity. Qed.
Lemma said_field cs il ts f : Field perm junk cs il ts f -> Said ts (EStmt (VField f)).
Proof. intros H. split; [intros l E; exact (field_spell _ _ _ _ _ H E)|discriminate]. Qed.
Lemma said_reserved cs il ts r : Reserved junk cs il ts r -> Said ts (EStmt (VReserved r)).
Proof.
  intros [t1 p1 t2 rs t3 p3 H1 H2 H3|t1 p1 tj t2 xs t3 p3 H1 HJ H2 H3].
  - eapply only_said; try reflexivity. cbn [rs_ranges]. apply spell_more; [sp|]. apply spell_more; [exact (proj2 (ranges_spelled _ _ H2))|sp].
  - pose proof (names_some _ _ H2) as N. destruct xs as [|x xs]; [congruence|]. apply neither; reflexivity.
Qed.
Lemma decls_some fol ts ds : Declarations junk fol ts ds -> ds <> [].
Proof. intros []; discriminate. Qed.
Lemma said_extensions cs il ts x : Extensions junk cs il ts x -> Said ts (EStmt (VExtensions x)).
Proof.
  intros [t1 p1 t2 rs t3 p3 H1 H2 H3|t1 p1 t2 rs t3 p3 lc t4 ds t5 p5 H1 H2 H3 IN HD H5].
  - eapply only_said; try reflexivity. cbn [xs_ranges]. apply spell_more; [sp|]. apply spell_more; [exact (proj2 (ranges_spelled _ _ H2))|sp].
  - pose proof (decls_some _ _ _ HD) as N. destruct ds as [|d ds]; [congruence|].
    replace (t1 ++ t2 ++ t3 ++ icom lc ++ t4 ++ t5) with ((t1 ++ t2 ++ t3) ++ icom lc ++ t4 ++ t5) by (rewrite <- !app_assoc; reflexivity).
    eapply only_heading; try reflexivity. cbn [xs_ranges]. apply spell_more; [sp|]. apply spell_more; [exact (proj2 (ranges_spelled _ _ H2))|sp].
Qed.
Lemma said_rpc cs il ts r : RPC perm junk cs il ts r -> Said ts (EStmt (VRPC r)).
Proof.
  intros [cs1 p1 t2 name p2 t3 rq t4 t5 rs t6 t7 os lc q H2 I2 H3 H4 H5 HE].
  replace ((coms cs1 ++ [Tok (lit "rpc") p1]) ++ t2 ++ t3 ++ t4 ++ t5 ++ t6 ++ t7) with (((coms cs1 ++ [Tok (lit "rpc") p1]) ++ t2 ++ t3 ++ t4 ++ t5) ++ t6 ++ t7) by (rewrite <- !app_assoc; reflexivity).
  eapply only_heading; try reflexivity. cbn [r_name r_request r_response app].
  assert (H1 : T (coms cs1 ++ [Tok (lit "rpc") p1]) (lit "rpc") p1) by (exists cs1; reflexivity).
  do 2 (apply spell_cons; [eauto 2 with said|]). apply spell_more; [exact (param_spell _ _ H3)|]. apply spell_cons; [eauto 2 with said|]. exact (param_spell _ _ H5).
Qed.
Lemma said_msgstmt cs il ts v : MessageStmt perm bic junk cs il ts v -> Said ts (EStmt v).
Proof.
  intros [u e H|t1 p1 t2 n p2 t3 vs lc q H1 H2 I2 HB|u o H|u o H|u m H|u x H|u r H|u x H|u f H NF
    |t1 p1 rp rq op t2 t3 n p3 t4 t5 num p5 t6 vs lc q H1 H2 H3 I3 C3 H4 H5 I5 HB|u w H].
  - exact (said_enum _ _ _ _ H).
  - eapply said_block; try reflexivity; [exact H1|exact (spell_T _ _ _ H2)|exact HB].
  - exact (proj1 (said_opt _ _ _ _ H)).
  - destruct H as [t1 p1 t2 n p2 t3 p3 lc t4 fs os x q H1 H2 I2 H3 IN HE LT].
    replace (t1 ++ t2 ++ t3 ++ icom lc ++ t4) with ((t1 ++ t2 ++ t3) ++ icom lc ++ t4) by (rewrite <- !app_assoc; reflexivity).
    eapply only_heading; try reflexivity. cbn [oo_name]. sp.
  - destruct H as [t1 p1 t2 t3 kt p3 t4 t5 ty p5 t6 t7 n num os p7 H1 H2 H3 W3 H4 H5 H6 H7]. eapply only_said; try reflexivity.
    cbn [mf_keyType mf_type mf_name mf_number mf_options]. rewrite of_fields_fopts. cbn [app]. do 6 (apply spell_cons; [eauto 2 with said|]). exact (fieldend_spell _ _ _ _ _ H7).
  - exact (said_extend _ _ _ _ H).
  - exact (said_reserved _ _ _ _ H).
  - exact (said_extensions _ _ _ _ H).
  - exact (said_field _ _ _ _ H).
  - destruct (body_open _ _ _ _ _ _ HB) as (u1 & u2 & -> & HK).
    replace (t1 ++ t2 ++ t3 ++ t4 ++ t5 ++ u1 ++ u2) with ((t1 ++ t2 ++ t3 ++ t4 ++ t5 ++ u1) ++ u2) by (rewrite <- !app_assoc; reflexivity).
    eapply only_heading; try reflexivity. cbn [g_repeated g_required g_optional g_name g_number]. apply spell_more; [exact (label_spell _ _ _ _ _ _ H1)|]. sp.
  - exact (said_empty _ _ _ _ H).
Qed.
Lemma group_spell a b c w : spell (toks a ++ toks b ++ toks c) [Word w] -> spell (toks (a ++ b ++ c)) [Word w].
Proof. rewrite !toks_app. exact (fun H => H). Qed.
Lemma quote_spell t3 t4 t5 q v q' p3 p4 p5 : T t3 q p3 -> T t4 v p4 -> T t5 q' p5 -> spell (toks (t3 ++ t4 ++ t5)) [Word (q ++ v ++ q')].
Proof.
  intros H3 H4 H5. apply spell_word; [apply app_ne, (T_ne _ _ _ H3)|]. rewrite !flat_app, (T_flat _ _ _ H3), (T_flat _ _ _ H4), (T_flat _ _ _ H5). reflexivity.
Qed.
Lemma elem_said cs il ts e : Elem perm bic junk cs il ts e -> Said ts e.
Proof.
  intros [ts' s H|ts' s H|ts' v H|ts' v H|ts' v H|ts' v H|ts' v H|ts' v H|ts' v H|ts' v E1 E2 H|ts' v H|x q E1 E2|E1 E2|p E1 E2].
  - destruct H as [t1 p1 t2 t3 q p3 t4 v p4 t5 q' p5 t6 p6 H1 H2 H3 Q3 H4 W4 H5 Q5 QM H6]. eapply only_said; try reflexivity. cbn [sy_versionQuote].
    replace (t1 ++ t2 ++ t3 ++ t4 ++ t5 ++ t6) with (t1 ++ t2 ++ (t3 ++ t4 ++ t5) ++ t6) by (rewrite <- !app_assoc; reflexivity).
    do 2 (apply spell_cons; [eauto 2 with said|]). apply spell_cons; [eapply quote_spell; eassumption|sp].
  - destruct H as [t1 p1 t2 t3 q p3 t4 v p4 t5 q' p5 t6 p6 H1 H2 H3 Q3 H4 W4 H5 Q5 QM H6]. eapply only_said; try reflexivity. cbn [ed_editionQuote].
    replace (t1 ++ t2 ++ t3 ++ t4 ++ t5 ++ t6) with (t1 ++ t2 ++ (t3 ++ t4 ++ t5) ++ t6) by (rewrite <- !app_assoc; reflexivity).
    do 2 (apply spell_cons; [eauto 2 with said|]). apply spell_cons; [eapply quote_spell; eassumption|sp].
  - destruct H as [u i H|u i H|u o H|u m H|u m H|u m H|u m H].
    + exact (said_import _ _ _ _ H).
    + exact (said_package _ _ _ _ H).
    + exact (proj1 (said_opt _ _ _ _ H)).
    + exact (said_message _ _ _ _ H).
    + exact (said_enum _ _ _ _ H).
    + exact (said_service _ _ _ _ H).
    + exact (said_extend _ _ _ _ H).
  - destruct H as [u o H|u r H|u f H N|u w H]; [exact (proj1 (said_opt _ _ _ _ H))|exact (said_reserved _ _ _ _ H)| |exact (said_empty _ _ _ _ H)].
    destruct H as [t1 n p1 t2 t3 sg t4 num p4 t5 os t6 p6 H1 I1 H2 H3 H4 I4 H5 H6]. eapply only_said; try reflexivity. cbn [ef_ident ef_number ef_options]. rewrite of_values_evopts. cbn [app].
    do 2 (apply spell_cons; [eauto 2 with said|]). rewrite app_assoc. apply spell_cons; [|apply spell_more; [exact (fieldoptions_spell _ _ H5)|sp]].
    apply spell_word; [rewrite toks_app, (T_toks _ _ _ H4); destruct (toks t3); discriminate|]. rewrite flat_app, (T_flat _ _ _ H4). destruct H3 as [|t H3]; [reflexivity|]. rewrite (K_flat _ _ H3). reflexivity.
  - destruct H as [u f H|u w H]; [exact (said_field _ _ _ _ H)|exact (said_empty _ _ _ _ H)].
  - exact (said_msgstmt _ _ _ _ H).
  - destruct H as [u o H|u r H|p]; [exact (proj1 (said_opt _ _ _ _ H))|exact (said_rpc _ _ _ _ H)|apply neither; reflexivity].
  - exact (proj2 (said_opt _ _ _ _ H)).
  - destruct H as [t1 ty p1 t2 n num os p2 H1 H2]. eapply only_said; try reflexivity. cbn [oof_type oof_name oof_number oof_options]. rewrite of_fields_fopts. cbn [app].
    apply spell_cons; [eauto 2 with said|]. exact (fieldend_spell _ _ _ _ _ H2).
  - eapply only_said; try reflexivity. exact (param_spell _ _ H).
  - destruct H as [t1 p1 t2 t3 p3 lc t4 kvs t5 p5 H1 H2 H3 IN HD H5].
    replace (t1 ++ t2 ++ t3 ++ icom lc ++ t4 ++ t5) with ((t1 ++ t2 ++ t3) ++ icom lc ++ t4 ++ t5) by (rewrite <- !app_assoc; reflexivity).
    eapply only_heading; try reflexivity. sp.
  - apply neither; reflexivity.
  - apply neither; reflexivity.
  - apply neither; reflexivity.
Qed.
End Said.

(** ** In the text *)
Lemma firsts_tok ts x p : first_tok ts = Some (x, p) -> exists cs r, ts = coms cs ++ Tok x p :: r.
Proof.
  induction ts as [|[y q|y q] ts IH]; cbn [first_tok]; [discriminate| |].
  - intros E. injection E as -> ->. exists [], ts. reflexivity.
  - intros E. destruct (IH E) as (cs & r & ->). exists ((y, q) :: cs), r. reflexivity.
Qed.
Lemma lasts_tok ts x p : last_tok ts = Some (x, p) -> exists r cs, ts = r ++ Tok x p :: coms cs.
Proof.
  induction ts as [|[y q|y q] ts IH]; cbn [last_tok]; [discriminate| |].
  - destruct (last_tok ts) as [[z s]|] eqn:L; intros E; injection E as -> ->.
    + destruct (IH eq_refl) as (r & cs & ->). exists (Tok y q :: r), cs. reflexivity.
    + assert (N : toks ts = []). { pose proof (last_toks ts) as H. rewrite L in H. destruct (rev (toks ts)) eqn:R; [|discriminate]. apply (f_equal (@rev _)) in R. rewrite rev_involutive in R. exact R. }
      destruct (toks_nil _ N) as (cs & ->). exists [], cs. reflexivity.
  - intros E. destruct (IH E) as (r & cs & ->). exists (Com y q :: r), cs. reflexivity.
Qed.
Lemma last_some ts : toks ts <> [] -> exists x p, last_tok ts = Some (x, p).
Proof.
  intros N. pose proof (last_toks ts) as H. destruct (last_tok ts) as [[x p]|]; [eauto|]. exfalso. destruct (rev (toks ts)) eqn:R; [|discriminate]. apply (f_equal (@rev _)) in R. rewrite rev_involutive in R. exact (N R).
Qed.
Lemma ends_of ts x p y q : first_tok ts = Some (x, p) -> last_tok ts = Some (y, q) -> (2 <= List.length (toks ts))%nat ->
  exists c1 mid c2, ts = coms c1 ++ Tok x p :: mid ++ Tok y q :: coms c2.
Proof.
  intros F L N. destruct (firsts_tok _ _ _ F) as (c1 & r & ->). rewrite toks_app, toks_coms in N. cbn [toks app List.length] in N.
  assert (N' : toks r <> []) by (destruct (toks r); [cbn in N; lia|discriminate]). destruct (last_some _ N') as (y' & q' & L').
  assert (E : last_tok (coms c1 ++ Tok x p :: r) = last_tok r).
  { clear -L'. induction c1 as [|c c1 IH]; [cbn [coms map app last_tok]; rewrite L'; reflexivity|exact IH]. }
  rewrite E in L. destruct (lasts_tok _ _ _ L) as (mid & c2 & ->). exists c1, mid, c2. reflexivity.
Qed.
Lemma spell_length perm ts l : spell perm ts l -> (List.length l <= List.length ts)%nat.
Proof.
  intros (gs & <- & F). induction F as [|g a gs l [N _] F IH]; [apply le_n|]. cbn [List.concat List.length]. rewrite app_length. destruct g as [|x g]; [congruence|]. cbn [List.length]. lia.
Qed.
Lemma said_two e l : said e = Some l \/ heading e = Some l -> (2 <= List.length l)%nat.
Proof.
  intros H. assert (A : forall (x : part) a, (2 <= List.length (x :: a ++ [word ";"]))%nat) by (intros; cbn [List.length]; rewrite app_length; cbn; lia).
  assert (B : forall (x : part) a, (2 <= List.length (x :: a ++ [word "["]))%nat) by (intros; cbn [List.length]; rewrite app_length; cbn; lia).
  assert (C : forall a (x y : part) b, (2 <= List.length (a ++ x :: y :: b))%nat) by (intros; rewrite app_length; cbn; lia).
  destruct H as [H|H]; destruct e as [s|s|v|f|o|p|d]; try destruct v; cbn [said heading] in H; try discriminate H;
    try (match type of H with match ?x with _ => _ end = _ => destruct x; try discriminate H end); injection H as <-; unfold said_param; cbn [List.length app]; try lia; try apply A; try apply B; try apply C.
  all: try (cbn; lia); rewrite app_length; cbn [List.length]; lia.
Qed.
Lemma first_app a b x p : first_tok (a ++ b) = Some (x, p) -> toks a <> [] -> first_tok a = Some (x, p).
Proof. induction a as [|[y q|y q] a IH]; cbn [app first_tok toks]; [congruence|auto|auto]. Qed.

Lemma span_of perm bic junk cs il ts e m l : Elem perm bic junk cs il ts e -> e_meta e = Some m -> said e = Some l \/ heading e = Some l ->
  exists x y, first_tok ts = Some (x, Pos m) /\ last_tok ts = Some (y, LastPos m).
Proof.
  intros HE EM H. pose proof (elem_span _ _ _ _ _ _ _ HE m EM) as SP. destruct e as [s|s|v|f|o|p|d]; try (destruct SP as (x0 & y0 & A & _ & B & _); eauto; fail).
  destruct v; try (destruct SP as (x0 & y0 & A & _ & B & _); eauto; fail). destruct H; discriminate.
Qed.
Lemma between_of fn input a c1 x p mid y q c2 b : Layout false (pos0 fn) input (a ++ (coms c1 ++ Tok x p :: mid ++ Tok y q :: coms c2) ++ b) -> between fn input x p mid y q.
Proof.
  intros LY. exists (a ++ coms c1), (coms c2 ++ b). match goal with H : Layout _ _ _ ?u |- Layout _ _ _ ?v => replace v with u; [exact H|] end.
  rewrite <- !app_assoc. cbn [app]. do 3 f_equal. rewrite <- !app_assoc. reflexivity.
Qed.
Lemma said_kept opts input pr e l m c : c = config_of opts -> readable input -> ordinary c input pr -> Parse opts input = Ok pr -> element pr e -> said e = Some l -> e_meta e = Some m ->
  exists x mid y, between (cfg_filename c) input x (Pos m) mid y (LastPos m) /\ spell (cfg_permissive c) (x :: toks mid ++ [y]) l.
Proof.
  intros Ec RD RG E HE S EM. destruct (one_part _ _ _ _ _ Ec RD RG E HE) as (a & cs & il & ts & b & LY & EL).
  destruct (elem_said _ _ _ _ _ _ _ EL) as [SP _]. specialize (SP _ S). destruct (span_of _ _ _ _ _ _ _ _ _ EL EM (or_introl S)) as (x & y & F & L).
  pose proof (spell_length _ _ _ SP) as LN. pose proof (said_two _ _ (or_introl S)) as L2.
  destruct (ends_of _ _ _ _ _ F L ltac:(lia)) as (c1 & mid & c2 & ->). exists x, mid, y. split; [eapply between_of; exact LY|].
  rewrite toks_app, toks_coms in SP. cbn [toks app] in SP. rewrite toks_app in SP. cbn [toks] in SP. rewrite toks_coms in SP. exact SP.
Qed.
Lemma heading_kept opts input pr e l m c : c = config_of opts -> readable input -> ordinary c input pr -> Parse opts input = Ok pr -> element pr e -> heading e = Some l -> e_meta e = Some m ->
  exists x mid y q, between (cfg_filename c) input x (Pos m) mid y q /\ spell (cfg_permissive c) (x :: toks mid ++ [y]) l.
Proof.
  intros Ec RD RG E HE S EM. destruct (one_part _ _ _ _ _ Ec RD RG E HE) as (a & cs & il & ts & b & LY & EL).
  destruct (elem_said _ _ _ _ _ _ _ EL) as [_ SP]. destruct (SP _ S) as (t1 & t2 & -> & SP'). clear SP. destruct (span_of _ _ _ _ _ _ _ _ _ EL EM (or_intror S)) as (x & y' & F & _).
  pose proof (spell_length _ _ _ SP') as LN. pose proof (said_two _ _ (or_intror S)) as L2.
  assert (N : toks t1 <> []) by (destruct (toks t1); [cbn in LN; lia|discriminate]). apply first_app in F; [|exact N]. destruct (last_some _ N) as (y & q & L).
  destruct (ends_of _ _ _ _ _ F L ltac:(lia)) as (c1 & mid & c2 & ->). exists x, mid, y, q. rewrite <- app_assoc in LY. split; [eapply between_of; exact LY|].
  rewrite toks_app, toks_coms in SP'. cbn [toks app] in SP'. rewrite toks_app in SP'. cbn [toks] in SP'. rewrite toks_coms in SP'. exact SP'.
Qed.
