(** The parts of reserved statements, RPCs, options and bodies in the text. *)
From Coq Require Import List NArith ZArith Bool String Ascii Lia Sorted.
From Verif Require Import Base Token Scanner Lexing ScanRefine Ast LexSpec LexFacts LexProofs ScanFacts ScanProps Tree Parser Api RefineFile Grammar GramLex GramRules GramParts SndLex SndNames SndStmts SndFile
  Deep DeepText DeepForm AttachSpec Attach AttachText BareSpec Relay PartSpec Regular.
Import ListNotations.
Open Scope N_scope.

Section Parts.
Variables perm bic junk : bool.
Notation Elem := (Elem perm bic junk).

(** ** RPC headers *)
Definition quiet (ts : list item) : Prop := forall y q, In (Tok y q) ts -> y <> lit ";" /\ y <> lit "{".
Lemma quiet_app a b : quiet a -> quiet b -> quiet (a ++ b).
Proof. intros A B y q I. apply in_app_or in I. destruct I; eauto. Qed.
Lemma quiet_coms cs : quiet (coms cs).
Proof. intros y q I. apply in_map_iff in I. destruct I as (c & E & _). discriminate. Qed.
Lemma quiet_T ts x p : T ts x p -> x <> lit ";" -> x <> lit "{" -> quiet ts.
Proof. intros (cs & ->) A B. apply quiet_app; [apply quiet_coms|]. intros y q [E|[]]. injection E as <- <-. auto. Qed.
Lemma ident_quiet x : is_ident x -> x <> lit ";" /\ x <> lit "{".
Proof. intros (c & l & -> & H & _). apply ident_start_iff in H. split; intros E; injection E as -> _; discriminate. Qed.
Lemma quiet_ident ts x p : T ts x p -> is_ident x -> quiet ts.
Proof. intros H I. destruct (ident_quiet _ I). eapply quiet_T; eauto. Qed.
Lemma quiet_K ts w : K ts w -> lit w <> lit ";" -> lit w <> lit "{" -> quiet ts.
Proof. intros (p & H). eapply quiet_T; eauto. Qed.
Lemma quiet_fullident ts v p : FullIdent ts v p -> quiet ts.
Proof.
  induction 1 as [ts x p H I|ts x p td t2 v p' H I HD H2 IH]; [eapply quiet_ident; eauto|]. apply quiet_app; [eapply quiet_ident; eauto|].
  apply quiet_app; [eapply quiet_K; eauto; discriminate|exact IH].
Qed.
Lemma quiet_messagetype ts v p : MessageType ts v p -> quiet ts.
Proof. intros [t x q H|td q t x q' H F]; [eapply quiet_fullident; eauto|]. apply quiet_app; [eapply quiet_T; eauto; discriminate|eapply quiet_fullident; eauto]. Qed.
Lemma quiet_param ts x : RPCParam ts x -> quiet ts.
Proof.
  intros [t1 p1 t2 st t3 v p3 t4 p4 H1 H2 H3 H4]. apply quiet_app; [eapply quiet_T; eauto; discriminate|]. apply quiet_app.
  - destruct H2 as [t r H|r N]; [eapply quiet_K; eauto; discriminate|]. intros y q [].
  - apply quiet_app; [eapply quiet_messagetype; eauto|eapply quiet_T; eauto; discriminate].
Qed.
Lemma comments_in_app a b : comments_in (a ++ b) = comments_in a ++ comments_in b.
Proof. induction a as [|[x p|x p] a IH]; cbn [app comments_in]; [reflexivity|exact IH|f_equal; exact IH]. Qed.
Lemma rpc_parts cs il ts r : RPC perm junk cs il ts r -> exists cs1 mid x q rest,
  ts = coms cs1 ++ Tok (lit "rpc") (Pos (r_meta r)) :: mid ++ Tok x q :: rest /\ quiet mid /\
  ((x = lit ";" /\ q = LastPos (r_meta r)) \/ x = lit "{") /\ r_embedded r = comments_in mid.
Proof.
  intros [cs1 p1 t2 name p2 t3 rq t4 t5 rs t6 t7 os lc q H2 I2 H3 H4 H5 HE]. cbn [r_meta Pos LastPos r_embedded].
  assert (exists c6 x q6, t6 = coms c6 ++ [Tok x q6] /\ ((x = lit ";" /\ q6 = q) \/ x = lit "{")) as (c6 & x & q6 & -> & HX).
  { destruct HE as [u p (c & ->)|u p1' lc u1 os u2 q (c & ->) IN HB HC]; eauto 8. }
  exists cs1, (t2 ++ t3 ++ t4 ++ t5 ++ coms c6), x, q6, t7. rewrite <- !app_assoc. cbn [app]. split; [reflexivity|]. split; [|split; [exact HX|]].
  - repeat apply quiet_app; [eapply quiet_ident; eauto|eapply quiet_param; eauto|eapply quiet_K; eauto; discriminate|eapply quiet_param; eauto|apply quiet_coms].
  - rewrite !comments_in_app. cbn [comments_in]. rewrite app_nil_r. reflexivity.
Qed.
Lemma elem_rpc cs il ts r : Elem cs il ts (EStmt (VRPC r)) -> RPC perm junk cs il ts r.
Proof. intros H. inversion H as [| |? ? X|? ? X|? ? X|? ? X|? ? X| | | | | | |]; subst; inversion X; subst; try assumption; match goal with Y : Empty _ _ _ _ _ |- _ => inversion Y end. Qed.

(** ** Reserved *)
Lemma elem_reserved cs il ts r : Elem cs il ts (EStmt (VReserved r)) -> Reserved junk cs il ts r.
Proof. intros H. inversion H as [| |? ? X|? ? X|? ? X|? ? X|? ? X| | | | | | |]; subst; inversion X; subst; try assumption; match goal with Y : Empty _ _ _ _ _ |- _ => inversion Y end. Qed.
Lemma K_toks ts w : K ts w -> toks ts = [lit w].
Proof. intros (p & H). exact (T_toks _ _ _ H). Qed.
Lemma range_spells ts r : Range ts r -> toks ts = range_toks r.
Proof.
  intros [t x p H I|t1 x p t2 t3 y p3 H1 I1 H2 H3 I3]; unfold range_toks; cbn [rg_end rg_begin].
  - exact (T_toks _ _ _ H).
  - rewrite !toks_app, (T_toks _ _ _ H1), (K_toks _ _ H2), (T_toks _ _ _ H3). destruct y; [|reflexivity]. exfalso. destruct I3 as [I3|I3]; [|discriminate]. apply int_head in I3. destruct I3 as (c & l & E & _). discriminate.
Qed.
Lemma commas_cons x l : l <> [] -> commas (x :: l) = x ++ [lit ","] ++ commas l.
Proof. destruct l; [congruence|reflexivity]. Qed.
Lemma ranges_spell ts rs : Ranges ts rs -> rs <> [] /\ toks ts = commas (map range_toks rs).
Proof.
  induction 1 as [ts r H|ts r td t2 rs H HD H2 [N IH]].
  - split; [discriminate|]. exact (range_spells _ _ H).
  - split; [discriminate|]. cbn [map]. rewrite commas_cons by (destruct rs; [congruence|discriminate]). rewrite !toks_app, (range_spells _ _ H), (K_toks _ _ HD), IH. reflexivity.
Qed.
Lemma name_not_comma x : is_str x \/ is_ident x -> not_comma x = true.
Proof.
  unfold not_comma. intros H. destruct (list_eq_dec N.eq_dec x (lit ",")) as [->|]; [|reflexivity]. exfalso. destruct H as [H|H].
  - destruct (str_head _ H) as (q & b & [->| ->] & E & _); discriminate.
  - apply identb_iff in H. discriminate.
Qed.
Lemma names_spell ts xs : FieldNames junk ts xs -> xs <> [] /\ filter not_comma (toks ts) = xs.
Proof.
  induction 1 as [ts x p H I|ts x p td t2 xs H I HD H2 [N IH]]; (split; [discriminate|]).
  - rewrite (T_toks _ _ _ H). cbn [filter]. rewrite (name_not_comma _ I). reflexivity.
  - rewrite !toks_app, (T_toks _ _ _ H), !filter_app, IH. cbn [filter]. rewrite (name_not_comma _ I).
    destruct HD as [HD|[_ ->]]; [rewrite (K_toks _ _ HD); reflexivity|reflexivity].
Qed.
Lemma ranges_first ts rs : Ranges ts rs -> exists x l, toks ts = x :: l /\ is_int x.
Proof.
  intros H. assert (R : exists t r, Range t r /\ exists u, toks ts = toks t ++ u).
  { destruct H as [ts r H|ts r td t2 rs H HD H2]; [exists ts, r; split; [exact H|exists []; rewrite app_nil_r; reflexivity]|exists ts, r; split; [exact H|]]. rewrite toks_app. eauto. }
  destruct R as (t & r & R & u & ->). rewrite (range_spells _ _ R). destruct R as [t x p X I|t1 x p t2 t3 y p3 H1 I1 H2 H3 I3]; unfold range_toks; cbn [rg_begin rg_end]; [exists x, u; auto|]. destruct y; eexists _, _; (split; [reflexivity|assumption]).
Qed.
Lemma lost_first ts : Lost ts -> toks ts = [] /\ ts = [] \/ exists x l, toks ts = x :: l /\ is_int x.
Proof.
  induction 1 as [|ts rs td H HD|ts t1 x p t2 t3 y p3 H IH H1 I1 H2 H3]; [left; split; reflexivity| |]; right.
  - destruct (ranges_first _ _ H) as (x & l & E & I). exists x, (l ++ toks td). rewrite toks_app, E. auto.
  - rewrite !toks_app. destruct IH as [[E ->]|(z & l & E & I)].
    + rewrite (T_toks _ _ _ H1). eexists _, _. split; [reflexivity|assumption].
    + rewrite E. eexists _, _. split; [reflexivity|assumption].
Qed.
Lemma T_end ts x p : T ts x p -> exists cs, ts = coms cs ++ [Tok x p].
Proof. exact (fun H => H). Qed.
Lemma reserved_parts cs il ts r : Reserved junk cs il ts r -> exists cs1 mid,
  ts = coms cs1 ++ Tok (lit "reserved") (Pos (rs_meta r)) :: mid ++ [Tok (lit ";") (LastPos (rs_meta r))] /\
  ((rs_ranges r <> [] /\ rs_names r = [] /\ toks mid = commas (map range_toks (rs_ranges r))) \/
   (rs_ranges r = [] /\ rs_names r <> [] /\ exists lost names, toks mid = lost ++ names /\ filter not_comma names = rs_names r /\
     (lost = [] \/ exists x l, lost = x :: l /\ is_int x))).
Proof.
  intros [t1 p1 t2 rs t3 p3 (c1 & ->) H2 (c3 & ->)|t1 p1 tj t2 xs t3 p3 (c1 & ->) HJ H2 (c3 & ->)]; cbn [rs_meta Pos LastPos rs_ranges rs_names].
  - exists c1, (t2 ++ coms c3). rewrite <- !app_assoc. split; [reflexivity|]. left. destruct (ranges_spell _ _ H2) as [N E]. rewrite toks_app, toks_coms, app_nil_r. auto.
  - exists c1, (tj ++ t2 ++ coms c3). rewrite <- !app_assoc. split; [reflexivity|]. right. destruct (names_spell _ _ H2) as [N E]. split; [reflexivity|]. split; [exact N|].
    exists (toks tj), (toks t2). rewrite !toks_app, toks_coms, app_nil_r. split; [reflexivity|]. split; [exact E|].
    destruct HJ as [[_ HJ]| ->]; [|left; reflexivity]. destruct (lost_first _ HJ) as [[E' _]|X]; [left; exact E'|right; exact X].
Qed.

(** ** Options *)
Notation flat := (fun ts => List.concat (toks ts)).
Lemma flat_app a b : List.concat (toks (a ++ b)) = List.concat (toks a) ++ List.concat (toks b).
Proof. rewrite toks_app. apply concat_app. Qed.
Lemma T_flat ts x p : T ts x p -> List.concat (toks ts) = x.
Proof. intros H. rewrite (T_toks _ _ _ H). apply app_nil_r. Qed.
Lemma K_flat ts w : K ts w -> List.concat (toks ts) = lit w.
Proof. intros (p & H). exact (T_flat _ _ _ H). Qed.
Lemma fullident_flat ts v p : FullIdent ts v p -> List.concat (toks ts) = v.
Proof.
  induction 1 as [ts x p H I|ts x p td t2 v p' H I HD H2 IH]; [exact (T_flat _ _ _ H)|]. rewrite !flat_app, (T_flat _ _ _ H), (K_flat _ _ HD), IH. reflexivity.
Qed.
Lemma namepart_flat ts v : NamePart perm ts v -> List.concat (toks ts) = v.
Proof.
  intros [t x p H I|t1 t2 w p t3 H1 H2 H3|t1 t2 t3 w p t4 P H1 H2 H3 H4].
  - exact (T_flat _ _ _ H).
  - rewrite !flat_app, (K_flat _ _ H1), (fullident_flat _ _ _ H2), (K_flat _ _ H3). reflexivity.
  - rewrite !flat_app, (K_flat _ _ H1), (K_flat _ _ H2), (fullident_flat _ _ _ H3), (K_flat _ _ H4). reflexivity.
Qed.
Lemma optionname_flat ts v : OptionName perm ts v -> List.concat (toks ts) = v.
Proof. induction 1 as [ts v H|ts v td t2 v' H HD H2 IH]; [exact (namepart_flat _ _ H)|]. rewrite !flat_app, (namepart_flat _ _ H), (K_flat _ _ HD), IH. reflexivity. Qed.
Lemma value_flat ts v : perm = false -> Value perm junk ts v -> List.concat (toks ts) = v.
Proof.
  intros P [t w H|t1 t2 X|t1 t w X|t1 t2 X|t1 t w t2 x p X]; try congruence.
  destruct H as [t x p _ H I|t xs p X H|t x p H I|t x p H I|t w p H N|t s p t' x p' H W H' I]; try congruence; try exact (T_flat _ _ _ H).
  - exact (fullident_flat _ _ _ H).
  - rewrite flat_app, (T_flat _ _ _ H), (T_flat _ _ _ H'). reflexivity.
Qed.
Lemma elem_option cs il ts o : Elem cs il ts (EStmt (VOption o)) \/ Elem cs il ts (EOption o) -> Option perm junk cs il ts o.
Proof.
  intros [H|H].
  - inversion H as [| |? ? X|? ? X|? ? X|? ? X|? ? X| | | | | | |]; subst; inversion X; subst; try assumption; match goal with Y : Empty _ _ _ _ _ |- _ => inversion Y end.
  - inversion H; subst. assumption.
Qed.
Lemma option_parts cs il ts o : Option perm junk cs il ts o -> exists cs1 tn te tv,
  ts = coms cs1 ++ Tok (lit "option") (Pos (op_meta o)) :: (tn ++ te ++ tv) ++ [Tok (lit ";") (LastPos (op_meta o))] /\
  List.concat (toks tn) = op_name o /\ toks te = [lit "="] /\ exists tv', toks tv = toks tv' /\ Value perm junk tv' (op_constant o).
Proof.
  intros [t1 p1 t2 name t3 t4 v t5 p5 (c1 & ->) H2 H3 H4 (c5 & ->)]. cbn [op_meta Pos LastPos op_name op_constant].
  exists c1, t2, t3, (t4 ++ coms c5). rewrite <- !app_assoc. split; [reflexivity|]. split; [exact (optionname_flat _ _ H2)|]. split; [exact (K_toks _ _ H3)|].
  exists t4. rewrite toks_app, toks_coms, app_nil_r. auto.
Qed.
Definition opens_str (x : str) : Prop := exists q b, (q = SQ \/ q = DQ) /\ x = q :: b.
Lemma str_opens x : is_str x -> opens_str x.
Proof. intros H. destruct (str_head _ H) as (q & b & Q & -> & _). exists q, b. auto. Qed.
Lemma str_not_ident x : opens_str x -> ~ is_ident x.
Proof. intros H I. destruct H as (q & b & [->| ->] & ->); apply identb_iff in I; discriminate. Qed.
Lemma str_not_number x : opens_str x -> ~ number x.
Proof.
  intros H N. pose proof H as HO. destruct H as (q & b & Q & ->).
  assert (QD : ~ digit q) by (intros D; apply digit_iff in D; destruct Q as [->| ->]; discriminate).
  assert (QP : q <> ch ".") by (destruct Q as [->| ->]; discriminate).
  destruct N as [N|N].
  - apply int_head in N. destruct N as (c & l & E & D). injection E as <- _. exact (QD D).
  - destruct (float_head _ N (str_not_ident _ HO)) as (c & l & E & [D|D]); injection E as <- _; auto.
Qed.
Lemma strings_toks ts xs p : Strings ts xs p -> toks ts = xs /\ Forall is_str xs.
Proof. induction 1 as [ts x p H I|ts x p t2 xs p' H I H2 [E F]]; [rewrite (T_toks _ _ _ H); auto|]. rewrite toks_app, (T_toks _ _ _ H), E. auto. Qed.
(** a value that begins with a string literal *)
Lemma value_strings ts v : perm = true -> Value perm junk ts v -> forall x l, toks ts = x :: l -> opens_str x -> Forall is_str (toks ts) /\ v = joined (toks ts).
Proof.
  intros P H x l E I.
  assert (NK : forall t1 w u, K t1 w -> toks (t1 ++ u) = x :: l -> ~ opens_str (lit w) -> False).
  { intros t1 w u HK E' N. rewrite toks_app, (K_toks _ _ HK) in E'. injection E' as <- _. exact (N I). }
  assert (NB : ~ opens_str (lit "{")) by (intros (q & b & [->| ->] & X); discriminate).
  assert (NL : ~ opens_str (lit "[")) by (intros (q & b & [->| ->] & X); discriminate).
  destruct H as [t w H|t1 t2 X H1|t1 t w X H1|t1 t2 X H1|t1 t w t2 y p X H1]; try (match goal with HK : K ?t _, E : toks (?t ++ _) = _ |- _ => exfalso; eapply (NK t); [exact HK|exact E|assumption] end).
  destruct H as [t y p X H J|t xs p X H|t y p H J|t y p H J|t w p H N|t s p t' y p' H W H' J].
  - congruence.
  - destruct (strings_toks _ _ _ H) as [-> F]. auto.
  - rewrite (T_toks _ _ _ H) in E. injection E as -> _. destruct (str_not_number _ I J).
  - rewrite (T_toks _ _ _ H) in E. injection E as -> _. destruct (str_not_ident _ I). destruct J as [<-|[<-|[]]]; apply identb_iff; reflexivity.
  - assert (IZ : is_ident x).
    { destruct H as [t' z' q' HT IT|t' z' q' td t2 v' q2 HT IT HD H2]; [rewrite (T_toks _ _ _ HT) in E|rewrite toks_app, (T_toks _ _ _ HT) in E]; injection E as <-; assumption. }
    destruct (str_not_ident _ I IZ).
  - rewrite toks_app, (T_toks _ _ _ H) in E. injection E as -> _.
    exfalso. destruct I as (q & b & [->| ->] & ->); destruct W as [W|[W|[]]]; discriminate.
Qed.

Lemma drop_quotes_nq q s : (forall s', s <> q :: s') -> drop_quotes q s = s.
Proof. destruct s as [|c s]; [reflexivity|]. intros H. cbn [drop_quotes]. destruct (N.eqb_spec c q) as [->|]; [|reflexivity]. exfalso. eapply H. reflexivity. Qed.
Lemma drop_quotes_q q s : drop_quotes q (q :: s) = drop_quotes q s.
Proof. cbn [drop_quotes]. rewrite N.eqb_refl. reflexivity. Qed.
Lemma strip_quoted q s : clear_of q s -> strip q (quoted q s) = s.
Proof.
  intros [A B]. unfold strip, quoted. change ([q] ++ s ++ [q]) with (q :: (s ++ [q])). rewrite drop_quotes_q. destruct s as [|c s].
  - change (drop_quotes q ([] ++ [q])) with (drop_quotes q [q]). rewrite drop_quotes_q. reflexivity.
  - rewrite (drop_quotes_nq q ((c :: s) ++ [q])) by (intros s' E; cbn [app] in E; injection E as E _; subst c; exact (A s eq_refl)).
    rewrite rev_app_distr. change (rev [q] ++ rev (c :: s)) with (q :: rev (c :: s)). rewrite drop_quotes_q.
    rewrite (drop_quotes_nq q (rev (c :: s))); [apply rev_involutive|]. intros s' E. apply (f_equal (@rev _)) in E. rewrite rev_involutive in E. cbn [rev] in E. exact (B _ E).
Qed.
Lemma joined_quoted q ss : ss <> [] -> Forall (clear_of q) ss -> joined (map (quoted q) ss) = quoted q (List.concat ss).
Proof.
  intros N F. unfold joined. assert (E : first_quote (map (quoted q) ss) = q) by (destruct ss; [congruence|reflexivity]). rewrite E. unfold quoted at 2.
  do 2 f_equal. clear N E. induction F as [|s ss H F IH]; [reflexivity|]. cbn [map flat_map List.concat]. rewrite (strip_quoted _ _ H), IH. reflexivity.
Qed.

(** ** Comments of bodies *)
Lemma covered_coms tcs : covered (coms tcs) (map EStmt (map VComment (nodes tcs))).
Proof. induction tcs as [|[x q] l IH]; [constructor|]. apply cov_comment. exact IH. Qed.
Lemma stmts_covered (S : list comment -> option comment -> list item -> visitee -> Prop) ts vs tcs : (forall cs il ts v, S cs il ts v -> Elem cs il ts (EStmt v)) ->
  (forall cs il ts v, S cs il ts v -> v <> VNil /\ ~ is_comment_node (EStmt v)) ->
  bic = true -> Stmts perm junk S ts vs tcs -> covered ts (map EStmt (vs ++ trailing bic tcs)).
Proof.
  intros HS HN B. induction 1 as [cs|cs ts v x q il rest vs tcs H NC LT IN CL HR IH].
  - rewrite B. apply covered_coms.
  - cbn [map app]. pose proof (HS _ _ _ _ H) as HE. destruct (HN _ _ _ _ H) as [NV NN].
    destruct (elem_et _ _ _ _ _ _ _ HE) as [E|[E|ET]]; [congruence|tauto|].
    destruct (e_meta (EStmt v)) as [m|] eqn:EM.
    + destruct (own_comments _ _ _ _ _ _ _ _ HE EM) as [OC OI]. destruct (elem_ends _ _ _ _ _ _ _ _ HE EM NN NC ET) as (a & mid & b & -> & _). eapply cov_stmt; eauto.
    + pose proof (elem_semi _ _ _ _ _ _ _ _ _ HE EM LT) as ->. destruct (et_last _ _ _ ET LT) as (u & ->).
      destruct (elem_own _ _ _ _ _ _ _ HE) as (_ & OI & _). destruct v; try discriminate EM; [congruence|]. destruct e as [i]. cbn [e_inline em_inline] in OI. subst i. rewrite <- app_assoc. apply cov_empty. exact IH.
Qed.
Definition OneBody (ts : list item) (e : elem) : Prop := forall l, In l (children e) -> l <> [] \/ keeps_empty e ->
  exists a p lc mid q b, ts = a ++ Tok (lit "{") p :: (icom lc ++ mid) ++ Tok (lit "}") q :: b /\ brace_comment e = inode lc /\ covered mid l.
Lemma body_covered drop (S : list comment -> option comment -> list item -> visitee -> Prop) ts vs lc q : (forall cs il ts v, S cs il ts v -> Elem cs il ts (EStmt v)) ->
  (forall cs il ts v, S cs il ts v -> v <> VNil /\ ~ is_comment_node (EStmt v)) -> bic = true -> Body perm bic junk drop S ts vs lc q ->
  vs <> [] \/ drop = false -> exists a p lc' mid q b, ts = a ++ Tok (lit "{") p :: (icom lc' ++ mid) ++ Tok (lit "}") q :: b /\ lc = inode lc' /\ covered mid (map EStmt vs).
Proof.
  intros HS HN B [t1 p1 lc' ts' vs' tcs t2 q' H1 IN ST NC CL D|t1 p1 lc' t2 q' D H1 IN CL] NE; [|destruct NE; congruence].
  destruct H1 as (c1 & ->). assert (X : exists q b, t2 = Tok (lit "}") q :: b).
  { destruct CL as [t p H|t p t' p' _ H _]; destruct H as (c2 & ->); destruct c2; try (destruct NC; fail); cbn [coms map app]; eauto. }
  destruct X as (q0 & b & ->). exists (coms c1), p1, lc', ts', q0, b. split; [|split; [reflexivity|eapply stmts_covered; eassumption]].
  rewrite <- !app_assoc. reflexivity.
Qed.
Lemma stmt_kinds cs il ts v : EnumStmt perm junk cs il ts v \/ ExtendStmt perm junk cs il ts v \/ MessageStmt perm bic junk cs il ts v \/ ServiceStmt perm junk cs il ts v ->
  v <> VNil /\ ~ is_comment_node (EStmt v).
Proof.
  intros H. cut ((v <> VNil) /\ (forall c, v <> VComment c)). { intros [A B]. split; [exact A|]. intros [c E]. injection E as ->. exact (B c eq_refl). }
  destruct H as [H|[H|[H|H]]]; destruct H; try (split; [discriminate|intros c0; discriminate]).
  all: destruct H as [p|t u p J H]; (split; [discriminate|intros c0; discriminate]).
Qed.
Lemma one_body h ts vs e : (exists a p lc' mid q b, ts = a ++ Tok (lit "{") p :: (icom lc' ++ mid) ++ Tok (lit "}") q :: b /\ brace_comment e = inode lc' /\ covered mid (map EStmt vs)) ->
  forall l, In l [map EStmt vs] ->
  exists a p lc mid q b, h ++ ts = a ++ Tok (lit "{") p :: (icom lc ++ mid) ++ Tok (lit "}") q :: b /\ brace_comment e = inode lc /\ covered mid l.
Proof. intros (a & p & lc & mid & q & b & -> & E & C) l [<-|[]]. exists (h ++ a), p, lc, mid, q, b. split; [apply app_assoc|auto]. Qed.
Lemma ne_map vs : map EStmt vs <> [] \/ False -> vs <> [] \/ true = false.
Proof. intros [H|[]]. left. intros ->. exact (H eq_refl). Qed.
Lemma elem_body cs il ts e : bic = true -> Elem cs il ts e -> block_of e -> OneBody ts e.
Proof.
  intros B HE BO l IL NE.
  assert (NE' : match e with EStmt (VEnum _) | EStmt (VService _) => True | _ => l <> [] end).
  { destruct NE as [H|H]; [|destruct e as [| |v| | | |]; try tauto; destruct v; tauto]. destruct e as [| |v| | | |]; try exact H; destruct v; try exact H; exact I. }
  clear NE. destruct HE as [ts' s H|ts' s H|ts' v' H|ts' v' H|ts' v' H|ts' v' H|ts' v' H|ts' v' H|ts' v' H|ts' v' E1 E2 H|ts' v' H|x' q' E1 E2|E1 E2|p E1 E2]; try (destruct BO; fail).
  - destruct H as [? ? H|? ? H|? ? H|? ? H|? ? H|? ? H|? ? H]; try (destruct BO; fail); destruct H; cbn [children b_body] in IL; rewrite app_assoc; (eapply one_body; [|exact IL]); cbn [brace_comment b_inlineLC];
      (eapply body_covered; [| |exact B|eassumption|]); try (intros ? ? ? ? KK; eapply stmt_kinds; eauto; fail).
    all: try (intros; first [apply e_message; assumption|apply e_enum; assumption|apply e_service; assumption|apply e_extend; assumption]).
    all: try (right; reflexivity).
    all: left; intros ->; destruct IL as [<-|[]]; exact (NE' eq_refl).
  - destruct H; try (destruct BO; fail). match goal with H : Empty _ _ _ _ _ |- _ => destruct H; destruct BO end.
  - destruct H; try (destruct BO; fail). match goal with H : Empty _ _ _ _ _ |- _ => destruct H; destruct BO end.
  - destruct H as [? ? H|t1 p1 t2 name p2 t3 vs lc q H1 H2 I HB|? ? H|? ? H|? ? H|? ? H|? ? H|? ? H|? ? H N|t1 p1 rp rq op t2 t3 name p3 t4 t5 num p5 t6 vs lc q HL H2 H3 I3 CP H4 H5 I5 HB|? ? H]; try (destruct BO; fail).
    + destruct H. cbn [children b_body] in IL. rewrite app_assoc. (eapply one_body; [|exact IL]); cbn [brace_comment b_inlineLC].
      eapply body_covered; [| |exact B|eassumption|right; reflexivity]; [intros; apply e_enum; assumption|intros ? ? ? ? KK; eapply stmt_kinds; eauto].
    + cbn [children b_body] in IL. rewrite app_assoc. (eapply one_body; [|exact IL]); cbn [brace_comment b_inlineLC].
      eapply body_covered; [| |exact B|eassumption|]; [intros; apply e_message; assumption|intros ? ? ? ? KK; eapply stmt_kinds; eauto|left; intros ->; destruct IL as [<-|[]]; exact (NE' eq_refl)].
    + destruct H. cbn [children b_body] in IL. rewrite app_assoc. (eapply one_body; [|exact IL]); cbn [brace_comment b_inlineLC].
      eapply body_covered; [| |exact B|eassumption|]; [intros; apply e_extend; assumption|intros ? ? ? ? KK; eapply stmt_kinds; eauto|left; intros ->; destruct IL as [<-|[]]; exact (NE' eq_refl)].
    + cbn [children g_body] in IL. replace (t1 ++ t2 ++ t3 ++ t4 ++ t5 ++ t6) with ((t1 ++ t2 ++ t3 ++ t4 ++ t5) ++ t6) by (rewrite <- !app_assoc; reflexivity). (eapply one_body; [|exact IL]); cbn [brace_comment g_inlineLC].
      eapply body_covered; [| |exact B|eassumption|]; [intros; apply e_message; assumption|intros ? ? ? ? KK; eapply stmt_kinds; eauto|left; intros ->; destruct IL as [<-|[]]; exact (NE' eq_refl)].
    + destruct H; destruct BO.
  - destruct H as [? ? H|? ? H|p]; destruct BO.
Qed.
End Parts.

Lemma one_part opts input pr e c : c = config_of opts -> readable input -> ordinary c input pr -> Parse opts input = Ok pr -> element pr e ->
  exists a cs il ts b, Layout false (pos0 (cfg_filename c)) input (a ++ ts ++ b) /\ Elem (cfg_permissive c) (cfg_bodyIncludingComments c) true cs il ts e.
Proof.
  intros Ec RD RG E HE. destruct (parse_sound opts input pr c Ec RD RG E) as (its & LY & HF). destruct (deep _ _ _ _ _ _ _ HF HE) as (a & cs & il & ts & b & -> & EL & _).
  exists a, cs, il, ts, b. auto.
Qed.
(** C34 *)
Lemma embedded_comments opts input pr r c : c = config_of opts -> readable input -> ordinary c input pr -> Parse opts input = Ok pr -> element pr (EStmt (VRPC r)) ->
  exists mid x q, between (cfg_filename c) input (lit "rpc") (Pos (r_meta r)) mid x q /\
    ((x = lit ";" /\ q = LastPos (r_meta r)) \/ x = lit "{") /\ (forall y q', In (Tok y q') mid -> y <> lit ";" /\ y <> lit "{") /\
    r_embedded r = comments_in mid.
Proof.
  intros Ec RD RG E HE. destruct (one_part _ _ _ _ _ Ec RD RG E HE) as (a & cs & il & ts & b & LY & EL).
  destruct (rpc_parts _ _ _ _ _ _ (elem_rpc _ _ _ _ _ _ _ EL)) as (cs1 & mid & x & q & rest & -> & Q & X & R).
  exists mid, x, q. split; [|auto]. exists (a ++ coms cs1), (rest ++ b). rewrite <- !app_assoc. cbn [app]. rewrite <- app_assoc in LY. cbn [app] in LY. rewrite <- app_assoc in LY. exact LY.
Qed.
(** C33 *)
Lemma reserved_kept opts input pr r c : c = config_of opts -> readable input -> ordinary c input pr -> Parse opts input = Ok pr -> element pr (EStmt (VReserved r)) ->
  exists mid, between (cfg_filename c) input (lit "reserved") (Pos (rs_meta r)) mid (lit ";") (LastPos (rs_meta r)) /\
    (rs_ranges r <> [] -> rs_names r = [] /\ toks mid = commas (map range_toks (rs_ranges r))) /\
    (rs_ranges r = [] -> exists lost names, toks mid = lost ++ names /\ filter not_comma names = rs_names r /\
      (lost = [] \/ exists x l, lost = x :: l /\ is_int x)).
Proof.
  intros Ec RD RG E HE. destruct (one_part _ _ _ _ _ Ec RD RG E HE) as (a & cs & il & ts & b & LY & EL).
  destruct (reserved_parts _ _ _ _ _ (elem_reserved _ _ _ _ _ _ _ EL)) as (cs1 & mid & -> & X).
  exists mid. split; [|split; [intros N; destruct X as [(_ & A & B)|(A & _)]; [auto|congruence]|intros N; destruct X as [(A & _)|(_ & _ & A)]; [congruence|exact A]]].
  exists (a ++ coms cs1), b. rewrite <- !app_assoc. cbn [app]. rewrite <- app_assoc in LY. cbn [app] in LY. rewrite <- app_assoc in LY. exact LY.
Qed.
(** C32 *)
Definition option_of (e : elem) (o : option_) : Prop := e = EStmt (VOption o) \/ e = EOption o.
Lemma constants_kept opts input pr e o c : c = config_of opts -> readable input -> ordinary c input pr -> Parse opts input = Ok pr -> element pr e -> option_of e o ->
  exists tn te tv, between (cfg_filename c) input (lit "option") (Pos (op_meta o)) (tn ++ te ++ tv) (lit ";") (LastPos (op_meta o)) /\
    List.concat (toks tn) = op_name o /\ toks te = [lit "="] /\
    (cfg_permissive c = false -> List.concat (toks tv) = op_constant o) /\
    (cfg_permissive c = true -> forall q ss, q = SQ \/ q = DQ -> ss <> [] -> toks tv = map (quoted q) ss -> Forall (clear_of q) ss -> op_constant o = quoted q (List.concat ss)).
Proof.
  intros Ec RD RG E HE HO. destruct (one_part _ _ _ _ _ Ec RD RG E HE) as (a & cs & il & ts & b & LY & EL).
  assert (OP : Option (cfg_permissive c) true cs il ts o). { eapply elem_option. destruct HO as [->| ->]; [left|right]; exact EL. }
  destruct (option_parts _ _ _ _ _ _ OP) as (cs1 & tn & te & tv & -> & N & TE & tv' & TV & V). exists tn, te, tv. split; [|split; [exact N|]; split; [exact TE|]; split].
  - exists (a ++ coms cs1), b. rewrite <- !app_assoc. cbn [app]. rewrite <- app_assoc in LY. cbn [app] in LY. rewrite <- !app_assoc in LY. exact LY.
  - intros P. rewrite TV. eapply value_flat; eassumption.
  - intros P q ss I NE EQ F. rewrite TV in EQ. destruct ss as [|s ss]; [congruence|].
    destruct (value_strings _ _ _ _ P V _ _ EQ) as [_ ->]; [exists q, (s ++ [q]); auto|]. rewrite EQ. apply joined_quoted; assumption.
Qed.

(** C21 *)
Lemma body_comments opts input pr e l c : c = config_of opts -> cfg_bodyIncludingComments c = true -> readable input -> ordinary c input pr -> Parse opts input = Ok pr ->
  element pr e -> block_of e -> In l (children e) -> l <> [] \/ keeps_empty e ->
  exists p lc mid q, between (cfg_filename c) input (lit "{") p (icom lc ++ mid) (lit "}") q /\ brace_comment e = inode lc /\ covered mid l.
Proof.
  intros Ec BC RD RG E HE BO IL NE. destruct (one_part _ _ _ _ _ Ec RD RG E HE) as (a & cs & il & ts & b & LY & EL).
  destruct (elem_body _ _ _ _ _ _ _ BC EL BO l IL NE) as (a' & p & lc & mid & q & b' & -> & X & Y). exists p, lc, mid, q. split; [|auto].
  exists (a ++ a'), (b' ++ b). rewrite <- app_assoc in LY. cbn [app] in LY. rewrite <- app_assoc in LY. rewrite <- app_assoc. exact LY.
Qed.
