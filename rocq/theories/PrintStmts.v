(** Printed statements and bodies derive again (C44). *)
From Coq Require Import List NArith ZArith Bool String Ascii Lia.
From Verif Require Import Base Token Scanner Lexing ScanRefine LexFacts Ast LexSpec LexProofs ScanProps Grammar GramLex GramValues GramParts BareSpec Relay PrintSpec Print PrintParts.
Import ListNotations.
Open Scope N_scope.

Ltac parted S := repeat (apply simple_app in S; let X := fresh "S" in destruct S as [X S]).
Ltac kw := apply reads_kw; reflexivity.
Ltac txt := cbn [app]; repeat first
  [ apply texts_nil
  | apply texts_tok; [first [kw|assumption|apply reads_ident; assumption|apply reads_int; assumption]|]
  | apply texts_cons; [eassumption|]
  | apply texts_app; [eassumption|]
  | eassumption ].
Ltac hd0 := repeat match goal with H : T ?t ?x ?p |- context [next_tok (?t ++ _)] => rewrite (next_app _ _ _ (next_T _ _ _ H)) end; try reflexivity.

Section Stmts.
Variables perm bic junk : bool.
Notation simple := (simple perm).
Notation visitee_words := (visitee_words perm).
Notation close_words := (close_words perm).

(** the last token does not end a block another semicolon would belong to *)
Definition ends (xs : list str) : Prop := exists ys y, xs = ys ++ [y] /\ (perm = false \/ y <> lit "}").
Lemma ends_app a b : ends b -> ends (a ++ b).
Proof. intros (ys & y & -> & H). exists (a ++ ys), y. split; [apply app_assoc|exact H]. Qed.
Lemma ends_semi : ends [lit ";"].
Proof. exists [], (lit ";"). split; [reflexivity|]. right. discriminate. Qed.
Lemma ends_cons x b : ends b -> ends (x :: b).
Proof. apply (ends_app [x]). Qed.
Lemma ends_last xs : ends xs -> exists y, last_tok (tk xs) = Some (y, P0) /\ forall rest, closed perm false (tk xs) rest.
Proof.
  intros (ys & y & -> & H). exists y. rewrite last_tk. split; [reflexivity|]. intros rest. unfold closed. rewrite last_tk. right. destruct H as [H|H]; [left; exact H|right; contradiction].
Qed.
Ltac endn := repeat first [exact ends_semi|assumption|apply ends_app|apply ends_cons].

Definition olist (os : list (str * str)) : list str :=
  match os with [] => [] | o :: os => [fst o; lit "="; snd o] ++ flat_map (fun o => [lit ","; fst o; lit "="; snd o]) os end.
Lemma FieldOption_print ts o : FieldOption perm junk ts o -> simple ts -> exists xs, Texts [fst o; lit "="; snd o] xs /\ FieldOption perm false (tk xs) o.
Proof.
  intros [t1 name t2 t3 v H1 H2 H3] S. parted S. destruct (OptionName_print _ _ _ H1) as (x1 & R1 & N1 & _). destruct (V_print _ _ _ _ H3 S) as (x3 & R3 & N3 & _).
  exists (x1 ++ [lit "="] ++ x3). split; [cbn [fst snd]; apply texts_cons; [exact R1|]; apply texts_tok; [kw|]; apply texts_one, R3|].
  rewrite !tk_app. constructor; [exact N1|apply K_tk|exact N3].
Qed.
Lemma FieldOptionList_print ts os : FieldOptionList perm junk ts os -> simple ts -> exists xs, Texts (olist os) xs /\ FieldOptionList perm false (tk xs) os.
Proof.
  induction 1 as [ts o H|ts o td t2 os H HD H2 IH]; intros S.
  - destruct (FieldOption_print _ _ H S) as (xs & HT & HF). exists xs. split; [exact HT|]. constructor. exact HF.
  - parted S. destruct (FieldOption_print _ _ H S0) as (xs & HT & HF). destruct (IH S) as (xs' & HT' & HF'). exists (xs ++ [lit ","] ++ xs'). split.
    + destruct H2 as [ts' o' H'|ts' o' td' t2' os' H' HD' H2']; (apply (texts_app [fst o; lit "="; snd o]); [exact HT|]; apply texts_tok; [kw|exact HT']).
    + rewrite !tk_app. apply fol_more; [exact HF|apply K_tk|exact HF'].
Qed.
Lemma FieldOptions_print ts os : FieldOptions perm junk ts os -> simple ts -> exists xs, Texts (bracketed os) xs /\ FieldOptions perm false (tk xs) os.
Proof.
  intros [|t1 t2 os0 t3 H1 H2 H3] S.
  - exists []. split; constructor.
  - parted S. destruct (FieldOptionList_print _ _ H2 S1) as (xs & HT & HF). exists ([lit "["] ++ xs ++ [lit "]"]). split.
    + assert (E : bracketed os0 = lit "[" :: olist os0 ++ [lit "]"]) by (destruct H2; reflexivity).
      rewrite E. apply texts_tok; [kw|]. apply texts_app; [exact HT|]. apply texts_one. kw.
    + rewrite !tk_app. apply fos_some; [apply K_tk|exact HF|apply K_tk].
Qed.
Lemma fields_fopts os : fields_of (fopts os) = os.
Proof. unfold fields_of, fopts. rewrite map_map. cbn. induction os as [|[a b] os IH]; [reflexivity|]. cbn. rewrite IH. reflexivity. Qed.
Lemma values_evopts os : values_of (evopts os) = os.
Proof. unfold values_of, evopts. rewrite map_map. cbn. induction os as [|[a b] os IH]; [reflexivity|]. cbn. rewrite IH. reflexivity. Qed.
Lemma FieldEnd_print ts name num os p : FieldEnd perm junk ts name num os p -> simple ts ->
  exists xs, Texts (end_words name num (fopts os)) xs /\ FieldEnd perm false (tk xs) name num os P0 /\ ends xs.
Proof.
  intros [t1 n p1 t2 t3 nu p3 t4 o t5 p5 H1 I1 H2 H3 I3 H4 H5] S. parted S. destruct (FieldOptions_print _ _ H4 S3) as (xs & HT & HF).
  exists ([n] ++ [lit "="] ++ [nu] ++ xs ++ [lit ";"]). split; [|split].
  - unfold end_words. rewrite fields_fopts. txt.
  - rewrite !tk_app. econstructor; try apply T_tk; try apply K_tk; eassumption.
  - endn.
Qed.
Lemma Label_print ts rest p a b c xs : Label ts rest p a b c -> hd_error xs = next_tok rest ->
  exists ls, Texts (label_words a b c) ls /\ Label (tk ls) (tk xs) P0 a b c /\ hd_error (ls ++ xs) = next_tok (ts ++ rest).
Proof.
  intros [t p0 r H|t p0 r H|t p0 r H|x p0 r F N] E.
  1-3: eexists [_]; (split; [apply texts_one; kw|]; split; [constructor; apply T_tk|]; rewrite (next_app _ _ _ (next_T _ _ _ H)); reflexivity).
  exists []. split; [constructor|]. cbn [app]. split; [|exact E]. assert (NX : next_tok r = Some x).
  { clear -F. induction r as [|[y q|y q] r IH]; [discriminate|injection F as -> _; reflexivity|exact (IH F)]. }
  rewrite NX in E. eapply lb_none; [|exact N]. rewrite first_tk, E. reflexivity.
Qed.
Lemma Range_print ts r : Range ts r -> exists xs, Texts (range_words r) xs /\ Range (tk xs) r.
Proof.
  intros [t x p H I|t1 x p t2 t3 y p3 H1 I1 H2 H3 I3].
  - exists [x]. split; [apply texts_one, reads_int, I|]. eapply rg_one; [apply T_tk|exact I].
  - exists ([x] ++ [lit "to"] ++ [y]). assert (R : Reads y [y]) by (destruct I3 as [I3| ->]; [apply reads_int, I3|kw]). split.
    + assert (E : range_words (mkRange x y) = [x; lit "to"; y]).
      { unfold range_words. cbn. destruct y; [|reflexivity]. exfalso. destruct I3 as [I3|I3]; [|discriminate]. apply int_head in I3. destruct I3 as (c & l & E & _). discriminate. }
      rewrite E. cbn [app]. apply texts_tok; [apply reads_int, I1|]. apply texts_tok; [kw|]. apply texts_tok; [exact R|constructor].
    + rewrite !tk_app. eapply rg_to; try apply T_tk; try apply K_tk; eassumption.
Qed.
Lemma commas_more x y l : commas (x :: y :: l) = x ++ lit "," :: commas (y :: l). Proof. reflexivity. Qed.
Lemma Ranges_print ts rs : Ranges ts rs -> exists xs, Texts (commas (map range_words rs)) xs /\ Ranges (tk xs) rs.
Proof.
  induction 1 as [ts r H|ts r td t2 rs H HD H2 IH].
  - destruct (Range_print _ _ H) as (xs & HT & HR). exists xs. split; [exact HT|]. constructor. exact HR.
  - destruct (Range_print _ _ H) as (xs & HT & HR). destruct IH as (xs' & HT' & HR'). exists (xs ++ [lit ","] ++ xs'). split.
    + destruct rs as [|r' rs]; [inversion H2|]. cbn [map] in *. rewrite commas_more. apply texts_app; [exact HT|]. apply texts_tok; [kw|exact HT'].
    + rewrite !tk_app. apply rgs_more; [exact HR|apply K_tk|exact HR'].
Qed.
Lemma FieldNames_print ts ns : FieldNames junk ts ns -> simple ts -> exists xs, Texts (commas (map (fun n => [n]) ns)) xs /\ FieldNames false (tk xs) ns.
Proof.
  assert (RN : forall ts x p, T ts x p -> simple ts -> is_str x \/ is_ident x -> Reads x [x]).
  { intros ts0 x p H S [I|I]; [|apply reads_ident, I]. destruct (simple_T _ _ _ _ H S I). apply reads_str; assumption. }
  induction 1 as [ts x p H I|ts x p td t2 ns H I HD H2 IH]; intros S.
  - exists [x]. split; [apply texts_one; eapply RN; eassumption|]. eapply fns_one; [apply T_tk|exact I].
  - parted S. destruct (IH S) as (xs' & HT' & HR'). exists ([x] ++ [lit ","] ++ xs'). split.
    + destruct ns as [|n ns]; [inversion H2|]. cbn [map] in *. rewrite commas_more. cbn [app]. apply texts_tok; [eapply RN; eassumption|]. apply texts_tok; [kw|exact HT'].
    + rewrite !tk_app. eapply fns_more; [apply T_tk|exact I|left; apply K_tk|exact HR'].
Qed.

Definition prints {A} (N N' : list comment -> option comment -> list item -> A -> Prop) (w : A -> list str) (f : A -> A) : Prop :=
  forall cs il ts x, N cs il ts x -> simple ts ->
  exists xs x', Texts (w x) xs /\ N' [] None (tk xs) x' /\ f x' = f x /\ ends xs /\ hd_error xs = next_tok ts.

Lemma Option_print : prints (Option perm junk) (Option perm false) option_words bare_option.
Proof.
  intros cs il ts x [t1 p1 t2 name t3 t4 v t5 p5 H1 H2 H3 H4 H5] S. parted S.
  destruct (OptionName_print _ _ _ H2) as (x2 & R2 & N2 & _). destruct (V_print _ _ _ _ H4 S3) as (x4 & R4 & N4 & _).
  exists ([lit "option"] ++ x2 ++ [lit "="] ++ x4 ++ [lit ";"]). eexists. split; [|split; [|split; [|split]]].
  - unfold option_words. cbn [op_name op_constant]. txt.
  - rewrite !tk_app. econstructor; try apply T_tk; try apply K_tk; eassumption.
  - reflexivity.
  - endn.
  - hd0.
Qed.
Lemma quote_reads q : is_quote q -> forall w xs, Reads w xs -> Reads (q ++ w) (q :: xs).
Proof. intros [-> | ->] w xs H; (apply reads_punct_app; [cbn; tauto|discriminate|exact H]). Qed.
Lemma quoted_reads q v : is_quote q -> Reads v [v] -> Reads (q ++ v ++ q) ([q] ++ [v] ++ [q]).
Proof.
  intros Q H. apply quote_reads; [exact Q|]. apply reads_app; [exact H| |].
  - destruct Q as [-> | ->]; apply reads_punct; cbn; tauto.
  - intros r _. destruct Q as [-> | ->]; cbn; (split; [intros C; apply ident_char_iff in C; discriminate|discriminate]).
Qed.
Lemma quotes_same q v q' q1 : is_quote q -> is_quote q' -> q ++ v ++ q' = q1 :: v ++ [q1] -> q = q'.
Proof.
  intros Q Q' E. assert (H : forall c c', c :: v ++ [c'] = q1 :: v ++ [q1] -> c = c').
  { intros c c' X. injection X as -> X. apply app_inv_head in X. injection X as ->. reflexivity. }
  destruct Q as [-> | ->], Q' as [-> | ->]; try reflexivity; apply H in E; discriminate.
Qed.
Lemma Syntax_print cs il ts x : Syntax junk cs il ts x -> (exists q, sy_versionQuote x = q :: sy_version x ++ [q]) ->
  exists xs x', Texts (syntax_words x) xs /\ Syntax false [] None (tk xs) x' /\ bare_syntax x' = bare_syntax x /\ ends xs /\ hd_error xs = next_tok ts.
Proof.
  intros [t1 p1 t2 t3 q p3 t4 v p4 t5 q' p5 t6 p6 H1 H2 H3 Q H4 W H5 Q' M H6] (q1 & O).
  assert (E : q = q') by (exact (quotes_same _ _ _ _ Q Q' O)). subst q'.
  exists ([lit "syntax"] ++ [lit "="] ++ ([q] ++ [v] ++ [q]) ++ [lit ";"]). eexists. split; [|split; [|split; [|split]]].
  - unfold syntax_words. cbn [sy_versionQuote]. apply texts_tok; [kw|]. apply texts_tok; [kw|]. apply texts_cons; [apply quoted_reads; [exact Q|eapply words_known; [|exact W]; reflexivity]|]. apply texts_one. kw.
  - rewrite <- !app_assoc, !tk_app. econstructor; try apply T_tk; try apply K_tk; try eassumption. right. reflexivity.
  - reflexivity.
  - repeat apply ends_app. exact ends_semi.
  - hd0.
Qed.
Lemma Edition_print cs il ts x : Edition junk cs il ts x -> (exists q, ed_editionQuote x = q :: ed_edition x ++ [q]) ->
  exists xs x', Texts (edition_words x) xs /\ Edition false [] None (tk xs) x' /\ bare_edition x' = bare_edition x /\ ends xs /\ hd_error xs = next_tok ts.
Proof.
  intros [t1 p1 t2 t3 q p3 t4 v p4 t5 q' p5 t6 p6 H1 H2 H3 Q H4 W H5 Q' M H6] (q1 & O).
  assert (E : q = q') by (exact (quotes_same _ _ _ _ Q Q' O)). subst q'.
  exists ([lit "edition"] ++ [lit "="] ++ ([q] ++ [v] ++ [q]) ++ [lit ";"]). eexists. split; [|split; [|split; [|split]]].
  - unfold edition_words. cbn [ed_editionQuote]. apply texts_tok; [kw|]. apply texts_tok; [kw|]. apply texts_cons; [apply quoted_reads; [exact Q|apply reads_int, W]|]. apply texts_one. kw.
  - rewrite <- !app_assoc, !tk_app. econstructor; try apply T_tk; try apply K_tk; try eassumption. right. reflexivity.
  - reflexivity.
  - repeat apply ends_app. exact ends_semi.
  - hd0.
Qed.
Lemma Import_print : prints (Import junk) (Import false) import_words bare_import.
Proof.
  intros cs il ts x [t1 p1 t2 m t3 y p3 t4 p4 H1 H2 H3 I H4] S. parted S. destruct (simple_T _ _ _ _ H3 S2 I) as [R _].
  assert (M : exists ms, Texts match m with ImportModifierNone => [] | ImportModifierPublic => [lit "public"] | ImportModifierWeak => [lit "weak"] end ms /\ ImportMod false (tk ms) m).
  { destruct H2 as [|u K1|u K1|u z q J K1].
    - exists []. split; constructor.
    - exists [lit "public"]. split; [apply texts_one; kw|]. apply imod_public, K_tk.
    - exists [lit "weak"]. split; [apply texts_one; kw|]. apply imod_weak, K_tk.
    - exists []. split; constructor. }
  destruct M as (ms & TM & HM). exists ([lit "import"] ++ ms ++ [y] ++ [lit ";"]). eexists. split; [|split; [|split; [|split]]].
  - unfold import_words. cbn [im_modifier im_location]. apply texts_tok; [kw|]. apply texts_app; [exact TM|]. cbn [app]. apply texts_tok; [apply reads_str; assumption|]. apply texts_one. kw.
  - rewrite !tk_app. econstructor; try apply T_tk; try apply K_tk; eassumption.
  - reflexivity.
  - endn.
  - hd0.
Qed.
Lemma Package_print : prints Package Package package_words bare_package.
Proof.
  intros cs il ts x [t1 p1 t2 v p2 t3 p3 H1 H2 H3] S. destruct (FullIdent_print _ _ _ H2) as (x2 & R2 & N2 & _).
  exists ([lit "package"] ++ x2 ++ [lit ";"]). eexists. split; [|split; [|split; [|split]]].
  - unfold package_words. cbn [pk_name]. txt.
  - rewrite !tk_app. econstructor; try apply T_tk; try eassumption.
  - reflexivity.
  - endn.
  - hd0.
Qed.
Lemma Field_print : prints (Field perm junk) (Field perm false) field_words bare_field.
Proof.
  intros cs il ts x [t1 p1 rp rq op t2 ty p2 t3 name num os p3 H1 H2 H3] S. parted S.
  destruct (Type_print _ _ _ H2) as (x2 & R2 & N2 & E2 & NE). destruct (FieldEnd_print _ _ _ _ _ H3 S) as (x3 & R3 & N3 & E3).
  destruct (Label_print _ _ _ _ _ _ x2 H1 E2) as (x1 & R1 & N1 & E1).
  exists (x1 ++ x2 ++ x3). eexists. split; [|split; [|split; [|split]]].
  - unfold field_words. cbn [f_repeated f_required f_optional f_type f_name f_number f_options]. txt.
  - rewrite !tk_app. econstructor; eassumption.
  - reflexivity.
  - endn.
  - rewrite !app_assoc. destruct (x1 ++ x2) as [|z zs] eqn:Z; [apply app_eq_nil in Z; destruct Z; contradiction|]. symmetry. apply next_app. symmetry. exact E1.
Qed.
Lemma MapField_print : prints (MapField perm junk) (MapField perm false) mapField_words bare_mapField.
Proof.
  intros cs il ts x [t1 p1 t2 t3 kt p3 t4 t5 ty p5 t6 t7 name num os p7 H1 H2 H3 I3 H4 H5 H6 H7] S. parted S.
  destruct (Type_print _ _ _ H5) as (x2 & R2 & N2 & E2 & NE). destruct (FieldEnd_print _ _ _ _ _ H7 S) as (x3 & R3 & N3 & E3).
  exists ([lit "map"] ++ [lit "<"] ++ [kt] ++ [lit ","] ++ x2 ++ [lit ">"] ++ x3). eexists. split; [|split; [|split; [|split]]].
  - unfold mapField_words. cbn [mf_keyType mf_type mf_name mf_number mf_options].
    assert (RK : Reads kt [kt]) by (eapply words_known; [|exact I3]; reflexivity). txt.
  - rewrite !tk_app. econstructor; try apply T_tk; try apply K_tk; eassumption.
  - reflexivity.
  - endn.
  - hd0.
Qed.
Lemma OneofField_print : prints (OneofField perm junk) (OneofField perm false) oneofField_words bare_oneofField.
Proof.
  intros cs il ts x [t1 ty p1 t2 name num os p2 H1 H2] S. parted S.
  destruct (Type_print _ _ _ H1) as (x2 & R2 & N2 & E2 & NE). destruct (FieldEnd_print _ _ _ _ _ H2 S) as (x3 & R3 & N3 & E3).
  exists (x2 ++ x3). eexists. split; [|split; [|split; [|split]]].
  - unfold oneofField_words. cbn [oof_type oof_name oof_number oof_options]. txt.
  - rewrite !tk_app. econstructor; try apply T_tk; try apply K_tk; eassumption.
  - reflexivity.
  - endn.
  - destruct x2 as [|z zs] eqn:Z; [contradiction|]. symmetry. apply next_app. symmetry. exact E2.
Qed.
Lemma Reserved_print : prints (Reserved junk) (Reserved false) reserved_words bare_reserved.
Proof.
  intros cs il ts x [t1 p1 t2 rs t3 p3 H1 H2 H3|t1 p1 tj t2 ns t3 p3 H1 HJ H2 H3] S; parted S.
  - destruct (Ranges_print _ _ H2) as (x2 & R2 & N2). exists ([lit "reserved"] ++ x2 ++ [lit ";"]). eexists. split; [|split; [|split; [|split]]].
    + unfold reserved_words. cbn [rs_ranges rs_names map]. rewrite app_nil_r. txt.
    + rewrite !tk_app. apply reserved_ranges; try apply T_tk; eassumption.
    + reflexivity.
    + endn.
    + hd0.
  - destruct (FieldNames_print _ _ H2 S2) as (x2 & R2 & N2). exists ([lit "reserved"] ++ x2 ++ [lit ";"]). eexists. split; [|split; [|split; [|split]]].
    + unfold reserved_words. cbn [rs_ranges rs_names map app]. txt.
    + rewrite !tk_app. eapply (reserved_names false [] None _ _ []); [apply T_tk|right; reflexivity|exact N2|apply T_tk].
    + reflexivity.
    + endn.
    + hd0.
Qed.
Lemma EnumField_print : prints (EnumField perm junk) (EnumField perm false) enumField_words bare_enumField.
Proof.
  intros cs il ts x [t1 name p1 t2 t3 sg t4 num p4 t5 os t6 p6 H1 I1 H2 H3 H4 I4 H5 H6] S. parted S.
  destruct (FieldOptions_print _ _ H5 S4) as (x5 & R5 & N5).
  assert (SG : exists xs, Reads (sg ++ num) (xs ++ [num]) /\ Sign (tk xs) sg).
  { destruct H3 as [|t H3].
    - exists []. split; [apply reads_int, I4|constructor].
    - exists [lit "-"]. split; [apply reads_punct_then; [reflexivity|apply reads_int, I4]|]. apply sign_minus, K_tk. }
  destruct SG as (x3 & R3 & N3). exists ([name] ++ [lit "="] ++ (x3 ++ [num]) ++ x5 ++ [lit ";"]). eexists. split; [|split; [|split; [|split]]].
  - unfold enumField_words. cbn [ef_ident ef_number ef_options]. rewrite values_evopts. txt.
  - rewrite <- !app_assoc, !tk_app. econstructor; try apply T_tk; try apply K_tk; eassumption.
  - reflexivity.
  - repeat apply ends_app. exact ends_semi.
  - hd0.
Qed.

(** ** Declarations *)
Lemma last_value_in key kvs : last_value key kvs = [] \/ In (key, last_value key kvs) kvs.
Proof.
  induction kvs as [|[k v] kvs IH]; [left; reflexivity|]. cbn [last_value]. destruct (String.eqb k key && _) eqn:E.
  - apply andb_true_iff in E. destruct E as [E _]. apply String.eqb_eq in E. subst k. right. left. reflexivity.
  - destruct IH as [IH|IH]; [left; exact IH|right; right; exact IH].
Qed.
Definition good_pair (kv : string * str) : Prop := DeclField (tk [lit (fst kv); lit ":"; snd kv]) kv /\ Reads (snd kv) [snd kv] /\ knownb (fst kv) = true.
Lemma DeclField_good ts kv : DeclField ts kv -> simple ts -> good_pair kv.
Proof.
  intros [t1 t2 t3 x p H1 H2 H3 I|key t1 t2 t3 x p IN H1 H2 H3 I|key t1 t2 t3 x p IN H1 H2 H3 I] S; parted S; unfold good_pair; cbn [fst snd];
    change (tk [?a; ?b; ?c]) with (tk [a] ++ tk [b] ++ tk [c]).
  - split; [eapply df_number; try apply T_tk; try apply K_tk; exact I|]. split; [apply reads_int, I|reflexivity].
  - split; [eapply df_string; try apply T_tk; try apply K_tk; assumption|]. destruct (simple_T _ _ _ _ H3 S I). split; [apply reads_str; assumption|].
    destruct IN as [<-|[<-|[]]]; reflexivity.
  - split; [eapply df_bool; try apply T_tk; try apply K_tk; assumption|]. split; [apply reads_ident, I|]. destruct IN as [<-|[<-|[]]]; reflexivity.
Qed.
Lemma DeclFields_good f ts kvs : DeclFields junk f ts kvs -> simple ts -> Forall good_pair kvs.
Proof. induction 1 as [f|f sep ts kv t2 kvs HS H H2 IH]; intros S; [constructor|]. parted S. constructor; [eapply DeclField_good; eassumption|exact (IH S)]. Qed.
Definition pair_words (kv : string * str) : list str := [lit (fst kv); lit ":"; snd kv].
Lemma DeclFields_more kvs : Forall good_pair kvs -> exists xs, Texts (flat_map (fun kv => lit "," :: pair_words kv) kvs) xs /\ DeclFields false false (tk xs) kvs.
Proof.
  induction 1 as [|kv kvs (HD & HR & HK) F IH]; [exists []; split; constructor|]. destruct IH as (xs & HT & HF).
  exists ([lit ","] ++ pair_words kv ++ xs). split.
  - cbn [flat_map pair_words app]. apply texts_tok; [kw|]. apply texts_tok; [apply reads_kw, HK|]. apply texts_tok; [kw|]. apply texts_tok; [exact HR|exact HT].
  - rewrite !tk_app. apply dfs_cons; [left; split; [apply K_tk|right; reflexivity]|exact HD|exact HF].
Qed.
Lemma commas_flat x l : commas (x :: l) = x ++ flat_map (fun y => lit "," :: y) l.
Proof. revert x. induction l as [|y l IH]; intros x; [cbn; rewrite app_nil_r; reflexivity|]. rewrite commas_more, IH. reflexivity. Qed.
Lemma DeclFields_print kvs : Forall good_pair kvs -> exists xs, Texts (commas (map pair_words kvs)) xs /\ DeclFields false true (tk xs) kvs.
Proof.
  intros [|kv kvs' (HD & HR & HK) F]; [exists []; split; constructor|]. destruct (DeclFields_more _ F) as (xs & HT & HF). exists (pair_words kv ++ xs). split.
  - cbn [map]. rewrite commas_flat. rewrite flat_map_concat_map, map_map, <- flat_map_concat_map. cbn [pair_words app].
    apply texts_tok; [apply reads_kw, HK|]. apply texts_tok; [kw|]. apply texts_tok; [exact HR|exact HT].
  - rewrite tk_app. apply (dfs_cons false true []); [right; split; [reflexivity|right; reflexivity]|exact HD|exact HF].
Qed.
Definition pairs_of (d : declaration) : list (string * str) :=
  let text key (v : str) := match v with [] => [] | _ => [(key, v)] end in
  let flag key (b : bool) := if b then [(key, lit "true")] else [] in
  text "number"%string (d_number d) ++ text "full_name"%string (d_fullName d) ++ text "type"%string (d_type d) ++ flag "reserved"%string (d_reserved d) ++ flag "repeated"%string (d_repeated d).
Lemma pairs_words d : declaration_words d = [lit "declaration"; lit "="; lit "{"] ++ commas (map pair_words (pairs_of d)) ++ [lit "}"].
Proof. unfold declaration_words, pairs_of. destruct (d_number d), (d_fullName d), (d_type d), (d_reserved d), (d_repeated d); reflexivity. Qed.
Lemma pairs_values d : let kvs := pairs_of d in last_value "number" kvs = d_number d /\ last_value "full_name" kvs = d_fullName d /\ last_value "type" kvs = d_type d /\
  is_true_ (last_value "reserved" kvs) = d_reserved d /\ is_true_ (last_value "repeated" kvs) = d_repeated d.
Proof. unfold pairs_of. destruct (d_number d), (d_fullName d), (d_type d), (d_reserved d), (d_repeated d); repeat split; reflexivity. Qed.
Lemma Declaration_print cs il ts d : Declaration junk cs il ts d -> simple ts ->
  exists xs d', Texts (declaration_words d) xs /\ Declaration false [] None (tk xs) d' /\ bare_declaration d' = bare_declaration d.
Proof.
  intros [t1 p1 t2 t3 p3 lc t4 kvs t5 p5 H1 H2 H3 H4 H5 H6] S. parted S. pose proof (DeclFields_good _ _ _ H5 S4) as G. rewrite Forall_forall in G.
  set (dd := mkDeclaration _ _ _ _ _ _ _ _ _). assert (GD : Forall good_pair (pairs_of dd)).
  { assert (TX : forall key, Forall good_pair (match last_value key kvs with [] => [] | _ => [(key, last_value key kvs)] end)).
    { intros key. destruct (last_value_in key kvs) as [E|E]; [rewrite E; constructor|]. destruct (last_value key kvs) eqn:Z; constructor; [rewrite <- Z in E |- *; exact (G _ E)|constructor]. }
    assert (FL : forall key, In key ["repeated"; "reserved"]%string -> Forall good_pair (if is_true_ (last_value key kvs) then [(key, lit "true")] else [])).
    { intros key IN. destruct (is_true_ (last_value key kvs)); constructor; [|constructor]. unfold good_pair. cbn [fst snd]. change (tk [?a; ?b; ?c]) with (tk [a] ++ tk [b] ++ tk [c]).
      split; [eapply df_bool; try apply T_tk; try apply K_tk; [exact IN|apply identb_iff; reflexivity]|]. split; [kw|]. destruct IN as [<-|[<-|[]]]; reflexivity. }
    unfold pairs_of, dd. cbn [d_number d_fullName d_type d_reserved d_repeated]. repeat (apply Forall_app; split); first [apply TX|apply FL; cbn; tauto]. }
  destruct (DeclFields_print _ GD) as (xs & HT & HF). exists ([lit "declaration"] ++ [lit "="] ++ [lit "{"] ++ xs ++ [lit "}"]). eexists. split; [|split].
  - rewrite pairs_words. txt.
  - rewrite !tk_app. change (tk [lit "{"] ++ tk xs ++ tk [lit "}"]) with (tk [lit "{"] ++ icom None ++ tk xs ++ tk [lit "}"]).
    eapply declaration_intro; try apply T_tk; try apply K_tk; [|exact HF]. rewrite <- tk_app. apply inline_tk.
  - destruct (pairs_values dd) as (E1 & E2 & E3 & E4 & E5). unfold bare_declaration. cbn [d_number d_fullName d_type d_reserved d_repeated]. rewrite E1, E2, E3, E4, E5. reflexivity.
Qed.
Lemma Declarations_print fol ts ds : Declarations junk fol ts ds -> simple ts -> forall fs,
  exists xs ds', Texts (commas (map declaration_words ds) ++ [lit "]"]) xs /\ Declarations false (tk fs) (tk xs) ds' /\ map bare_declaration ds' = map bare_declaration ds.
Proof.
  induction 1 as [cs ts d t p c1 c2 HD N HT I|cs ts d t p c1 c2 rest ds HD N HT I H IH]; intros S fs; parted S.
  - destruct (Declaration_print _ _ _ _ HD S1) as (xs & d' & TX & HD' & E). exists (xs ++ [lit "]"]), [d']. split; [|split].
    + cbn [map commas]. apply texts_app; [exact TX|apply texts_one; kw].
    + rewrite tk_app. change (tk xs ++ tk [lit "]"]) with (coms [] ++ tk xs ++ tk [lit "]"] ++ icom None ++ icom None).
      eapply ds_last; [exact HD'|apply no_com_tk|apply T_tk|]. split; [apply (inline_tk fs)|reflexivity].
    + cbn [map]. rewrite E. reflexivity.
  - destruct (Declaration_print _ _ _ _ HD S1) as (xs & d' & TX & HD' & E). destruct (IH S fs) as (xs' & ds' & TX' & HD2 & E').
    exists (xs ++ [lit ","] ++ xs'), (d' :: ds'). split; [|split].
    + destruct ds as [|d2 ds]; [inversion H|]. cbn [map] in *. rewrite commas_more, <- app_assoc. cbn [app]. apply texts_app; [exact TX|]. apply texts_tok; [kw|exact TX'].
    + rewrite !tk_app. change (tk xs ++ tk [lit ","] ++ tk xs') with (coms [] ++ tk xs ++ tk [lit ","] ++ icom None ++ icom None ++ tk xs').
      eapply ds_more; [exact HD'|apply no_com_tk|apply T_tk| |exact HD2]. split; [|reflexivity]. rewrite <- tk_app. apply (inline_tk (xs' ++ fs)).
    + cbn [map]. rewrite E, E'. reflexivity.
Qed.
Lemma Extensions_print : prints (Extensions junk) (Extensions false) extensions_words bare_extensions.
Proof.
  intros cs il ts x [t1 p1 t2 rs t3 p3 H1 H2 H3|t1 p1 t2 rs t3 p3 lc t4 ds t5 p5 H1 H2 H3 I H4 H5] S; parted S; destruct (Ranges_print _ _ H2) as (x2 & R2 & N2).
  - exists ([lit "extensions"] ++ x2 ++ [lit ";"]). eexists. split; [|split; [|split; [|split]]].
    + unfold extensions_words. cbn [xs_ranges xs_declarations app]. txt.
    + rewrite !tk_app. apply extensions_ranges; try apply T_tk; eassumption.
    + reflexivity.
    + endn.
    + hd0.
  - destruct (Declarations_print _ _ _ H4 S4 [lit ";"]) as (x4 & ds' & R4 & N4 & E4).
    exists ([lit "extensions"] ++ x2 ++ [lit "["] ++ x4 ++ [lit ";"]). eexists. split; [|split; [|split; [|split]]].
    + unfold extensions_words. cbn [xs_ranges xs_declarations]. destruct ds as [|d ds]; [inversion H4|]. apply texts_tok; [kw|]. apply texts_app; [exact R2|].
      cbn [app]. apply texts_tok; [kw|]. apply texts_app; [exact R4|]. apply texts_one. kw.
    + rewrite !tk_app. change (tk [lit "["] ++ tk x4 ++ tk [lit ";"]) with (tk [lit "["] ++ icom None ++ tk x4 ++ tk [lit ";"]).
      eapply extensions_decls; try apply T_tk; try eassumption. rewrite <- tk_app. apply inline_tk.
    + unfold bare_extensions. cbn. rewrite E4. reflexivity.
    + endn.
    + hd0.
Qed.

(** ** Blocks *)
Lemma Close_print : exists xs q, Texts close_words xs /\ Close perm (tk xs) q /\ ends xs.
Proof.
  unfold PrintSpec.close_words, ends. destruct perm eqn:P.
  - exists ([lit "}"] ++ [lit ";"]), P0. split; [txt|]. split; [rewrite tk_app; eapply close_semi; [reflexivity|apply T_tk|apply T_tk]|].
    exists [lit "}"], (lit ";"). split; [reflexivity|]. right. discriminate.
  - exists [lit "}"], P0. split; [txt|]. split; [apply close_brace, T_tk|]. exists [], (lit "}"). split; [reflexivity|left; reflexivity].
Qed.
Definition opt_prints (o : option_) : Prop := exists xs o', Texts (option_words o) xs /\ Option perm false [] None (tk xs) o' /\ bare_option o' = bare_option o /\ ends xs.
Definition fld_prints (f : oneofField) : Prop := exists xs f', Texts (oneofField_words f) xs /\ OneofField perm false [] None (tk xs) f' /\ bare_oneofField f' = bare_oneofField f /\ ends xs /\
  not_first (tk xs) ["option"]%string.
Lemma Oneof_items : (forall ts fs os, OneofElems perm junk ts fs os -> simple ts -> Forall fld_prints fs /\ Forall opt_prints os /\ (fs <> [] \/ os <> [])) /\
  (forall ts fs os, OneofRest perm junk ts fs os -> simple ts -> Forall fld_prints fs /\ Forall opt_prints os).
Proof.
  apply Oneof_mutind.
  - intros cs p ts fs os _ IH S. apply IH. parted S. change (Tok (lit ";") p :: ts) with ([Tok (lit ";") p] ++ ts) in S. parted S. exact S.
  - intros cs ts o x q il rest fs os HO _ _ _ _ IH S. parted S. destruct (IH S) as (A & B). split; [exact A|]. split; [|right; discriminate]. constructor; [|exact B].
    destruct (Option_print _ _ _ _ HO S1) as (xs & o' & HT & HO' & E & EN & _). exists xs, o'. auto.
  - intros cs ts f x q il rest fs os HO _ NF _ _ _ IH S. parted S. destruct (IH S) as (A & B). split; [|split; [exact B|left; discriminate]]. constructor; [|exact A].
    destruct (OneofField_print _ _ _ _ HO S1) as (xs & o' & HT & HO' & E & EN & HD). exists xs, o'. repeat split; auto. eapply not_first_tk; eassumption.
  - intros ts p _ _. split; constructor.
  - intros ts fs os _ IH S. destruct (IH S) as (A & B & _). auto.
Qed.
Lemma fields_rest fs : Forall fld_prints fs -> exists xs fs', Texts (flat_map oneofField_words fs ++ close_words) xs /\ OneofRest perm false (tk xs) fs' [] /\ (fs <> [] -> OneofElems perm false (tk xs) fs' []) /\
  map bare_oneofField fs' = map bare_oneofField fs /\ ends xs.
Proof.
  induction 1 as [|f fs (xs & f' & HT & HF & E & EN & NF) F IH].
  - destruct Close_print as (xs & q & HT & HC & EN). exists xs, []. split; [exact HT|]. split; [eapply or_end; exact HC|]. split; [contradiction|]. split; [reflexivity|exact EN].
  - destruct IH as (xs' & fs' & HT' & HR & _ & E' & EN'). exists (xs ++ xs'), (f' :: fs').
    assert (EL : OneofElems perm false (tk (xs ++ xs')) (f' :: fs') []).
    { rewrite tk_app. change (tk xs ++ tk xs') with (coms [] ++ tk xs ++ icom None ++ tk xs'). destruct (ends_last _ EN) as (y & L & _).
      eapply oe_field; [exact HF|apply no_com_tk|exact NF|exact L|apply inline_tk|exact HR]. }
    split; [cbn [flat_map]; rewrite <- app_assoc; apply texts_app; assumption|]. split; [apply or_more; exact EL|]. split; [auto|]. split; [cbn [map]; congruence|]. apply ends_app, EN'.
Qed.
Lemma options_rest os fs : Forall opt_prints os -> Forall fld_prints fs -> exists xs fs' os', Texts (flat_map option_words os ++ flat_map oneofField_words fs ++ close_words) xs /\
  OneofRest perm false (tk xs) fs' os' /\ (fs <> [] \/ os <> [] -> OneofElems perm false (tk xs) fs' os') /\ map bare_oneofField fs' = map bare_oneofField fs /\ map bare_option os' = map bare_option os /\ ends xs.
Proof.
  intros F FF. induction F as [|o os (xs & o' & HT & HF & E & EN) F IH].
  - destruct (fields_rest _ FF) as (xs & fs' & HT & HR & HE & E & EN). exists xs, fs', []. split; [exact HT|]. split; [exact HR|]. split; [intros [H|H]; [auto|contradiction]|]. auto.
  - destruct IH as (xs' & fs' & os' & HT' & HR & _ & E' & E2 & EN'). exists (xs ++ xs'), fs', (o' :: os').
    assert (EL : OneofElems perm false (tk (xs ++ xs')) fs' (o' :: os')).
    { rewrite tk_app. change (tk xs ++ tk xs') with (coms [] ++ tk xs ++ icom None ++ tk xs'). destruct (ends_last _ EN) as (y & L & _).
      eapply oe_option; [exact HF|apply no_com_tk|exact L|apply inline_tk|exact HR]. }
    split; [cbn [flat_map]; rewrite <- app_assoc; apply texts_app; assumption|]. split; [apply or_more; exact EL|]. split; [auto|]. split; [exact E'|]. split; [cbn [map]; congruence|]. apply ends_app, EN'.
Qed.
Lemma Oneof_print : prints (Oneof perm junk) (Oneof perm false) (oneof_words perm) bare_oneof.
Proof.
  intros cs il ts x [t1 p1 t2 name p2 t3 p3 lc t4 fs os y q H1 H2 I2 H3 I H4 L] S. parted S. destruct (proj1 Oneof_items _ _ _ H4 S) as (FF & FO & NE).
  destruct (options_rest _ _ FO FF) as (xs & fs' & os' & HT & _ & HE & E1 & E2 & EN). specialize (HE NE). destruct (ends_last _ EN) as (z & LZ & _).
  exists ([lit "oneof"] ++ [name] ++ [lit "{"] ++ xs). eexists. split; [|split; [|split; [|split]]].
  - unfold oneof_words. cbn [oo_name oo_options oo_fields]. txt.
  - rewrite !tk_app. change (tk [lit "{"] ++ tk xs) with (tk [lit "{"] ++ icom None ++ tk xs). eapply oneof_intro; try apply T_tk; try eassumption. apply inline_tk.
  - unfold bare_oneof. cbn. rewrite E1, E2. reflexivity.
  - endn.
  - hd0.
Qed.

(** ** RPC *)
Lemma RPCParam_print ts x : RPCParam ts x -> exists xs x', Texts (param_words x) xs /\ RPCParam (tk xs) x' /\ bare_param x' = bare_param x.
Proof.
  intros [t1 p1 t2 st t3 v p3 t4 p4 H1 H2 H3 H4]. destruct (MessageType_print _ _ _ H3) as (x3 & R3 & N3 & E3 & NE).
  assert (ST : exists ss, Texts (if st then [lit "stream"] else []) ss /\ Stream (tk ss) (tk x3) st).
  { destruct H2 as [t r H2|r H2]; [exists [lit "stream"]; split; [apply texts_one; kw|apply stream_yes, K_tk]|]. exists []. split; [constructor|]. apply stream_no. eapply not_first_tk; eassumption. }
  destruct ST as (x2 & R2 & N2). exists ([lit "("] ++ x2 ++ x3 ++ [lit ")"]). eexists. split; [|split].
  - unfold param_words. cbn [rp_stream rp_type]. txt.
  - rewrite !tk_app. econstructor; try apply T_tk; eassumption.
  - reflexivity.
Qed.
Lemma RPCBody_items ts os : RPCBody perm junk ts os -> simple ts -> Forall opt_prints os.
Proof.
  induction 1 as [|ts o t2 os H H2 IH|ts t2 os H H2 IH]; intros S; [constructor| |]; parted S; auto. constructor; [|exact (IH S)].
  destruct (Option_print _ _ _ _ H S0) as (xs & o' & HT & HO' & E & EN & _). exists xs, o'. auto.
Qed.
Lemma RPCBody_print os : Forall opt_prints os -> exists xs os', Texts (flat_map option_words os) xs /\ RPCBody perm false (tk xs) os' /\ map bare_option os' = map bare_option os.
Proof.
  induction 1 as [|o os (xs & o' & HT & HF & E & EN) F IH]; [exists [], []; repeat constructor|]. destruct IH as (xs' & os' & HT' & HR & E').
  exists (xs ++ xs'), (o' :: os'). split; [cbn [flat_map]; apply texts_app; assumption|]. split; [rewrite tk_app; apply rb_option; assumption|]. cbn [map]. congruence.
Qed.
Lemma RPCEnd_print t6 t7 os lc q : RPCEnd perm junk t6 t7 os lc q -> simple t7 ->
  exists x6 x7 os' lc' q', Texts (match os with [] => [lit ";"] | os => lit "{" :: flat_map option_words os ++ close_words end) (x6 ++ x7) /\
    RPCEnd perm false (tk x6) (tk x7) os' lc' q' /\ map bare_option os' = map bare_option os /\ ends (x6 ++ x7).
Proof.
  assert (SM : exists x6 x7 os' lc' q', Texts [lit ";"] (x6 ++ x7) /\ RPCEnd perm false (tk x6) (tk x7) os' lc' q' /\ map bare_option os' = [] /\ ends (x6 ++ x7)).
  { exists [lit ";"], [], [], None, P0. split; [apply texts_one; kw|]. split; [apply re_semi, T_tk|]. split; [reflexivity|exact ends_semi]. }
  intros [ts p H|t1 p1 il ts0 os0 t2 q0 H1 I H2 H3] S; [exact SM|]. parted S. pose proof (RPCBody_items _ _ H2 S1) as F. destruct os0 as [|o os0]; [exact SM|]. clear SM.
  destruct (RPCBody_print _ F) as (xs & os' & HT & HR & E). destruct Close_print as (ys & q1 & HT1 & HC & EN).
  exists [lit "{"], (xs ++ ys), os', None, q1. split; [|split; [|split]].
  - cbn [app]. apply texts_tok; [kw|]. apply texts_app; assumption.
  - rewrite tk_app. change (tk xs ++ tk ys) with (icom None ++ tk xs ++ tk ys). eapply re_block; [apply T_tk| |exact HR|exact HC]. rewrite <- tk_app. apply inline_tk.
  - exact E.
  - apply ends_app, ends_app, EN.
Qed.
Lemma RPC_print : prints (RPC perm junk) (RPC perm false) (rpc_words perm) bare_rpc.
Proof.
  intros cs il ts x [cs1 p1 t2 name p2 t3 rq t4 t5 rs t6 t7 os lc q H2 I2 H3 H4 H5 H6] S.
  apply simple_app in S. destruct S as [_ S]. parted S.
  destruct (RPCParam_print _ _ H3) as (x3 & rq' & R3 & N3 & E3). destruct (RPCParam_print _ _ H5) as (x5 & rs' & R5 & N5 & E5).
  destruct (RPCEnd_print _ _ _ _ _ H6 S) as (x6 & x7 & os' & lc' & q' & R6 & N6 & E6 & EN).
  exists ([lit "rpc"] ++ [name] ++ x3 ++ [lit "returns"] ++ x5 ++ x6 ++ x7). eexists. split; [|split; [|split; [|split]]].
  - unfold rpc_words. cbn [r_name r_request r_response r_options]. cbn [app]. apply texts_tok; [kw|]. apply texts_tok; [apply reads_ident, I2|]. apply texts_app; [exact R3|]. apply texts_tok; [kw|]. apply texts_app; [exact R5|destruct os; exact R6].
  - rewrite !tk_app. change (tk [lit "rpc"]) with (coms [] ++ [Tok (lit "rpc") P0]). eapply rpc_intro; try apply T_tk; try apply K_tk; eassumption.
  - unfold bare_rpc. cbn. rewrite E3, E5, E6. reflexivity.
  - endn.
  - rewrite next_toks, !toks_app, toks_coms. reflexivity.
Qed.

(** ** Bodies *)
Definition printsto (S S' : list comment -> option comment -> list item -> visitee -> Prop) (ts : list item) : Prop :=
  forall cs il v, S cs il ts v -> simple ts -> exists xs v', Texts (visitee_words v) xs /\ S' [] None (tk xs) v' /\ bare v' = bare v /\ (forall c, v <> VComment c) /\ ends xs.
Lemma bare_com v v' : bare v' = bare v -> (forall c, v <> VComment c) -> forall c, v' <> VComment c.
Proof. intros E N c ->. symmetry in E. destruct v; try discriminate E. eapply N. reflexivity. Qed.
Lemma Stmts_print S S' n : (forall ts, (List.length ts < n)%nat -> printsto S S' ts) -> forall ts vs tcs, Stmts perm junk S ts vs tcs -> (List.length ts < n)%nat -> simple ts ->
  exists xs vs', Texts (flat_map visitee_words vs) xs /\ Stmts perm false S' (tk xs) vs' [] /\ bare_body vs' = bare_body vs /\ (vs <> [] -> vs' <> []).
Proof.
  intros HS ts vs tcs H. induction H as [cs|cs ts v x q il rest vs tcs H N L I HC HR IH]; intros LE SI.
  - exists [], []. split; [constructor|]. split; [apply (sts_nil perm false S' [])|]. split; [reflexivity|]. intros X. exact X.
  - rewrite !app_length in LE. parted SI. destruct (IH ltac:(lia) SI) as (xs' & vs' & HT' & HR' & E' & _).
    destruct (HS ts ltac:(lia) _ _ _ H S1) as (xs & v' & HT & HV & E & NC & EN). destruct (ends_last _ EN) as (y & LY & CL).
    exists (xs ++ xs'), (v' :: vs'). split; [cbn [flat_map]; apply texts_app; assumption|]. split; [|split; [|discriminate]].
    + rewrite tk_app. change (tk xs ++ tk xs') with (coms [] ++ tk xs ++ icom None ++ tk xs'). eapply sts_cons; [exact HV|apply no_com_tk|exact LY|apply inline_tk|apply CL|exact HR'].
    + rewrite !bare_body_cons; [congruence|exact NC|]. eapply bare_com; eassumption.
Qed.
Lemma words_trailing tcs : flat_map visitee_words (trailing bic tcs) = [].
Proof. unfold trailing. destruct bic; [|reflexivity]. induction (nodes tcs) as [|c l IH]; [reflexivity|exact IH]. Qed.
Lemma Body_print d S S' n : (forall ts, (List.length ts < n)%nat -> printsto S S' ts) -> forall ts vs lc q, Body perm bic junk d S ts vs lc q -> (List.length ts < n)%nat -> simple ts ->
  exists xs vs' lc' q', Texts (lit "{" :: flat_map visitee_words vs ++ close_words) xs /\ Body perm bic false d S' (tk xs) vs' lc' q' /\ bare_body vs' = bare_body vs /\ ends xs.
Proof.
  intros HS ts vs lc q [t1 p1 il t2 vs0 tcs t3 q0 H1 I H2 N H3 D|t1 p1 il t2 q0 D H1 I H2] LE SI; rewrite !app_length in LE; parted SI; destruct Close_print as (ys & q1 & HT1 & HC & EN).
  - destruct (Stmts_print S S' n HS _ _ _ H2 ltac:(lia) S2) as (xs & vs' & HT & HR & E & NE).
    exists ([lit "{"] ++ xs ++ ys), (vs' ++ trailing bic []), None, q1. split; [|split; [|split]].
    + cbn [app]. apply texts_tok; [kw|]. rewrite flat_map_app, words_trailing, app_nil_r. apply texts_app; assumption.
    + rewrite !tk_app. change (tk [lit "{"] ++ tk xs ++ tk ys) with (tk [lit "{"] ++ icom None ++ tk xs ++ tk ys).
      apply (body_stmts perm bic false d S' _ P0 None); [apply T_tk|rewrite <- tk_app; apply inline_tk|exact HR|apply no_com_tk|exact HC|].
      destruct D as [D|D]; [left; exact D|right; exact (NE D)].
    + rewrite !bare_body_app, !bare_trailing, E. reflexivity.
    + apply ends_app, ends_app, EN.
  - exists ([lit "{"] ++ ys), [], None, q1. split; [|split; [|split]].
    + cbn [app flat_map]. apply texts_tok; [kw|exact HT1].
    + rewrite tk_app. change (tk [lit "{"] ++ tk ys) with (tk [lit "{"] ++ icom None ++ tk ys). eapply body_empty; [exact D|apply T_tk|apply inline_tk|exact HC].
    + reflexivity.
    + apply ends_app, EN.
Qed.
Lemma Empty_print U il ts v : Empty junk U il ts v -> exists xs v', Texts (visitee_words v) xs /\ Empty false U None (tk xs) v' /\ bare v' = bare v /\ (forall c, v <> VComment c) /\ ends xs.
Proof.
  assert (X : exists xs v', Texts [lit ";"] xs /\ Empty false U None (tk xs) v' /\ bare v' = VEmpty (mkEmpty None) /\ ends xs).
  { exists [lit ";"]. eexists. split; [apply texts_one; kw|]. split; [apply (empty_intro false _ None P0)|]. split; [reflexivity|exact ends_semi]. }
  destruct X as (xs & v' & A & B & C & D). intros [p|t1 t p J NE HU H]; (exists xs, v'; repeat split; auto; discriminate).
Qed.
Lemma EnumStmt_print ts : printsto (EnumStmt perm junk) (EnumStmt perm false) ts.
Proof.
  intros cs il v [t o H|t o H|t o H N|t v0 H] S.
  - destruct (Option_print _ _ _ _ H S) as (xs & e & A & B & C & D & F). exists xs, (VOption e). split; [exact A|]. split; [apply es_option; exact B|]. split; [cbn; congruence|]. split; [discriminate|exact D].
  - destruct (Reserved_print _ _ _ _ H S) as (xs & e & A & B & C & D & F). exists xs, (VReserved e). split; [exact A|]. split; [apply es_reserved; exact B|]. split; [cbn; congruence|]. split; [discriminate|exact D].
  - destruct (EnumField_print _ _ _ _ H S) as (xs & e & A & B & C & D & F). exists xs, (VEnumField e). split; [exact A|]. split; [apply es_field; [exact B|eapply not_first_tk; eassumption]|].
    split; [cbn; congruence|]. split; [discriminate|exact D].
  - destruct (Empty_print _ _ _ _ H) as (xs & v' & A & B & C & D & F). exists xs, v'. split; [exact A|]. split; [apply es_empty; exact B|]. auto.
Qed.
Lemma ExtendStmt_print ts : printsto (ExtendStmt perm junk) (ExtendStmt perm false) ts.
Proof.
  intros cs il v [t o H|t v0 H] S.
  - destruct (Field_print _ _ _ _ H S) as (xs & e & A & B & C & D & F). exists xs, (VField e). split; [exact A|]. split; [apply xs_field; exact B|]. split; [cbn; congruence|]. split; [discriminate|exact D].
  - destruct (Empty_print _ _ _ _ H) as (xs & v' & A & B & C & D & F). exists xs, v'. split; [exact A|]. split; [apply xs_empty; exact B|]. auto.
Qed.
Lemma ServiceStmt_print ts : printsto (ServiceStmt perm junk) (ServiceStmt perm false) ts.
Proof.
  intros cs il v [t o H|t o H|p] S.
  - destruct (Option_print _ _ _ _ H S) as (xs & e & A & B & C & D & F). exists xs, (VOption e). split; [exact A|]. split; [apply ss_option; exact B|]. split; [cbn; congruence|]. split; [discriminate|exact D].
  - destruct (RPC_print _ _ _ _ H S) as (xs & e & A & B & C & D & F). exists xs, (VRPC e). split; [exact A|]. split; [apply ss_rpc; exact B|]. split; [cbn; congruence|]. split; [discriminate|exact D].
  - exists [lit ";"]. eexists. split; [apply texts_one; kw|]. split; [apply (ss_empty perm false [] None P0)|]. split; [reflexivity|]. split; [discriminate|exact ends_semi].
Qed.
Definition bprints (N N' : list comment -> option comment -> list item -> block -> Prop) (key : string) : Prop :=
  forall cs il ts b, N cs il ts b -> simple ts -> exists xs b', Texts ([lit key; b_name b; lit "{"] ++ flat_map visitee_words (b_body b) ++ close_words) xs /\ N' [] None (tk xs) b' /\
    bare_block b' = bare_block b /\ ends xs /\ hd_error xs = Some (lit key).
Ltac blk H1 H3 HS S :=
  let n := fresh "n" in
  match type of H3 with Body _ _ _ _ _ ?t _ _ _ =>
    destruct (Body_print _ _ _ (Datatypes.S (List.length t)) (fun ts _ => HS ts) _ _ _ _ H3 (le_n _) S) as (xs & vs' & lc' & q' & HT & HB & E & EN)
  end.
Lemma Enum_print : bprints (Enum perm bic junk) (Enum perm bic false) "enum".
Proof.
  intros cs il ts b [t1 p1 t2 name p2 t3 vs lc q H1 H2 I2 H3] S. parted S. blk H1 H3 EnumStmt_print S.
  exists ([lit "enum"] ++ [name] ++ xs). eexists. split; [|split; [|split; [|split]]].
  - cbn [b_name b_body]. txt.
  - rewrite !tk_app. econstructor; try apply T_tk; eassumption.
  - unfold bare_block. cbn. rewrite E. reflexivity.
  - endn.
  - reflexivity.
Qed.
Lemma Service_print : bprints (Service perm bic junk) (Service perm bic false) "service".
Proof.
  intros cs il ts b [t1 p1 t2 name p2 t3 vs lc q H1 H2 I2 H3] S. parted S. blk H1 H3 ServiceStmt_print S.
  exists ([lit "service"] ++ [name] ++ xs). eexists. split; [|split; [|split; [|split]]].
  - cbn [b_name b_body]. txt.
  - rewrite !tk_app. econstructor; try apply T_tk; eassumption.
  - unfold bare_block. cbn. rewrite E. reflexivity.
  - endn.
  - reflexivity.
Qed.
Lemma Extend_print : bprints (Extend perm bic junk) (Extend perm bic false) "extend".
Proof.
  intros cs il ts b [t1 p1 t2 v p2 t3 vs lc q H1 H2 H3] S. parted S. blk H1 H3 ExtendStmt_print S. destruct (MessageType_print _ _ _ H2) as (x2 & R2 & N2 & _).
  exists ([lit "extend"] ++ x2 ++ xs). eexists. split; [|split; [|split; [|split]]].
  - cbn [b_name b_body]. txt.
  - rewrite !tk_app. econstructor; try apply T_tk; eassumption.
  - unfold bare_block. cbn. rewrite E. reflexivity.
  - endn.
  - reflexivity.
Qed.
Lemma MessageStmt_print : forall n ts, (List.length ts < n)%nat -> printsto (MessageStmt perm bic junk) (MessageStmt perm bic false) ts.
Proof.
  induction n as [|n IHn]; intros ts LE; [lia|]. intros cs il v H S.
  destruct H as [t e H|t1 p1 t2 name p2 t3 vs lc q H1 H2 I2 H3|t o H|t o H|t m H|t x H|t r H|t x H|t f H NF|t1 p1 rp rq op t2 t3 name p3 t4 t5 num p5 t6 vs lc q H1 H2 H3 I3 CP H4 H5 I5 H6|t v H].
  - destruct (Enum_print _ _ _ _ H S) as (xs & b' & HT & HB & E & EN & _). exists xs, (VEnum b'). split; [exact HT|]. split; [apply ms_enum; exact HB|]. split; [rewrite !bare_enum, E; reflexivity|]. split; [discriminate|exact EN].
  - parted S. rewrite !app_length in LE. assert (L3 : (List.length t3 < n)%nat) by (destruct H1 as (c1 & ->); rewrite app_length in LE; cbn in LE; lia).
    destruct (Body_print _ _ _ n IHn _ _ _ _ H3 L3 S) as (xs & vs' & lc' & q' & HT & HB & E & EN).
    exists ([lit "message"] ++ [name] ++ xs). eexists. split; [|split; [|split; [|split]]].
    + cbn [PrintSpec.visitee_words b_name b_body]. txt.
    + rewrite !tk_app. eapply ms_message; try apply T_tk; eassumption.
    + rewrite !bare_message. unfold bare_block. cbn. rewrite E. reflexivity.
    + discriminate.
    + endn.
  - destruct (Option_print _ _ _ _ H S) as (xs & e & A & B & C & D & F). exists xs, (VOption e). split; [exact A|]. split; [apply ms_option; exact B|]. split; [cbn; congruence|]. split; [discriminate|exact D].
  - destruct (Oneof_print _ _ _ _ H S) as (xs & e & A & B & C & D & F). exists xs, (VOneof e). split; [exact A|]. split; [apply ms_oneof; exact B|]. split; [cbn; congruence|]. split; [discriminate|exact D].
  - destruct (MapField_print _ _ _ _ H S) as (xs & e & A & B & C & D & F). exists xs, (VMapField e). split; [exact A|]. split; [apply ms_map; exact B|]. split; [cbn; congruence|]. split; [discriminate|exact D].
  - destruct (Extend_print _ _ _ _ H S) as (xs & b' & HT & HB & E & EN & _). exists xs, (VExtend b'). split; [exact HT|]. split; [apply ms_extend; exact HB|]. split; [rewrite !bare_extend, E; reflexivity|]. split; [discriminate|exact EN].
  - destruct (Reserved_print _ _ _ _ H S) as (xs & e & A & B & C & D & F). exists xs, (VReserved e). split; [exact A|]. split; [apply ms_reserved; exact B|]. split; [cbn; congruence|]. split; [discriminate|exact D].
  - destruct (Extensions_print _ _ _ _ H S) as (xs & e & A & B & C & D & F). exists xs, (VExtensions e). split; [exact A|]. split; [apply ms_extensions; exact B|]. split; [cbn; congruence|]. split; [discriminate|exact D].
  - destruct (Field_print _ _ _ _ H S) as (xs & e & A & B & C & D & F). exists xs, (VField e). split; [exact A|]. split; [apply ms_field; [exact B|eapply not_first_tk; eassumption]|].
    split; [cbn; congruence|]. split; [discriminate|exact D].
  - parted S. rewrite !app_length in LE. assert (L6 : (List.length t6 < n)%nat) by (destruct H2 as (pk & c1 & ->); rewrite app_length in LE; cbn in LE; lia).
    destruct (Body_print _ _ _ n IHn _ _ _ _ H6 L6 S) as (xs & vs' & lc' & q' & HT & HB & E & EN).
    destruct (Label_print _ _ _ _ _ _ [lit "group"] H1 (eq_sym (next_K _ _ H2))) as (ls & RL & NL & _).
    exists (ls ++ [lit "group"] ++ [name] ++ [lit "="] ++ [num] ++ xs). eexists. split; [|split; [|split; [|split]]].
    + cbn [PrintSpec.visitee_words g_name g_number g_repeated g_required g_optional g_body]. apply texts_app; [exact RL|]. txt.
    + rewrite !tk_app. eapply ms_group; try apply T_tk; try apply K_tk; eassumption.
    + rewrite !bare_group. cbn. rewrite E. reflexivity.
    + discriminate.
    + endn.
  - destruct (Empty_print _ _ _ _ H) as (xs & v' & A & B & C & D & F). exists xs, v'. split; [exact A|]. split; [apply ms_empty; exact B|]. auto.
Qed.
Lemma Message_print : bprints (Message perm bic junk) (Message perm bic false) "message".
Proof.
  intros cs il ts b [t1 p1 t2 name p2 t3 vs lc q H1 H2 I2 H3] S. parted S.
  destruct (Body_print _ _ _ (Datatypes.S (List.length t3)) (MessageStmt_print _) _ _ _ _ H3 (le_n _) S) as (xs & vs' & lc' & q' & HT & HB & E & EN).
  exists ([lit "message"] ++ [name] ++ xs). eexists. split; [|split; [|split; [|split]]].
  - cbn [b_name b_body]. txt.
  - rewrite !tk_app. econstructor; try apply T_tk; eassumption.
  - unfold bare_block. cbn. rewrite E. reflexivity.
  - endn.
  - reflexivity.
Qed.
End Stmts.
