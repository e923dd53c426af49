(** The AST is at most linear in the text (C51). *)
From Coq Require Import List NArith ZArith Bool String Ascii Lia Sorted.
From Verif Require Import Base Token Scanner Lexing ScanRefine Ast Parser Api LexSpec LexFacts LexProofs ScanFacts ScanProps RefineFile Tree SimSpec HeldSpec BulkSpec Regular
  Grammar GramLex Junk DeepText SndFile Held.
Import ListNotations.
Open Scope nat_scope.
Notation len := (@List.length rune).

(** the characters in tokens *)
Fixpoint tw (ts : list item) : nat := match ts with [] => 0 | Tok x _ :: ts => len x + tw ts | Com _ _ :: ts => tw ts end.
Lemma tw_app a b : tw (a ++ b) = tw a + tw b.
Proof. induction a as [|[] a IH]; cbn [app tw]; lia. Qed.
Lemma tw_coms cs : tw (coms cs) = 0. Proof. induction cs as [|[] cs IH]; [reflexivity|exact IH]. Qed.
Lemma tw_icom c : tw (icom c) = 0. Proof. destruct c as [[]|]; reflexivity. Qed.
Lemma tw_T ts x p : T ts x p -> tw ts = len x.
Proof. intros (cs & ->). rewrite tw_app, tw_coms. cbn. lia. Qed.
Lemma tw_K ts x : K ts x -> tw ts = len (lit x). Proof. intros (p & H). exact (tw_T _ _ _ H). Qed.
Lemma ident_len x : is_ident x -> 1 <= len x. Proof. intros (c & l & -> & _). cbn. lia. Qed.
Lemma dec_len x : decimals x -> 1 <= len x. Proof. intros [H _]. destruct x; [contradiction|]. cbn. lia. Qed.
Lemma int_len x : is_int x -> 1 <= len x.
Proof. intros [(c & l & -> & _)|[(l & -> & _)|(c & l & -> & _)]]; cbn; lia. Qed.
Lemma str_len x : is_str x -> 2 <= len x. Proof. intros (q & b & _ & -> & _). rewrite !app_length. cbn. lia. Qed.
Lemma number_len x : number x -> 1 <= len x.
Proof. intros [H|H]; [exact (int_len _ H)|]. destruct H; rewrite ?app_length; cbn; try lia. destruct H0 as (e0 & sg & d & -> & _). cbn. lia. Qed.
Lemma words_len l x : words l x -> Forall (fun s => s <> EmptyString) l -> 1 <= len x.
Proof. intros H F. apply in_map_iff in H. destruct H as (s & <- & I). rewrite Forall_forall in F. specialize (F _ I). destruct s; [contradiction|]. cbn. lia. Qed.
Ltac wl := repeat constructor; discriminate.
Ltac sz :=
  repeat match goal with
  | H : T _ _ _ |- _ => apply tw_T in H; cbn [lit List.length] in H
  | H : K _ _ |- _ => apply tw_K in H; cbn [lit List.length] in H
  | H : is_ident _ |- _ => apply ident_len in H
  | H : is_int _ |- _ => apply int_len in H
  | H : is_str _ |- _ => apply str_len in H
  | H : number _ |- _ => apply number_len in H
  end; rewrite ?tw_app, ?app_length, ?tw_icom, ?tw_coms; cbn [List.length].
Section Bulk.
Variables perm bic junk : bool.
Lemma z_fi ts v p : FullIdent ts v p -> len v = tw ts /\ 1 <= tw ts.
Proof. induction 1; sz; cbn [lit List.length]; lia. Qed.
Lemma z_mt ts v p : MessageType ts v p -> len v = tw ts /\ 1 <= tw ts.
Proof. destruct 1 as [ts v p H|td p ts v p' H1 H]; apply z_fi in H; sz; [exact H|]. rewrite H1. cbn [lit List.length]. lia. Qed.
Lemma z_type ts v p : Type_ ts v p -> len v = tw ts /\ 1 <= tw ts.
Proof. destruct 1 as [ts x p H1 H2|ts v p H1 H2]; [|exact (z_mt _ _ _ H1)]. apply words_len in H2; [|wl]. sz. lia. Qed.
Lemma drop_len q x : len (drop_quotes q x) <= len x.
Proof. induction x as [|c x IH]; [cbn; lia|]. cbn [drop_quotes]. destruct (c =? q)%N; cbn [List.length] in *; lia. Qed.
Lemma strip_len q x : len (strip q x) <= len x.
Proof. unfold strip. rewrite rev_length. pose proof (drop_len q (rev (drop_quotes q x))) as H. rewrite rev_length in H. pose proof (drop_len q x). lia. Qed.
Lemma strip_own q b : len (strip q ([q] ++ b ++ [q])) <= len b.
Proof.
  unfold strip. rewrite rev_length. cbn [app drop_quotes]. rewrite N.eqb_refl.
  assert (H : forall y, drop_quotes q (y ++ [q]) = [] \/ exists z, drop_quotes q (y ++ [q]) = z ++ [q] /\ len z <= len y).
  { induction y as [|c y IH]; cbn [app drop_quotes]; [rewrite N.eqb_refl; left; reflexivity|]. destruct (c =? q)%N; [|right; exists (c :: y); split; [reflexivity|lia]].
    destruct IH as [-> |(z & -> & L)]; [left; reflexivity|right; exists z; split; [reflexivity|cbn; lia]]. }
  destruct (H b) as [-> |(z & -> & L)]; [cbn; lia|]. rewrite rev_app_distr. cbn [rev app drop_quotes]. rewrite N.eqb_refl. pose proof (drop_len q (rev z)) as D. rewrite rev_length in D. lia.
Qed.
Lemma z_strings ts xs p : Strings ts xs p -> (forall q, len (flat_map (strip q) xs) <= tw ts) /\ len (joined xs) <= tw ts /\ 2 <= tw ts.
Proof.
  induction 1 as [ts x p H1 H2|ts x p ts' xs p' H1 H2 H3 (IH & IH2 & IH3)].
  - apply tw_T in H1. split; [|split].
    + intros q. cbn [flat_map]. rewrite app_nil_r, H1. apply strip_len.
    + destruct H2 as (q & b & _ & -> & _). unfold joined. cbn [first_quote app flat_map]. rewrite app_nil_r. pose proof (strip_own q b) as S. rewrite H1. cbn [List.length app] in *. rewrite !app_length in *. cbn [List.length] in *. lia.
    + rewrite H1. exact (str_len _ H2).
  - apply tw_T in H1. rewrite tw_app. split; [|split].
    + intros q. cbn [flat_map]. rewrite app_length, H1. pose proof (strip_len q x). specialize (IH q). lia.
    + destruct H2 as (q & b & _ & -> & _). unfold joined. cbn [first_quote app flat_map]. pose proof (strip_own q b) as S. specialize (IH q). rewrite H1. cbn [List.length app] in *. rewrite !app_length in *. cbn [List.length] in *. lia.
    + lia.
Qed.
Lemma z_constant ts v : Constant perm ts v -> len v <= tw ts /\ 1 <= tw ts.
Proof.
  destruct 1 as [ts x p _ H1 H2|ts xs p _ H|ts x p H1 H2|ts x p H1 H2|ts v p H _|ts s p ts' x p' H1 H2 H3 H4].
  - sz. lia.
  - destruct (z_strings _ _ _ H) as (_ & A & B). lia.
  - sz. lia.
  - apply words_len in H2; [|wl]. sz. lia.
  - apply z_fi in H. lia.
  - sz. lia.
Qed.
Lemma z_part ts v : NamePart perm ts v -> len v <= tw ts /\ 1 <= tw ts.
Proof. destruct 1; sz; try match goal with H : FullIdent _ _ _ |- _ => apply z_fi in H end; cbn [lit List.length]; try lia. Qed.
Lemma z_name ts v : OptionName perm ts v -> len v <= tw ts /\ 1 <= tw ts.
Proof. induction 1 as [ts v H|ts v td ts' v' H H1 H2 IH]; apply z_part in H; [exact H|]. sz. cbn [lit List.length]. lia. Qed.
Lemma z_value ts v : Value perm junk ts v -> S (len v) <= 2 * tw ts.
Proof.
  revert ts v. apply (Value_jnd perm junk (fun ts v => S (len v) <= 2 * tw ts) (fun ts v => S (len v) <= 2 * tw ts) (fun ts v => S (len v) <= 2 * tw ts)
    (fun _ ts v => S (len v) <= 2 * tw ts)); intros;
  try match goal with H : Constant _ _ _ |- _ => apply z_constant in H end; sz; cbn [lit List.length]; rewrite ?app_length; cbn [List.length]; try lia.
Qed.
Lemma z_fieldoption ts o : FieldOption perm junk ts o -> S (len (fst o)) + S (len (snd o)) <= 2 * tw ts.
Proof. intros [t1 name t2 t3 v H1 H2 H3]. apply z_name in H1. apply z_value in H3. sz. cbn [fst snd]. lia. Qed.
Definition osize (os : list (str * str)) : nat := list_sum (map (fun o => str_size (fst o) + str_size (snd o)) os).
Lemma z_optionlist ts os : FieldOptionList perm junk ts os -> osize os <= 2 * tw ts.
Proof.
  unfold osize, str_size. induction 1 as [ts o H|ts o td ts' os H H1 H2 IH]; apply z_fieldoption in H; cbn [map list_sum fold_right] in *; rewrite ?tw_app; unfold list_sum in *; lia.
Qed.
Lemma z_options ts os : FieldOptions perm junk ts os -> osize os <= 2 * tw ts.
Proof. destruct 1 as [|t1 ts os t2 H1 H H2]; [cbn; lia|]. apply z_optionlist in H. rewrite !tw_app. lia. Qed.
Lemma z_fopts os : list_sum (map str_size (options_of (fopts os))) = osize os.
Proof. unfold options_of, fopts, osize. induction os as [|o os IH]; [reflexivity|]. cbn [map flat_map app list_sum fold_right fo_name fo_constant] in *. unfold list_sum in *. rewrite IH. lia. Qed.
Lemma z_evopts os : list_sum (map str_size (flat_map (fun o => [ev_name o; ev_constant o]) (evopts os))) = osize os.
Proof. unfold evopts, osize. induction os as [|o os IH]; [reflexivity|]. cbn [map flat_map app list_sum fold_right ev_name ev_constant] in *. unfold list_sum in *. rewrite IH. lia. Qed.
Definition fitz {A} (h : A -> nat) (P : list comment -> option comment -> list item -> A -> Prop) : Prop :=
  forall cs il ts x, P cs il ts x -> h x <= 3 * tw ts.
Lemma sum_app a b : list_sum (a ++ b) = list_sum a + list_sum b. Proof. apply list_sum_app. Qed.
Lemma sum_cons a b : list_sum (a :: b) = a + list_sum b. Proof. reflexivity. Qed.
Lemma sum_nil : list_sum [] = 0. Proof. reflexivity. Qed.
Ltac so := cbn [size_below]; unfold size_one; cbn [own_texts sy_version sy_versionQuote ed_edition ed_editionQuote oof_type oof_name oof_number oof_options op_name op_constant rp_type
   im_location pk_name f_type f_name f_number f_options mf_keyType mf_type mf_name mf_number mf_options g_name g_number oo_name ef_ident ef_number ef_options r_name rs_ranges rs_names xs_ranges b_name app map];
   rewrite ?map_app, ?sum_app, ?sum_cons, ?sum_nil, ?z_fopts, ?z_evopts; unfold str_size; rewrite ?app_length; cbn [lit List.length].
Lemma Z_option : fitz (fun o => size_one (EOption o)) (Option perm junk).
Proof. intros cs il ts x [t1 p1 t2 name t3 t4 v t5 p5 H1 H2 H3 H4 H5]. apply z_name in H2. apply z_value in H4. so. sz. lia. Qed.
Lemma Z_ooption : fitz (fun o => size_below (VOption o)) (Option perm junk).
Proof. intros cs il ts x [t1 p1 t2 name t3 t4 v t5 p5 H1 H2 H3 H4 H5]. apply z_name in H2. apply z_value in H4. so. sz. lia. Qed.
Lemma quote_len q : is_quote q -> len q = 1. Proof. intros [->| ->]; reflexivity. Qed.
Lemma Z_syntax : fitz (fun o => size_one (ESyntax o)) (Syntax junk).
Proof. intros cs il ts x [t1 p1 t2 t3 q p3 t4 v p4 t5 q' p5 t6 p6 H1 H2 H3 Q H4 W H5 Q' M H6]. apply words_len in W; [|wl]. apply quote_len in Q, Q'. so. sz. cbn [lit List.length] in *. lia. Qed.
Lemma Z_edition : fitz (fun o => size_one (EEdition o)) (Edition junk).
Proof. intros cs il ts x [t1 p1 t2 t3 q p3 t4 v p4 t5 q' p5 t6 p6 H1 H2 H3 Q H4 W H5 Q' M H6]. apply quote_len in Q, Q'. so. sz. cbn [lit List.length] in *. lia. Qed.
Lemma Z_import : fitz (fun o => size_below (VImport o)) (Import junk).
Proof. intros cs il ts x [t1 p1 t2 m t3 y p3 t4 p4 H1 H2 H3 H4 H5]. so. sz. lia. Qed.
Lemma Z_package : fitz (fun o => size_below (VPackage o)) Package.
Proof. intros cs il ts x [t1 p1 t2 v p2 t3 p3 H1 H2 H3]. apply z_fi in H2. so. sz. lia. Qed.
Lemma z_fieldend ts name num os p : FieldEnd perm junk ts name num os p -> 4 + len name + len num + osize os <= 2 * tw ts /\ 1 <= len name /\ 1 <= len num.
Proof. intros [t1 n p1 t2 t3 nu p3 t4 os' t5 p5 H1 H2 H3 H4 H5 H6 H7]. apply z_options in H6. sz. cbn [lit List.length] in *. lia. Qed.
Lemma Z_field : fitz (fun o => size_below (VField o)) (Field perm junk).
Proof. intros cs il ts x [t1 p1 rp rq op t2 ty p2 t3 name num os p3 H1 H2 H3]. apply z_type in H2. apply z_fieldend in H3. so. sz. lia. Qed.
Lemma Z_map : fitz (fun o => size_below (VMapField o)) (MapField perm junk).
Proof. intros cs il ts x [t1 p1 t2 t3 kt p3 t4 t5 ty p5 t6 t7 name num os p7 H1 H2 H3 W H4 H5 H6 H7]. apply z_type in H5. apply z_fieldend in H7. apply words_len in W; [|wl]. so. sz. lia. Qed.
Lemma Z_oneoffield : fitz (fun o => size_one (EOneofField o)) (OneofField perm junk).
Proof. intros cs il ts x [t1 ty p1 t2 name num os p2 H2 H3]. apply z_type in H2. apply z_fieldend in H3. so. sz. lia. Qed.
Lemma z_range ts r : Range ts r -> S (len (rg_begin r)) + S (len (rg_end r)) <= 3 * tw ts.
Proof. destruct 1 as [ts x p H1 H2|t1 x p t2 t3 y p3 H1 H2 H3 H4 H5]; cbn [rg_begin rg_end]; sz; lia. Qed.
Lemma z_ranges ts rs : Ranges ts rs -> list_sum (map str_size (ranges_of rs)) <= 3 * tw ts.
Proof.
  unfold ranges_of. induction 1 as [ts r H|ts r td ts' rs H H1 H2 IH]; apply z_range in H; cbn [flat_map app map]; rewrite ?sum_cons, ?sum_nil, ?tw_app; unfold str_size in *; lia.
Qed.
Lemma z_names ts xs : FieldNames junk ts xs -> list_sum (map str_size xs) <= 2 * tw ts.
Proof.
  induction 1 as [ts x p H1 H2|ts x p td ts' xs H1 H2 H3 H4 IH]; (assert (L : 1 <= len x) by (destruct H2 as [H2|H2]; sz; lia)); cbn [map]; rewrite ?sum_cons, ?sum_nil; unfold str_size in *; sz; lia.
Qed.
Lemma Z_reserved : fitz (fun o => size_below (VReserved o)) (Reserved junk).
Proof.
  intros cs il ts x [t1 p1 t2 rs t3 p3 H1 H2 H3|t1 p1 tj t2 xs t3 p3 H1 H2 H3 H4].
  - apply z_ranges in H2. cbn [size_below]. unfold size_one. cbn [own_texts rs_ranges rs_names]. rewrite app_nil_r. sz. cbn [lit List.length] in *. lia.
  - apply z_names in H3. cbn [size_below]. unfold size_one. cbn [own_texts rs_ranges rs_names ranges_of flat_map app]. sz. cbn [lit List.length] in *. lia.
Qed.
Lemma Z_enumfield : fitz (fun o => size_below (VEnumField o)) (EnumField perm junk).
Proof.
  intros cs il ts x [t1 name p1 t2 t3 sg t4 num p4 t5 os t6 p6 H1 H2 H3 H4 H5 H6 H7 H8]. apply z_options in H7. so.
  assert (G : len sg <= tw t3) by (destruct H4; [cbn; lia|]; sz; cbn; lia). sz. cbn [lit List.length] in *. lia.
Qed.
Lemma Z_empty U il ts v : Empty junk U il ts v -> size_below v <= 3 * tw ts.
Proof. destruct 1; so; sz; cbn [tw lit List.length] in *; lia. Qed.
Lemma Z_elems ts fs os : OneofElems perm junk ts fs os -> sizes EOneofField fs + sizes EOption os <= 3 * tw ts.
Proof.
  unfold sizes. revert ts fs os. apply (OneofElems_jnd perm junk (fun ts fs os => list_sum (map (fun x => size_one (EOneofField x)) fs) + list_sum (map (fun x => size_one (EOption x)) os) <= 3 * tw ts)
   (fun ts fs os => list_sum (map (fun x => size_one (EOneofField x)) fs) + list_sum (map (fun x => size_one (EOption x)) os) <= 3 * tw ts)); intros; cbn [map]; rewrite ?sum_cons, ?sum_nil, ?tw_app, ?tw_coms, ?tw_icom; cbn [tw]; try lia.
  - apply Z_option in H. lia.
  - apply Z_oneoffield in H. lia.
Qed.
Lemma Z_oneof : fitz (fun o => size_below (VOneof o)) (Oneof perm junk).
Proof. intros cs il ts x [t1 p1 t2 name p2 t3 p3 lc t4 fs os y q H1 H2 H3 H4 H5 H6 H7]. apply Z_elems in H6. so. cbn [oo_fields oo_options]. sz. cbn [lit List.length] in *. lia. Qed.
Lemma z_declfields first ts kvs : DeclFields junk first ts kvs -> list_sum (map (fun kv => len (snd kv)) kvs) <= tw ts.
Proof.
  induction 1 as [|first sep ts kv ts' kvs H0 H1 H2 IH]; [cbn; lia|]. cbn [map]. rewrite sum_cons, !tw_app. destruct H1; cbn [snd]; sz; lia.
Qed.
Definition of_key (key : string) (kvs : list (string * str)) : nat := list_sum (map (fun kv => if String.eqb (fst kv) key then len (snd kv) else 0) kvs).
Lemma last_len key kvs : len (last_value key kvs) <= of_key key kvs.
Proof.
  unfold of_key. induction kvs as [|[k v] kvs IH]; [cbn; lia|]. cbn [last_value map fst snd]. rewrite sum_cons. destruct (String.eqb k key); cbn [andb]; [destruct (negb _)|]; lia.
Qed.
Lemma keys_len kvs : of_key "number" kvs + of_key "full_name" kvs + of_key "type" kvs <= list_sum (map (fun kv => len (snd kv)) kvs).
Proof.
  unfold of_key. induction kvs as [|[k v] kvs IH]; [cbn; lia|]. cbn [map fst snd]. rewrite !sum_cons.
  destruct (String.eqb_spec k "number"); [subst k; cbn [String.eqb Ascii.eqb Bool.eqb]; lia|]. destruct (String.eqb_spec k "full_name"); [subst k; cbn [String.eqb Ascii.eqb Bool.eqb]; lia|].
  destruct (String.eqb k "type"); lia.
Qed.
Lemma Z_declaration : fitz (fun o => size_one (EDeclaration o)) (Declaration junk).
Proof.
  intros cs il ts x [t1 p1 t2 t3 p3 lc t4 kvs t5 p5 H1 H2 H3 H4 H5 H6]. unfold size_one. cbn [own_texts d_number d_fullName d_type map]. rewrite !sum_cons, sum_nil. unfold str_size.
  pose proof (last_len "number" kvs). pose proof (last_len "full_name" kvs). pose proof (last_len "type" kvs). pose proof (keys_len kvs). apply z_declfields in H5. sz. cbn [lit List.length] in *. lia.
Qed.
Lemma Z_declarations fol ts ds : Declarations junk fol ts ds -> sizes EDeclaration ds <= 3 * tw ts.
Proof. unfold sizes. induction 1; cbn [map]; rewrite ?sum_cons, ?sum_nil, !tw_app, tw_coms, !tw_icom; apply Z_declaration in H; lia. Qed.
Lemma Z_extensions : fitz (fun o => size_below (VExtensions o)) (Extensions junk).
Proof.
  intros cs il ts x [t1 p1 t2 rs t3 p3 H1 H2 H3|t1 p1 t2 rs t3 p3 lc t4 ds t5 p5 H1 H2 H3 H4 H5 H6]; apply z_ranges in H2; cbn [size_below]; unfold size_one; cbn [own_texts xs_ranges xs_declarations].
  - unfold sizes. cbn [map]. rewrite sum_nil. sz. cbn [lit List.length] in *. lia.
  - apply Z_declarations in H5. sz. cbn [lit List.length] in *. lia.
Qed.

(** a statement, and one for each comment element *)
Definition nc (ts : list item) : nat := List.length (comments_in ts).
Lemma nc_app a b : nc (a ++ b) = nc a + nc b. Proof. unfold nc. rewrite comments_app. apply app_length. Qed.
Lemma nc_coms cs : nc (coms cs) = List.length cs. Proof. unfold nc. rewrite comments_coms. apply map_length. Qed.
Definition fitb (P : list comment -> option comment -> list item -> visitee -> Prop) : Prop :=
  forall cs il ts v, P cs il ts v -> size_below v <= 3 * tw ts + nc ts.
Notation sizel l := (list_sum (map size_below l)).
Section Bodies.
Variables S : list comment -> option comment -> list item -> visitee -> Prop.
Hypothesis SS : fitb S.
Lemma Z_trailing tcs : sizel (trailing bic tcs) <= List.length tcs.
Proof. unfold trailing. destruct bic; [|cbn; lia]. unfold nodes. induction tcs as [|c l IH]; [cbn; lia|]. cbn [map]. rewrite sum_cons. cbn [size_below size_one own_texts map List.length]. unfold size_one. cbn [own_texts map]. rewrite sum_nil. lia. Qed.
Lemma Z_stmts ts vs tcs : Stmts perm junk S ts vs tcs -> sizel vs + List.length tcs <= 3 * tw ts + nc ts.
Proof.
  induction 1 as [cs|cs ts v x q il rest vs tcs A1 A2 A3 A4 A5 A6 IH].
  - rewrite nc_coms. cbn. lia.
  - cbn [map]. rewrite sum_cons, !tw_app, tw_coms, !nc_app, nc_coms. pose proof (SS _ _ _ _ A1). lia.
Defined.
Lemma z_close ts q : Close perm ts q -> 1 <= tw ts.
Proof. destruct 1; sz; cbn [lit List.length] in *; lia. Qed.
Lemma Z_body drop ts vs lc q : Body perm bic junk drop S ts vs lc q -> sizel vs + 4 <= 3 * tw ts + nc ts.
Proof.
  intros [t1 p1 lc' ts' vs' tcs t2 q' A1 A2 A3 A4 A5 A6|t1 p1 lc' t2 q' A1 A2 A3 A4].
  - rewrite map_app, sum_app, !tw_app, tw_icom, !nc_app. pose proof (Z_stmts _ _ _ A3). pose proof (Z_trailing tcs). pose proof (z_close _ _ A5). sz. cbn [lit List.length] in *. lia.
  - cbn [map]. rewrite sum_nil. pose proof (z_close _ _ A4). sz. cbn [lit List.length] in *. lia.
Defined.
End Bodies.
Lemma block_size name vs cs il lc m : size_below (VMessage (mkBlock name vs cs il lc m)) = 2 + len name + sizel vs.
Proof. cbn [size_below b_body]. unfold size_one. cbn [own_texts b_name map]. rewrite sum_cons, sum_nil. unfold str_size. lia. Qed.
Ltac blk := rewrite ?block_size, ?tw_app, ?nc_app; sz; cbn [lit List.length] in *.
Lemma lift {A} (h : A -> visitee) P : fitz (fun x => size_below (h x)) P -> forall cs il ts x, P cs il ts x -> size_below (h x) <= 3 * tw ts + nc ts.
Proof. intros H cs il ts x HP. specialize (H _ _ _ _ HP). cbn beta in H. lia. Qed.
Lemma Z_enumstmt : fitb (EnumStmt perm junk).
Proof.
  intros cs il ts v [t o H|t o H|t o H N|t o H]; [exact (lift _ _ Z_ooption _ _ _ _ H)|exact (lift _ _ Z_reserved _ _ _ _ H)|exact (lift _ _ Z_enumfield _ _ _ _ H)|]. apply Z_empty in H. lia.
Qed.
Lemma Z_enum cs il ts b : Enum perm bic junk cs il ts b -> size_below (VEnum b) <= 3 * tw ts + nc ts.
Proof. intros [t1 p1 t2 name p2 t3 vs lc q A1 A2 A3 A4]. change (size_below (VEnum ?b)) with (size_below (VMessage b)). pose proof (Z_body _ Z_enumstmt _ _ _ _ _ A4). blk. lia. Qed.
Lemma Z_extendstmt : fitb (ExtendStmt perm junk).
Proof. intros cs il ts v [t o H|t o H]; [exact (lift _ _ Z_field _ _ _ _ H)|]. apply Z_empty in H. lia. Qed.
Lemma Z_extend cs il ts b : Extend perm bic junk cs il ts b -> size_below (VExtend b) <= 3 * tw ts + nc ts.
Proof. intros [t1 p1 t2 name p2 t3 vs lc q A1 A2 A4]. change (size_below (VExtend ?b)) with (size_below (VMessage b)). pose proof (Z_body _ Z_extendstmt _ _ _ _ _ A4). apply z_mt in A2. blk. lia. Qed.
Lemma Z_messagestmt : fitb (MessageStmt perm bic junk).
Proof.
  unfold fitb. fix IH 5. intros cs il ts v [ts' e H|t1 p1 t2 name p2 t3 vs lc q A1 A2 A3 A4|ts' x H|ts' x H|ts' m H|ts' x H|ts' r H|ts' x H|ts' x H N|
    t1 p1 rp rq op t2 t3 name p3 t4 t5 num p5 t6 vs lc q A1 A2 A3 A4 A5 A6 A7 A8 A9|ts' v' H].
  - exact (Z_enum _ _ _ _ H).
  - pose proof (Z_body _ IH _ _ _ _ _ A4). blk. lia.
  - exact (lift _ _ Z_ooption _ _ _ _ H).
  - exact (lift _ _ Z_oneof _ _ _ _ H).
  - exact (lift _ _ Z_map _ _ _ _ H).
  - exact (Z_extend _ _ _ _ H).
  - exact (lift _ _ Z_reserved _ _ _ _ H).
  - exact (lift _ _ Z_extensions _ _ _ _ H).
  - exact (lift _ _ Z_field _ _ _ _ H).
  - pose proof (Z_body _ IH _ _ _ _ _ A9). cbn [size_below g_body]. unfold size_one. cbn [own_texts g_name g_number map]. rewrite !sum_cons, sum_nil. unfold str_size. blk. lia.
  - apply Z_empty in H. lia.
Qed.
Lemma Z_message cs il ts b : Message perm bic junk cs il ts b -> size_below (VMessage b) <= 3 * tw ts + nc ts.
Proof. intros [t1 p1 t2 name p2 t3 vs lc q A1 A2 A3 A4]. pose proof (Z_body _ Z_messagestmt _ _ _ _ _ A4). blk. lia. Qed.
Lemma z_param ts p : RPCParam ts p -> size_one (EParam p) <= 2 * tw ts.
Proof. intros [t1 p1 t2 st t3 v p3 t4 p4 H1 H2 H3 H4]. apply z_mt in H3. so. sz. cbn [lit List.length] in *. lia. Qed.
Lemma z_rpcbody ts os : RPCBody perm junk ts os -> sizes EOption os <= 3 * tw ts.
Proof. unfold sizes. induction 1; cbn [map]; rewrite ?sum_cons, ?sum_nil, ?tw_app; try apply Z_option in H; lia. Qed.
Lemma z_rpcend t1 t2 os lc q : RPCEnd perm junk t1 t2 os lc q -> sizes EOption os <= 3 * tw t2.
Proof. intros [ts p H|t p1 lc' ts os' t2' q' A1 A2 A3 A4]; [cbn; lia|]. apply z_rpcbody in A3. rewrite !tw_app. lia. Qed.
Lemma Z_rpc : fitz (fun x => size_below (VRPC x)) (RPC perm junk).
Proof.
  intros cs il ts x [cs1 p1 t2 name p2 t3 rq t4 t5 rs t6 t7 os lc q A1 A2 A3 A4 A5 A6]. apply z_param in A3, A5. apply z_rpcend in A6. cbn [size_below r_request r_response r_options].
  unfold size_one at 1. cbn [own_texts r_name map]. rewrite sum_cons, sum_nil. unfold str_size. sz. cbn [tw lit List.length]. lia.
Qed.
Lemma Z_servicestmt : fitb (ServiceStmt perm junk).
Proof. intros cs il ts v [t o H|t o H|p]; [exact (lift _ _ Z_ooption _ _ _ _ H)|exact (lift _ _ Z_rpc _ _ _ _ H)|]. so. cbn [tw lit List.length]. lia. Qed.
Lemma Z_service cs il ts b : Service perm bic junk cs il ts b -> size_below (VService b) <= 3 * tw ts + nc ts.
Proof. intros [t1 p1 t2 name p2 t3 vs lc q A1 A2 A3 A4]. change (size_below (VService ?b)) with (size_below (VMessage b)). pose proof (Z_body _ Z_servicestmt _ _ _ _ _ A4). blk. lia. Qed.
Lemma Z_filestmt : fitb (FileStmt perm bic junk).
Proof.
  intros cs il ts v [t o H|t o H|t o H|t o H|t o H|t o H|t o H];
    [exact (lift _ _ Z_import _ _ _ _ H)|exact (lift _ _ Z_package _ _ _ _ H)|exact (lift _ _ Z_ooption _ _ _ _ H)|exact (Z_message _ _ _ _ H)|exact (Z_enum _ _ _ _ H)|exact (Z_service _ _ _ _ H)|exact (Z_extend _ _ _ _ H)].
Qed.
Lemma Z_filestmts ts vs tcs : FileStmts perm bic junk ts vs tcs -> sizel vs + List.length tcs <= 3 * tw ts + nc ts.
Proof.
  induction 1 as [cs|cs ts v x q il rest vs tcs A1 A2 A3 A4 A5 A6 IH|cs p rest vs tcs NC HR IH].
  - rewrite nc_coms. cbn. lia.
  - cbn [map]. rewrite sum_cons, !tw_app, tw_coms, !nc_app, nc_coms. pose proof (Z_filestmt _ _ _ _ A1). lia.
  - cbn [map]. rewrite !sum_cons, tw_app, tw_coms, nc_app. assert (N : nc (Tok (lit ";") p :: rest) = nc rest) by reflexivity. rewrite N. cbn [tw lit List.length]. cbn [size_below]. unfold size_one. cbn [own_texts map]. rewrite sum_nil. lia.
Qed.
(** the two measures of a file *)
Lemma Z_file fn its pr : File perm bic junk fn its pr -> ast_size pr <= 3 * tw its + nc its + 2 * cnt (comments_in its) comment_size.
Proof.
  intros HF. destruct (F_file _ _ _ _ _ _ HF) as [H1 H2]. specialize (H1 comment_size). unfold ct in H1.
  assert (H3 : cnt (held_proto true pr) comment_size <= 2 * cnt (held_proto false pr) comment_size).
  { unfold held_proto, held_head. destruct (p_syntax pr) as [s|] eqn:ES, (p_edition pr) as [e|] eqn:EE; rewrite ?cnt_app; try lia. rewrite (H2 s e eq_refl eq_refl).
    unfold e_all. cbn [e_comments e_inline e_inner]. rewrite !cnt_app. rewrite cnt_nil. lia. }
  unfold ast_size. fold (cnt (held_proto true pr) comment_size). enough (list_sum (map size_one (opt_list ESyntax (p_syntax pr) ++ opt_list EEdition (p_edition pr))) + sizel (p_body pr) <= 3 * tw its + nc its) by lia.
  clear H1 H2 H3. destruct HF as [tb cs ts sy te ed rest vs tcs HB N HS HE HR]. cbn [p_syntax p_edition p_body]. apply Z_filestmts in HR. pose proof (Z_trailing tcs).
  rewrite !map_app, !sum_app, !tw_app, !nc_app.
  assert (A : list_sum (map size_one (opt_list ESyntax sy)) <= 3 * tw ts) by (destruct HS as [r X|t s x q il r X1 L I]; cbn [opt_list map]; rewrite ?sum_cons, ?sum_nil; [lia|apply Z_syntax in X1; rewrite tw_app; lia]).
  assert (B : list_sum (map size_one (opt_list EEdition ed)) <= 3 * tw te) by (destruct HE as [r X|t s x q il r X1 L I]; cbn [opt_list map]; rewrite ?sum_cons, ?sum_nil; [lia|apply Z_edition in X1; rewrite tw_app; lia]).
  lia.
Qed.
End Bulk.

(** the items are not longer than the text *)
Lemma line_len x : is_line_comment x -> 2 <= len x. Proof. intros (b & -> & _). cbn. lia. Qed.
Lemma block_len x : is_block_comment x -> 2 <= len x. Proof. intros (b & -> & _). cbn. lia. Qed.
Lemma lay_len s p r its p' r' : Lay s p r its p' r' -> 3 * tw its + nc its + 2 * cnt (comments_in its) comment_size + 4 * len r' <= 4 * len r.
Proof.
  assert (C : forall x q ts, cnt (comments_in (Com x q :: ts)) comment_size = S (len x) + cnt (comments_in ts) comment_size) by reflexivity.
  assert (D : forall x q ts, nc (Com x q :: ts) = S (nc ts)) by reflexivity.
  assert (E : forall x q ts, nc (Tok x q :: ts) = nc ts /\ cnt (comments_in (Tok x q :: ts)) comment_size = cnt (comments_in ts) comment_size) by (split; reflexivity).
  induction 1 as [p r|p sp x r its p' r' H1 H2 H3 IH|p sp x r its p' r' H1 H2 H3 IH|p sp x H1 H2|p sp x r its p' r' H1 H2 H3 IH].
  - cbn. lia.
  - rewrite !app_length. cbn [tw]. destruct (E x (posafter p sp) its) as [-> ->]. lia.
  - rewrite C, D, !app_length. cbn [tw List.length]. apply line_len in H2. lia.
  - rewrite C, D, !app_length. cbn [tw List.length comments_in nc]. apply line_len in H2. unfold nc. cbn. lia.
  - rewrite C, D, !app_length. cbn [tw]. apply block_len in H2. lia.
Qed.
Theorem ast_linear opts input pr c : c = config_of opts -> readable input -> ordinary c input pr -> Parse opts input = Ok pr -> ast_size pr <= 4 * List.length input.
Proof.
  intros Ec RD OR HP. destruct (parse_sound _ _ _ _ Ec RD OR HP) as (its & (p' & sp & LY & _) & HF). apply Z_file in HF. apply lay_len in LY. lia.
Qed.
