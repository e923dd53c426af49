(** No comment is held twice (C50). *)
From Coq Require Import List NArith ZArith Bool String Ascii Lia Sorted.
From Verif Require Import Base Token Scanner Lexing ScanRefine Ast Parser Api LexSpec LexFacts LexProofs ScanFacts ScanProps RefineFile Tree SimSpec HeldSpec Regular
  Grammar GramLex Junk DeepText SndFile Refuted Direct.
Import ListNotations.
Open Scope nat_scope.

(** the sum of a measure of comments *)
Definition cnt (l : list comment) (z : comment -> nat) : nat := list_sum (map z l).
Lemma cnt_app a b z : cnt (a ++ b) z = cnt a z + cnt b z.
Proof. unfold cnt. rewrite map_app. apply list_sum_app. Qed.
Lemma cnt_nil z : cnt [] z = 0. Proof. reflexivity. Qed.
Definition one (c : option comment) : list comment := opt_list (fun c => c) c.
Definition ct (ts : list item) (z : comment -> nat) : nat := cnt (comments_in ts) z.
Lemma comments_app a b : comments_in (a ++ b) = comments_in a ++ comments_in b.
Proof. induction a as [|[] a IH]; cbn [app comments_in]; rewrite ?IH; reflexivity. Qed.
Lemma ct_app a b z : ct (a ++ b) z = ct a z + ct b z.
Proof. unfold ct. rewrite comments_app. apply cnt_app. Qed.
Lemma comments_coms cs : comments_in (coms cs) = nodes cs.
Proof. induction cs as [|[x p] cs IH]; [reflexivity|]. cbn. f_equal. exact IH. Qed.
Lemma ct_coms cs z : ct (coms cs) z = cnt (nodes cs) z. Proof. unfold ct. rewrite comments_coms. reflexivity. Qed.
Lemma ct_icom c z : ct (icom c) z = cnt (one (inode c)) z. Proof. destruct c as [[]|]; reflexivity. Qed.
Lemma ct_tok x p ts z : ct (Tok x p :: ts) z = ct ts z. Proof. reflexivity. Qed.
Lemma cnt_flat {A} (f : A -> list comment) x l z : cnt (flat_map f (x :: l)) z = cnt (f x) z + cnt (flat_map f l) z.
Proof. cbn [flat_map]. apply cnt_app. Qed.
Lemma flat_app {A} (f : A -> list comment) a b : flat_map f (a ++ b) = flat_map f a ++ flat_map f b.
Proof. apply flat_map_app. Qed.

Section Held.
Variables perm bic junk : bool.
(** an element holds no more than the comments it was given and those among its items *)
Definition fits {A} (h : A -> list comment) (P : list comment -> option comment -> list item -> A -> Prop) : Prop :=
  forall cs il ts x, P cs il ts x -> forall z, cnt (h x) z <= cnt cs z + cnt (one il) z + ct ts z.
Ltac leaf := intros; cbn [held e_all e_comments e_inline e_inner flat_map leaves app]; unfold e_all; cbn [e_comments e_inline e_inner op_comments op_inline sy_comments sy_inline ed_comments ed_inline
    im_comments im_inline pk_comments pk_inline f_comments f_inline mf_comments mf_inline oof_comments oof_inline ef_comments ef_inline rs_comments rs_inline em_inline opt_list];
  unfold one; rewrite ?app_nil_r, ?cnt_app; lia.
Lemma F_option : fits (fun o => e_all (EOption o)) (Option perm junk).
Proof. intros cs il ts x [] z. leaf. Qed.
Lemma F_ooption : fits (fun o => held (VOption o)) (Option perm junk).
Proof. intros cs il ts x [] z. leaf. Qed.
Lemma F_syntax : fits (fun s => e_all (ESyntax s)) (Syntax junk).
Proof. intros cs il ts x [] z. leaf. Qed.
Lemma F_edition : fits (fun s => e_all (EEdition s)) (Edition junk).
Proof. intros cs il ts x [] z. leaf. Qed.
Lemma F_import : fits (fun x => held (VImport x)) (Import junk).
Proof. intros cs il ts x [] z. leaf. Qed.
Lemma F_package : fits (fun x => held (VPackage x)) Package.
Proof. intros cs il ts x [] z. leaf. Qed.
Lemma F_field : fits (fun x => held (VField x)) (Field perm junk).
Proof. intros cs il ts x [] z. leaf. Qed.
Lemma F_map : fits (fun x => held (VMapField x)) (MapField perm junk).
Proof. intros cs il ts x [] z. leaf. Qed.
Lemma F_oneoffield : fits (fun x => e_all (EOneofField x)) (OneofField perm junk).
Proof. intros cs il ts x [] z. leaf. Qed.
Lemma F_reserved : fits (fun x => held (VReserved x)) (Reserved junk).
Proof. intros cs il ts x [] z; leaf. Qed.
Lemma F_enumfield : fits (fun x => held (VEnumField x)) (EnumField perm junk).
Proof. intros cs il ts x [] z. leaf. Qed.
Lemma F_empty : forall U il ts v, Empty junk U il ts v -> forall z, cnt (held v) z <= cnt (one il) z + ct ts z.
Proof. intros U il ts v [] z; leaf. Qed.

Lemma F_elems ts fs os : OneofElems perm junk ts fs os -> forall z, cnt (leaves EOneofField fs) z + cnt (leaves EOption os) z <= ct ts z.
Proof.
  revert ts fs os. apply (OneofElems_jnd perm junk (fun ts fs os => forall z, cnt (leaves EOneofField fs) z + cnt (leaves EOption os) z <= ct ts z)
    (fun ts fs os => forall z, cnt (leaves EOneofField fs) z + cnt (leaves EOption os) z <= ct ts z)); intros.
  - rewrite ct_app, ct_tok. specialize (H0 z). lia.
  - unfold leaves in *. rewrite cnt_flat, !ct_app, ct_coms, ct_icom. pose proof (F_option _ _ _ _ H z). specialize (H4 z). cbn beta in *. lia.
  - unfold leaves in *. rewrite cnt_flat, !ct_app, ct_coms, ct_icom. pose proof (F_oneoffield _ _ _ _ H z). specialize (H5 z). cbn beta in *. lia.
  - cbn. lia.
  - apply H0.
Qed.
Lemma F_oneof : fits (fun x => held (VOneof x)) (Oneof perm junk).
Proof.
  intros cs il ts x [] z. cbn [held]. unfold e_all. cbn [e_comments e_inline e_inner oo_comments oo_inline oo_inlineLC oo_fields oo_options].
  rewrite !cnt_app, !ct_app, ct_icom. match goal with H : OneofElems _ _ _ _ _ |- _ => pose proof (F_elems _ _ _ H z) end. unfold one. lia.
Qed.
Lemma F_declaration : fits (fun x => e_all (EDeclaration x)) (Declaration junk).
Proof.
  intros cs il ts x [] z. unfold e_all. cbn [e_comments e_inline e_inner d_comments d_inline d_inlineLC]. rewrite !cnt_app, !ct_app, ct_icom. unfold one. lia.
Qed.
Lemma last_some_cnt c1 c2 z : cnt (one (inode (last_some c1 c2))) z <= cnt (one (inode c1)) z + cnt (one (inode c2)) z.
Proof. destruct c2; cbn [last_some]; lia. Qed.
Lemma F_declarations fol ts ds : Declarations junk fol ts ds -> forall z, cnt (leaves EDeclaration ds) z <= ct ts z.
Proof.
  unfold leaves. induction 1; intros z; rewrite cnt_flat, !ct_app, ct_coms, !ct_icom; pose proof (F_declaration _ _ _ _ H z); pose proof (last_some_cnt c1 c2 z); cbn beta in *; [cbn [flat_map]; rewrite cnt_nil; lia|].
  specialize (IHDeclarations z). lia.
Qed.
Lemma F_extensions : fits (fun x => held (VExtensions x)) (Extensions junk).
Proof.
  intros cs il ts x [] z; cbn [held]; unfold e_all; cbn [e_comments e_inline e_inner xs_comments xs_inline xs_inlineLS xs_declarations].
  { cbn [leaves flat_map opt_list]. rewrite !cnt_app, !cnt_nil. unfold one. lia. }
  rewrite !cnt_app, !ct_app, ct_icom. match goal with H : Declarations _ _ _ _ |- _ => pose proof (F_declarations _ _ _ H z) end. unfold one. lia.
Qed.

Section Bodies.
Variables S : list comment -> option comment -> list item -> visitee -> Prop.
Hypothesis SS : fits held S.
Lemma F_trailing tcs z : cnt (flat_map held (trailing bic tcs)) z <= cnt (nodes tcs) z.
Proof.
  unfold trailing. destruct bic; [|cbn; lia]. induction (nodes tcs) as [|c l IH]; [cbn; lia|]. cbn [map]. rewrite cnt_flat. change (c :: l) with ([c] ++ l). rewrite (cnt_app [c]).
  cbn [held]. unfold e_all. cbn [e_comments e_inline e_inner opt_list app]. lia.
Qed.
Lemma F_stmts ts vs tcs : Stmts perm junk S ts vs tcs -> forall z, cnt (flat_map held vs) z + cnt (nodes tcs) z <= ct ts z.
Proof.
  induction 1 as [cs|cs ts v x q il rest vs tcs A1 A2 A3 A4 A5 A6 IH]; intros z.
  - rewrite ct_coms. cbn. lia.
  - rewrite cnt_flat, !ct_app, ct_coms, ct_icom. pose proof (SS _ _ _ _ A1 z). specialize (IH z). lia.
Defined.
Lemma F_body drop ts vs lc q : Body perm bic junk drop S ts vs lc q -> forall z, cnt (flat_map held vs) z + cnt (one lc) z <= ct ts z.
Proof.
  intros [t1 p1 lc' ts' vs' tcs t2 q' A1 A2 A3 A4 A5 A6|t1 p1 lc' t2 q' A1 A2 A3 A4] z.
  - rewrite flat_app, cnt_app, !ct_app, ct_icom. pose proof (F_stmts _ _ _ A3 z). pose proof (F_trailing tcs z). lia.
  - cbn. lia.
Defined.
End Bodies.
Lemma block_cnt name vs cs il lc m z : cnt (held (VMessage (mkBlock name vs cs il lc m))) z = cnt cs z + cnt (one il) z + cnt (one lc) z + cnt (flat_map held vs) z.
Proof. cbn [held b_body]. unfold e_all. cbn [e_comments e_inline e_inner b_comments b_inline b_inlineLC]. rewrite !cnt_app. unfold one. lia. Qed.
Lemma F_enumstmt : fits held (EnumStmt perm junk).
Proof.
  intros cs il ts v [t o H|t o H|t o H N|t o H] z; [exact (F_ooption _ _ _ _ H z)|exact (F_reserved _ _ _ _ H z)|exact (F_enumfield _ _ _ _ H z)|]. pose proof (F_empty _ _ _ _ H z). lia.
Qed.
Lemma F_enum : fits (fun b => held (VEnum b)) (Enum perm bic junk).
Proof. intros cs il ts v [t1 p1 t2 name p2 t3 vs lc q A1 A2 A3 A4] z. change (held (VEnum ?b)) with (held (VMessage b)). rewrite block_cnt, !ct_app. pose proof (F_body _ F_enumstmt _ _ _ _ _ A4 z). lia. Qed.
Lemma F_extendstmt : fits held (ExtendStmt perm junk).
Proof. intros cs il ts v [t o H|t o H] z; [exact (F_field _ _ _ _ H z)|]. pose proof (F_empty _ _ _ _ H z). lia. Qed.
Lemma F_extend : fits (fun b => held (VExtend b)) (Extend perm bic junk).
Proof. intros cs il ts v [t1 p1 t2 name p2 t3 vs lc q A1 A2 A4] z. change (held (VExtend ?b)) with (held (VMessage b)). rewrite block_cnt, !ct_app. pose proof (F_body _ F_extendstmt _ _ _ _ _ A4 z). lia. Qed.
Lemma F_messagestmt : fits held (MessageStmt perm bic junk).
Proof.
  unfold fits. fix IH 5. intros cs il ts v [ts' e H|t1 p1 t2 name p2 t3 vs lc q A1 A2 A3 A4|ts' x H|ts' x H|ts' m H|ts' x H|ts' r H|ts' x H|ts' x H N|
    t1 p1 rp rq op t2 t3 name p3 t4 t5 num p5 t6 vs lc q A1 A2 A3 A4 A5 A6 A7 A8 A9|ts' v' H] z.
  - exact (F_enum _ _ _ _ H z).
  - rewrite block_cnt, !ct_app. pose proof (F_body _ IH _ _ _ _ _ A4 z). lia.
  - exact (F_ooption _ _ _ _ H z).
  - exact (F_oneof _ _ _ _ H z).
  - exact (F_map _ _ _ _ H z).
  - exact (F_extend _ _ _ _ H z).
  - exact (F_reserved _ _ _ _ H z).
  - exact (F_extensions _ _ _ _ H z).
  - exact (F_field _ _ _ _ H z).
  - pose proof (F_body _ IH _ _ _ _ _ A9 z). rewrite !ct_app. cbn [held g_body]. unfold e_all. cbn [e_comments e_inline e_inner g_comments g_inline g_inlineLC]. rewrite !cnt_app. unfold one in *. lia.
  - pose proof (F_empty _ _ _ _ H z). lia.
Qed.
Lemma F_message : fits (fun b => held (VMessage b)) (Message perm bic junk).
Proof. intros cs il ts v [t1 p1 t2 name p2 t3 vs lc q A1 A2 A3 A4] z. rewrite block_cnt, !ct_app. pose proof (F_body _ F_messagestmt _ _ _ _ _ A4 z). lia. Qed.
Lemma F_rpcbody ts os : RPCBody perm junk ts os -> forall z, cnt (leaves EOption os) z <= ct ts z.
Proof.
  unfold leaves. induction 1; intros z; [cbn; lia| |rewrite ct_app; specialize (IHRPCBody z); lia]. rewrite cnt_flat, ct_app. pose proof (F_option _ _ _ _ H z). specialize (IHRPCBody z). cbn in *. lia.
Qed.
Lemma F_rpcend t1 t2 os lc q : RPCEnd perm junk t1 t2 os lc q -> forall z, cnt (leaves EOption os) z + cnt (one lc) z <= ct t2 z.
Proof. intros [ts p H|t p1 lc' ts os' t2' q' A1 A2 A3 A4] z; [cbn; lia|]. rewrite !ct_app, ct_icom. pose proof (F_rpcbody _ _ A3 z). lia. Qed.
Lemma F_rpc : fits (fun x => held (VRPC x)) (RPC perm junk).
Proof.
  intros cs il ts x [cs1 p1 t2 name p2 t3 rq t4 t5 rs t6 t7 os lc q A1 A2 A3 A4 A5 A6] z. pose proof (F_rpcend _ _ _ _ _ A6 z).
  cbn [held]. unfold e_all. cbn [e_comments e_inline e_inner r_comments r_inline r_inlineLC r_embedded r_options]. rewrite !cnt_app. fold (ct (t2 ++ t3 ++ t4 ++ t5 ++ t6) z). rewrite !ct_app. unfold one in *. lia.
Qed.
Lemma F_servicestmt : fits held (ServiceStmt perm junk).
Proof. intros cs il ts v [t o H|t o H|p] z; [exact (F_ooption _ _ _ _ H z)|exact (F_rpc _ _ _ _ H z)|leaf]. Qed.
Lemma F_service : fits (fun b => held (VService b)) (Service perm bic junk).
Proof. intros cs il ts v [t1 p1 t2 name p2 t3 vs lc q A1 A2 A3 A4] z. change (held (VService ?b)) with (held (VMessage b)). rewrite block_cnt, !ct_app. pose proof (F_body _ F_servicestmt _ _ _ _ _ A4 z). lia. Qed.
Lemma F_filestmt : fits held (FileStmt perm bic junk).
Proof.
  intros cs il ts v [t o H|t o H|t o H|t o H|t o H|t o H|t o H] z;
    [exact (F_import _ _ _ _ H z)|exact (F_package _ _ _ _ H z)|exact (F_ooption _ _ _ _ H z)|exact (F_message _ _ _ _ H z)|exact (F_enum _ _ _ _ H z)|exact (F_service _ _ _ _ H z)|exact (F_extend _ _ _ _ H z)].
Qed.
Lemma F_filestmts ts vs tcs : FileStmts perm bic junk ts vs tcs -> forall z, cnt (flat_map held vs) z + cnt (nodes tcs) z <= ct ts z.
Proof.
  induction 1 as [cs|cs ts v x q il rest vs tcs A1 A2 A3 A4 A5 A6 IH|cs p rest vs tcs NC HR IH]; intros z.
  - rewrite ct_coms. cbn. lia.
  - rewrite cnt_flat, !ct_app, ct_coms, ct_icom. pose proof (F_filestmt _ _ _ _ A1 z). specialize (IH z). lia.
  - rewrite !cnt_flat, ct_app, ct_tok. specialize (IH z). cbn [held e_all e_comments e_inline e_inner em_inline opt_list app]. unfold e_all. cbn [e_comments e_inline e_inner em_inline opt_list app]. rewrite !cnt_nil. lia.
Qed.
Lemma F_file fn its pr : File perm bic junk fn its pr -> (forall z, cnt (held_proto false pr) z <= ct its z) /\
  (forall s e, p_syntax pr = Some s -> p_edition pr = Some e -> ed_comments e = sy_comments s).
Proof.
  intros [tb cs ts sy te ed rest vs tcs HB N HS HE HR]. split.
  - intros z. unfold held_proto. cbn [p_body]. rewrite cnt_app, flat_app, cnt_app, !ct_app, ct_coms. pose proof (F_filestmts _ _ _ HR z). pose proof (F_trailing tcs z).
    enough (cnt (held_head false (mkProto sy ed (vs ++ trailing bic tcs) fn)) z <= cnt (nodes cs) z + ct ts z + ct te z) by lia.
    unfold held_head. cbn [p_syntax p_edition].
    destruct HS as [r X|t s x q il r H1 L I]; destruct HE as [r' X'|t' e x' q' il' r' H1' L' I'].
    + cbn. lia.
    + pose proof (F_edition _ _ _ _ H1' z). rewrite ct_app, ct_icom. cbn beta in *. lia.
    + pose proof (F_syntax _ _ _ _ H1 z). rewrite ct_app, ct_icom. cbn beta in *. lia.
    + pose proof (F_syntax _ _ _ _ H1 z). rewrite !ct_app, !ct_icom, !cnt_app, cnt_nil. destruct H1'. cbn [ed_inline]. unfold one in *. cbn beta in *. lia.
  - intros s e ES EE. cbn in ES, EE. subst. inversion HS as [|t s' x q il r H1 L I]; subst. inversion HE as [|t' e' x' q' il' r' H1' L' I']; subst. inversion H1; subst. inversion H1'; subst. reflexivity.
Qed.
End Held.

(** the comments of a text start at different places *)
Lemma starts_nodup its : Sized its -> NoDup (map c_start (comments_in its)).
Proof.
  intros [S F]. induction S as [|i its S IH A]; [constructor|]. inversion F as [|? ? F1 F2]; subst. specialize (IH F2). destruct i as [x p|x p]; cbn [comments_in]; [exact IH|].
  cbn [map]. constructor; [|exact IH]. intros H. apply in_map_iff in H. destruct H as (c & E & H).
  assert (X : exists y q, c = node (y, q) /\ In (Com y q) its).
  { clear - H. induction its as [|[y q|y q] its IH]; cbn [comments_in] in H; [destruct H|destruct (IH H) as (y' & q' & E & I); exists y', q'; split; [exact E|right; exact I]|].
    destruct H as [<-|H]; [exists y, q; split; [reflexivity|left; reflexivity]|]. destruct (IH H) as (y' & q' & E & I). exists y', q'. split; [exact E|right; exact I]. }
  destruct X as (y & q & -> & HI). rewrite Forall_forall in A. specialize (A _ HI). pose proof (item_size _ F1) as Z1.
  unfold apart in A. cbn [ipos] in *. unfold c_start, node in E. cbn [c_meta Pos fst snd] in E. lia.
Qed.
Definition starts_at (z : Z) (c : comment) : nat := if Z.eq_dec (c_start c) z then 1 else 0.
Lemma cnt_starts l z : count_occ Z.eq_dec (map c_start l) z = cnt l (starts_at z).
Proof. unfold cnt. induction l as [|c l IH]; [reflexivity|]. cbn [map count_occ list_sum fold_right]. unfold list_sum in IH. rewrite <- IH. unfold starts_at. destruct (Z.eq_dec (c_start c) z); reflexivity. Qed.
Lemma count_nodup l l' : (forall z, count_occ Z.eq_dec l z <= count_occ Z.eq_dec l' z) -> NoDup l' -> NoDup l.
Proof. intros H N. apply (NoDup_count_occ Z.eq_dec). intros z. rewrite (NoDup_count_occ Z.eq_dec) in N. specialize (N z). specialize (H z). lia. Qed.

Theorem held_once opts input pr c : c = config_of opts -> readable input -> ordinary c input pr -> Parse opts input = Ok pr ->
  NoDup (map c_start (held_proto false pr)) /\ (forall s e, p_syntax pr = Some s -> p_edition pr = Some e -> ed_comments e = sy_comments s).
Proof.
  intros Ec RD OR HP. destruct (parse_sound _ _ _ _ Ec RD OR HP) as (its & LY & HF). destruct (F_file _ _ _ _ _ _ HF) as [H1 H2]. split; [|exact H2].
  assert (VA : Forall valid_rune input) by (eapply Forall_impl; [|exact RD]; intros ? [X _]; exact X).
  destruct (layout_sized _ _ _ _ LY VA) as [SZ _]. refine (count_nodup _ _ _ (starts_nodup _ SZ)). intros z. rewrite !cnt_starts. apply H1.
Qed.

(** ** What [held_proto] lists: the comments of the elements *)
Definition whole (e : elem) : list comment :=
  match e with EStmt v => held v | _ => e_all e end.
Lemma whole_here e c : In c (e_all e) -> In c (whole e).
Proof. destruct e; cbn [whole]; auto. intros H. destruct v; cbn [held]; apply in_or_app; left; exact H. Qed.
Lemma in_leaves {A} (f : A -> elem) l x c : In x l -> In c (e_all (f x)) -> In c (leaves f l).
Proof. intros I H. apply in_flat_map. exists x. split; assumption. Qed.
Lemma whole_child e l e' c : In l (children e) -> In e' l -> In c (whole e') -> In c (whole e).
Proof.
  intros H1 H2 H3. destruct e as [| |v| | | |]; try destruct H1.
  destruct v as [| | | | | | | | | | | | | | | | |]; cbn [children] in H1; cbn [whole held]; try (destruct H1; fail); apply in_or_app; right;
    try (destruct H1 as [<-|[]]; apply in_map_iff in H2; destruct H2 as (w & <- & HI); try (apply in_flat_map; exists w; split; assumption); exact (in_leaves _ _ _ _ HI H3)).
  all: try (destruct H1 as [<-|[<-|[]]]; apply in_map_iff in H2; destruct H2 as (w & <- & HI); apply in_or_app; [left|right]; exact (in_leaves _ _ _ _ HI H3)).
  - destruct H1 as [<-|[]]. destruct H2 as [<-|[<-|H2]]; [destruct H3|destruct H3|]. apply in_map_iff in H2. destruct H2 as (w & <- & HI). exact (in_leaves _ _ _ _ HI H3).
Qed.
Lemma root_held p e c : In e (roots p) -> In c (whole e) -> In c (held_proto true p).
Proof.
  unfold roots, held_proto, held_head. intros H1 H2. destruct (p_syntax p), (p_edition p); cbn [opt_list app] in H1;
  repeat match type of H1 with _ \/ _ => destruct H1 as [<-|H1] | In _ (_ :: _) => destruct H1 as [<-|H1] end;
  try (apply in_map_iff in H1; destruct H1 as (v & <- & HI); apply in_or_app; right; apply in_flat_map; exists v; split; assumption);
  apply in_or_app; left; cbn [whole] in H2; rewrite ?in_app_iff; try tauto.
  unfold e_all in H2. cbn [e_comments e_inline e_inner] in H2. rewrite app_nil_r, in_app_iff in H2. tauto.
Qed.
Inductive under (e : elem) : elem -> Prop :=
| un_here : under e e
| un_child e1 l e' : under e e1 -> In l (children e1) -> In e' l -> under e e'.
Lemma under_element p e e' : element p e -> under e e' -> element p e'.
Proof. intros H. induction 1; [exact H|]. eapply el_child; eassumption. Qed.
Lemma under_step e l e1 e' : In l (children e) -> In e1 l -> under e1 e' -> under e e'.
Proof. intros H1 H2. induction 1; [eapply un_child; [apply un_here|exact H1|exact H2]|eapply un_child; eassumption]. Qed.
Lemma leaves_under e {A} (f : A -> elem) l c : In (map f l) (children e) -> In c (leaves f l) -> exists e', under e e' /\ In c (e_all e').
Proof.
  intros H1 H. apply in_flat_map in H. destruct H as (x & HI & HC). exists (f x). split; [|exact HC]. eapply under_step; [exact H1|apply in_map; exact HI|apply un_here].
Qed.
Lemma bodies_under e (b : list visitee) c : (forall v, In v b -> In c (held v) -> exists e', under (EStmt v) e' /\ In c (e_all e')) -> In (map EStmt b) (children e) ->
  In c (flat_map held b) -> exists e', under e e' /\ In c (e_all e').
Proof.
  intros IH H1 H. apply in_flat_map in H. destruct H as (v & HI & HC). destruct (IH v HI HC) as (e' & U & HE). exists e'. split; [|exact HE].
  eapply under_step; [exact H1|apply in_map; exact HI|exact U].
Qed.
Lemma held_under c : forall v, In c (held v) -> exists e', under (EStmt v) e' /\ In c (e_all e').
Proof.
  intros v. induction v as [v IH] using visitee_nested. rewrite Forall_forall in IH. intros H.
  destruct v; cbn [held] in H; apply in_app_or in H; destruct H as [H|H];
    try (match goal with |- exists e', under ?e e' /\ _ => exists e; split; [apply un_here|exact H] end); try (destruct H; fail); cbn [body_of] in IH.
  all: try (eapply bodies_under; [exact IH|left; reflexivity|exact H]).
  - apply in_app_or in H. destruct H as [H|H]; (eapply leaves_under; [|exact H]); cbn [children]; auto using in_eq, in_cons.
  - apply in_flat_map in H. destruct H as (x & HI & HC). exists (EOption x). split; [|exact HC].
    eapply under_step; [left; reflexivity|right; right; apply in_map; exact HI|apply un_here].
  - eapply leaves_under; [|exact H]. left. reflexivity.
Qed.
Theorem held_elements pr c : In c (held_proto true pr) <-> exists e, element pr e /\ In c (e_all e).
Proof.
  split.
  - unfold held_proto, held_head. intros H. apply in_app_or in H. destruct H as [H|H].
    + assert (S : forall s, p_syntax pr = Some s -> element pr (ESyntax s)) by (intros s E; apply el_root; unfold roots; rewrite E; left; reflexivity).
      assert (D : forall s, p_edition pr = Some s -> element pr (EEdition s)) by (intros s E; apply el_root; unfold roots; rewrite E; apply in_or_app; right; left; reflexivity).
      destruct (p_syntax pr) as [s|], (p_edition pr) as [e|].
      * apply in_app_or in H. destruct H as [H|H]; [exists (ESyntax s); auto|]. exists (EEdition e). split; [auto|]. unfold e_all. cbn [e_comments e_inline e_inner]. rewrite app_nil_r. exact H.
      * exists (ESyntax s). auto.
      * exists (EEdition e). auto.
      * destruct H.
    + apply in_flat_map in H. destruct H as (v & HI & HC). destruct (held_under _ _ HC) as (e & U & HE). exists e. split; [|exact HE].
      refine (under_element _ _ _ _ U). apply el_root. unfold roots. rewrite !in_app_iff. right. right. apply in_map. exact HI.
  - intros (e & H & HC). assert (W : forall c, In c (whole e) -> In c (held_proto true pr)).
    { clear HC c. induction H as [e HI|e l e' HE IH H1 H2]; intros c HW; [exact (root_held _ _ _ HI HW)|]. apply IH. exact (whole_child _ _ _ _ H1 H2 HW). }
    apply W, whole_here, HC.
Qed.
