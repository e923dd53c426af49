(** Texts one behind the other: the statements of both (C49). *)
From Coq Require Import List NArith ZArith Bool String Ascii Lia.
From Verif Require Import Base Token Scanner Lexing ScanRefine Ast Parser Api LexFacts LexSpec LexProofs ScanFacts ScanProps RefineFile SimSpec Tree Regular
  Grammar GramLex GramFile GramCase BareSpec AstMap Relay AttachDecl ConcatSpec Down DocCase.
Import ListNotations.
Open Scope N_scope.

(** ** Layouts one behind the other *)
Lemma token_more x r b : token_at true x r -> token_at true x (r ++ NL :: b).
Proof.
  destruct r as [|c r]; [|intros H; exact H]. intros [[A _]|[[A _]|[A|(c & -> & A & _)]]]; [left|right; left|right; right; left; exact A|right; right; right].
  - split; [exact A|]. intros H. apply ident_char_iff in H. discriminate H.
  - split; [exact A|]. split; [intros H; apply ident_char_iff in H; discriminate H|discriminate].
  - exists c. split; [reflexivity|]. split; [exact A|]. intros _ H. apply digit_iff in H. discriminate H.
Qed.
Lemma lay_spaces s sp : forall p r its, Spaces sp -> Layout s (posafter p sp) r its -> Layout s p (sp ++ r) its.
Proof.
  induction sp as [|c sp IH]; intros p r its S H; [exact H|]. inversion S as [|? ? SC S']; subst.
  destruct (IH (padv p c) r its S' H) as (p1 & sp1 & H1 & S1). exact (lay_space _ _ _ _ _ _ _ SC H1 S1).
Qed.
Lemma Lay_join p a its p' sp : Lay true p a its p' sp -> Spaces sp -> forall b its2, Layout true (posafter p (a ++ [NL])) b its2 ->
  Layout true p (a ++ NL :: b) (its ++ its2).
Proof.
  induction 1 as [p r|p s x r its p' r' S A H IH|p s x r its p' r' S A H IH|p s x S A|p s x r its p' r' S A H IH]; intros SP b its2 HB.
  - change (NL :: b) with ([NL] ++ b). rewrite app_assoc. apply lay_spaces; [|exact HB]. apply Forall_app. split; [exact SP|]. repeat constructor.
  - destruct (IH SP b its2) as (p1 & sp1 & H1 & S1); [rewrite <- posafter_app, <- !app_assoc in *; exact HB|]. exists p1, sp1. split; [|exact S1].
    rewrite <- !app_assoc. cbn [app]. constructor; auto. apply token_more. exact A.
  - destruct (IH SP b its2) as (p1 & sp1 & H1 & S1); [rewrite <- posafter_app, <- !app_assoc in *; exact HB|]. exists p1, sp1. split; [|exact S1].
    rewrite <- !app_assoc. cbn [app]. constructor; auto.
  - destruct HB as (p1 & sp1 & H1 & S1). exists p1, sp1. split; [|exact S1]. rewrite <- !app_assoc in *. cbn [app]. constructor; auto.
  - destruct (IH SP b its2) as (p1 & sp1 & H1 & S1); [rewrite <- posafter_app, <- !app_assoc in *; exact HB|]. exists p1, sp1. split; [|exact S1].
    rewrite <- !app_assoc. cbn [app]. constructor; auto.
Qed.
Definition iline (i : item) : Z := match i with Tok _ p | Com _ p => Line p end.
Lemma Lay_lines s p r its p' r' : Lay s p r its p' r' -> Forall (fun i => (Line p <= iline i <= Line (posafter p r))%Z) its.
Proof.
  induction 1 as [p r|p sp x r its p' r' S A H IH|p sp x r its p' r' S A H IH|p sp x S A|p sp x r its p' r' S A H IH].
  - constructor.
  - constructor; [cbn; rewrite posafter_app; split; apply posafter_line|]. eapply Forall_impl; [|exact IH]. cbn. intros i [H1 H2].
    rewrite <- posafter_app, <- app_assoc in H2. split; [|exact H2]. eapply Z.le_trans; [apply posafter_line|exact H1].
  - constructor; [cbn; rewrite posafter_app; split; apply posafter_line|]. eapply Forall_impl; [|exact IH]. cbn. intros i [H1 H2].
    rewrite <- posafter_app, <- !app_assoc in H2. split; [|exact H2]. eapply Z.le_trans; [apply posafter_line|exact H1].
  - constructor; [|constructor]. cbn. rewrite posafter_app. split; apply posafter_line.
  - constructor; [cbn; rewrite posafter_app; split; apply posafter_line|]. eapply Forall_impl; [|exact IH]. cbn. intros i [H1 H2].
    rewrite <- posafter_app, <- app_assoc in H2. split; [|exact H2]. eapply Z.le_trans; [apply posafter_line|exact H1].
Qed.

(** ** Statements one behind the other *)
Section Join.
Variables perm bic : bool.
Notation FileStmts := (FileStmts perm bic false).
Notation FileStmt := (FileStmt perm bic false).
Notation closed := (closed perm false).

Lemma T_tight a ts x p : T ts x p -> tight (a ++ ts).
Proof. intros (cs & ->). rewrite app_assoc. constructor. Qed.
Lemma Body_tight a drop S ts vs lc q : Body perm bic false drop S ts vs lc q -> tight (a ++ ts).
Proof. intros [t1 p1 l ts' vs' tcs t2 q' H1 IN HS NC [t p H|t p t' p' E H H'] D|t1 p1 l t2 q' D H1 IN [t p H|t p t' p' E H H']]; rewrite !app_assoc; eapply T_tight; eassumption. Qed.
Lemma FileStmt_tight cs il ts v : FileStmt cs il ts v -> tight ts.
Proof. intros [? ? []|? ? []|? ? []|? ? []|? ? []|? ? []|? ? []]; rewrite ?app_assoc; first [eapply T_tight; eassumption|eapply Body_tight; eassumption]. Qed.

(** the statements with other comments in front of the first *)
Definition fronted (vs vs' : list visitee) (tcs tcs' : list (str * mpos)) : Prop :=
  match vs with [] => vs' = [] | v :: l => (exists ks, vs' = with_leading ks v :: l) /\ tcs' = tcs end.
Lemma fronted_trans a b c x y z : fronted a b x y -> fronted b c y z -> fronted a c x z.
Proof.
  destruct a as [|v l]; [intros -> H; exact H|]. intros [(ks & ->) ->] [(ks' & ->) ->]. split; [|reflexivity]. exists ks'. f_equal. destruct v; reflexivity.
Qed.
Lemma leading_self v : exists ks, with_leading ks v = v.
Proof. destruct v as [| |x|x|x|x|x|x|x|x|x|x|x|x|x|x|x|x]; try (exists []; reflexivity); destruct x; eexists; reflexivity. Qed.
Lemma FileStmt_leading cs il ts v cs' : FileStmt cs il ts v -> FileStmt cs' il ts (with_leading cs' v).
Proof.
  intros [? ? []|? ? []|? ? []|? ? []|? ? []|? ? []|? ? []];
    [apply fs_import; eapply import_intro|apply fs_package; eapply package_intro|apply fs_option; eapply option_intro|apply fs_message; eapply message_intro|
     apply fs_enum; eapply enum_intro|apply fs_service; eapply service_intro|apply fs_extend; eapply extend_intro]; eassumption.
Qed.
(** comments in front *)
Lemma FileStmts_front ks ts vs tcs : FileStmts ts vs tcs -> exists vs' tcs', FileStmts (coms ks ++ ts) vs' tcs' /\ fronted vs vs' tcs tcs'.
Proof.
  assert (A : forall cs, coms ks ++ coms cs = coms (ks ++ cs)) by (intros; unfold coms; rewrite map_app; reflexivity).
  intros [cs|cs ts' v x q il rest vs' tcs' H N L I HC HR|cs p rest vs' tcs' NC HR].
  - exists [], (ks ++ cs). split; [|reflexivity]. rewrite A. constructor.
  - apply (FileStmt_leading _ _ _ _ (nodes (ks ++ cs))) in H.
    exists (with_leading (nodes (ks ++ cs)) v :: vs'), tcs'. rewrite app_assoc, A. split; [eapply fss_cons; eauto|]. split; [|reflexivity]. eexists. reflexivity.
  - eexists _, tcs'. rewrite app_assoc, A. split; [apply fss_empty; eauto|]. split; [|reflexivity]. exists []. reflexivity.
Qed.
(** the lines of the items in front end before those of the items behind *)
Section Two.
Variables (n : Z) (r2 : list item).
Hypothesis LO : Forall (fun i => (n < iline i)%Z) r2.
Lemma no_com_on_more l r : (l <= n)%Z -> no_com_on l r -> no_com_on l (r ++ r2).
Proof.
  intros L H. destruct r as [|[] r]; [|exact I|exact H]. cbn [app]. destruct r2 as [|[x p|x p] r']; [exact I|exact I|]. inversion LO as [|? ? A B]; subst. cbn in *. lia.
Qed.
Lemma inline_more l il r : (l <= n)%Z -> Inline l il r -> Inline l il (r ++ r2).
Proof. destruct il; [auto|]. apply no_com_on_more. Qed.
Lemma last_line ts x q : Forall (fun i => (iline i <= n)%Z) ts -> last_tok ts = Some (x, q) -> (Line q <= n)%Z.
Proof.
  induction 1 as [|[y p|y p] ts A B IH]; cbn [last_tok]; [discriminate| |exact IH]. destruct (last_tok ts) as [[]|]; [exact IH|]. injection 1 as <- <-. exact A.
Qed.
Lemma next_app a b : next_tok (a ++ b) = match next_tok a with Some x => Some x | None => next_tok b end.
Proof. rewrite !next_toks, toks_app. destruct (toks a); reflexivity. Qed.
Lemma closed_more ts r : (perm = false \/ next_tok r2 <> Some (lit ";")) -> closed ts r -> closed ts (r ++ r2).
Proof.
  intros J [H|[H|H]]; [left; exact H|right; left; exact H|]. destruct J as [J|J]; [right; left; exact J|]. right. right.
  destruct (last_tok ts) as [[x p]|]; [|exact I]. intros E. rewrite next_app. destruct (next_tok r) eqn:X; [exact (H E)|exact J].
Qed.
Lemma FileStmts_join vs2 tcs2 r1 vs1 tcs1 : (perm = false \/ next_tok r2 <> Some (lit ";")) -> FileStmts r2 vs2 tcs2 ->
  FileStmts r1 vs1 tcs1 -> Forall (fun i => (iline i <= n)%Z) r1 ->
  exists w tcs, FileStmts (r1 ++ r2) (vs1 ++ w) tcs /\ fronted vs2 w tcs2 tcs.
Proof.
  intros J H2. induction 1 as [cs|cs ts v x q il rest vs tcs H N L I HC HR IH|cs p rest vs tcs NC HR IH]; intros B.
  - destruct (FileStmts_front cs _ _ _ H2) as (w & tcs & H & E). exists w, tcs. split; assumption.
  - apply Forall_app in B. destruct B as [_ B]. apply Forall_app in B. destruct B as [Bt B]. apply Forall_app in B. destruct B as [_ B].
    destruct (IH B) as (w & tc & H' & E). exists w, tc. split; [|exact E]. rewrite <- !app_assoc. cbn [app].
    eapply fss_cons; eauto; [apply inline_more; [exact (last_line _ _ _ Bt L)|exact I]|apply closed_more; assumption].
  - apply Forall_app in B. destruct B as [_ B]. inversion B as [|? ? Bp B']; subst.
    destruct (IH B') as (w & tc & H' & E). exists w, tc. split; [|exact E]. rewrite <- app_assoc. cbn [app].
    apply fss_empty; [apply no_com_on_more; [exact Bp|exact NC]|exact H'].
Qed.
Lemma not_first_more l r : not_first r2 l -> not_first r l -> not_first (r ++ r2) l.
Proof. unfold not_first. rewrite next_app. destruct (next_tok r); auto. Qed.
End Two.

(** the items of a file without header and byte order mark *)
Lemma File_plain fn its pr : File perm bic false fn its pr -> p_syntax pr = None -> p_edition pr = None -> next_tok its <> Some [0xFEFF] ->
  exists cs rest vs tcs, its = coms cs ++ rest /\ no_com rest /\ not_first rest ["syntax"]%string /\ not_first rest ["edition"]%string /\ FileStmts rest vs tcs /\
    p_body pr = vs ++ trailing bic tcs /\ (vs = [] -> tcs = []).
Proof.
  intros [tb cs ts sy te ed rest vs tcs HB N HS HE HR] ES EE NB. cbn in ES, EE. subst sy ed. inversion HS; subst. inversion HE; subst.
  destruct HB as [|bs p]; [|exfalso; apply NB; rewrite next_toks, !toks_app, toks_coms; reflexivity].
  exists cs, rest, vs, tcs. repeat split; try assumption. intros ->. inversion HR as [c E1 E2 E3| |]. subst. destruct tcs; [reflexivity|destruct N].
Qed.
Lemma File_join fn n its1 pr1 its2 pr2 : File perm bic false fn its1 pr1 -> File perm bic false fn its2 pr2 ->
  p_syntax pr2 = None -> p_edition pr2 = None -> next_tok its2 <> Some [0xFEFF] -> (perm = false \/ next_tok its2 <> Some (lit ";")) ->
  Forall (fun i => (iline i <= n)%Z) its1 -> Forall (fun i => (n < iline i)%Z) its2 ->
  exists pr vs tcs w, File perm bic false fn (its1 ++ its2) pr /\ p_syntax pr = p_syntax pr1 /\ p_edition pr = p_edition pr1 /\
    p_body pr1 = vs ++ trailing bic tcs /\ p_body pr = vs ++ w /\
    match p_body pr2 with [] => exists ks, w = map VComment ks | v :: l => exists ks, w = with_leading ks v :: l end.
Proof.
  intros H1 H2 ES EE NB J B1 B2. destruct (File_plain _ _ _ H2 ES EE NB) as (cs2 & rest2 & vs2 & tcs2 & -> & N2 & NS & NE & HR2 & EB & ET).
  destruct H1 as [tb cs ts sy te ed rest vs tcs HB N HS HE HR]. cbn [p_syntax p_edition p_body].
  assert (CN : next_tok (coms cs2 ++ rest2) = next_tok rest2) by (rewrite !next_toks, toks_app, toks_coms; reflexivity).
  assert (A : forall ks, coms ks ++ coms cs2 = coms (ks ++ cs2)) by (intros; unfold coms; rewrite map_app; reflexivity).
  destruct (ts ++ te ++ rest) as [|i l] eqn:EM.
  - apply app_eq_nil in EM. destruct EM as [-> EM]. apply app_eq_nil in EM. destruct EM as [-> ->].
    assert (sy = None) by (inversion HS as [|t s x q il r HX LX IX E1 E2 E3]; [reflexivity|]; destruct t; [discriminate LX|discriminate E1]). subst sy.
    assert (ed = None) by (inversion HE as [|t s x q il r HX LX IX E1 E2 E3]; [reflexivity|]; destruct t; [discriminate LX|discriminate E1]). subst ed.
    assert (vs = [] /\ tcs = []) as [-> ->].
    { inversion HR as [c E1 E2 E3|c t v x q il r v' t' H N' L I' HC HR' E1 E2 E3|c p r v' t' NC HR' E1 E2 E3].
      - destruct tcs; [split; reflexivity|subst c; discriminate].
      - apply app_eq_nil in E1. destruct E1 as [_ E1]. apply app_eq_nil in E1. destruct E1 as [-> _]. discriminate L.
      - apply app_eq_nil in E1. destruct E1 as [_ E1]. discriminate E1. }
    exists (mkProto None None (vs2 ++ trailing bic tcs2) fn), [], [], (vs2 ++ trailing bic tcs2).
    split; [|split; [reflexivity|split; [reflexivity|split; [unfold trailing; destruct bic; reflexivity|split; [reflexivity|]]]]].
    2: { rewrite EB. destruct (vs2 ++ trailing bic tcs2) as [|v l]; [exists []; reflexivity|]. destruct (leading_self v) as (ks & E). exists ks. rewrite E. reflexivity. }
    rewrite app_nil_r, <- app_assoc, (app_assoc (coms cs)), A. change (tb ++ coms (cs ++ cs2) ++ rest2) with (tb ++ coms (cs ++ cs2) ++ [] ++ [] ++ rest2).
    apply file_intro; [exact HB|exact N2|constructor; exact NS|constructor; exact NE|exact HR2].
  - rewrite <- EM in N, B1 |- *. assert (EM' : ts ++ te ++ rest <> []) by (rewrite EM; discriminate). clear EM. rename EM' into EM.
    destruct (FileStmts_front cs2 _ _ _ HR2) as (v2 & tc2 & HR2' & E2).
    rewrite !Forall_app in B1. destruct B1 as (_ & _ & Bs & Be & Br).
    destruct (FileStmts_join n _ B2 v2 tc2 rest vs tcs J HR2' HR Br) as (w & tc & HJ & EW).
    exists (mkProto sy ed ((vs ++ w) ++ trailing bic tc) fn), vs, tcs, (w ++ trailing bic tc).
    split; [|split; [reflexivity|split; [reflexivity|split; [reflexivity|split; [cbn [p_body]; rewrite <- app_assoc; reflexivity|]]]]].
    2: { rewrite EB. pose proof (fronted_trans _ _ _ _ _ _ E2 EW) as F. destruct vs2 as [|v l2]; cbn [fronted app] in *.
      - subst w. rewrite (ET eq_refl). unfold trailing. destruct bic; [exists (nodes tc); reflexivity|exists []; reflexivity].
      - destruct F as [(ks & ->) ->]. exists ks. reflexivity. }
    rewrite <- !app_assoc in *. rewrite (app_assoc vs w). apply file_intro; [exact HB| | | |exact HJ].
    + clear - N EM. destruct ts as [|[] ts]; [|exact I|exact N]. destruct te as [|[] te]; [|exact I|exact N]. destruct rest as [|[] rest]; [|exact I|exact N]. exfalso. apply EM. reflexivity.
    + clear - HS B2 Bs NS CN. inversion HS as [r X|t s x q il r H L I]; subst.
      * constructor. rewrite app_assoc. apply not_first_more; [|exact X]. unfold not_first in *. rewrite CN. exact NS.
      * econstructor; [exact H|exact L|]. apply Forall_app in Bs. destruct Bs as [Bs _]. rewrite app_assoc. eapply inline_more; [exact B2|exact (last_line _ _ _ _ Bs L)|exact I].
    + clear - HE B2 Be NE CN. inversion HE as [r X|t s x q il r H L I]; subst.
      * constructor. apply not_first_more; [|exact X]. unfold not_first in *. rewrite CN. exact NE.
      * econstructor; [exact H|exact L|]. apply Forall_app in Be. destruct Be as [Be _]. eapply inline_more; [exact B2|exact (last_line _ _ _ _ Be L)|exact I].
Qed.
End Join.

(** ** The first token *)
Lemma Lay_gap s p r its p' r' : Lay s p r its p' r' -> forall x, next_tok its = Some x -> exists g cs t, Gap g cs /\ r = g ++ x ++ t.
Proof.
  induction 1 as [p r|p sp y r its p' r' S A H IH|p sp y r its p' r' S A H IH|p sp y S A|p sp y r its p' r' S A H IH]; intros x E; cbn [next_tok] in E; try discriminate.
  - injection E as <-. exists sp, [], r. split; [apply Gap_spaces; exact S|reflexivity].
  - destruct (IH _ E) as (g & cs & t & G & ->). exists (sp ++ (y ++ [NL]) ++ g). eexists _, t.
    split; [eapply Gap_app; [apply Gap_spaces; exact S|eapply Gap_app; [apply Gap_line1; exact A|exact G]]|]. rewrite <- !app_assoc. reflexivity.
  - destruct (IH _ E) as (g & cs & t & G & ->). exists (sp ++ y ++ g). eexists _, t.
    split; [eapply Gap_app; [apply Gap_spaces; exact S|eapply Gap_app; [apply Gap_block1; exact A|exact G]]|]. rewrite <- !app_assoc. reflexivity.
Qed.
Lemma T_next ts x p r : T ts x p -> next_tok (ts ++ r) = Some x.
Proof. intros (cs & ->). rewrite next_toks, !toks_app, toks_coms. reflexivity. Qed.
Lemma FileStmt_first perm bic cs il ts v r : FileStmt perm bic false cs il ts v -> next_tok (ts ++ r) <> Some (lit ";").
Proof. intros [? ? []|? ? []|? ? []|? ? []|? ? []|? ? []|? ? []]; rewrite <- !app_assoc; erewrite T_next by eassumption; discriminate. Qed.
Lemma FileStmts_semi perm bic ts vs tcs : FileStmts perm bic false ts vs tcs -> next_tok ts = Some (lit ";") -> exists e l, vs = VEmpty e :: l.
Proof.
  intros [cs|cs t v x q il rest vs' tcs' H N L I HC HR|cs p rest vs' tcs' NC HR] E; [| |eauto].
  - rewrite next_toks, toks_coms in E. discriminate.
  - exfalso. apply (FileStmt_first _ _ _ _ _ _ (icom il ++ rest) H). rewrite next_toks, toks_app, toks_coms in E. rewrite next_toks. exact E.
Qed.

(** ** The theorem *)
Theorem concat_texts opts c a b pr1 pr2 : c = config_of opts -> readable a -> readable b -> documented c a pr1 -> documented c b pr2 ->
  p_syntax pr2 = None -> p_edition pr2 = None -> ~ starts_with_bom b -> (cfg_permissive c = false \/ forall e l, p_body pr2 <> VEmpty e :: l) ->
  exists pr vs cs w, Parse opts a = Ok pr1 /\ Parse opts b = Ok pr2 /\ Parse opts (a ++ NL :: b) = Ok pr /\
    p_syntax pr = p_syntax pr1 /\ p_edition pr = p_edition pr1 /\
    p_body pr1 = vs ++ map VComment cs /\ p_body pr = vs ++ w /\ moved_below a (p_body pr2) w.
Proof.
  intros Ec RA RB (its1 & L1 & F1) (its2 & L2 & F2) ES EE NB J.
  assert (PA : Parse opts a = Ok pr1) by exact (parse_complete _ _ _ _ _ Ec RA L1 F1).
  assert (PB : Parse opts b = Ok pr2) by exact (parse_complete _ _ _ _ _ Ec RB L2 F2).
  set (fn := cfg_filename c) in *. set (P0 := mkPos fn 0 1 1) in *. set (P := posafter P0 (a ++ [NL])).
  set (o := (utf8_bytes a + 1)%Z). set (l := (newlines a + 1)%Z).
  assert (DB : forall p, below a p = down o l p) by (intros p; unfold below, down, o, l; f_equal; lia).
  assert (EP : P = down o l P0).
  { unfold P. rewrite posafter_app.
    change (posafter (posafter P0 a) [NL]) with (mkPos (Filename (posafter P0 a)) (Offset (posafter P0 a) + 1) (Line (posafter P0 a) + 1) 1).
    assert (VA : Forall valid_rune a) by (eapply Forall_impl; [|exact RA]; intros ? [X _]; exact X).
    unfold down. cbn [Filename Offset Line Column P0]. rewrite posafter_filename, posafter_line_eq, posafter_offset_lens, (lens_bytes _ VA). cbn [Filename Offset Line P0]. unfold o, l. f_equal; lia. }
  destruct L1 as (p1 & sp1 & L1 & S1). destruct L2 as (p2 & sp2 & L2 & S2).
  assert (NB2 : next_tok its2 <> Some [0xFEFF]).
  { intros E. destruct (Lay_gap _ _ _ _ _ _ L2 _ E) as (g & cs & t & G & EB). apply NB. exists g, cs, t. split; [exact G|exact EB]. }
  destruct (File_plain _ _ _ _ _ F2 ES EE NB2) as (k & r & v & t & EI & NC & NS & NE & HR & EB & _).
  assert (J2 : cfg_permissive c = false \/ next_tok its2 <> Some (lit ";")).
  { destruct J as [J|J]; [left; exact J|right]. intros E.
    rewrite EI, next_toks, toks_app, toks_coms in E. cbn [app] in E. rewrite <- next_toks in E. destruct (FileStmts_semi _ _ _ _ _ HR E) as (e & l' & EV).
    rewrite EB, EV in J. exact (J _ _ eq_refl). }
  pose proof (Lay_down o l _ _ _ _ _ _ L2) as LD. rewrite <- EP in LD.
  (* the items of b, moved down *)
  set (pr2' := mkProto None None (map_body (down o l) false (p_body pr2)) fn).
  assert (F2' : File (cfg_permissive c) (cfg_bodyIncludingComments c) false fn (map (idown o l) its2) pr2').
  { unfold pr2'. rewrite EB, map_body_app, trailing_down, EI.
    rewrite map_app, coms_down. change (coms (map (cdown o l) k) ++ map (idown o l) r) with ([] ++ coms (map (cdown o l) k) ++ [] ++ [] ++ map (idown o l) r).
    apply file_intro; [constructor|apply no_com_down; exact NC|constructor; unfold not_first; cbn [app]; rewrite next_down; exact NS|constructor; unfold not_first; rewrite next_down; exact NE|].
    apply D_filestmts. exact HR. }
  destruct (File_join _ _ fn (Line (posafter P0 a)) its1 pr1 (map (idown o l) its2) pr2' F1 F2' eq_refl eq_refl) as (pr & vs & tcs & w & HF & E1 & E2 & E3 & E4 & E5).
  - rewrite next_down. exact NB2.
  - rewrite next_down. exact J2.
  - eapply Forall_impl; [|exact (Lay_lines _ _ _ _ _ _ L1)]. cbn. intros i [_ X]. exact X.
  - eapply Forall_impl; [|exact (Lay_lines _ _ _ _ _ _ LD)]. cbn. intros i [X _]. unfold P in X. rewrite posafter_app in X. cbn [posafter fold_left] in X.
    change (Line (padv (posafter P0 a) NL)) with (Line (posafter P0 a) + 1)%Z in X. unfold posafter in *. lia.
  - exists pr, vs, (if cfg_bodyIncludingComments c then nodes tcs else []), w. split; [exact PA|]. split; [exact PB|]. split.
    + eapply parse_complete; [exact Ec| | |exact HF].
      * apply Forall_app. split; [exact RA|]. constructor; [split; [vm_compute; intuition discriminate|discriminate]|exact RB].
      * eapply Lay_join; [exact L1|exact S1|]. exists (down o l p2), sp2. split; [exact LD|exact S2].
    + split; [exact E1|]. split; [exact E2|]. split; [rewrite E3; unfold trailing; destruct (cfg_bodyIncludingComments c); reflexivity|]. split; [exact E4|].
      cbn [p_body pr2'] in E5. rewrite B_map in E5. unfold moved_below. destruct (p_body pr2) as [|v0 l0]; [exact E5|]. cbn [map] in E5. destruct E5 as (ks & ->). exists ks.
      assert (BE : below a = down o l -> with_leading ks (map_visitee (down o l) false v0) :: map (map_visitee (down o l) false) l0 =
        with_leading ks (map_visitee (below a) false v0) :: map (map_visitee (below a) false) l0) by (intros ->; reflexivity). apply BE.
      unfold below, down, o, l. reflexivity.
Qed.

(** ** Cases *)
Lemma concat_case : readable (lit case_text) /\ readable (lit doc_text) /\ documented (config_of []) (lit case_text) case_proto /\ documented (config_of []) (lit doc_text) doc_proto /\
  p_syntax doc_proto = None /\ p_edition doc_proto = None /\ ~ starts_with_bom (lit doc_text) /\ (forall e l, p_body doc_proto <> VEmpty e :: l) /\
  p_body doc_proto <> [] /\ p_body case_proto <> [].
Proof.
  split; [exact case_readable|]. split; [exact doc_readable|]. split; [exists case_items; split; [exact case_layout|apply case_file]|].
  split; [exists doc_items; split; [exact doc_layout|exact doc_file]|]. split; [reflexivity|]. split; [reflexivity|]. split; [|split; [discriminate|split; discriminate]].
  intros (g & cs & r & _ & E). assert (H : In BOM (lit doc_text)) by (rewrite E; apply in_or_app; right; left; reflexivity). revert H. vm_compute. intuition discriminate.
Qed.
(** permissive mode takes a semicolon behind a brace for the end of the block *)
Definition brace_text : string := "message M { string s = 1; }".
Lemma concat_semicolon : exists v pr, Parse [] (lit brace_text) = Ok pr /\ p_body pr = [v] /\
  Parse [] (lit ";") = Ok (mkProto None None [VEmpty (mkEmpty None); VNil] []) /\
  exists pr' v', Parse [] (lit brace_text ++ NL :: lit ";") = Ok pr' /\ p_body pr' = [v'].
Proof. do 2 eexists. split; [vm_compute; reflexivity|]. split; [reflexivity|]. split; [vm_compute; reflexivity|]. do 2 eexists. split; [vm_compute; reflexivity|reflexivity]. Qed.
