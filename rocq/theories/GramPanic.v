(** Texts of the grammar with a comment behind a semicolon at the top level make
    the parser panic. *)
From Coq Require Import List NArith ZArith Bool String Ascii Lia Sorted.
From Verif Require Import Base Token Scanner Lexer Lexing ScanRefine LexFacts LexSpec LexProofs ScanFacts ScanProps Ast Parser Api Cursor Pure
  Refine RefineFile Grammar GramLex GramRules GramNames GramValues GramStmts GramParts GramBodies GramMsg GramFile.
Import ListNotations.
Open Scope N_scope.
Open Scope pure_scope.

Definition PN {A} (q : PM A) (k : cur) : Prop := q k = PPanic.
Lemma PN_bind {A B} (q : PM A) (f : A -> PM B) k : CP q k (fun a k' => PN (f a) k') -> PN (pbind q f) k.
Proof. unfold CP, PN, pbind. destruct (q k); tauto. Qed.
Lemma PN_bind1 {A B} (q : PM A) (f : A -> PM B) k : PN q k -> PN (pbind q f) k.
Proof. unfold PN, pbind. intros ->. reflexivity. Qed.
Lemma PN_assoc2 {A B C} (q : PM A) (f : A -> PM B) (h : B -> PM C) k : PN (pbind (pbind q f) h) k -> PN (pbind q (fun a => pbind (f a) h)) k.
Proof. unfold PN, pbind. destruct (q k); auto. Qed.

Section Panic.
Variable p0 : mpos.
Variable all : list item.
Hypothesis SA : StronglySorted before all.
Variables perm bic : bool.
Notation At := (At p0 all).
Notation bk := (bk p0 all).
Notation after := (after p0 all).
Notation closed := (closed perm false).

Lemma filestmt_not_nil cs il ts v : FileStmt perm bic false cs il ts v -> v <> VNil.
Proof. intros []; discriminate. Qed.
Lemma Inline_more l c a b : a <> [] -> Inline l c a -> Inline l c (a ++ b).
Proof. destruct c; [auto|]. destruct a as [|[] a]; cbn; auto. congruence. Qed.
Lemma next_tok_more a b : (exists x p, In (Tok x p) a) -> next_tok (a ++ b) = next_tok a.
Proof. intros (x & p & I). induction a as [|[y q|y q] a IH]; [destruct I|reflexivity|]. cbn. apply IH. destruct I as [I|I]; [discriminate I|exact I]. Qed.
Lemma P_filestmts ts vs tcs : FileStmts perm bic false ts vs tcs -> forall tt p c R ws, ts = tt ++ [Tok (lit ";") p] -> vs = ws ++ [VEmpty (mkEmpty None); VNil] ->
  Line (snd c) = Line p -> forall n k acc, At k (ts ++ Com (fst c) (snd c) :: R) -> (len k < n)%nat -> PN (qProtoBody_loop p0 perm bic n acc) k.
Proof.
  intros HH tt p0' c R ws. revert tt ws. induction HH as [cs|cs ts v x q il rest vs tcs Hv NC LT IN CL HR IH|cs p rest vs tcs NO HR IH]; intros tt ws E1 E2 LC n k acc A L; (destruct n as [|n]; [lia|]); cbn [qProtoBody_loop].
  - destruct ws; discriminate E2.
  - assert (NE : rest <> [] /\ exists tt', rest = tt' ++ [Tok (lit ";") p0']).
    { destruct rest as [|i rest] using rev_ind.
      - exfalso. assert (vs = []). { inversion HR; subst; try reflexivity; match goal with H : _ = [] |- _ => apply app_eq_nil in H; destruct H as [_ H]; try discriminate H end.
          apply app_eq_nil in H. destruct H as [H _]. subst. cbn in *. discriminate. }
        subst vs. destruct ws as [|? ws]; [discriminate E2|]. injection E2 as _ E2. destruct ws; discriminate E2.
      - split; [intros X; apply app_eq_nil in X; destruct X; discriminate|]. exists rest. rewrite !app_assoc in E1. apply app_inj_tail in E1. destruct E1 as [_ ->]. reflexivity. }
    destruct NE as [NE (tt' & ER)].
    assert (EV : exists ws', vs = ws' ++ [VEmpty (mkEmpty None); VNil]).
    { destruct ws as [|w ws]; [|injection E2 as -> ->; eauto]. injection E2 as -> ->. exfalso. inversion HR; subst; try discriminate. eapply filestmt_not_nil; eauto. }
    destruct EV as (ws' & EV).
    rewrite <- !app_assoc in A.
    pose proof (filestmt_starts _ _ _ _ _ _ Hv) as (s & t & p & tl & E & HT & IS). apply PN_bind.
    eapply CP_comments; [exact SA|exact A|apply no_com_more; [rewrite E; eapply T_nonempty; exact HT|exact NC]|]. intros k1 A1 _ L1 _.
    assert (A1' : At k1 (t ++ tl ++ icom il ++ rest ++ Com (fst c) (snd c) :: R)) by (rewrite (app_assoc t), <- E; exact A1).
    assert (IDS : is_ident (lit s)). { apply identb_iff. cbn [In file_words] in IS. repeat (destruct IS as [<-|IS]; [reflexivity|]). destruct IS. }
    apply PN_bind, CP_peek. eapply CP_tok; [exact SA|reflexivity|exact A1'|exact HT|apply (hit_ident 0 _ IDS)|]. intros b w g k2 B _. cbn [tk kb].
    change (tok_eqb (identToken 0 (lit s)) TEOF) with false. cbv iota. rewrite (app_assoc t), <- E in B. pose proof (bk_len _ _ _ _ _ B) as LB. apply PN_bind.
    assert (TR : exists y r, In (Tok y r) rest) by (exists (lit ";"), p0'; rewrite ER; apply in_or_app; right; left; reflexivity).
    eapply CP_weak; [eapply (C_filestmt p0 all SA perm bic cs il ts v b _ n (fun r k' => exists v0, r = ([], v0) /\ after b ts (icom il ++ rest ++ Com (fst c) (snd c) :: R) k' /\ fin (inode il) v0 v)); [exact Hv|exact (At_bk _ _ _ _ _ B)| |lia|]|].
    + apply closed_icom. unfold Grammar.closed in *. rewrite next_tok_more by exact TR. exact CL.
    + intros v0 k' AF F. eauto.
    + cbn beta. intros t3 k3 D. apply PN_bind. eapply CP_weak; [exact D|]. cbn beta. intros r k4 (v0 & -> & (A4 & L4 & x4 & q4 & E4 & LL4) & F). cbn beta iota.
      rewrite LT in E4. injection E4 as <- <-. apply PN_bind. eapply (C_maybe p0 all SA set_inline v0 v); [exact A4|exact LL4|apply Inline_more; [exact NE|exact IN]|exact F|].
      intros k5 A5 L5. eapply IH; [exact ER|exact EV|exact LC|exact A5|lia].
  - rewrite <- app_assoc in A. cbn [app] in A. apply PN_bind. eapply CP_comments; [exact SA|exact A|exact I|]. intros k1 A1 _ L1 _. pose proof (Tsemi p) as HT. change (Tok (lit ";") p :: rest ++ Com (fst c) (snd c) :: R) with ([Tok (lit ";") p] ++ rest ++ Com (fst c) (snd c) :: R) in A1.
    apply PN_bind, CP_peek. ex HT. cbn [kb]. tk. pose proof (bk_len _ _ _ _ _ B) as LB. pose proof (At_bk _ _ _ _ _ B) as AB.
    apply PN_bind, CP_peek. ex HT. cbn [kb]. pose proof (bk_len _ _ _ _ _ B0) as LB0. pose proof (At_bk _ _ _ _ _ B0) as AB0. cbn [qProtoStmt].
    apply PN_bind, CP_bind. unfold qReadEmptyStatement. ex HT. tk. apply CP_ret, CP_ret. cbn beta iota.
    destruct rest as [|i rest'] eqn:ERR using rev_ind.
    + apply app_inj_tail in E1. destruct E1 as [_ E1]. injection E1 as ->. cbn [app] in A3. apply PN_bind1. unfold qMaybeInline. apply PN_bind.
      eapply (CP_inline p0 all SA k3 (Line p0') (Some c) R); [exact A3|rewrite LP1; reflexivity|exact LC|]. intros k' A' L' _. reflexivity.
    + clear IHrest'. apply PN_bind. eapply (C_maybe p0 all SA set_inline VNil VNil k3 None _ (Line p)); [exact A3|rewrite LP1; reflexivity|apply (Inline_more _ None); [intros X; apply app_eq_nil in X; destruct X; discriminate|exact NO]|reflexivity|].
      intros k5 A5 L5. rewrite app_comm_cons, app_assoc in E1. apply app_inj_tail in E1. destruct E1 as [_ ->].
      assert (EV : exists ws', vs = ws' ++ [VEmpty (mkEmpty None); VNil]).
      { destruct ws as [|w8 [|w9 ws]].
        - injection E2 as ->. exfalso. assert (EC : exists cs', coms cs' = rest' ++ [Tok (lit ";") p0']) by (inversion HR; eauto). clear - EC. destruct EC as (cs' & EC). destruct (rev cs') as [|y l] eqn:E.
          + apply (f_equal (@rev _)) in E. rewrite rev_involutive in E. subst cs'. cbn in EC. apply (f_equal (@List.length _)) in EC. rewrite app_length in EC. cbn in EC. lia.
          + apply (f_equal (@rev _)) in E. rewrite rev_involutive in E. subst cs'. cbn [rev] in EC. unfold coms in EC. rewrite map_app in EC. apply app_inj_tail in EC. destruct EC as [_ EC]. discriminate EC.
        - discriminate E2.
        - injection E2 as _ _ ->. eauto. }
      destruct EV as (ws' & EV). eapply IH; [reflexivity|exact EV|exact LC|exact A5|lia].
Qed.

Definition has_tok (a : list item) : Prop := exists x p, In (Tok x p) a.
Lemma has_tok_ne a : has_tok a -> a <> [].
Proof. intros (x & p & I) ->. destruct I. Qed.
Lemma has_tok_app a b : has_tok b -> has_tok (a ++ b).
Proof. intros (x & p & I). exists x, p. apply in_or_app. auto. Qed.
Lemma syntaxpart_more cs ts sy r b : has_tok r -> SyntaxPart false cs ts sy r -> SyntaxPart false cs ts sy (r ++ b).
Proof.
  intros HT H0. destruct H0 as [r' N|ts' s x q il r' H LT IN] in HT |- *.
  - constructor. unfold not_first in *. rewrite next_tok_more by exact HT. exact N.
  - econstructor; [exact H|exact LT|]. apply Inline_more; [apply has_tok_ne; exact HT|exact IN].
Qed.
Lemma editionpart_more cs ts sy r b : has_tok r -> EditionPart false cs ts sy r -> EditionPart false cs ts sy (r ++ b).
Proof.
  intros HT H0. destruct H0 as [r' N|ts' s x q il r' H LT IN] in HT |- *.
  - constructor. unfold not_first in *. rewrite next_tok_more by exact HT. exact N.
  - econstructor; [exact H|exact LT|]. apply Inline_more; [apply has_tok_ne; exact HT|exact IN].
Qed.
Lemma fstart_more a b : has_tok a -> fstart a -> fstart (a ++ b).
Proof. intros HT F x E. rewrite next_tok_more in E by exact HT. exact (F x E). Qed.

Lemma filestmts_tail ts vs tcs : FileStmts perm bic false ts vs tcs -> exists r', ts = r' ++ coms tcs.
Proof.
  induction 1 as [cs|cs ts v x q il rest vs tcs Hv NC LT IN CL HR [r' ->]|cs p rest vs tcs NO HR [r' ->]]; [exists []; reflexivity| |].
  - exists (coms cs ++ ts ++ icom il ++ r'). rewrite <- !app_assoc. reflexivity.
  - exists (coms cs ++ Tok (lit ";") p :: r'). rewrite <- !app_assoc. reflexivity.
Qed.
Lemma P_file fn ts pr k n p c R ws : File perm bic false fn (ts ++ [Tok (lit ";") p]) pr -> p_body pr = ws ++ [VEmpty (mkEmpty None); VNil] -> Filename p0 = fn ->
  Line (snd c) = Line p -> At k (ts ++ Tok (lit ";") p :: Com (fst c) (snd c) :: R) -> (len k < n)%nat -> PN (qParseProto p0 perm bic n) k.
Proof.
  remember (ts ++ [Tok (lit ";") p]) as its eqn:EI. intros HF EB FN LC A L.
  change (Tok (lit ";") p :: Com (fst c) (snd c) :: R) with ([Tok (lit ";") p] ++ Com (fst c) (snd c) :: R) in A. rewrite app_assoc, <- EI in A.
  destruct HF as [tb cs ts' sy te ed rest vs tcs HB NC HS HE HF]. unfold qParseProto. cbn [p_body] in EB.
  assert (TC : tcs = [] /\ vs = ws ++ [VEmpty (mkEmpty None); VNil] /\ exists tt, rest = tt ++ [Tok (lit ";") p]).
  { destruct (filestmts_tail _ _ _ HF) as (r' & ER).
    assert (tcs = []). { destruct tcs as [|y tcs _] using rev_ind; [reflexivity|]. exfalso. rewrite ER in EI. unfold coms in EI. rewrite !map_app in EI. cbn [map] in EI. rewrite !app_assoc in EI. apply app_inj_tail in EI. destruct EI as [_ EI]. discriminate EI. }
    subst tcs. split; [reflexivity|]. assert (EV : vs = ws ++ [VEmpty (mkEmpty None); VNil]). { unfold trailing in EB. destruct bic; cbn [map] in EB; rewrite app_nil_r in EB; exact EB. }
    split; [exact EV|]. destruct rest as [|i rest' _] using rev_ind.
    - exfalso. destruct vs as [|v vs]; [destruct ws; discriminate EV|]. inversion HF as [|cs1 ts1 v1 x1 q1 il1 rest1 vs1 tcs1 Hv NC1 LT1 IN1 CL1 HR1 EL|cs1 p1 rest1 vs1 tcs1 NO1 HR1 EL].
      + apply app_eq_nil in EL. destruct EL as [_ EL]. apply app_eq_nil in EL. destruct EL as [-> _]. discriminate LT1.
      + apply app_eq_nil in EL. destruct EL as [_ EL]. discriminate EL.
    - exists rest'. rewrite !app_assoc in EI. apply app_inj_tail in EI. destruct EI as [_ ->]. reflexivity. }
  destruct TC as (-> & EV & tt & ER). assert (HR : has_tok rest). { rewrite ER. apply has_tok_app. eexists _, _. left. reflexivity. }
  assert (HR2 : has_tok (te ++ rest)) by (apply has_tok_app; exact HR). assert (HR3 : has_tok (ts' ++ te ++ rest)) by (apply has_tok_app; exact HR2).
  pose proof (filestmts_start _ _ _ _ _ HF) as F1. pose proof (editionpart_start _ _ _ _ HE F1) as F2. pose proof (syntaxpart_start _ _ _ _ HS F2) as F3.
  apply (editionpart_more _ _ _ _ (Com (fst c) (snd c) :: R)) in HE; [|exact HR]. apply (syntaxpart_more _ _ _ _ (Com (fst c) (snd c) :: R)) in HS; [|exact HR2].
  apply (fstart_more _ (Com (fst c) (snd c) :: R)) in F1; [|exact HR]. apply (fstart_more _ (Com (fst c) (snd c) :: R)) in F2; [|exact HR2]. apply (fstart_more _ (Com (fst c) (snd c) :: R)) in F3; [|exact HR3].
  rewrite <- !app_assoc in *.
  apply PN_bind.
  assert (X : CP (qBOM p0) k (fun _ k' => At k' (coms cs ++ ts' ++ te ++ rest ++ Com (fst c) (snd c) :: R) /\ (len k' <= len k)%nat)).
  { unfold qBOM. destruct HB as [|c0 q0].
    - cbn [app] in A. apply CP_bind. eapply (CP_not p0 all SA 0xFEFF); [exact A|reflexivity|discriminate| |].
      { rewrite next_tok_coms. intros E. apply F3 in E. destruct E as [(c' & l & E & H & _)|E]; [injection E as <- _; apply ident_start_iff in H; discriminate|discriminate]. }
      intros t y q b w g k' B NT. cbn [tk]. unfold tok_eqb. destruct (token_eq_dec t TBOM) as [->|]; [destruct (NT eq_refl)|]. apply CP_back. cbn [kb].
      split; [exact (At_bk _ _ _ _ _ B)|rewrite (bk_len _ _ _ _ _ B); lia].
    - assert (HT : T (coms c0 ++ [Tok [0xFEFF] q0]) [0xFEFF] q0) by (exists c0; reflexivity). ex HT. tk. apply CP_ret. split; [assumption|lia]. }
  eapply CP_weak; [exact X|]. cbn beta. intros _ k1 [A1 L1]. apply PN_bind. eapply CP_comments; [exact SA|exact A1| |].
  { apply has_tok_ne in HR3. destruct (ts' ++ te ++ rest) as [|i l] eqn:EL; [congruence|]. rewrite (app_assoc te), (app_assoc ts'), EL. exact NC. }
  intros k2 A2 _ L2 _.
  apply PN_assoc2, PN_bind. eapply C_syntaxpart; [exact SA|exact HS|exact F2|exact A2|]. intros k3 A3 L3.
  apply PN_assoc2, PN_bind. eapply C_editionpart; [exact SA|exact HE|exact F1|exact A3|]. intros k4 A4 L4.
  apply PN_bind1. eapply P_filestmts; [exact HF|exact ER|exact EV|exact LC|exact A4|lia].
Qed.
End Panic.

Theorem panic_complete opts input its p x q R ws pr c : c = config_of opts -> readable input ->
  Layout true (pos0 (cfg_filename c)) input (its ++ Tok (lit ";") p :: Com x q :: R) -> Line q = Line p ->
  File (cfg_permissive c) (cfg_bodyIncludingComments c) false (cfg_filename c) (its ++ [Tok (lit ";") p]) pr ->
  p_body pr = ws ++ [VEmpty (mkEmpty None); VNil] -> Parse opts input = Panic.
Proof.
  intros Ec RD LY LQ HF EB. unfold Parse, parse_fuel. rewrite <- Ec. set (fn := cfg_filename c) in *. set (perm := cfg_permissive c) in *. set (bic := cfg_bodyIncludingComments c) in *.
  set (n := S (S (List.length input))).
  assert (V : Forall valid_rune input). { eapply Forall_impl; [|exact RD]. cbn beta. tauto. }
  assert (NN : nonul input). { clear - RD. unfold nonul. eapply Forall_impl; [|exact RD]. cbn beta. tauto. }
  destruct LY as (p' & sp & LY & SP). pose proof (lay_sorted _ _ _ _ _ _ LY V) as SA.
  pose proof (parse_refines perm bic n fn input NN) as R0.
  assert (C : PN (qParseProto (pos0 fn) perm bic n) (start input)).
  { eapply (P_file (pos0 fn) _ SA perm bic fn its pr _ _ p (x, q) R); [exact HF|exact EB|reflexivity|exact LQ| |cbn; lia].
    split; [exists p', sp; cbn [cc cr start]; auto|]. exists [], O. split; [reflexivity|]. split; [reflexivity|cbn; lia]. }
  unfold PN in C. rewrite C in R0. destruct R0 as (s' & ->). reflexivity.
Qed.
