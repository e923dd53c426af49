(** White space in front of a text: the two runs. *)
From Coq Require Import List NArith ZArith Bool String Ascii Lia.
From Verif Require Import Base Token Scanner Lexer Ast Parser Api AstMap Simul Lexing ScanRefine LexFacts LexSpec ScanFacts LexProofs LexerFacts SimSpec SimCases FuelMono Bom Bound BlankScan Blank BlankSpec.
Import ListNotations.
Open Scope N_scope.
Open Scope monad_scope.

Section Runs.
Variables (w : list rune) (k : Z) (fn : str).
Hypothesis HW : Spaces w.
Hypothesis HK : (1 < k)%Z \/ k = 1%Z /\ whole_lines w.
Notation dl := (newlines w).
Notation dz := (utf8_bytes w).
Definition kf (q : mpos) : mpos := columns_from (k + dl) (pushed w q).
Definition kg : mpos -> mpos := columns_from (k + dl).
Notation KPE := (PE kf kg).
Lemma kpe p p' : KPE p p' <-> Filename p' = Filename p /\ Offset p' = (Offset p + dz)%Z /\ Line p' = (Line p + dl)%Z /\ ((k <= Line p)%Z -> Column p' = Column p).
Proof.
  unfold PE, kf, kg, columns_from, pushed. cbn. split.
  - intros H. injection H as H1 H2 H3 H4. repeat split; auto. intros L. rewrite H3 in H4. rewrite (proj2 (Z.leb_le _ _) (Zplus_le_compat_r _ _ dl L)) in H4. exact H4.
  - intros (-> & -> & -> & H). f_equal. destruct (Z.leb_spec (k + dl) (Line p + dl)); [|reflexivity]. apply H. lia.
Qed.
Definition KCR (c c' : colmap) : Prop := forall l, (k <= l)%Z -> col_get c' (l + dl) = col_get c l.
Lemma k_line p p' q q' : KPE p p' -> KPE q q' -> (Line p' =? Line q')%Z = (Line p =? Line q)%Z.
Proof. intros H K. apply kpe in H, K. destruct H as (_ & _ & -> & _), K as (_ & _ & -> & _). destruct (Z.eqb_spec (Line p) (Line q)); [apply Z.eqb_eq|apply Z.eqb_neq]; lia. Qed.
Lemma k_off p p' : KPE p p' -> Offset p' = (Offset p + dz)%Z. Proof. intros H. apply kpe in H. tauto. Qed.
Lemma k_name p p' : KPE p p' -> Filename p' = Filename p. Proof. intros H. apply kpe in H. tauto. Qed.
Lemma k_adv a a' r : PCR kf kg KCR a a' -> PCR kf kg KCR (Advance a r) (Advance a' r).
Proof.
  destruct a as [p c], a' as [p' c']. intros [H C]. cbn in H, C. apply kpe in H. destruct H as (H1 & H2 & H3 & H4). unfold Advance. destruct (r =? NL); split; cbn; try (apply kpe; cbn; repeat split; try assumption; lia).
  - intros l L. cbn. rewrite H3. destruct (Z.eqb_spec l (Line p)) as [->|N].
    + rewrite Z.eqb_refl. apply H4, L.
    + destruct (Z.eqb_spec (l + dl) (Line p + dl)); [lia|]. apply C, L.
  - exact C.
Qed.
Lemma k_rev a a' r : PCR kf kg KCR a a' -> PCR kf kg KCR (Revert a r) (Revert a' r).
Proof.
  destruct a as [p c], a' as [p' c']. intros [H C]. cbn in H, C. apply kpe in H. destruct H as (H1 & H2 & H3 & H4). unfold Revert. destruct (r =? NL); split; cbn; try exact C; apply kpe; cbn; repeat split; try assumption; try lia.
  intros L. rewrite H3. replace (Line p + dl - 1)%Z with (Line p - 1 + dl)%Z by lia. apply C, L.
Qed.
Local Arguments map_body : simpl never.
Lemma k_bic bic l l' : map (map_comment kg) l' = map (map_comment kf) l -> map_body kg false (body_comments bic l') = map_body kf false (body_comments bic l).
Proof.
  destruct bic; [|reflexivity]. cbn. revert l'. induction l as [|a l IH]; intros [|a' l'] H; try discriminate H; [reflexivity|]. cbn [map] in *. pose proof (f_equal (hd (map_comment kg a)) H) as E1. pose proof (f_equal (@tl _) H) as E2. cbn [hd tl] in E1, E2. clear H.
  unfold map_body in *. cbn [map filter dropped negb map_visitee]. f_equal; [|apply IH; exact E2]. f_equal. exact E1.
Qed.
Notation KUC := (UC kf kg).
Notation KSR := (SR kf kg KCR KUC (LP kf kg)).
Definition k_snoc := UC_snoc kf kg dz k_off.
Ltac khyp := first [exact k_line|exact k_off|exact k_name|exact k_adv|exact k_rev|exact (k_bic _)|exact k_snoc|exact (fun _ _ h => h)].
Ltac rel L := eapply L; try khyp.

Lemma spaces_valid : Forall valid_rune w.
Proof. eapply Forall_impl; [|exact HW]. intros c H. cbn in H. unfold isSpace in H. unfold valid_rune. repeat (apply orb_prop in H; destruct H as [H|H]); try (apply andb_prop in H; destruct H as [H H']; apply N.leb_le in H; apply N.leb_le in H'); try apply N.eqb_eq in H; lia. Qed.
Definition p0 : mpos := mkPos fn 0 1 1.
Lemma p0_push : KPE p0 (posafter p0 w).
Proof.
  apply kpe. rewrite posafter_filename, posafter_offset_lens, posafter_line_eq. rewrite (lens_bytes _ spaces_valid). repeat split. cbn. intros L.
  destruct HK as [H|[-> [->|[v ->]]]]; [lia|reflexivity|]. rewrite posafter_app. reflexivity.
Qed.
Lemma k_pos : (1 <= k)%Z. Proof. destruct HK as [H|[-> _]]; lia. Qed.

(** ** The white space is not read yet *)
Record PD0 (s s' : st) : Prop := mkPD0 {
  pd_rest : rest s' = w ++ rest s; pd_nonul : nonul (rest s); pd_pos : pos s = p0; pd_pos' : pos s' = p0;
  pd_cols : KCR (cols s) (cols s'); pd_mode : mode s' = mode s; pd_com : KUC (comments s) (comments s') }.
Definition PD (s s' : st) : Prop := PD0 s s' /\ mode s = 0 /\ lpos s = p0 /\ lpos s' = p0.
(** the state behind the white space *)
Definition sk (s s' : st) (cl : colmap) (lp : mpos) : st :=
  mkSt (rest s) (raw s) (posafter p0 w) cl (mode s) (comments s') (ltok s) (ltext s) (lraw s) lp (scanErr s').
Definition nx (o : option smode) : M unit := match o with None => Next | Some m => nextWithSpecificMode m end.

Lemma spaces_nonul r : nonul r -> nonul (w ++ r).
Proof. intros N. apply nonul_app. split; [|exact N]. eapply Forall_impl; [|exact HW]. intros c H. cbn in H. intros ->. discriminate H. Qed.
Lemma unnext_mode m t u : UnNext t = (Ok tt, u) -> UnNext (set_mode m t) = (Ok tt, set_mode m u).
Proof.
  unfold UnNext, modify, UnScan. intros H. injection H as <-. cbn [raw set_mode]. f_equal.
  enough (E : forall l s, fold_left (fun s c => unread c s) l (set_mode m s) = set_mode m (fold_left (fun s c => unread c s) l s)) by (cbv zeta; rewrite E; reflexivity).
  induction l as [|c l IH]; intros s; [reflexivity|]. cbn [fold_left]. rewrite <- IH. reflexivity.
Qed.
Lemma pd_next s s' : PD0 s s' -> exists cl, forall lp, exists t tk u u', Next s = (Ok tt, t) /\ Next s' = (Ok tt, wide w tk) /\ Next (sk s s' cl lp) = (Ok tt, tk) /\
  (forall LR : _ -> _ -> Prop, LR (regs s) (regs (sk s s' cl lp)) -> SR kf kg KCR KUC LR s (sk s s' cl lp)) /\ KSR t tk /\ nonul (rest t) /\ mode t = mode s /\
  UnNext t = (Ok tt, u) /\ UnNext (wide w tk) = (Ok tt, u') /\ PD0 u u' /\ mode u = mode s /\ lpos u = p0 /\ lpos u' = p0 /\ (List.length (rest t) <= List.length (rest s))%nat.
Proof.
  intros [R N P P' C MO CM]. destruct (next_skips w s' (rest s) R HW) as (cl & C1 & NS). exists cl. intros lp.
  assert (SS : forall LR : _ -> _ -> Prop, LR (regs s) (regs (sk s s' cl lp)) -> SR kf kg KCR KUC LR s (sk s s' cl lp)).
  { intros LR HL. split; cbn [rest raw pos cols mode comments sk]; try reflexivity; try assumption.
    - rewrite P. apply p0_push.
    - intros l L. rewrite C1; [apply C, L|]. rewrite P', posafter_line_eq. cbn [p0 Line]. pose proof k_pos. lia. }
  destruct (Next_spec s N) as (t & Q & X). destruct (Next_spec (sk s s' cl lp) N) as (tk & Qk & _). rewrite P' in NS. pose proof (NS _ _ _ _ _ _ (eq_ind_r (fun m => Next (mkSt _ _ _ _ m _ _ _ _ _ _) = _) Qk MO)) as Q'.
  destruct (Next_spec s' ltac:(rewrite R; apply spaces_nonul, N)) as (t' & Q2 & X'). rewrite Q' in Q2. injection Q2 as <-.
  destruct (UnNext_nexted _ _ X) as (u & U & Y). destruct (UnNext_nexted _ _ X') as (u' & U' & Y').
  assert (ST : KSR t tk).
  { pose proof (next_any kf kg KCR k_adv k_rev KUC k_snoc (fun _ _ => True) _ _ (SS _ I)) as H. rewrite Q, Qk in H. exact (proj2 H). }
  exists t, tk, u, u'. repeat (split; [first [assumption|exact (nexted_nonul _ _ X N)|exact (nx_mode _ _ X)]|]). split; [|split; [|split; [|split]]].
  - split.
    + rewrite (un_rest _ _ _ Y), (un_rest _ _ _ Y'). exact R.
    + rewrite (un_rest _ _ _ Y). exact N.
    + rewrite (un_pos _ _ _ Y). exact P.
    + rewrite (un_pos _ _ _ Y'). exact P'.
    + rewrite (un_cols _ _ _ Y), (un_cols _ _ _ Y'). exact (sr_cols _ _ _ _ _ _ _ ST).
    + rewrite (un_mode _ _ _ Y), (un_mode _ _ _ Y'). exact (sr_mode _ _ _ _ _ _ _ ST).
    + rewrite (un_cms _ _ _ Y), (un_cms _ _ _ Y'). exact (sr_com _ _ _ _ _ _ _ ST).
  - rewrite (un_mode _ _ _ Y). apply (nx_mode _ _ X).
  - rewrite (un_lpos _ _ _ Y). exact P.
  - rewrite (un_lpos _ _ _ Y'). exact P'.
  - rewrite (nexted_split _ _ X), app_length. lia.
Qed.
Lemma pd_nx o s s' : PD s s' -> exists z t tk u u', nx o s = (Ok tt, t) /\ nx o s' = (Ok tt, wide w tk) /\ nx o z = (Ok tt, tk) /\ KSR s z /\ KSR t tk /\ nonul (rest t) /\ mode t = 0 /\
  UnNext t = (Ok tt, u) /\ UnNext (wide w tk) = (Ok tt, u') /\ PD u u' /\ (List.length (rest t) <= List.length (rest s))%nat.
Proof.
  intros (H & M0 & L & L'). destruct o as [m|].
  - assert (H' : PD0 (set_mode m s) (set_mode m s')) by (destruct H; split; cbn; try assumption; reflexivity).
    destruct (pd_next _ _ H') as (cl & K). destruct (K (posafter p0 w)) as (t & tk & u & u' & Q & Q' & Qk & SS & ST & N & MT & U & U' & PU & MU & LU & LU' & LE).
    exists (sk s s' cl (posafter p0 w)), (set_mode 0 t), (set_mode 0 tk), (set_mode 0 u), (set_mode 0 u'). cbn [nx]. unfold nextWithSpecificMode, bind, gets, modify. rewrite M0, (pd_mode _ _ H), M0, Q, Q'. cbn [mode sk]. rewrite M0.
    change (set_mode m (sk s s' cl (posafter p0 w))) with (sk (set_mode m s) (set_mode m s') cl (posafter p0 w)). rewrite Qk. do 3 (split; [reflexivity|]). split.
    { assert (SL : KSR (set_mode m s) (sk (set_mode m s) (set_mode m s') cl (posafter p0 w))) by (apply SS; split; [reflexivity|cbn [regs snd sk set_mode lpos]; rewrite L; apply p0_push]). destruct SL. split; cbn in *; assumption || reflexivity. }
    split; [destruct ST; split; cbn in *; assumption || reflexivity|]. split; [exact N|]. split; [reflexivity|]. split; [apply unnext_mode, U|]. split; [exact (unnext_mode 0 _ _ U')|]. split; [|exact LE]. split; [destruct PU; split; cbn in *; assumption || reflexivity|]. split; [reflexivity|split; assumption].
  - destruct (pd_next _ _ H) as (cl & K). destruct (K (posafter p0 w)) as (t & tk & u & u' & Q & Q' & Qk & SS & ST & N & MT & U & U' & PU & MU & LU & LU' & LE).
    exists (sk s s' cl (posafter p0 w)), t, tk, u, u'. do 3 (split; [assumption|]). split. { apply SS; split; [reflexivity|cbn [regs snd sk lpos]; rewrite L; apply p0_push]. }
    do 2 (split; [assumption|]). split; [congruence|]. do 2 (split; [assumption|]). split; [|exact LE]. split; [exact PU|]. split; [congruence|split; assumption].
Qed.

(** ** What starts by reading a token does not see the white space read before *)
Lemma nx_wide o t : nonul (rest t) -> nx o (wide w t) = nx o t.
Proof.
  intros N. assert (E : forall t, nonul (rest t) -> Next (wide w t) = Next t). { clear. intros t N. destruct (Next_spec t N) as (v & Q & _). rewrite Q. exact (next_same t _ _ _ _ _ _ Q). }
  destruct o as [m|]; [|apply E, N]. cbn [nx]. unfold nextWithSpecificMode, bind, gets, modify. change (set_mode m (wide w t)) with (wide w (set_mode m t)). rewrite E by exact N. reflexivity.
Qed.
Definition Ins {A} (m : M A) : Prop := forall t, nonul (rest t) -> m (wide w t) = m t.
Lemma ins_bind {A B} (m : M A) (h : A -> M B) : Ins m -> Ins (bind m h). Proof. intros H t N. unfold bind. rewrite H by exact N. reflexivity. Qed.
Lemma ins_try {A B} (m : M A) (h : A + err -> M B) : Ins m -> Ins (try m h). Proof. intros H t N. unfold try. rewrite H by exact N. reflexivity. Qed.
Lemma ins_lpos {B} (h : mpos -> M B) : (forall p, Ins (h p)) -> Ins (bind (gets lpos) h). Proof. intros H t N. unfold bind, gets. apply (H (lpos t) t N). Qed.
Lemma ins_nx o : Ins (nx o). Proof. exact (nx_wide o). Qed.
Lemma ins_Next : Ins Next. Proof. exact (ins_nx None). Qed.
Lemma ins_mode m : Ins (nextWithSpecificMode m). Proof. exact (ins_nx (Some m)). Qed.
Lemma ins_inline {A} set (x : A) : Ins (MaybeScanInlineComment set x).
Proof. unfold MaybeScanInlineComment, parseInlineComment, parseComment. apply ins_bind, ins_lpos. intros p. apply ins_try, ins_bind, ins_mode. Qed.
Lemma ins_comments n l : Ins (parseComments_loop (S n) l).
Proof. cbn [parseComments_loop]. unfold parseComment. apply ins_try, ins_bind, ins_mode. Qed.

(** ** The steps of the two runs *)
Definition EE (e e' : err) : Prop := ER kf kg e e' \/ e' = e /\ err_positions e = [p0].
Definition Fin {A} (Q : st -> st -> Prop) (RA : A -> A -> Prop) (o o' : res A * st) : Prop :=
  match o, o' with
  | (Ok a, t), (Ok a', t') => RA a a' /\ Q t t'
  | (Err e, _), (Err e', _) => EE e e'
  | (Panic, _), (Panic, _) | (Fuel, _), (Fuel, _) => True
  | _, _ => False
  end.
Notation R1 := (@Rel kf kg KCR KUC (LP kf kg) _).
Lemma fin_rel {A} (RA : A -> A -> Prop) m m' s s' : R1 RA m m' -> KSR s s' -> Fin KSR RA (m s) (m' s').
Proof. intros H S. specialize (H s s' S). unfold Fin, EE. destruct (m s) as [[a|e| |] t], (m' s') as [[a'|e'| |] t']; tauto. Qed.
Lemma fin_bind {A B} Q Q' (RA : A -> A -> Prop) (RB : B -> B -> Prop) m m' h h' s s' : Fin Q RA (m s) (m' s') ->
  (forall a a' t t', RA a a' -> Q t t' -> Fin Q' RB (h a t) (h' a' t')) -> Fin Q' RB (bind m h s) (bind m' h' s').
Proof. intros H K. unfold bind. unfold Fin in H. destruct (m s) as [[a|e| |] t], (m' s') as [[a'|e'| |] t']; try contradiction H; try exact I; try exact H. apply K; tauto. Qed.
(** the white space is not read yet, or it is read *)
Definition Q2 (s s' : st) : Prop := PD s s' \/ KSR s s'.
Lemma fin_weak {A} (Q Q' : st -> st -> Prop) (RA : A -> A -> Prop) o o' : (forall t t', Q t t' -> Q' t t') -> Fin Q RA o o' -> Fin Q' RA o o'.
Proof. intros H K. unfold Fin in *. destruct o as [[a|e| |] t], o' as [[a'|e'| |] t']; try contradiction K; try exact I; try exact K. split; [tauto|apply H; tauto]. Qed.
Lemma or_right {s s'} : KSR s s' -> Q2 s s'. Proof. right. assumption. Qed.

Lemma wide_ltok t tk : KSR t tk -> ltok (wide w tk) = ltok t. Proof. intros S. exact (SR_ltok _ _ _ _ _ _ S). Qed.
Lemma comments_step n l s s1 : NextComment s = (Ok tt, s1) -> parseComments_loop (S n) l s =
  if tok_eqb (ltok s1) TCOMMENT
  then let '(lp, cl) := AdvancedBulk (lpos s1) (cols s1) (ltext s1) in parseComments_loop n (l ++ [mkComment (ltext s1) (mkMeta (lpos s1) lp)]) (set_pc (pos s1, cl) s1)
  else (Ok l, snd (UnNext s1)).
Proof.
  intros Q. cbn [parseComments_loop]. unfold parseComment. rewrite (try_bind _ _ _ _ _ _ Q). unfold try, bind at 1, gets at 1. destruct (tok_eqb (ltok s1) TCOMMENT); [|reflexivity].
  unfold bind, gets, mk_comment. destruct (AdvancedBulk (lpos s1) (cols s1) (ltext s1)) as [lp cl]. reflexivity.
Qed.
Lemma comments_fuel : forall n m l s, nonul (rest s) -> mode s = 0 -> (List.length (rest s) < n)%nat -> (List.length (rest s) < m)%nat -> parseComments_loop n l s = parseComments_loop m l s.
Proof.
  induction n as [|n IH]; intros m l s N M H1 H2; [lia|]. destruct m as [|m]; [lia|].
  destruct (NextComment_spec s N M) as (s1 & Q & X & M1). rewrite !(comments_step _ _ _ _ Q).
  destruct X as [X1 X2 X3 X4 X5 X6 X7 X8 X9 X10 X11]. unfold lexs in *. cbn [mode rest pos comments ltok set_mode] in *. rewrite X7. pose proof (lex_comments (rest s)) as C.
  destruct (tok_eqb (lx_tok (lex ScanComment (rest s))) TCOMMENT); [|reflexivity].
  destruct C as (g & t & w0 & r' & E & W & H3 & H4 & H5 & H6 & H7). destruct (AdvancedBulk (lpos s1) (cols s1) (ltext s1)) as [lp cl]. rewrite H5 in X1.
  assert (LW : (0 < List.length w0)%nat) by (destruct w0; [contradiction|cbn; lia]). rewrite E, !app_length in H1, H2. rewrite E in N. apply nonul_app in N. apply IH; cbn; rewrite ?X1; try tauto; try exact M1; lia.
Qed.
Lemma pd_comments s s' : Q2 s s' -> Fin Q2 (MCs kf kg) (ParseComments s) (ParseComments s').
Proof.
  intros [H|S]; [|eapply fin_weak; [exact @or_right|apply fin_rel; [|exact S]; rel x_ParseComments]].
  destruct (pd_nx (Some ScanComment) s s' H) as (z & t & tk & u & u' & Q & Q' & Qz & SZ & ST & N & MT & U & U' & PU & LE). change (nx (Some ScanComment)) with NextComment in *.
  unfold ParseComments, bind, fuel_here, gets. rewrite (comments_step _ _ _ _ Q), (comments_step _ _ _ _ Q').
  pose proof (wide_ltok _ _ ST) as ET. rewrite ET.
  destruct (tok_eqb (ltok t) TCOMMENT) eqn:TC.
  - pose proof (fin_rel (MC kf kg) (mk_comment (lpos t) (ltext t)) (mk_comment (lpos tk) (ltext tk)) t tk) as K.
    assert (R : R1 (MC kf kg) (mk_comment (lpos t) (ltext t)) (mk_comment (lpos tk) (ltext tk))) by (rewrite (SR_ltext _ _ _ _ _ _ ST); rel x_mk_comment; exact (SR_lpos _ _ _ _ _ _ ST)).
    specialize (K R ST). clear R. unfold mk_comment in *. cbn [ltext lpos cols pos wide]. destruct (AdvancedBulk (lpos t) (cols t) (ltext t)) as [a c]. destruct (AdvancedBulk (lpos tk) (cols tk) (ltext tk)) as [a' c']. destruct K as [KC KS].
    change (set_pc (pos tk, c') (wide w tk)) with (wide w (set_pc (pos tk, c') tk)).
    assert (LT : (List.length (rest t) < List.length (rest s))%nat).
    { destruct H as (H & M0 & _). destruct (NextComment_spec s (pd_nonul _ _ H) M0) as (s1 & Q1 & X & _). rewrite Q in Q1. injection Q1 as <-. pose proof (lex_comments (rest s)) as C. destruct X as [X1 _ _ _ _ _ X7 _ _ _ _]. unfold lexs in *. cbn [rest mode set_mode ltok] in *. rewrite <- X7, TC in C.
      destruct C as (g & t0 & w0 & r' & E & W & H3 & H4 & H5 & _). rewrite H5 in X1. rewrite X1. rewrite E, !app_length. destruct w0; [contradiction|cbn; lia]. }
    assert (LR : rest (set_pc (pos tk, c') tk) = rest t) by exact (sr_rest _ _ _ _ _ _ _ ST).
    rewrite (pd_rest _ _ (proj1 H)), app_length. destruct (List.length w + List.length (rest s))%nat as [|n'] eqn:EN; [lia|]. rewrite ins_comments by (rewrite LR; exact N).
    rewrite (comments_fuel (S n') (List.length (rest s))); [|rewrite LR; exact N|cbn; rewrite (sr_mode _ _ _ _ _ _ _ ST); exact MT|rewrite LR; lia|rewrite LR; lia].
    eapply fin_weak; [exact @or_right|]. apply fin_rel; [|exact KS]. rel x_parseComments_loop. unfold MCs, MC in *. cbn. congruence.
  - rewrite U, U'. cbn. split; [reflexivity|]. left. exact PU.
Qed.
Lemma pd_peek {A} o (h : st -> A) s s' : (forall t tk, KSR t tk -> h (wide w tk) = h t) -> PD s s' -> Fin PD eq ((nx o;; b <- gets h;; UnNext;; ret b) s) ((nx o;; b <- gets h;; UnNext;; ret b) s').
Proof.
  intros E H. destruct (pd_nx o s s' H) as (z & t & tk & u & u' & Q & Q' & Qz & SZ & ST & N & MT & U & U' & PU & LE). unfold bind, gets. rewrite Q, Q', U, U', (E _ _ ST). split; [reflexivity|exact PU].
Qed.
(** a parser that reads a keyword and goes on *)
Definition IE {A} (h : M A) : Prop := forall tk, nonul (rest tk) -> h (wide w tk) = h tk \/ exists e v v', h (wide w tk) = (Err e, v) /\ h tk = (Err e, v').
Lemma ie_bind {A B} (h : M A) (r : A -> M B) : IE h -> IE (bind h r).
Proof. intros H tk N. unfold bind. destruct (H tk N) as [->|(e & v & v' & -> & ->)]; [left; reflexivity|right; do 3 eexists; split; reflexivity]. Qed.
Lemma ie_expect {A} t x (h : M A) : Ins h -> IE (expect t x;; h).
Proof.
  intros H tk N. unfold expect, bind, gets. cbn [ltok wide]. destruct (tok_eqb (ltok tk) t); [left; apply H, N|right]. unfold p_unexpected. do 3 eexists. split; reflexivity.
Qed.
Lemma pd_read {A} (RA : A -> A -> Prop) o (m m' h' : M A) s s' : PD s s' -> R1 RA m m' -> (forall x, m' x = (nx o;; h') x) -> IE h' -> Fin KSR RA (m s) (m' s').
Proof.
  intros H R EQ E. destruct (pd_nx o s s' H) as (z & t & tk & u & u' & Q & Q' & Qz & SZ & ST & N & MT & U & U' & PU & LE). pose proof (fin_rel _ _ _ _ _ R SZ) as K.
  rewrite EQ in *. unfold bind in *. rewrite Q'. rewrite Qz in K. destruct (E tk ltac:(rewrite (sr_rest _ _ _ _ _ _ _ ST); exact N)) as [->|(e & v & v' & E1 & E2)]; [exact K|].
  rewrite E1. rewrite E2 in K. unfold Fin in *. destruct (m s) as [[a|e0| |] x]; tauto.
Qed.
(** an empty statement *)
Lemma unnext_regs t u : UnNext t = (Ok tt, u) -> ltext u = ltext t /\ ltok u = TILLEGAL.
Proof.
  unfold UnNext, modify, UnScan. intros H. injection H as <-. cbn [ltext ltok set_tokpos]. split; [|reflexivity]. generalize (rev (raw t)) as l. intros l. revert t. induction l as [|c l IH]; intros t; [reflexivity|]. cbn [fold_left]. rewrite IH. reflexivity.
Qed.
Lemma pd_semi {A} (RA : A -> A -> Prop) (h h' : M A) s s' : PD s s' -> R1 RA (ReadEmptyStatement;; h) (ReadEmptyStatement;; h') -> Ins h' -> Fin KSR RA ((ReadEmptyStatement;; h) s) ((ReadEmptyStatement;; h') s').
Proof.
  intros H R I'. destruct (pd_nx None s s' H) as (z & t & tk & u & u' & Q & Q' & Qz & SZ & ST & N & MT & U & U' & PU & LE). cbn [nx] in *. pose proof (fin_rel _ _ _ _ _ R SZ) as K.
  pose proof (wide_ltok _ _ ST) as E1. pose proof (SR_ltok _ _ _ _ _ _ ST) as E2. unfold ReadEmptyStatement, bind, gets in *. rewrite Q in *. rewrite Q'. rewrite Qz, E2 in K. rewrite E1.
  destruct (tok_eqb (ltok t) TSEMICOLON).
  - cbn [ret] in *. unfold ret in *. rewrite I' by (rewrite (sr_rest _ _ _ _ _ _ _ ST); exact N). exact K.
  - rewrite U, U'. unfold l_unexpected, Fin. right. destruct PU as (_ & _ & L & L'). destruct (unnext_regs _ _ U) as [X1 X2], (unnext_regs _ _ U') as [X1' X2']. rewrite L, L', X1, X1'. cbn [ltext wide]. rewrite (SR_ltext _ _ _ _ _ _ ST). split; reflexivity.
Qed.
Lemma assoc {A B C} (m : M A) (h : A -> M B) (r : B -> M C) s : bind (bind m h) r s = bind m (fun a => bind (h a) r) s.
Proof. unfold bind. destruct (m s) as [[a|e| |] t]; reflexivity. Qed.

Section File.
Variables (perm bic : bool).
Notation KMB := (MB kf kg false false).
(** a statement and what follows *)
Definition rest_of (n : nat) (l : list visitee) (x : list visitee * visitee) : M (list visitee) :=
  match x with (pre, stmt) => stmt <- MaybeScanInlineComment set_inline stmt;; protoBody_loop perm bic n (l ++ pre ++ [stmt]) end.
Lemma r_stmt n tok cs cs' l l' : MCs kf kg cs cs' -> KMB l l' -> R1 KMB (bind (protoStmt perm bic n tok cs) (rest_of n l)) (bind (protoStmt perm bic n tok cs') (rest_of n l')).
Proof.
  intros HC HL. eapply Rel_bind; [rel x_protoStmt; exact HC|]. intros [pre v] [pre' v'] [H1 H2]. cbn [fst snd] in H1, H2. unfold rest_of. eapply Rel_bind; [rel x_inline; exact H2|]. intros x x' HX. rel x_protoBody_loop.
  unfold MB in *. rewrite !(map_body_app _ _ l), !(map_body_app _ _ l'), HL. f_equal. apply MB_snoc; assumption.
Qed.
Ltac kw K P := eapply (K _ P); [intros y; reflexivity|apply ins_lpos; intros p; unfold or_unexpected, ReadFullIdent, parseOptionName, ReadMessageType, NextKeywordOrStrLit; repeat first [apply ins_Next|apply ins_mode|apply ins_try|apply ins_bind]|intros y; reflexivity].
Lemma pd_stmt n tok cs cs' l l' s s' : PD s s' -> MCs kf kg cs cs' -> KMB l l' -> Fin KSR KMB (bind (protoStmt perm bic n tok cs) (rest_of n l) s) (bind (protoStmt perm bic n tok cs') (rest_of n l') s').
Proof.
  intros H HC HL. pose proof (r_stmt n tok cs cs' l l' HC HL) as R.
  assert (KW : forall (A : Type) (P : M A) t x (h : M A) (r : A -> M (list visitee * visitee)), (forall y, P y = (NextKeyword;; expect t x;; h) y) -> Ins h -> (forall y, protoStmt perm bic n tok cs' y = bind P r y) ->
    Fin KSR KMB (bind (protoStmt perm bic n tok cs) (rest_of n l) s) (bind (protoStmt perm bic n tok cs') (rest_of n l') s')).
  { intros A P t x h r EP HI E. eapply (pd_read _ (Some ScanKeyword) _ _ (bind (bind (expect t x;; h) r) (rest_of n l')) s s' H R).
    - intros y. unfold bind at 1. rewrite E. unfold bind at 1. rewrite EP. change (nx (Some ScanKeyword)) with NextKeyword. unfold bind. destruct (NextKeyword y) as [[a|e| |] v]; reflexivity.
    - apply ie_bind, ie_bind, ie_expect, HI. }
  assert (EM : (forall y, protoStmt perm bic n tok cs y = (ReadEmptyStatement;; ret ([VEmpty (mkEmpty None)], VNil)) y) -> (forall y, protoStmt perm bic n tok cs' y = (ReadEmptyStatement;; ret ([VEmpty (mkEmpty None)], VNil)) y) ->
    Fin KSR KMB (bind (protoStmt perm bic n tok cs) (rest_of n l) s) (bind (protoStmt perm bic n tok cs') (rest_of n l') s')).
  { intros E' E. assert (EB : forall (c : list visitee * visitee) y (r : list visitee * visitee -> M (list visitee)), bind (ReadEmptyStatement;; ret c) r y = (ReadEmptyStatement;; r c) y). { intros c y r. unfold bind, ret. destruct (ReadEmptyStatement y) as [[a|e| |] v]; reflexivity. }
    assert (E0 : forall y, bind (protoStmt perm bic n tok cs) (rest_of n l) y = (ReadEmptyStatement;; rest_of n l ([VEmpty (mkEmpty None)], VNil)) y). { intros y. rewrite <- EB. unfold bind at 1. rewrite E'. reflexivity. }
    assert (E1 : forall y, bind (protoStmt perm bic n tok cs') (rest_of n l') y = (ReadEmptyStatement;; rest_of n l' ([VEmpty (mkEmpty None)], VNil)) y). { intros y. rewrite <- EB. unfold bind at 1. rewrite E. reflexivity. }
    rewrite E0, E1. apply pd_semi; [exact H| |unfold rest_of; apply ins_bind, ins_inline]. intros y y' Y. specialize (R y y' Y). rewrite E0, E1 in R. exact R. }
  destruct tok; try (apply EM; intros y; reflexivity);
    first [kw KW ParseImport|kw KW ParsePackage|kw KW (ParseOption perm)|kw KW (ParseMessage perm bic n)|kw KW (ParseEnum perm bic)|kw KW (ParseService perm bic)|kw KW (ParseExtend perm bic)].
Qed.

(** ** The body *)
Lemma r_body n cs cs' l l' : MCs kf kg cs cs' -> KMB l l' ->
  R1 KMB (e <- p_IsEOF;; if e then ret (l ++ body_comments bic cs) else token <- peekKeyword;; bind (protoStmt perm bic n token cs) (rest_of n l))
         (e <- p_IsEOF;; if e then ret (l' ++ body_comments bic cs') else token <- peekKeyword;; bind (protoStmt perm bic n token cs') (rest_of n l')).
Proof.
  intros HC HL. eapply (Rel_bind _ _ _ _ _ eq); [rel x_p_IsEOF|]. intros e ? <-. destruct e.
  - apply Rel_ret. unfold MB in *. rewrite !map_body_app, HL. f_equal. apply k_bic, HC.
  - eapply (Rel_bind _ _ _ _ _ eq); [rel x_peekKeyword|]. intros t ? <-. apply r_stmt; assumption.
Qed.
Lemma pd_body n : forall s s', Q2 s s' -> Fin Q2 KMB (protoBody_loop perm bic n [] s) (protoBody_loop perm bic n [] s').
Proof.
  destruct n as [|n]; intros s s' H; [exact I|]. cbn [protoBody_loop].
  eapply (fin_bind Q2 Q2 (MCs kf kg)); [apply pd_comments, H|]. intros cs cs' t t' HC [HP|HS].
  - eapply (fin_bind PD Q2 eq); [apply (pd_peek None); [intros ? ? S; cbn [ltok wide]; rewrite (SR_ltok _ _ _ _ _ _ S); reflexivity|exact HP]|]. intros e ? u u' <- HU. destruct e.
    + split; [|left; exact HU]. apply k_bic, HC.
    + eapply (fin_bind PD Q2 eq); [apply (pd_peek (Some ScanKeyword)); [intros ? ? S; exact (wide_ltok _ _ S)|exact HU]|]. intros tok ? v v' <- HV.
      eapply fin_weak; [exact @or_right|]. apply (pd_stmt n tok cs cs' [] []); [exact HV|exact HC|reflexivity].
  - eapply fin_weak; [exact @or_right|]. apply (fin_rel _ _ _ _ _ (r_body n cs cs' [] [] HC eq_refl) HS).
Qed.

(** ** The file *)
Notation KMPr := (MPr kf kg false false (fun x => x) (fun x => x)).
Definition tail3 (n : nat) (sy : option syntax) (ed : option edition) : M proto :=
  body <- protoBody_loop perm bic n [];; filename <- gets (fun s => Filename (lpos s));; ret (mkProto sy ed body filename).
Definition ed_inlined (cs : list comment) (ed : option edition) : M (option edition) :=
  match ed with
  | None => ret None
  | Some x =>
    x <- MaybeScanInlineComment (total_set set_ed_inline) (mkEdition (ed_edition x) (ed_editionQuote x) cs (ed_inline x) (ed_meta x));;
    ret (Some x)
  end.
Definition sy_inlined (cs : list comment) (sy : option syntax) : M (option syntax) :=
  match sy with
  | None => ret None
  | Some x =>
    x <- MaybeScanInlineComment (total_set set_sy_inline) (mkSyntax (sy_version x) (sy_versionQuote x) cs (sy_inline x) (sy_meta x));;
    ret (Some x)
  end.
Definition tail2 (n : nat) (cs : list comment) (sy : option syntax) : M proto := bind ParseEdition (fun ed => bind (ed_inlined cs ed) (tail3 n sy)).
Lemma proto_tails n cs s : protoR perm bic n cs s = bind ParseSyntax (fun sy => bind (sy_inlined cs sy) (tail2 n cs)) s.
Proof. reflexivity. Qed.
Notation KSy := (MSy kf kg). Notation KEd := (MEd kf kg).
Lemma fin_tail3 n sy sy' ed ed' s s' : KSy sy sy' -> KEd ed ed' -> Q2 s s' -> Fin (fun _ _ => True) KMPr (tail3 n sy ed s) (tail3 n sy' ed' s').
Proof.
  intros HS HE H. unfold tail3. eapply (fin_bind Q2 _ KMB); [apply pd_body, H|]. intros b b' t t' HB HT. unfold bind, gets, ret, Fin. split; [|exact I].
  assert (EN : Filename (lpos t') = Filename (lpos t)). { destruct HT as [(_ & _ & -> & ->)|S]; [reflexivity|]. apply k_name, (SR_lpos _ _ _ _ _ _ S). }
  unfold MPr, map_proto, MSy, MEd, MB in *. cbn. congruence.
Qed.
Lemma ed_rel cs cs' ed ed' : MCs kf kg cs cs' -> KEd ed ed' -> R1 KEd (ed_inlined cs ed) (ed_inlined cs' ed').
Proof.
  intros HC HE. destruct ed as [x|], ed' as [x'|]; try discriminate HE; [|apply Rel_ret; reflexivity]. unfold ed_inlined. eapply (Rel_bind _ _ _ _ _ (fun y y' => map_edition kg y' = map_edition kf y)).
  - rel x_MaybeScanInlineComment; unfold MEd, MCs, map_edition in *; cbn in *; [congruence|]. intros c c' HM. unfold MC, map_comment in *. cbn. congruence.
  - intros y y' HY. apply Rel_ret. unfold MEd. cbn. congruence.
Qed.
Lemma sy_rel cs cs' sy sy' : MCs kf kg cs cs' -> KSy sy sy' -> R1 KSy (sy_inlined cs sy) (sy_inlined cs' sy').
Proof.
  intros HC HE. destruct sy as [x|], sy' as [x'|]; try discriminate HE; [|apply Rel_ret; reflexivity]. unfold sy_inlined. eapply (Rel_bind _ _ _ _ _ (fun y y' => map_syntax kg y' = map_syntax kf y)).
  - rel x_MaybeScanInlineComment; unfold MSy, MCs, map_syntax in *; cbn in *; [congruence|]. intros c c' HM. unfold MC, map_comment in *. cbn. congruence.
  - intros y y' HY. apply Rel_ret. unfold MSy. cbn. congruence.
Qed.
(** ParseSyntax and ParseEdition: nothing read, or a declaration *)
Lemma pd_decl {A} (RA : option A -> option A -> Prop) T (m h : M (option A)) s s' : PD s s' -> (forall x, m x = (NextKeyword;; t <- gets ltok;; if negb (tok_eqb t T) then UnNext;; ret None else h) x) -> Ins h -> R1 RA m m ->
  (exists u u', m s = (Ok None, u) /\ m s' = (Ok None, u') /\ PD u u') \/ Fin KSR RA (m s) (m s').
Proof.
  intros H EQ HI R. destruct (pd_nx (Some ScanKeyword) s s' H) as (z & t & tk & u & u' & Q & Q' & Qz & SZ & ST & N & MT & U & U' & PU & LE). change (nx (Some ScanKeyword)) with NextKeyword in *.
  pose proof (fin_rel _ _ _ _ _ R SZ) as K. assert (E1 : m s = (if negb (tok_eqb (ltok t) T) then UnNext;; ret None else h) t) by (rewrite EQ; unfold bind at 1; rewrite Q; reflexivity).
  assert (E2 : m s' = (if negb (tok_eqb (ltok t) T) then UnNext;; ret None else h) (wide w tk)) by (rewrite EQ; unfold bind at 1; rewrite Q'; unfold bind at 1, gets; rewrite (wide_ltok _ _ ST); reflexivity).
  assert (E3 : m z = (if negb (tok_eqb (ltok t) T) then UnNext;; ret None else h) tk) by (rewrite EQ; unfold bind at 1; rewrite Qz; unfold bind at 1, gets; rewrite (SR_ltok _ _ _ _ _ _ ST); reflexivity).
  destruct (negb (tok_eqb (ltok t) T)).
  - left. exists u, u'. rewrite E1, E2. unfold bind. rewrite U, U'. split; [reflexivity|]. split; [reflexivity|exact PU].
  - right. rewrite E2, HI by (rewrite (sr_rest _ _ _ _ _ _ _ ST); exact N). rewrite <- E3. exact K.
Qed.
Lemma fin_tail2 n cs cs' sy sy' s s' : MCs kf kg cs cs' -> KSy sy sy' -> Q2 s s' -> Fin (fun _ _ => True) KMPr (tail2 n cs sy s) (tail2 n cs' sy' s').
Proof.
  intros HC HS H. unfold tail2.
  assert (D : Fin KSR KEd (ParseEdition s) (ParseEdition s') -> Fin (fun _ _ => True) KMPr (bind ParseEdition (fun ed => bind (ed_inlined cs ed) (tail3 n sy)) s) (bind ParseEdition (fun ed => bind (ed_inlined cs' ed) (tail3 n sy')) s')).
  { intros K. eapply (fin_bind KSR _ KEd); [exact K|]. intros ed ed' t t' HE HT. eapply (fin_bind KSR _ KEd); [apply fin_rel; [apply ed_rel; assumption|exact HT]|]. intros x x' u u' HX HU. apply fin_tail3; [exact HS|exact HX|right; exact HU]. }
  destruct H as [H|H]; [|apply D, fin_rel; [rel x_ParseEdition|exact H]].
  assert (X : (exists u u', ParseEdition s = (Ok None, u) /\ ParseEdition s' = (Ok None, u') /\ PD u u') \/ Fin KSR KEd (ParseEdition s) (ParseEdition s')).
  { eapply (pd_decl KEd TEDITION); [exact H|intros x; reflexivity|apply ins_lpos; intros p; apply ins_bind, ins_Next|rel x_ParseEdition]. }
  destruct X as [(u & u' & E1 & E2 & HU)|K]; [|apply D, K]. unfold bind. rewrite E1, E2. cbn [ed_inlined ret]. apply fin_tail3; [exact HS|reflexivity|left; exact HU].
Qed.
Theorem fin_protoR n cs cs' s s' : MCs kf kg cs cs' -> Q2 s s' -> Fin (fun _ _ => True) KMPr (protoR perm bic n cs s) (protoR perm bic n cs' s').
Proof.
  intros HC H. rewrite !proto_tails.
  assert (D : Fin KSR KSy (ParseSyntax s) (ParseSyntax s') -> Fin (fun _ _ => True) KMPr (bind ParseSyntax (fun sy => bind (sy_inlined cs sy) (tail2 n cs)) s) (bind ParseSyntax (fun sy => bind (sy_inlined cs' sy) (tail2 n cs')) s')).
  { intros K. eapply (fin_bind KSR _ KSy); [exact K|]. intros ed ed' t t' HE HT. eapply (fin_bind KSR _ KSy); [apply fin_rel; [apply sy_rel; assumption|exact HT]|]. intros x x' u u' HX HU. apply fin_tail2; [exact HC|exact HX|right; exact HU]. }
  destruct H as [H|H]; [|apply D, fin_rel; [rel x_ParseSyntax|exact H]].
  assert (X : (exists u u', ParseSyntax s = (Ok None, u) /\ ParseSyntax s' = (Ok None, u') /\ PD u u') \/ Fin KSR KSy (ParseSyntax s) (ParseSyntax s')).
  { eapply (pd_decl KSy TSYNTAX); [exact H|intros x; reflexivity|apply ins_lpos; intros p; apply ins_bind, ins_Next|rel x_ParseSyntax]. }
  destruct X as [(u & u' & E1 & E2 & HU)|K]; [|apply D, K]. unfold bind. rewrite E1, E2. cbn [sy_inlined ret]. apply fin_tail2; [exact HC|reflexivity|left; exact HU].
Qed.
Lemma bok {A B} (m : M A) (h : A -> M B) s a t : m s = (Ok a, t) -> bind m h s = h a t. Proof. intros E. unfold bind. rewrite E. reflexivity. Qed.
(** the first token is a byte order mark or not *)
Theorem fin_proto n input : nonul input -> Fin (fun _ _ => True) KMPr (ParseProto perm bic n (init_st fn input)) (ParseProto perm bic n (init_st fn (w ++ input))).
Proof.
  intros N. rewrite !proto_next. assert (H : PD0 (init_st fn input) (init_st fn (w ++ input))). { split; try reflexivity; try exact N; [intros l L; reflexivity|constructor]. }
  destruct (pd_next _ _ H) as (cl & K). destruct (K p0) as (t & tk & u & u' & Q & Q' & Qk & SS & ST & NT & MT & U & U' & PU & MU & LU & LU' & LE).
  rewrite (bok _ _ _ _ _ Q), (bok _ _ _ _ _ Q'). unfold protoK.
  assert (B : (tok_eqb (ltok t) TBOM = true /\ forall v, ltok v = ltok t -> (t <- gets ltok;; if tok_eqb t TBOM then ret tt else UnNext) v = (Ok tt, v)) \/
              (tok_eqb (ltok t) TBOM = false /\ forall v, ltok v = ltok t -> (t <- gets ltok;; if tok_eqb t TBOM then ret tt else UnNext) v = UnNext v)).
  { destruct (tok_eqb (ltok t) TBOM) eqn:E; [left|right]; (split; [reflexivity|]; intros v V; unfold bind, gets; rewrite V, E; reflexivity). }
  destruct B as [[_ B]|[_ B]].
  - rewrite (bok _ _ _ _ _ (B t eq_refl)), (bok _ _ _ _ _ (B (wide w tk) (wide_ltok _ _ ST))). eapply (fin_bind Q2 _ (MCs kf kg)); [|intros cs cs' v v' HC HV; apply fin_protoR; assumption].
    eapply fin_weak; [exact @or_right|]. replace (ParseComments (wide w tk)) with (ParseComments tk); [apply fin_rel; [rel x_ParseComments|exact ST]|].
    unfold ParseComments, bind, fuel_here, gets. cbn [rest wide]. symmetry. apply ins_comments. rewrite (sr_rest _ _ _ _ _ _ _ ST). exact NT.
  - rewrite (bok _ _ _ _ _ (eq_trans (B t eq_refl) U)), (bok _ _ _ _ _ (eq_trans (B (wide w tk) (wide_ltok _ _ ST)) U')). eapply (fin_bind Q2 _ (MCs kf kg)); [|intros cs cs' v v' HC HV; apply fin_protoR; assumption].
    apply pd_comments. left. split; [exact PU|]. split; [exact MU|split; assumption].
Qed.
End File.
End Runs.

Theorem blank_pushed k w opts input : Spaces w -> (1 < k)%Z \/ k = 1%Z /\ whole_lines w -> nonul input -> Parse opts input <> Fuel ->
  pushed_outcome k w (Parse opts (w ++ input)) (Parse opts input).
Proof.
  intros HW HK N F. unfold Parse in *. set (n := S (S (List.length input))) in *. set (n' := S (S (List.length (w ++ input)))).
  assert (L : (n <= n')%nat) by (unfold n, n'; rewrite app_length; lia). rewrite <- (fuel_enough n n' opts input L F).
  pose proof (fuel_enough n n' opts input L F) as E. rewrite <- E in F. unfold parse_fuel in *.
  pose proof (fin_proto w k (cfg_filename (config_of opts)) HW HK (cfg_permissive (config_of opts)) (cfg_bodyIncludingComments (config_of opts)) n' input N) as H.
  unfold Fin in H. destruct (ParseProto _ _ n' (init_st _ input)) as [[a|e| |] t], (ParseProto _ _ n' (init_st _ (w ++ input))) as [[a'|e'| |] t']; cbn [fst] in *; try contradiction H; try exact I; try congruence; [exact (proj1 H)|]. destruct H as [H|[-> H]]; [left; exact H|right; split; [reflexivity|eexists; exact H]].
Qed.
Theorem lines_pushed opts w input : Spaces w -> whole_lines w -> nonul input -> Parse opts input <> Fuel -> pushed_outcome 1 w (Parse opts (w ++ input)) (Parse opts input).
Proof. intros S L N F. apply blank_pushed; [exact S|right; split; [reflexivity|exact L]|exact N|exact F]. Qed.
Theorem indent_pushed opts w input : Spaces w -> nonul input -> Parse opts input <> Fuel -> pushed_outcome 2 w (Parse opts (w ++ input)) (Parse opts input).
Proof. intros S N F. apply blank_pushed; [exact S|left; reflexivity|exact N|exact F]. Qed.
