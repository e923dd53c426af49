(** Proofs of the scanner-level properties. *)
From Coq Require Import List NArith ZArith Bool String Ascii Lia.
From Verif Require Import Base Token Scanner Lexing ScanRefine LexFacts LexSpec LexProofs ScanFacts.
Import ListNotations.
Open Scope N_scope.

(** ** Skipping a gap, in any mode *)
Lemma lex_gap_in m g cs r : gap_in m g cs -> lex m (g ++ r) = skip g cs (lex m r).
Proof.
  unfold gap_in. destruct (has m ScanComment) eqn:M.
  - intros [S ->]. induction S as [|c g Hc S IH]; [symmetry; apply skip_nil|].
    cbn [app]. rewrite lex_space by exact Hc. rewrite IH, skip_skip. reflexivity.
  - intros G. apply lex_gap; assumption.
Qed.

(** ** Raw text of a token *)
Lemma lex_raw_cases m r : let x := lex m r in
  is_illegal x \/
  (lx_tok x <> TCOMMENT /\ lx_raw x = lx_txt x) \/
  (has m ScanComment = true /\ lx_tok x = TCOMMENT /\
   ((is_line_comment (lx_txt x) /\ (lx_raw x = lx_txt x ++ [NL] \/ lx_raw x = lx_txt x /\ lx_rest x = [])) \/
    (is_block_comment (lx_txt x) /\ lx_raw x = lx_txt x))).
Proof.
  induction r as [r IH] using len_ind. destruct r as [|c r].
  { rewrite lex_nil. cbn. right. left. split; [discriminate|reflexivity]. }
  rewrite lex_cons. destruct (isSpace c). { cbn [skip lx_tok lx_txt lx_raw lx_rest is_illegal]. apply IH. cbn. lia. }
  destruct (identStart c).
  { destruct (span identChar r). cbn. right. left. split; [apply identToken_not_comment|reflexivity]. }
  destruct (N.eqb_spec c (ch "/")) as [->|].
  { destruct (head_is (fun d => d =? ch "/") r) eqn:H1.
    - destruct (span _ r) as [b r2] eqn:E. apply span_spec in E. destruct E as (-> & F & Hd).
      assert (L : is_line_comment (ch "/" :: b)).
      { destruct b as [|b0 b].
        { destruct r2; cbn in *; [discriminate|]. apply N.eqb_eq in H1. subst. discriminate. }
        cbn in H1. apply N.eqb_eq in H1. subst b0. exists b. split; [reflexivity|].
        inversion F; subst. apply neg_NL. assumption. }
      destruct (has m ScanComment) eqn:M.
      + cbn. right. right. split; [reflexivity|]. split; [reflexivity|]. left. split; [exact L|].
        destruct r2 as [|d r2]; cbn; [right; rewrite app_nil_r; auto|].
        cbn in Hd. apply negb_false_iff, N.eqb_eq in Hd. subst d. left. reflexivity.
      + cbn zeta. unfold is_illegal. cbn [skip lx_tok lx_txt lx_raw lx_rest].
        apply IH. destruct r2; cbn; rewrite ?app_length; cbn; lia.
    - destruct (head_is (fun d => d =? ch "*") r) eqn:H2.
      + apply head_slash in H2. destruct H2 as (r2 & ->).
        destruct (find_close r2) as [[b r3]|] eqn:E; [|cbn; left; split; reflexivity].
        destruct (has m ScanComment) eqn:M.
        * cbn. right. right. split; [reflexivity|]. split; [reflexivity|]. right. split; [|reflexivity].
          destruct (find_close_body _ _ _ E) as (w & -> & W). exists w. auto.
        * cbn zeta. unfold is_illegal. cbn [skip lx_tok lx_txt lx_raw lx_rest]. apply IH.
          apply find_close_spec in E. destruct E as [-> _]. cbn. rewrite app_length. lia.
      + destruct r; left; split; reflexivity. }
  destruct (isQuote c && has m ScanStrLit).
  { unfold lit_token. destruct (cons_out _ _) as [[[] w] r']; [right; left; split; [discriminate|reflexivity]|left; split; reflexivity]. }
  destruct ((isDecimalDigit c || (c =? ch ".")) && has m ScanNumberLit).
  { pose proof (pnum_tok c r) as P. destruct (pnum c r) as [t o]. cbn in P. unfold lit_token. destruct o as [[[] w] r'].
    - right. left. cbn. split; [destruct P; subst; discriminate|reflexivity].
    - left. split; reflexivity. }
  right. left. cbn. split; [apply asMisc_not_comment|reflexivity].
Qed.
Lemma lex_eof m r : lx_tok (lex m r) = TEOF -> lx_txt (lex m r) = [] /\ lx_raw (lex m r) = [] /\ lx_rest (lex m r) = [].
Proof.
  assert (A : forall c, asMiscToken c <> TEOF).
  { intros c. unfold asMiscToken. repeat (match goal with |- context[?a =? ?b] => destruct (a =? b) end; [discriminate|]). discriminate. }
  assert (K : forall x, identToken m x <> TEOF).
  { intros x. unfold identToken. destruct (_ && _); [discriminate|]. destruct (_ && _); [discriminate|]. destruct (_ && _); [|discriminate].
    intros E. apply keyword_spec in E; [|discriminate]. destruct E as (n & _ & I). unfold keywords in I. cbn [In] in I.
    repeat (destruct I as [I|I]; [discriminate|]). destruct I. }
  induction r as [r IH] using len_ind. destruct r as [|c r].
  { rewrite lex_nil. cbn. auto. }
  rewrite lex_cons. destruct (isSpace c). { cbn [skip lx_tok lx_txt lx_raw lx_rest]. apply IH. cbn. lia. }
  destruct (identStart c).
  { destruct (span identChar r). cbn. intros E. exfalso. exact (K _ E). }
  destruct (c =? ch "/").
  { destruct (head_is (fun d => d =? ch "/") r) eqn:H1.
    - destruct (span _ r) as [b r2] eqn:E. apply span_app in E. subst r.
      destruct (has m ScanComment); [discriminate|]. cbn [skip lx_tok lx_txt lx_raw lx_rest]. apply IH.
      destruct r2; cbn; rewrite ?app_length; cbn; lia.
    - destruct (head_is (fun d => d =? ch "*") r) eqn:H2.
      + apply head_slash in H2. destruct H2 as (r2 & ->).
        destruct (find_close r2) as [[b r3]|] eqn:E; [|discriminate].
        destruct (has m ScanComment); [discriminate|]. cbn [skip lx_tok lx_txt lx_raw lx_rest]. apply IH.
        apply find_close_spec in E. destruct E as [-> _]. cbn. rewrite app_length. lia.
      + destruct r; discriminate. }
  destruct (isQuote c && has m ScanStrLit).
  { unfold lit_token. destruct (cons_out _ _) as [[[] w] r']; discriminate. }
  destruct ((isDecimalDigit c || (c =? ch ".")) && has m ScanNumberLit).
  { pose proof (pnum_tok c r) as P. destruct (pnum c r) as [t o]. cbn in P. unfold lit_token. destruct o as [[[] w] r'].
    - cbn. intros ->. destruct P; discriminate.
    - discriminate. }
  cbn. intros E. exfalso. exact (A _ E).
Qed.

(** ** Positions *)
Lemma posafter_moved p w : Forall valid_rune w -> moved p w (posafter p w).
Proof.
  intros V. repeat split.
  - apply posafter_filename.
  - rewrite posafter_offset_lens, lens_bytes by exact V. reflexivity.
  - apply posafter_line_eq.
  - apply posafter_column_eq.
Qed.
Lemma moved_unique p w q q' : moved p w q -> moved p w q' -> q = q'.
Proof. destruct q, q'. unfold moved. cbn. intros (? & ? & ? & ?) (? & ? & ? & ?). congruence. Qed.
Lemma readable_nonul l : readable l -> nonul l. Proof. apply Forall_impl. tauto. Qed.
Lemma readable_valid l : readable l -> Forall valid_rune l. Proof. apply Forall_impl. tauto. Qed.
Lemma readable_app a b : readable (a ++ b) <-> readable a /\ readable b. Proof. apply Forall_app. Qed.

(** ** C06 *)
Lemma scan_unscan s : nonul (rest s) ->
  exists t x p e s', Scan s = (Ok (t, x, p, e), s') /\
    rest (UnScan s') = rest s /\ pos (UnScan s') = pos s /\ mode (UnScan s') = mode s /\
    exists e' s'', Scan (UnScan s') = (Ok (t, x, p, e'), s'') /\ rest s'' = rest s' /\ pos s'' = pos s' /\ (e = None <-> e' = None).
Proof.
  intros N. destruct (Scan_spec s N) as (s' & e & Q & S & R & E).
  assert (U : UnScan s' = set_pc (pos s, cols s') (set_rest (rest s) s')) by exact (UnScan_step (set_raw [] s) _ _ s' eq_refl S).
  exists (lx_tok (lex (mode s) (rest s))), (lx_txt (lex (mode s) (rest s))), (posafter (pos s) (lx_gap (lex (mode s) (rest s)))), e, s'.
  split; [exact Q|]. rewrite U. cbn [rest pos mode set_pc set_rest fst].
  assert (M : mode s' = mode s) by apply (st_mode _ _ _ _ S).
  repeat (split; [reflexivity || assumption|]).
  destruct (Scan_spec (set_pc (pos s, cols s') (set_rest (rest s) s'))) as (s2 & e2 & Q2 & S2 & R2 & E2); [exact N|].
  cbn [rest pos mode set_pc set_rest fst snd] in *. rewrite M in *.
  exists e2, s2. split; [exact Q2|]. split; [congruence|]. split.
  - rewrite (st_pos _ _ _ _ S2), (st_pos _ _ _ _ S). reflexivity.
  - tauto.
Qed.

(** ** C07 *)
Lemma Gap_prefix g cs : Gap g cs -> Forall (fun gc : list rune * str => exists z, g = fst gc ++ z) cs.
Proof.
  induction 1 as [|c g cs Hc H IH|z g cs Hz H IH|z g cs Hz H IH]; [constructor| | |].
  - apply Forall_map. revert IH. apply Forall_impl. intros [a b] (z & ->). exists z. reflexivity.
  - constructor; [exists (z ++ [NL] ++ g); reflexivity|]. apply Forall_map. revert IH. apply Forall_impl. intros [a b] (u & ->).
    exists u. cbn. rewrite <- !app_assoc. reflexivity.
  - constructor; [exists (z ++ g); reflexivity|]. apply Forall_map. revert IH. apply Forall_impl. intros [a b] (u & ->).
    exists u. cbn. rewrite <- !app_assoc. reflexivity.
Qed.
Lemma place_moved p cs : Forall (fun gc : list rune * str => Forall valid_rune (fst gc)) cs ->
  Forall2 (fun gc tx => Literal tx = snd gc /\ moved p (fst gc) (TPos tx)) cs (place p cs).
Proof.
  induction 1 as [|[a b] l H W IH]; [constructor|]. cbn [place map]. constructor; [|exact IH].
  cbn in *. split; [reflexivity|]. apply posafter_moved. exact H.
Qed.
Lemma scan_source s t x p e s' : readable (rest s) -> Scan s = (Ok (t, x, p, e), s') ->
  exists g cs r, rest s = g ++ r /\ moved (pos s) g p /\
    (t = TEOF -> r = [] /\ rest s' = [] /\ x = [] /\ e = None) /\
    (t <> TEOF -> t <> TCOMMENT -> e = None -> r = x ++ rest s' /\ x <> []) /\
    (t = TCOMMENT -> is_comment x /\ e = None /\ has (mode s) ScanComment = true /\
         (r = x ++ rest s' \/ is_line_comment x /\ r = x ++ NL :: rest s')) /\
    (if has (mode s) ScanComment then Spaces g /\ cs = (if token_eq_dec t TCOMMENT then [(g, x)] else [])
     else if token_eq_dec t TEOF then EndGap g cs else Gap g cs) /\
    (exists l, comments s' = comments s ++ l /\ Forall2 (fun gc tx => Literal tx = snd gc /\ moved (pos s) (fst gc) (TPos tx)) cs l).
Proof.
  intros V Q. destruct (Scan_spec s (readable_nonul _ V)) as (s2 & e2 & Q2 & S & R & E).
  rewrite Q in Q2. injection Q2 as -> -> -> -> ->.
  set (y := lex (mode s) (rest s)) in *. exists (lx_gap y), (lx_cms y), (lx_raw y ++ lx_rest y).
  pose proof (lex_app (mode s) (rest s)) as A. unfold lexed_app in A. fold y in A.
  assert (V2 : readable (lx_gap y)) by (rewrite A in V; apply readable_app in V; tauto).
  split; [exact A|]. split; [apply posafter_moved, readable_valid; exact V2|].
  pose proof (lex_raw_cases (mode s) (rest s)) as C. cbn zeta in C. fold y in C.
  split. { intros T. destruct (lex_eof _ _ T) as (X1 & X2 & X3). fold y in X1, X2, X3. rewrite R, X1, X2, X3. repeat split.
           apply E. intros [I _]. rewrite T in I. discriminate. }
  split.
  { intros T T2 N. apply E in N. destruct C as [C|[[_ C]|[_ [C _]]]]; try contradiction. rewrite C, R. split; [reflexivity|].
    unfold Scan in Q. apply bind_ok in Q. destruct Q as (? & ? & _ & Q). apply bind_ok in Q. destruct Q as (? & ? & _ & Q).
    apply scan_err in Q. destruct e2.
    - destruct E as [_ E]. specialize (E N). discriminate.
    - destruct Q; [contradiction|assumption]. }
  split.
  { intros T. destruct C as [[C _]|[[C _]|(M & _ & C)]]; try congruence. rewrite R.
    assert (EN : e2 = None) by (apply E; intros [I _]; congruence).
    destruct C as [[C [C2|[C2 C3]]]|[C C2]]; rewrite C2.
    - split; [left; exact C|]. split; [exact EN|]. split; [exact M|]. right. split; [exact C|]. rewrite <- app_assoc. reflexivity.
    - split; [left; exact C|]. split; [exact EN|]. split; [exact M|]. left. rewrite C3. reflexivity.
    - split; [right; exact C|]. split; [exact EN|]. split; [exact M|]. left. reflexivity. }
  pose proof (lex_gap_ok (mode s) (rest s)) as G. fold y in G. unfold gap_ok in G.
  split.
  { destruct (has (mode s) ScanComment).
    - destruct G as [G1 G2]. split; [exact G1|]. rewrite G2. destruct (token_eq_dec (lx_tok y) TCOMMENT) as [->|N]; [reflexivity|].
      destruct (lx_tok y); congruence.
    - destruct (token_eq_dec (lx_tok y) TEOF) as [X|X]; [rewrite X in G; exact G|]. destruct (lx_tok y); congruence. }
  exists (place (pos s) (lx_cms y)). split; [apply (st_cms _ _ _ _ S)|].
  apply place_moved.
  assert (P2 : Forall (fun gc : list rune * str => exists z, lx_gap y = fst gc ++ z) (lx_cms y)).
  { destruct (has (mode s) ScanComment).
    - destruct G as [_ G2]. rewrite G2. destruct (lx_tok y); constructor; [|constructor]. exists []. rewrite app_nil_r. reflexivity.
    - destruct (lx_tok y); try (apply Gap_prefix; exact G). destruct G as [g cs G|g cs z G Hz]; [apply Gap_prefix; exact G|].
      apply Forall_app. split; [|constructor; [exists z; reflexivity|constructor]].
      apply Gap_prefix in G. revert G. apply Forall_impl. intros [a b] (u & ->). exists (u ++ z). rewrite <- app_assoc. reflexivity. }
  revert P2. apply Forall_impl. intros [a b] (z & Z). cbn in *. rewrite Z in V2. apply readable_app in V2. apply readable_valid. tauto.
Qed.

(** ** C08: histories of Scan and UnScan *)
Inductive sop := OScan (m : smode) | OUnScan.
Definition sdo (s : st) (o : sop) : st :=
  match o with OScan m => snd (Scan (set_mode m s)) | OUnScan => UnScan s end.
Definition srun (ops : list sop) (s : st) : st := fold_left sdo ops s.
(** UnScan gives back the last Scan: it is not called twice in a row *)
Definition spaced (ops : list sop) : Prop := forall a b, ops <> a ++ OUnScan :: OUnScan :: b.

Definition newline_cols (p0 : mpos) (w : list rune) (cl : colmap) : Prop :=
  forall a b, w = a ++ NL :: b -> col_get cl (Line (posafter p0 a)) = Column (posafter p0 a).
Lemma newline_cols_step p0 w v cl cl' : newline_cols p0 w cl -> cols_step (posafter p0 w) v cl cl' -> newline_cols p0 (w ++ v) cl'.
Proof.
  intros A B. refine (proj2 (cols_step_trans p0 w v cl cl cl' _ B)). split; [reflexivity|exact A].
Qed.
Lemma newline_cols_pre p0 w v cl : newline_cols p0 (w ++ v) cl -> newline_cols p0 w cl.
Proof. intros H a b ->. apply (H a (b ++ v)). rewrite <- app_assoc. reflexivity. Qed.

Record hist (p0 : mpos) (text : list rune) (can : bool) (s : st) : Prop := mkHist {
  h_ex : exists w, text = w ++ rest s /\ pos s = posafter p0 w /\ newline_cols p0 w (cols s) /\
         (can = true -> exists w0, w = w0 ++ raw s) }.
Lemma hist_scan p0 text can s m : nonul text -> hist p0 text can s -> hist p0 text true (sdo s (OScan m)).
Proof.
  intros N [(w & E & P & C & _)]. cbn [sdo].
  destruct (Scan_spec (set_mode m s)) as (s' & e & Q & S & _). { cbn. rewrite E in N. apply nonul_app in N. tauto. }
  rewrite Q. cbn [snd]. set (v := lx_gap _ ++ lx_raw _) in S.
  constructor. exists (w ++ v). repeat split.
  - rewrite <- app_assoc, E. f_equal. apply (st_rest _ _ _ _ S).
  - rewrite (st_pos _ _ _ _ S). cbn [pos set_raw set_mode]. rewrite P, posafter_app. reflexivity.
  - apply newline_cols_step with (cl := cols s); [exact C|]. rewrite <- P. apply (st_cols _ _ _ _ S).
  - intros _. exists w. f_equal. symmetry. apply (st_raw _ _ _ _ S).
Qed.
Lemma hist_unscan p0 text s : hist p0 text true s -> hist p0 text false (sdo s OUnScan).
Proof.
  intros [(w & E & P & C & R)]. destruct (R eq_refl) as (w0 & W). cbn [sdo]. unfold UnScan.
  rewrite (unread_all (raw s) s (posafter p0 w0)).
  - constructor. exists w0. cbn. rewrite app_assoc, <- W. repeat split; try assumption.
    + apply newline_cols_pre with (v := raw s). rewrite <- W. exact C.
    + discriminate.
  - rewrite P, W, posafter_app. reflexivity.
  - intros a b EE. rewrite <- posafter_app. apply (C (w0 ++ a) b). rewrite W, EE, <- app_assoc. reflexivity.
Qed.
Fixpoint may (can : bool) (ops : list sop) : Prop :=
  match ops with [] => True | OScan _ :: r => may true r | OUnScan :: r => can = true /\ may false r end.
Lemma spaced_may ops : spaced ops -> may true ops /\ (match ops with OUnScan :: _ => True | _ => may false ops end).
Proof.
  induction ops as [|o ops IH]; intros H; [split; exact I|].
  assert (H' : spaced ops) by (intros a b ->; apply (H (o :: a) b); reflexivity).
  destruct (IH H') as [A B]. destruct o as [m|]; cbn.
  - split; exact A.
  - split; [|exact I]. split; [reflexivity|]. destruct ops as [|[m|] ops]; cbn in *; try assumption.
    exfalso. apply (H [] ops). reflexivity.
Qed.
Lemma hist_run p0 text ops : nonul text -> forall can s, may can ops -> hist p0 text can s -> exists can', hist p0 text can' (srun ops s).
Proof.
  intros N. induction ops as [|[m|] ops IH]; intros can s M H; cbn [srun fold_left] in *.
  - eauto.
  - apply (IH true); [exact M|]. eapply hist_scan; eassumption.
  - destruct M as [-> M]. apply (IH false); [exact M|]. apply hist_unscan. exact H.
Qed.
Lemma init_hist fn text : hist (mkPos fn 0 1 1) text true (init_st fn text).
Proof.
  constructor. exists []. repeat split.
  - intros a b E. destruct a; discriminate.
  - intros _. exists []. reflexivity.
Qed.
Lemma positions_from_text fn text ops : readable text -> spaced ops ->
  exists w, text = w ++ rest (srun ops (init_st fn text)) /\
    moved (mkPos fn 0 1 1) w (pos (srun ops (init_st fn text))).
Proof.
  intros R S. destruct (hist_run _ text ops (readable_nonul _ R) true _ (proj1 (spaced_may _ S)) (init_hist fn text)) as (can & [(w & E & P & _)]).
  exists w. split; [exact E|]. rewrite P. apply posafter_moved. rewrite E in R. apply readable_app in R. apply readable_valid. tauto.
Qed.

(** whatever the history: the bytes and lines behind the position and those still
    to be read add up *)
Definition bal (s : st) : Z * Z := ((Offset (pos s) + lens (rest s))%Z, (Line (pos s) + newlines (rest s))%Z).
Lemma newlines_app a b : newlines (a ++ b) = (newlines a + newlines b)%Z.
Proof. unfold newlines. rewrite count_occ_app, Nat2Z.inj_add. reflexivity. Qed.
Lemma bal_unread c s : bal (unread c s) = bal s.
Proof.
  unfold bal, unread, Revert. change (c :: rest s) with ([c] ++ rest s).
  assert (L : lens [c] = rune_len c) by (cbn; lia).
  destruct (N.eqb_spec c NL) as [->|E]; cbn [rest set_pc set_rest pos fst Offset Line]; rewrite lens_app, newlines_app, L.
  - change (newlines [NL]) with 1%Z. f_equal; lia.
  - assert (W : newlines [c] = 0%Z) by (unfold newlines; cbn [count_occ]; destruct (N.eq_dec c NL); [congruence|reflexivity]).
    rewrite W. f_equal; lia.
Qed.
Lemma bal_unscan s : bal (UnScan s) = bal s.
Proof.
  unfold UnScan. generalize (rev (raw s)). intros l. revert s. induction l as [|c l IH]; intros s; cbn [fold_left]; [reflexivity|].
  rewrite IH. apply bal_unread.
Qed.
Lemma bal_scan s : nonul (rest s) -> bal (snd (Scan s)) = bal s.
Proof.
  intros N. destruct (Scan_spec s N) as (s' & e & Q & S & _). rewrite Q. cbn [snd]. unfold bal.
  set (v := lx_gap _ ++ lx_raw _) in S. rewrite (st_pos _ _ _ _ S). pose proof (st_rest _ _ _ _ S) as E. cbn [rest pos set_raw] in *. rewrite E.
  rewrite posafter_offset_lens, posafter_line_eq, lens_app, newlines_app. f_equal; lia.
Qed.
Definition within (P : rune -> Prop) (s : st) : Prop := Forall P (rest s) /\ Forall P (raw s).
Lemma within_unread_all P l : forall s, within P s -> Forall P l -> within P (fold_left (fun s c => unread c s) l s).
Proof.
  induction l as [|c l IH]; intros s W D; cbn [fold_left]; [exact W|]. apply Forall_cons_iff in D. destruct D as [D1 D2].
  apply IH; [|exact D2]. destruct W. split; cbn; auto.
Qed.
Lemma within_unscan P s : within P s -> within P (UnScan s).
Proof. intros W. apply within_unread_all; [exact W|]. apply Forall_rev, W. Qed.
Lemma within_scan (P : rune -> Prop) s : (forall c, P c -> c <> 0) -> within P s -> within P (snd (Scan s)).
Proof.
  intros H [A B]. destruct (Scan_spec s) as (s' & e & Q & S & _). { revert A. apply Forall_impl. exact H. }
  rewrite Q. cbn [snd]. pose proof (st_rest _ _ _ _ S) as E. pose proof (st_raw _ _ _ _ S) as R. cbn in E, R.
  rewrite E in A. apply Forall_app in A. split; [tauto|]. rewrite R. tauto.
Qed.
Lemma balance text fn ops : readable text -> let s := srun ops (init_st fn text) in
  (Offset (pos s) + utf8_bytes (rest s) = utf8_bytes text /\ Line (pos s) + newlines (rest s) = 1 + newlines text)%Z /\
  Filename (pos s) = fn.
Proof.
  intros R s. set (P := fun c => valid_rune c /\ c <> 0).
  assert (NZ : forall c, P c -> c <> 0) by (intros c [_ H]; exact H).
  assert (H : forall ops s0, within P s0 -> within P (srun ops s0) /\ bal (srun ops s0) = bal s0 /\ Filename (pos (srun ops s0)) = Filename (pos s0)).
  { clear. intros ops. assert (NZ : forall c, P c -> c <> 0) by (intros c [_ H]; exact H). induction ops as [|[m|] ops IH]; intros s0 W; cbn [srun fold_left sdo]; [auto| |].
    - assert (W' : within P (set_mode m s0)) by exact W.
      destruct (IH _ (within_scan P _ NZ W')) as (A & B & C). split; [exact A|].
      assert (N : nonul (rest (set_mode m s0))) by (destruct W as [W _]; revert W; apply Forall_impl; exact NZ).
      split.
      + transitivity (bal (set_mode m s0)); [|reflexivity]. rewrite <- (bal_scan (set_mode m s0) N). exact B.
      + etransitivity; [exact C|]. destruct (Scan_spec _ N) as (s' & e & Q & S & _). rewrite Q. cbn [snd]. rewrite (st_pos _ _ _ _ S), posafter_filename. reflexivity.
    - destruct (IH _ (within_unscan P _ W)) as (A & B & C). split; [exact A|]. rewrite <- (bal_unscan s0). split; [exact B|].
      etransitivity; [exact C|]. unfold UnScan. generalize (rev (raw s0)). intros l. clear. revert s0.
      induction l as [|c l IH]; intros s0; cbn [fold_left]; [reflexivity|]. rewrite IH. unfold unread, Revert. destruct (c =? NL); reflexivity. }
  destruct (H ops (init_st fn text)) as ((W & _) & B & F). { split; [exact R|constructor]. }
  fold s in W, B, F. unfold bal in B. cbn [pos init_st rest Offset Line] in B. injection B as B1 B2.
  rewrite !lens_bytes in B1; [| |]; try (eapply Forall_impl; [|eassumption]; intros c [X _]; exact X).
  split; [|exact F]. split; [exact B1|exact B2].
Qed.

(** ** A token at a known place *)
Lemma scan_at s g cs r : nonul (rest s) -> rest s = g ++ r -> gap_in (mode s) g cs ->
  let x := lex (mode s) r in
  exists s' e, Scan s = (Ok (lx_tok x, lx_txt x, posafter (pos s) (g ++ lx_gap x), e), s') /\ rest s' = lx_rest x /\
    (e = None <-> ~ is_illegal x) /\ comments s' = comments s ++ place (pos s) (cs ++ shift g (lx_cms x)) /\
    pos s' = posafter (pos s) (g ++ lx_gap x ++ lx_raw x).
Proof.
  intros N E G x. destruct (Scan_spec s N) as (s' & e & Q & S & R & H). rewrite E, (lex_gap_in _ _ _ _ G) in *. fold x in Q, S, R, H.
  exists s', e. unfold is_illegal in *. cbn [skip lx_tok lx_txt lx_gap lx_cms lx_raw lx_rest] in *.
  split; [exact Q|]. split; [exact R|]. split; [exact H|]. split; [apply (st_cms _ _ _ _ S)|].
  rewrite app_assoc. apply (st_pos _ _ _ _ S).
Qed.

(** ** C10 *)
Lemma scan_ident s g cs c r : nonul (rest s) -> rest s = g ++ c :: r -> gap_in (mode s) g cs -> ident_start c ->
  exists t x r' s', c :: r = x ++ r' /\ is_ident x /\ (match r' with [] => True | d :: _ => ~ ident_char d end) /\
    Scan s = (Ok (t, x, posafter (pos s) g, None), s') /\ rest s' = r' /\ t = identToken (mode s) x.
Proof.
  intros N E G H. destruct (scan_at s g cs (c :: r) N E G) as (s' & e & Q & R & I & _).
  rewrite lex_ident in * by (apply ident_start_iff; exact H). destruct (span identChar r) as [x r1] eqn:SP.
  cbn [lx_tok lx_txt lx_gap lx_raw lx_rest] in *. rewrite app_nil_r in Q.
  apply span_spec in SP. destruct SP as (-> & F & D).
  exists (identToken (mode s) (c :: x)), (c :: x), r1, s'. split; [reflexivity|]. split.
  { exists c, x. repeat split; [exact H|]. revert F. apply Forall_impl. intros a. apply ident_char_iff. }
  split. { destruct r1 as [|d r1]; [exact Logic.I|]. cbn in D. intros X. apply ident_char_iff in X. congruence. }
  split; [|split; [exact R|reflexivity]]. rewrite Q. assert (e = None) as ->; [|reflexivity].
  apply I. intros [_ X]. discriminate.
Qed.

(** ** C14 *)
Lemma identToken_spec m x : is_ident x ->
  let t := identToken m x in
  (t = TBOOLLIT <-> has m ScanBoolLit = true /\ (x = lit "true" \/ x = lit "false")) /\
  (t = TFLOATLIT <-> has m ScanNumberLit = true /\ (x = lit "inf" \/ x = lit "nan")) /\
  (forall k, In k (map snd keywords) -> (t = k <-> has m ScanKeyword = true /\ exists name, x = lit name /\ In (name, k) keywords)) /\
  (t = TIDENT <-> ~ (has m ScanBoolLit = true /\ (x = lit "true" \/ x = lit "false")) /\
                  ~ (has m ScanNumberLit = true /\ (x = lit "inf" \/ x = lit "nan")) /\
                  ~ (has m ScanKeyword = true /\ exists name k, x = lit name /\ In (name, k) keywords)).
Proof.
  intros _ t.
  assert (KB : forall b, In b ["true"; "false"; "inf"; "nan"]%string -> forall name k, lit b = lit name -> In (name, k) keywords -> False).
  { intros b Ib name k E I. unfold keywords in I. cbn [In] in I, Ib.
    repeat (destruct Ib as [<-|Ib]; [repeat (destruct I as [I|I]; [injection I as <- <-; discriminate|]); destruct I|]). destruct Ib. }
  assert (KT : forall y k, asKeywordToken y = k -> k <> TBOOLLIT /\ k <> TFLOATLIT /\ k <> TIDENT).
  { intros y k E. repeat split; intros ->; apply keyword_spec in E; try discriminate; destruct E as (n & _ & I); unfold keywords in I; cbn [In] in I;
    repeat (destruct I as [I|I]; [discriminate|]); destruct I. }
  assert (MT : forall k, In k (map snd keywords) -> k <> TBOOLLIT /\ k <> TFLOATLIT /\ k <> TIDENT /\ k <> TILLEGAL).
  { intros k I. cbn in I. repeat (destruct I as [<-|I]; [repeat split; discriminate|]). destruct I. }
  assert (BL : isBoolLit x = true <-> x = lit "true" \/ x = lit "false").
  { unfold isBoolLit. rewrite orb_true_iff, !str_eqb_eq. reflexivity. }
  assert (FL : isFloatLitKeyword x = true <-> x = lit "inf" \/ x = lit "nan").
  { unfold isFloatLitKeyword. rewrite orb_true_iff, !str_eqb_eq. reflexivity. }
  unfold t, identToken.
  destruct (has m ScanBoolLit && isBoolLit x) eqn:E1.
  { apply andb_true_iff in E1. destruct E1 as [A B]. apply BL in B.
    assert (NK : forall name k, x = lit name -> In (name, k) keywords -> False).
    { intros name k E I. destruct B as [->| ->]; (eapply KB; [|exact E|exact I]); cbn; auto. }
    assert (NF : x = lit "inf" \/ x = lit "nan" -> False).
    { destruct B as [->| ->]; intros [X|X]; discriminate. }
    split; [tauto|]. split; [split; [discriminate|tauto]|]. split.
    - intros k I. destruct (MT k I) as (X & _). split; [congruence|]. intros (_ & name & E & J). exfalso. eauto.
    - split; [discriminate|]. tauto. }
  assert (E1' : ~ (has m ScanBoolLit = true /\ (x = lit "true" \/ x = lit "false"))).
  { rewrite <- BL, <- andb_true_iff. congruence. }
  destruct (has m ScanNumberLit && isFloatLitKeyword x) eqn:E2.
  { apply andb_true_iff in E2. destruct E2 as [A B]. apply FL in B.
    assert (NK : forall name k, x = lit name -> In (name, k) keywords -> False).
    { intros name k E I. destruct B as [->| ->]; (eapply KB; [|exact E|exact I]); cbn; auto. }
    split; [split; [discriminate|tauto]|]. split; [tauto|]. split.
    - intros k I. destruct (MT k I) as (_ & X & _). split; [congruence|]. intros (_ & name & E & J). exfalso. eauto.
    - split; [discriminate|]. tauto. }
  assert (E2' : ~ (has m ScanNumberLit = true /\ (x = lit "inf" \/ x = lit "nan"))).
  { rewrite <- FL, <- andb_true_iff. congruence. }
  destruct (has m ScanKeyword && negb (tok_eqb (asKeywordToken x) TILLEGAL)) eqn:E3.
  { apply andb_true_iff in E3. destruct E3 as [A B]. apply negb_true_iff in B. unfold tok_eqb in B.
    destruct (token_eq_dec (asKeywordToken x) TILLEGAL) as [|NI]; [discriminate|].
    destruct (KT x _ eq_refl) as (K1 & K2 & K3).
    split; [tauto|]. split; [tauto|]. split.
    - intros k I. rewrite keyword_spec by (apply (MT k I)). tauto.
    - split; [congruence|]. intros (_ & _ & C). exfalso. apply C. split; [exact A|].
      destruct (proj1 (keyword_spec x (asKeywordToken x) NI) eq_refl) as (n & E & I). eauto. }
  assert (E3' : ~ (has m ScanKeyword = true /\ exists name k, x = lit name /\ In (name, k) keywords)).
  { intros (A & name & k & E & I). rewrite A in E3. cbn in E3. apply negb_false_iff in E3. unfold tok_eqb in E3.
    destruct (token_eq_dec (asKeywordToken x) TILLEGAL) as [Z|]; [|discriminate]. apply keyword_illegal in Z. eauto. }
  split; [split; [discriminate|tauto]|]. split; [split; [discriminate|tauto]|]. split.
  - intros k I. destruct (MT k I) as (_ & _ & X & _). split; [congruence|]. intros (A & name & E & J). exfalso. apply E3'. eauto.
  - tauto.
Qed.

(** what kind of token comes with which text *)
Inductive lexed_kind (m : smode) : token -> str -> Prop :=
| lk_eof : lexed_kind m TEOF []
| lk_ident x : is_ident x -> lexed_kind m (identToken m x) x
| lk_comment x : is_comment x -> lexed_kind m TCOMMENT x
| lk_int x : is_int x -> lexed_kind m TINTLIT x
| lk_float x : is_plain_float x -> lexed_kind m TFLOATLIT x
| lk_str x : is_str x -> lexed_kind m TSTRLIT x
| lk_illegal : lexed_kind m TILLEGAL []
| lk_misc c : ~ ident_start c -> lexed_kind m (asMiscToken c) [c].
Lemma lex_kind m r : nonul r -> lexed_kind m (lx_tok (lex m r)) (lx_txt (lex m r)).
Proof.
  induction r as [r IH] using len_ind. intros N. destruct r as [|c r].
  { rewrite lex_nil. constructor. }
  apply nonul_cons in N. destruct N as [Nc N].
  rewrite lex_cons. destruct (isSpace c). { cbn [skip lx_tok lx_txt]. apply IH; [cbn; lia|exact N]. }
  destruct (identStart c) eqn:IS.
  { destruct (span identChar r) as [x r1] eqn:SP. apply span_spec in SP. destruct SP as (-> & F & _). cbn. apply lk_ident.
    exists c, x. repeat split; [apply ident_start_iff; exact IS|]. revert F. apply Forall_impl. intros a. apply ident_char_iff. }
  destruct (N.eqb_spec c (ch "/")) as [->|].
  { destruct (head_is (fun d => d =? ch "/") r) eqn:H1.
    - destruct (span _ r) as [b r2] eqn:E. apply span_spec in E. destruct E as (-> & F & Hd).
      assert (L : is_line_comment (ch "/" :: b)).
      { destruct b as [|b0 b].
        { destruct r2; cbn in *; [discriminate|]. apply N.eqb_eq in H1. subst. discriminate. }
        cbn in H1. apply N.eqb_eq in H1. subst b0. exists b. split; [reflexivity|].
        inversion F; subst. apply neg_NL. assumption. }
      destruct (has m ScanComment) eqn:M.
      + cbn. apply lk_comment. left. exact L.
      + cbn [skip lx_tok lx_txt]. apply IH.
        * destruct r2; cbn; rewrite ?app_length; cbn; lia.
        * apply nonul_app in N. destruct N as [_ N]. destruct r2; [exact N|]. apply nonul_cons in N. tauto.
    - destruct (head_is (fun d => d =? ch "*") r) eqn:H2.
      + apply head_slash in H2. destruct H2 as (r2 & ->).
        destruct (find_close r2) as [[b r3]|] eqn:E; [|constructor].
        destruct (has m ScanComment) eqn:M.
        * cbn. apply lk_comment. right.
          destruct (find_close_body _ _ _ E) as (w & -> & W). exists w. auto.
        * cbn [skip lx_tok lx_txt]. apply find_close_spec in E. destruct E as [-> _]. apply IH.
          -- cbn. rewrite app_length. lia.
          -- apply nonul_cons in N. destruct N as [_ N]. apply nonul_app in N. tauto.
      + destruct r; constructor. }
  destruct (isQuote c && has m ScanStrLit) eqn:QS.
  { apply andb_true_iff in QS. destruct QS as [Qc _]. apply quote_iff in Qc. unfold lit_token, cons_out.
    destruct (pstr _ _ _) as [[[] w] r'] eqn:P; [|constructor].
    apply pstr_sound in P; [|exact Qc|exact N]. destruct P as (b & -> & B). cbn [lx_tok lx_txt]. apply lk_str. exists c, b. auto. }
  destruct ((isDecimalDigit c || (c =? ch ".")) && has m ScanNumberLit) eqn:DS.
  { destruct (pnum c r) as [t o] eqn:P. unfold lit_token. destruct o as [[[] w] r']; [|constructor].
    apply pnum_sound in P.
    - destruct P as [[-> P]|[-> P]]; cbn; [apply lk_int|apply lk_float]; exact P.
    - apply andb_true_iff in DS. destruct DS as [D _]. apply orb_true_iff in D. rewrite digit_iff, N.eqb_eq in D. exact D. }
  cbn. apply lk_misc. intros X. apply ident_start_iff in X. congruence.
Qed.
Lemma misc_tokens c : let t := asMiscToken c in t <> TINTLIT /\ t <> TFLOATLIT /\ t <> TSTRLIT /\ t <> TBOOLLIT /\ t <> TIDENT /\ t <> TCOMMENT /\ t <> TEOF /\ ~ In t (map snd keywords).
Proof.
  unfold asMiscToken. repeat (match goal with |- context[?a =? ?b] => destruct (a =? b) end; [repeat split; try discriminate; cbn; intuition discriminate|]).
  repeat split; try discriminate. cbn. intuition discriminate.
Qed.
Lemma identToken_not m x : identToken m x <> TINTLIT /\ identToken m x <> TSTRLIT /\ identToken m x <> TILLEGAL /\ identToken m x <> TEOF /\ identToken m x <> TCOMMENT.
Proof.
  unfold identToken. destruct (_ && _); [repeat split; discriminate|]. destruct (_ && _); [repeat split; discriminate|].
  destruct (_ && negb _) eqn:E; [|repeat split; discriminate].
  apply andb_true_iff in E. destruct E as [_ E]. apply negb_true_iff in E. unfold tok_eqb in E. destruct (token_eq_dec _ TILLEGAL) as [|NI]; [discriminate|].
  destruct (proj1 (keyword_spec x _ NI) eq_refl) as (n & _ & I). unfold keywords in I. cbn [In] in I.
  repeat (destruct I as [I|I]; [injection I as _ <-; repeat split; discriminate|]). destruct I.
Qed.
Lemma scan_kind s t x p e s' : nonul (rest s) -> Scan s = (Ok (t, x, p, e), s') -> lexed_kind (mode s) t x.
Proof.
  intros N Q. destruct (Scan_spec s N) as (s2 & e2 & Q2 & _). rewrite Q in Q2. injection Q2 as -> -> _ _ _. apply lex_kind. exact N.
Qed.
Lemma ident_first x : is_ident x -> exists c l, x = c :: l /\ identStart c = true.
Proof. intros (c & l & -> & H & _). exists c, l. split; [reflexivity|]. apply ident_start_iff. exact H. Qed.
Definition identb (x : str) : bool := match x with [] => false | c :: l => identStart c && forallb identChar l end.
Lemma identb_iff x : identb x = true <-> is_ident x.
Proof.
  unfold identb, is_ident. destruct x as [|c l]; [split; [discriminate|intros (c & l & E & _); discriminate]|].
  rewrite andb_true_iff, forallb_forall, ident_start_iff. split.
  - intros [A B]. exists c, l. repeat split; [exact A|]. apply Forall_forall. intros y Y. apply ident_char_iff. auto.
  - intros (c' & l' & E & A & B). injection E as <- <-. split; [exact A|]. intros y Y. rewrite Forall_forall in B. apply ident_char_iff. auto.
Qed.
Lemma plain_float x : is_plain_float x -> is_float x.
Proof.
  assert (D : forall a, plain_decimals a -> decimals a).
  { intros a [->|(c & l & -> & H & F)].
    - split; [discriminate|]. constructor; [|constructor]. unfold digit; cbn; lia.
    - split; [discriminate|]. constructor; [unfold digit in *; lia|exact F]. }
  intros [a b e A B E|a e A E|b e B E| |]; [apply float_point|apply float_exp|apply float_frac|apply float_inf|apply float_nan]; auto.
Qed.
Lemma float_not_ident x : is_float x -> is_ident x -> x = lit "inf" \/ x = lit "nan".
Proof.
  intros F I. destruct (ident_first x I) as (c & l & -> & H). destruct (identStart_class c H) as (_ & _ & _ & D).
  assert (D0 : forall a b, decimals a -> a ++ b = c :: l -> False).
  { intros a b [A B] E. destruct a as [|d a]; [congruence|]. injection E as -> _. apply Forall_cons_iff in B. destruct B as [B _].
    apply digit_iff in B. rewrite B in D. discriminate. }
  inversion F as [a b e A B X E|a e A X E|b e B X E|E|E].
  - exfalso. eapply D0; [exact A|exact E].
  - exfalso. eapply D0; [exact A|exact E].
  - exfalso. subst. discriminate.
  - left. reflexivity.
  - right. reflexivity.
Qed.
Lemma int_not_ident x : is_int x -> is_ident x -> False.
Proof.
  intros F I. destruct (ident_first x I) as (c & l & -> & H). destruct (identStart_class c H) as (_ & _ & _ & D).
  apply orb_false_iff in D. destruct D as [D _].
  assert (~ digit c) by (rewrite <- digit_iff; congruence). unfold digit in *.
  destruct F as [(d & l' & E & R & _)|[(l' & E & _)|(e & l' & E & _)]]; injection E as -> _; [lia| |]; vm_compute in H; discriminate.
Qed.
Lemma scan_sound_lits s t x p e s' : nonul (rest s) -> Scan s = (Ok (t, x, p, e), s') ->
  (t = TINTLIT -> is_int x) /\ (t = TFLOATLIT -> is_plain_float x) /\ (t = TSTRLIT -> is_str x).
Proof.
  intros N Q. pose proof (scan_kind _ _ _ _ _ _ N Q) as K. destruct K as [|x I|x I|x I|x I|x I| |c I]; try (repeat split; congruence).
  - destruct (identToken_not (mode s) x) as (A & B & _). split; [tauto|]. split; [|tauto]. intros T.
    destruct (identToken_spec (mode s) x I) as (_ & F & _). apply F in T. destruct T as [_ [->| ->]]; constructor.
  - destruct (misc_tokens c) as (A & B & C & _). tauto.
Qed.
Lemma scan_keywords s t x p s' : nonul (rest s) -> Scan s = (Ok (t, x, p, None), s') ->
  (forall k, In k (map snd keywords) -> (t = k <-> has (mode s) ScanKeyword = true /\ exists name, x = lit name /\ In (name, k) keywords)) /\
  (t = TBOOLLIT <-> has (mode s) ScanBoolLit = true /\ (x = lit "true" \/ x = lit "false")) /\
  (is_ident x -> t = TFLOATLIT <-> has (mode s) ScanNumberLit = true /\ (x = lit "inf" \/ x = lit "nan")) /\
  (t = TIDENT <-> is_ident x /\
     ~ (has (mode s) ScanBoolLit = true /\ (x = lit "true" \/ x = lit "false")) /\
     ~ (has (mode s) ScanNumberLit = true /\ (x = lit "inf" \/ x = lit "nan")) /\
     ~ (has (mode s) ScanKeyword = true /\ exists name k, x = lit name /\ In (name, k) keywords)).
Proof.
  intros N Q. pose proof (scan_kind _ _ _ _ _ _ N Q) as K.
  assert (KI : forall name k, In (name, k) keywords -> is_ident (lit name)).
  { intros name k I. unfold keywords in I. cbn [In] in I.
    repeat (destruct I as [I|I]; [injection I as <- _; apply identb_iff; reflexivity|]). destruct I. }
  assert (BI : forall b, In b ["true"; "false"; "inf"; "nan"]%string -> is_ident (lit b)).
  { intros b I. cbn [In] in I.
    repeat (destruct I as [<-|I]; [apply identb_iff; reflexivity|]). destruct I. }
  assert (BI2 : x = lit "true" \/ x = lit "false" -> is_ident x) by (intros [->| ->]; apply BI; cbn; auto).
  assert (DEC : is_ident x \/ ~ is_ident x).
  { rewrite <- identb_iff. destruct (identb x); [left; reflexivity|right; discriminate]. }
  assert (IDT : is_ident x -> t = identToken (mode s) x \/ (t = TFLOATLIT /\ (x = lit "inf" \/ x = lit "nan") /\ False)).
  { intros I. assert (FL : t = identToken (mode s) x \/ t <> identToken (mode s) x) by (destruct (token_eq_dec t (identToken (mode s) x)); auto).
    destruct FL as [FL|FL]; [left; exact FL|]. exfalso.
    destruct (ident_first x I) as (c0 & l0 & E0 & H0).
    destruct (Scan_spec s N) as (s2 & e2 & Q2 & S2 & R2 & E2). rewrite Q in Q2. injection Q2 as T X _ _ _.
    apply FL. rewrite T, X. rewrite X in I. clear - N I. revert N I. generalize (mode s). intros m. generalize (rest s). clear s.
    intros r. induction r as [r IH] using len_ind. intros N I. destruct r as [|c r].
    { rewrite lex_nil in *. cbn in I. destruct I as (c & l & E & _). discriminate. }
    apply nonul_cons in N. destruct N as [Nc N].
    rewrite lex_cons in *. destruct (isSpace c). { cbn [skip lx_tok lx_txt] in *. apply IH; [cbn; lia|exact N|exact I]. }
    destruct (identStart c) eqn:IS.
    { destruct (span identChar r) as [x r1] eqn:SP. cbn in *. reflexivity. }
    assert (NOT : forall l, is_ident (c :: l) -> False).
    { intros l J. destruct (ident_first _ J) as (c' & l' & E & H). injection E as <- _. congruence. }
    assert (NIL : is_ident [] -> False) by (intros (c' & l' & E & _); discriminate).
    destruct (N.eqb_spec c (ch "/")) as [->|].
    { destruct (head_is (fun d => d =? ch "/") r) eqn:H1.
      - destruct (span _ r) as [b r2] eqn:E. apply span_spec in E. destruct E as (-> & F & Hd).
        destruct (has m ScanComment) eqn:M; [exfalso; eapply NOT; exact I|].
        cbn [skip lx_tok lx_txt] in *. apply IH; [| |exact I].
        + destruct r2; cbn; rewrite ?app_length; cbn; lia.
        + apply nonul_app in N. destruct N as [_ N]. destruct r2; [exact N|]. apply nonul_cons in N. tauto.
      - destruct (head_is (fun d => d =? ch "*") r) eqn:H2.
        + apply head_slash in H2. destruct H2 as (r2 & ->).
          destruct (find_close r2) as [[b r3]|] eqn:E; [|exfalso; exact (NIL I)].
          destruct (has m ScanComment) eqn:M; [exfalso; eapply NOT; exact I|].
          cbn [skip lx_tok lx_txt] in *. apply find_close_spec in E. destruct E as [-> _]. apply IH; [| |exact I].
          * cbn. rewrite app_length. lia.
          * apply nonul_cons in N. destruct N as [_ N]. apply nonul_app in N. tauto.
        + destruct r; exfalso; exact (NIL I). }
    destruct (isQuote c && has m ScanStrLit) eqn:QS.
    { exfalso. unfold lit_token, cons_out in I. destruct (pstr _ _ _) as [[[] w] r'] eqn:P; [|exact (NIL I)]. cbn in I. eapply NOT; exact I. }
    destruct ((isDecimalDigit c || (c =? ch ".")) && has m ScanNumberLit) eqn:DS.
    { exfalso. pose proof (pnum_app c r) as PA. destruct (pnum c r) as [t o] eqn:P. unfold lit_token in I. destruct o as [[[] w] r']; [|exact (NIL I)].
      cbn in PA, I. destruct w as [|c' w]; [exact (NIL I)|]. injection PA as <- _. eapply NOT; exact I. }
    exfalso. cbn in I. eapply NOT; exact I. }
  assert (IDT' : is_ident x -> t = identToken (mode s) x) by (intros I; destruct (IDT I) as [H|(_ & _ & [])]; exact H).
  assert (NID : ~ is_ident x -> t <> TIDENT /\ t <> TBOOLLIT /\ ~ In t (map snd keywords)).
  { intros NI. destruct K as [|y I|y I|y I|y I|y I| |c I]; try contradiction; try (split; [discriminate|split; [discriminate|cbn; intuition discriminate]]).
    destruct (misc_tokens c) as (_ & _ & _ & A & B & _ & _ & C). auto. }
  destruct DEC as [I|NI].
  - rewrite (IDT' I). destruct (identToken_spec (mode s) x I) as (A & B & C & D). split; [exact C|]. split; [exact A|]. split; [intros _; exact B|]. tauto.
  - destruct (NID NI) as (A & B & C). split; [|split; [|split]].
    + intros k Ik. split; [intros ->; contradiction|]. intros (_ & name & -> & J). exfalso. apply NI. eapply KI. exact J.
    + split; [contradiction|]. tauto.
    + contradiction.
    + tauto.
Qed.

(** ** C11, C12 completeness *)
Lemma digit_class c : digit c -> isSpace c = false /\ identStart c = false /\ (c =? ch "/") = false /\ isQuote c = false.
Proof.
  unfold digit. intros H. assert (K : In c [48;49;50;51;52;53;54;55;56;57]) by (cbn; lia). cbn in K.
  repeat (destruct K as [<-|K]; [repeat split|]). destruct K.
Qed.
Lemma scan_int s g cs x r : nonul (rest s) -> rest s = g ++ x ++ r -> gap_in (mode s) g cs -> has (mode s) ScanNumberLit = true ->
  is_int x -> delimited r ->
  exists s', Scan s = (Ok (TINTLIT, x, posafter (pos s) g, None), s') /\ rest s' = r.
Proof.
  intros N E G M X D. destruct (scan_at s g cs (x ++ r) N E G) as (s' & e & Q & R & I & _).
  destruct (pnum_int x r X D) as (c & l & -> & Hc & P).
  assert (L : lex (mode s) ((c :: l) ++ r) = mkLexed [] [] TINTLIT (c :: l) (c :: l) r).
  { cbn [app]. rewrite lex_cons. assert (NS : isSpace c = false /\ identStart c = false /\ (c =? ch "/") = false /\ isQuote c = false).
    { exact (digit_class c Hc). }
    destruct NS as (-> & -> & -> & ->). cbn [andb]. assert (isDecimalDigit c = true) as -> by (apply digit_iff; exact Hc). rewrite M. cbn [orb andb].
    rewrite P. reflexivity. }
  rewrite L in *. cbn in *. rewrite app_nil_r in Q. exists s'. split; [|exact R]. rewrite Q. assert (e = None) as ->; [|reflexivity].
  apply I. intros [Z _]. discriminate.
Qed.

Lemma scan_float s g cs x r : nonul (rest s) -> rest s = g ++ x ++ r -> gap_in (mode s) g cs -> has (mode s) ScanNumberLit = true ->
  is_plain_float x -> delimited r ->
  exists s', Scan s = (Ok (TFLOATLIT, x, posafter (pos s) g, None), s') /\ rest s' = r.
Proof.
  intros N E G M X D. destruct (scan_at s g cs (x ++ r) N E G) as (s' & e & Q & R & I & _).
  assert (L : lex (mode s) (x ++ r) = mkLexed [] [] TFLOATLIT x x r).
  { destruct (pnum_float x r X D) as [(c & l & -> & Hc & P)|K].
    - cbn [app]. rewrite lex_cons.
      assert (NS : isSpace c = false /\ identStart c = false /\ (c =? ch "/") = false /\ isQuote c = false).
      { destruct Hc as [Hc| ->]; [exact (digit_class c Hc)|repeat split]. }
      destruct NS as (-> & -> & -> & ->). cbn [andb].
      assert ((isDecimalDigit c || (c =? ch ".")) = true) as -> by (apply orb_true_iff; rewrite digit_iff, N.eqb_eq; exact Hc).
      rewrite M. cbn [andb]. rewrite P. reflexivity.
    - assert (ID : is_ident x) by (destruct K as [->| ->]; apply identb_iff; reflexivity).
      assert (T : identToken (mode s) x = TFLOATLIT).
      { destruct (identToken_spec (mode s) x ID) as (_ & F & _). apply F. auto. }
      destruct ID as (c & l & -> & Hc & F). cbn [app]. rewrite lex_ident by (apply ident_start_iff; exact Hc).
      rewrite (span_exact identChar l r).
      + rewrite T. reflexivity.
      + revert F. apply Forall_impl. intros a. apply ident_char_iff.
      + apply delim_class; [exact D|]. intros d Hd. left. apply ident_char_iff. exact Hd. }
  rewrite L in *. cbn in *. rewrite app_nil_r in Q. exists s'. split; [|exact R]. rewrite Q. assert (e = None) as ->; [|reflexivity].
  apply I. intros [Z _]. discriminate.
Qed.
Lemma scan_str s g cs x r : nonul (rest s) -> rest s = g ++ x ++ r -> gap_in (mode s) g cs -> has (mode s) ScanStrLit = true ->
  is_str x ->
  exists s', Scan s = (Ok (TSTRLIT, x, posafter (pos s) g, None), s') /\ rest s' = r.
Proof.
  intros N E G M (q & b & Qq & -> & B). destruct (scan_at s g cs _ N E G) as (s' & e & Q & R & I & _).
  assert (L : lex (mode s) (([q] ++ b ++ [q]) ++ r) = mkLexed [] [] TSTRLIT ([q] ++ b ++ [q]) ([q] ++ b ++ [q]) r).
  { cbn [app]. rewrite <- app_assoc. cbn [app]. rewrite lex_cons.
    assert (NS : isSpace q = false /\ identStart q = false /\ (q =? ch "/") = false /\ isQuote q = true).
    { destruct Qq as [->| ->]; repeat split. }
    destruct NS as (-> & -> & -> & ->). rewrite M. cbn [andb].
    rewrite pstr_complete; [reflexivity|exact Qq|exact B|]. rewrite app_length. cbn. lia. }
  rewrite L in *. cbn [lx_tok lx_txt lx_gap lx_rest] in *. rewrite app_nil_r in Q. exists s'. split; [|exact R]. rewrite Q. assert (e = None) as ->; [|reflexivity].
  apply I. intros [Z _]. discriminate.
Qed.

(** ** C13 *)
Lemma scan_comment s g x r : nonul (rest s) -> has (mode s) ScanComment = true -> Spaces g ->
  (is_block_comment x /\ rest s = g ++ x ++ r \/ is_line_comment x /\ rest s = g ++ x ++ [NL] ++ r \/ is_line_comment x /\ rest s = g ++ x /\ r = []) ->
  exists s', Scan s = (Ok (TCOMMENT, x, posafter (pos s) g, None), s') /\ rest s' = r /\
    comments s' = comments s ++ [mkText x (posafter (pos s) g)].
Proof.
  intros N M G H.
  assert (GI : gap_in (mode s) g []) by (unfold gap_in; rewrite M; auto).
  assert (L : exists y, rest s = g ++ y /\ exists w, lex (mode s) y = comment_token x w r).
  { destruct H as [((b & -> & B) & H)|[((b & -> & B) & H)|((b & -> & B) & H & ->)]].
    - exists ((lit "/*" ++ b ++ lit "*/") ++ r). split; [exact H|]. eexists.
      change ((lit "/*" ++ b ++ lit "*/") ++ r) with (ch "/" :: ch "*" :: (b ++ lit "*/") ++ r). rewrite <- app_assoc, lex_cons.
      destruct slash_class as [-> ->]. rewrite N.eqb_refl. cbn [head_is]. change (ch "*" =? ch "/") with false. rewrite N.eqb_refl. cbv iota.
      rewrite (find_close_exact b r B), M. reflexivity.
    - exists ((lit "//" ++ b) ++ [NL] ++ r). split; [exact H|]. eexists.
      change ((lit "//" ++ b) ++ [NL] ++ r) with (ch "/" :: ((ch "/" :: b) ++ NL :: r)). rewrite lex_cons.
      destruct slash_class as [-> ->]. rewrite N.eqb_refl. cbn [head_is app]. rewrite N.eqb_refl. cbv iota.
      change (ch "/" :: b ++ NL :: r) with ((ch "/" :: b) ++ NL :: r). rewrite span_exact, M; [reflexivity| |reflexivity].
      constructor; [reflexivity|]. apply Forall_forall. intros d Hd. apply negb_true_iff, N.eqb_neq. congruence.
    - exists (lit "//" ++ b). split; [exact H|]. eexists.
      change (lit "//" ++ b) with (ch "/" :: (ch "/" :: b)). rewrite lex_cons.
      destruct slash_class as [-> ->]. rewrite N.eqb_refl. cbn [head_is app]. rewrite N.eqb_refl. cbv iota.
      assert (SP : span (fun d => negb (d =? NL)) (ch "/" :: b) = (ch "/" :: b, [])).
      { rewrite <- (app_nil_r (ch "/" :: b)) at 1. apply span_exact; [|reflexivity].
        constructor; [reflexivity|]. apply Forall_forall. intros d Hd. apply negb_true_iff, N.eqb_neq. congruence. }
      rewrite SP, M. reflexivity. }
  destruct L as (y & E & w & L). destruct (scan_at s g [] y N E GI) as (s' & e & Q & R & I & C & _). rewrite L in *. cbn [comment_token lx_tok lx_txt lx_gap lx_rest lx_cms] in *.
  rewrite app_nil_r in Q. exists s'. split; [|split; [exact R|]].
  - rewrite Q. assert (e = None) as ->; [|reflexivity]. apply I. intros [Z _]. discriminate.
  - rewrite C. cbn [shift map fst snd app]. rewrite app_nil_r. reflexivity.
Qed.
(** outside comment mode a gap, with its comments, is skipped: the scan goes on as
    from behind it *)
Lemma scan_skips s s2 g cs r : nonul (rest s) -> has (mode s) ScanComment = false -> Gap g cs ->
  rest s = g ++ r -> rest s2 = r -> mode s2 = mode s -> pos s2 = posafter (pos s) g ->
  exists t x p e e2 s' s2', Scan s = (Ok (t, x, p, e), s') /\ Scan s2 = (Ok (t, x, p, e2), s2') /\
    (e = None <-> e2 = None) /\ rest s' = rest s2' /\ pos s' = pos s2' /\
    exists l, comments s' = comments s ++ place (pos s) cs ++ l /\ comments s2' = comments s2 ++ l.
Proof.
  intros N M G E E2 M2 P2. assert (GI : gap_in (mode s) g cs) by (unfold gap_in; rewrite M; exact G).
  destruct (scan_at s g cs r N E GI) as (s' & e & Q & R & I & C & P).
  assert (N2 : nonul (rest s2)) by (rewrite E in N; apply nonul_app in N; rewrite E2; tauto).
  destruct (Scan_spec s2 N2) as (s2' & e2 & Q2 & S2 & R2 & I2). rewrite E2, M2 in *.
  eexists _, _, _, e, e2, s', s2'. split; [exact Q|]. split; [rewrite P2, <- posafter_app in Q2; exact Q2|].
  split; [tauto|]. split; [congruence|]. split; [rewrite P, (st_pos _ _ _ _ S2); cbn [pos set_raw]; rewrite P2, (posafter_app (pos s) g); reflexivity|].
  exists (place (pos s2) (lx_cms (lex (mode s) r))). split.
  - rewrite C. f_equal. unfold place, shift. rewrite map_app, map_map. f_equal. apply map_ext. intros [a b]. cbn [fst snd]. rewrite P2, posafter_app. reflexivity.
  - apply (st_cms _ _ _ _ S2).
Qed.
Lemma scan_bad_comment s g cs r : nonul (rest s) -> gap_in (mode s) g cs -> rest s = g ++ r ->
  ((exists b, r = lit "/*" ++ b /\ forall x y, b <> x ++ lit "*/" ++ y) \/
   (exists b, r = lit "/" ++ b /\ match b with c :: _ => c <> ch "/" /\ c <> ch "*" | [] => True end)) ->
  exists e s', Scan s = (Ok (TILLEGAL, [], posafter (pos s) g, Some e), s').
Proof.
  intros N G E H. destruct (scan_at s g cs r N E G) as (s' & e & Q & R & I & _).
  assert (L : exists w r', lex (mode s) r = mkLexed [] [] TILLEGAL [] w r').
  { destruct H as [(b & -> & H)|(b & -> & H)].
    - change (lit "/*" ++ b) with (ch "/" :: ch "*" :: b). rewrite lex_cons.
      destruct slash_class as [-> ->]. rewrite N.eqb_refl. cbn [head_is]. change (ch "*" =? ch "/") with false. rewrite N.eqb_refl. cbv iota.
      destruct (find_close b) as [[x r3]|] eqn:F; [|eauto]. exfalso. apply find_close_spec in F. destruct F as (-> & w & ->).
      apply (H w r3). rewrite <- app_assoc. reflexivity.
    - change (lit "/" ++ b) with (ch "/" :: b). rewrite lex_cons.
      destruct slash_class as [-> ->]. rewrite N.eqb_refl. destruct b as [|c b]; [cbn; eauto|]. cbn [head_is].
      destruct H as [H1 H2]. apply N.eqb_neq in H1, H2. rewrite H1, H2. cbv iota. eauto. }
  destruct L as (w & r' & L). rewrite L in *. cbn [lx_tok lx_txt lx_gap] in *. rewrite app_nil_r in Q.
  destruct e as [er|]; [eauto|]. exfalso. destruct I as [I _]. apply I; [reflexivity|]. split; reflexivity.
Qed.
