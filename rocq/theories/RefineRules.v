(** Further rules relating the model's monad to the pure parser's: comments,
    look-ahead and recovery. *)
From Coq Require Import List NArith ZArith Bool String Ascii Lia.
From Verif Require Import Base Token Scanner Lexer Ast Parser Lexing ScanRefine LexFacts LexSpec LexProofs
  ScanFacts LexerFacts ScanProps Cursor Pure Refine.
Import ListNotations.
Open Scope N_scope.
Open Scope pure_scope.

(** ** Columns written by AdvancedBulk *)
Lemma newlines_cons c w : newlines (c :: w) = ((if N.eq_dec c NL then 1 else 0) + newlines w)%Z.
Proof. unfold newlines. cbn [count_occ]. destruct (N.eq_dec c NL); lia. Qed.
Lemma newlines_nonneg w : (0 <= newlines w)%Z.
Proof. unfold newlines. lia. Qed.
Lemma nl_unique a : forall a' b b', a ++ NL :: b = a' ++ NL :: b' -> newlines a = newlines a' -> a = a'.
Proof.
  induction a as [|c a IH]; intros [|c' a'] b b' E N; [reflexivity| | |].
  - cbn in E. injection E as <- _. rewrite newlines_cons in N. destruct (N.eq_dec NL NL); [|congruence].
    pose proof (newlines_nonneg a'). change (newlines []) with 0%Z in N. lia.
  - cbn in E. injection E as -> _. rewrite newlines_cons in N. destruct (N.eq_dec NL NL); [|congruence].
    pose proof (newlines_nonneg a). change (newlines []) with 0%Z in N. lia.
  - cbn in E. injection E as <- E. f_equal. eapply IH; [exact E|]. rewrite !newlines_cons in N. lia.
Qed.
Lemma fold_Advance l : forall p cl, exists cl', fold_left Advance l (p, cl) = (posafter p l, cl') /\
  forall key, col_get cl' key = col_get cl key \/
    exists a b, l = a ++ NL :: b /\ key = Line (posafter p a) /\ col_get cl' key = Column (posafter p a).
Proof.
  induction l as [|c l IH] using rev_ind; intros p cl.
  - exists cl. split; [reflexivity|]. auto.
  - destruct (IH p cl) as (cl1 & E & H). rewrite fold_left_app, E, posafter_app. cbn [fold_left].
    exists (snd (Advance (posafter p l, cl1) c)). split.
    + change (posafter (posafter p l) [c]) with (padv (posafter p l) c). rewrite <- (Advance_fst _ cl1).
      destruct (Advance (posafter p l, cl1) c); reflexivity.
    + intros key. unfold Advance. destruct (N.eqb_spec c NL) as [->|Hc]; cbn [snd col_set col_get].
      * destruct (Z.eqb_spec key (Line (posafter p l))) as [->|Hk].
        -- right. exists l, []. auto.
        -- destruct (H key) as [H1|(a & b & -> & H1 & H2)]; [auto|]. right. exists a, (b ++ [NL]). rewrite <- app_assoc. auto.
      * destruct (H key) as [H1|(a & b & -> & H1 & H2)]; [auto|]. right. exists a, (b ++ [c]). rewrite <- app_assoc. auto.
Qed.
Lemma AdvancedBulk_spec l p cl : l <> [] -> exists cl', AdvancedBulk p cl l = (posafter p (removelast l), cl') /\
  forall key, col_get cl' key = col_get cl key \/
    exists a b, l = a ++ NL :: b /\ key = Line (posafter p a) /\ col_get cl' key = Column (posafter p a).
Proof.
  intros N. destruct (fold_Advance l p cl) as (cl' & E & H). exists cl'. split; [|exact H].
  unfold AdvancedBulk. rewrite E. rewrite (app_removelast_last rune_error N) at 1. rewrite posafter_app. cbn [posafter fold_left].
  change (fold_left padv (removelast l) p) with (posafter p (removelast l)). apply Revert_padv.
  intros L. destruct (H (Line (posafter p (removelast l)))) as [H1|(a & b & Ea & H1 & H2)].
  - (* the last newline was written *)
    clear H H1. pose proof (app_removelast_last rune_error N) as D. rewrite L in D. rewrite D in E. rewrite fold_left_app in E.
    destruct (fold_Advance (removelast l) p cl) as (cl1 & E1 & _). rewrite E1 in E. cbn [fold_left] in E. unfold Advance in E.
    rewrite N.eqb_refl in E. injection E as _ E. rewrite <- E. cbn. rewrite Z.eqb_refl. reflexivity.
  - rewrite H2. f_equal. f_equal. rewrite !posafter_line_eq in H1.
    pose proof (app_removelast_last rune_error N) as D. rewrite L in D.
    symmetry. apply (nl_unique (removelast l) a [] b); [congruence|lia].
Qed.

Section Rules.
Variable full : fctx.
Variable p0 : mpos.
Notation At := (At full p0).
Notation AtT := (AtT full p0).
Notation AtU := (AtU full p0).
Notation R := (R full p0).
Notation out := (out full p0).

Lemma R_ext {A} P (m m' : M A) q : (forall s, m s = m' s) -> R P m' q -> R P m q.
Proof. intros E H k s X. rewrite E. apply H. exact X. Qed.
Lemma R_assoc {A B C} P (m : M A) (f : A -> M B) (g : B -> M C) q :
  R P (a <- m;; (x <- f a;; g x))%monad q -> R P (x <- (a <- m;; f a);; g x)%monad q.
Proof. apply R_ext. intros s. apply bind_assoc. Qed.
Lemma R_qext {A} P (m : M A) q q' : (forall k, q k = q' k) -> R P m q' -> R P m q.
Proof. intros E H k s X. rewrite E. apply H. exact X. Qed.

Lemma mk_comment_at k s p l x y : At k s -> cc k ++ cr k = x ++ l ++ y -> p = posafter p0 x -> l <> [] ->
  exists cl, mk_comment p l s = (Ok (qcomment p l), set_pc (pos s, cl) s) /\ At k (set_pc (pos s, cl) s).
Proof.
  intros X E -> N. unfold mk_comment. destruct (AdvancedBulk_spec l (posafter p0 x) (cols s) N) as (cl & Q & H).
  rewrite Q. exists cl. split; [reflexivity|]. destruct X as [A1 A2 A3 A4 A5 A6 A7 A8 A9]. split; cbn; try assumption.
  intros a b Ea. destruct (H (Line (posafter p0 a))) as [H1|(a' & b' & -> & H1 & H2)].
  - rewrite H1. apply A3 with (b := b). exact Ea.
  - rewrite H2. f_equal. rewrite <- posafter_app. f_equal. rewrite <- posafter_app, !posafter_line_eq in H1.
    apply (nl_unique (x ++ a') a (b' ++ y) (b ++ cr k)); [|lia].
    rewrite Ea in E. rewrite <- !app_assoc in *. cbn [app] in *. symmetry. exact E.
Qed.
Lemma AtT_set t k s cl : AtT t k s -> At k (set_pc (pos s, cl) s) -> AtT t k (set_pc (pos s, cl) s).
Proof. intros [A1 A2 A3 A4 A5 A6 A7 A8 A9] X. split; cbn; assumption. Qed.

Lemma parseComment_at k s : At k s -> let '(t, k') := lexc p0 ScanComment k in
  if tok_eqb (tk t) TCOMMENT
  then exists s', parseComment s = (Ok (qcomment (tp t) (tx t)), s') /\ AtT t k' s'
  else exists e s', parseComment s = (Err e, s') /\ AtU t (kb t) s'.
Proof.
  intros X. destruct (NextM_at full p0 ScanComment k s X) as (s1 & Q & T). unfold parseComment, NextComment.
  destruct (lexc p0 ScanComment k) as [t k'] eqn:E. cbn [fst snd] in T. rwb Q. rewrite bind_gets, (att_tok _ _ _ _ _ T).
  destruct (tok_eqb (tk t) TCOMMENT) eqn:C.
  - rewrite !bind_gets, (att_txt _ _ _ _ _ T), (att_pos _ _ _ _ _ T).
    apply tokb_eq in C. unfold lexc in E. injection E as <- <-. lcbn. cbn [tk tx] in C.
    destruct (lex_raw_cases ScanComment (cr k)) as [[L _]|[[L _]|(_ & _ & L)]]; [congruence|congruence|].
    assert (D : exists y, lx_raw (lex ScanComment (cr k)) = lx_txt (lex ScanComment (cr k)) ++ y).
    { destruct L as [(_ & [->|[-> _]])|(_ & ->)]; [eauto|exists []; rewrite app_nil_r; reflexivity|exists []; rewrite app_nil_r; reflexivity]. }
    destruct D as (y & D).
    assert (NE : lx_txt (lex ScanComment (cr k)) <> []).
    { destruct L as [((b & -> & _) & _)|((b & -> & _) & _)]; discriminate. }
    edestruct (mk_comment_at _ _ (posat p0 (cc k ++ lx_gap (lex ScanComment (cr k)))) (lx_txt (lex ScanComment (cr k))) (cc k ++ lx_gap (lex ScanComment (cr k))) (y ++ lx_rest (lex ScanComment (cr k))) (att_at _ _ _ _ _ T)) as (cl & Q2 & X2).
    { lcbn. rewrite D, <- !app_assoc. reflexivity. }
    { reflexivity. }
    { exact NE. }
    eexists. split; [exact Q2|]. apply AtT_set; assumption.
  - destruct (UnNext_at _ _ _ _ _ T) as (s2 & Q2 & U). rwb Q2. eexists. exists s2. split; [reflexivity|exact U].
Qed.
Lemma R_comment {B} (f : comment + err -> M B) q1 q0 :
  (forall t, R (AtT t) (f (inl (qcomment (tp t) (tx t)))) (q1 t)) -> (forall t e, R (AtU t) (f (inr e)) (q0 t)) ->
  R At (try parseComment f) (t <-- ptok p0 ScanComment;; if tok_eqb (tk t) TCOMMENT then q1 t else pback t;;; q0 t).
Proof.
  intros H1 H0 k s X. pose proof (parseComment_at k s X) as P. unfold ptok, pbind. destruct (lexc p0 ScanComment k) as [t k'].
  destruct (tok_eqb (tk t) TCOMMENT).
  - destruct P as (s' & Q & T). unfold try. rewrite Q. apply H1. exact T.
  - destruct P as (e & s' & Q & U). unfold try, pback. rewrite Q. apply H0. exact U.
Qed.

(** ** Rules *)
Lemma R_last' {A} (m : mpos -> M A) q : (forall p, R At (m p) (q p)) -> R At (x <- gets lpos;; m x)%monad (p <-- plast;; q p).
Proof. intros H. apply R_last. intros p k s [X _]. apply H. exact X. Qed.
Lemma R_fuelT {A} t (m : nat -> M A) q : (forall n, R (AtT t) (m n) (q n)) -> R (AtT t) (n <- fuel_here;; m n)%monad (n <-- pfuel;; q n).
Proof. intros H k s X. unfold fuel_here. rewrite bind_gets, (at_rest _ _ _ _ (att_at _ _ _ _ _ X)). unfold pfuel, pbind. apply H. exact X. Qed.
Lemma R_iseof {A} t (m : bool -> M A) q : R (AtT t) (m (tok_eqb (tk t) TEOF)) q -> R (AtT t) (x <- lex_IsEOF;; m x)%monad q.
Proof. intros H k s X. unfold lex_IsEOF. rewrite bind_gets, (att_tok _ _ _ _ _ X). apply H. exact X. Qed.
Lemma R_gtext t : R (AtT t) (gets ltext) (pret (tx t)).
Proof. intros k s X. exists s. unfold gets. rewrite (att_txt _ _ _ _ _ X). split; [reflexivity|apply X]. Qed.
Lemma R_gpos t : R (AtT t) (gets lpos) (pret (tp t)).
Proof. intros k s X. exists s. unfold gets. rewrite (att_pos _ _ _ _ _ X). split; [reflexivity|apply X]. Qed.
Lemma R_expectp {A} (mo : M unit) mo' T e (m : M A) q :
  (forall q', (forall t, R (AtT t) (expect T e;; m)%monad (q' t)) -> R At (mo;; (expect T e;; m))%monad (t <-- ptok p0 mo';; q' t)) ->
  (forall t, R (AtT t) m (q t)) ->
  R At (mo;; (expect T e;; m))%monad (t <-- pexpect p0 mo' T;; q t).
Proof.
  intros N H. eapply R_qext; [|apply (N (fun t => if tok_eqb (tk t) T then q t else perr t))].
  - intros k. unfold pexpect, pbind, ptok. destruct (lexc p0 mo' k) as [t k']. destruct (tok_eqb (tk t) T); reflexivity.
  - intros t. apply R_expect. apply H.
Qed.
Lemma R_nexte {A} T e (m : M A) q : (forall t, R (AtT t) m (q t)) ->
  R At (Next;; (expect T e;; m))%monad (t <-- pexpect p0 0 T;; q t).
Proof. apply R_expectp. intros q' H. apply R_next. exact H. Qed.
Lemma R_nextme {A} mo T e (m : M A) q : (forall t, R (AtT t) m (q t)) ->
  R At (nextWithSpecificMode mo;; (expect T e;; m))%monad (t <-- pexpect p0 mo T;; q t).
Proof. apply R_expectp. intros q' H. apply R_nextm. exact H. Qed.
Lemma R_peekx {A} (pk : M token) mo (m : token -> M A) q :
  (forall k s, At k s -> exists s1, pk s = (Ok (tk (fst (lexc p0 mo k))), s1) /\ AtU (fst (lexc p0 mo k)) (kb (fst (lexc p0 mo k))) s1) ->
  (forall t, R (AtU t) (m (tk t)) (q t)) -> R At (x <- pk;; m x)%monad (t <-- ppeek p0 mo;; q t).
Proof.
  intros P H k s X. destruct (P k s X) as (s1 & Q & U). rwb Q. unfold ppeek, pback, pret, pbind, ptok.
  destruct (lexc p0 mo k) as [t k']. cbn [fst] in *. apply H. exact U.
Qed.
Lemma Peek_at k s : At k s -> exists s1, Peek s = (Ok (tk (fst (lexc p0 0 k))), s1) /\ AtU (fst (lexc p0 0 k)) (kb (fst (lexc p0 0 k))) s1.
Proof.
  intros X. destruct (Next_at0 _ _ _ _ X) as (s1 & Q & T). destruct (UnNext_at _ _ _ _ _ T) as (s2 & Q2 & U).
  exists s2. split; [|exact U]. unfold Peek. rwb Q. rewrite bind_gets. rwb Q2. rewrite (att_tok _ _ _ _ _ T). reflexivity.
Qed.
Lemma R_peek {A} (m : token -> M A) q : (forall t, R (AtU t) (m (tk t)) (q t)) -> R At (x <- Peek;; m x)%monad (t <-- ppeek p0 0;; q t).
Proof. apply R_peekx, Peek_at. Qed.
Lemma R_peekk {A} (m : token -> M A) q : (forall t, R (AtU t) (m (tk t)) (q t)) -> R At (x <- peekKeyword;; m x)%monad (t <-- ppeek p0 ScanKeyword;; q t).
Proof.
  apply R_peekx. intros k s X. destruct (NextM_at _ _ ScanKeyword _ _ X) as (s1 & Q & T). destruct (UnNext_at _ _ _ _ _ T) as (s2 & Q2 & U).
  exists s2. split; [|exact U]. unfold peekKeyword, NextKeyword. rwb Q. rewrite bind_gets. rwb Q2. rewrite (att_tok _ _ _ _ _ T). reflexivity.
Qed.
Lemma R_peekeof {A} (m : bool -> M A) q : (forall t, R (AtU t) (m (tok_eqb (tk t) TEOF)) (q t)) -> R At (x <- p_IsEOF;; m x)%monad (t <-- ppeek p0 0;; q t).
Proof.
  intros H k s X. destruct (Next_at0 _ _ _ _ X) as (s1 & Q & T). destruct (UnNext_at _ _ _ _ _ T) as (s2 & Q2 & U).
  assert (E : p_IsEOF s = (Ok (tok_eqb (tk (fst (lexc p0 0 k))) TEOF), s2)).
  { unfold p_IsEOF, lex_IsEOF. rwb Q. rewrite bind_gets. rwb Q2. rewrite (att_tok _ _ _ _ _ T). reflexivity. }
  rwb E. unfold ppeek, pback, pret, pbind, ptok.
  destruct (lexc p0 0 k) as [t k']. cbn [fst] in *. apply H. exact U.
Qed.
Lemma R_balu {A} t (m : M A) : failing full p0 True m -> R (AtU t) m (pbal t).
Proof.
  intros F k s U. destruct (F s) as (e & E & G). rewrite E. unfold pbal. exists e, s. split; [reflexivity|].
  pose proof (atu_kb _ _ _ _ _ U) as K. rewrite K in U. split; [apply U|]. split; [apply U|]. split; [exact (atu_rest _ _ _ _ _ U)|]. split; [apply U|]. apply G; [exact I|apply U].
Qed.
Lemma R_peek2 {A} (m : token -> M A) q : (forall t, R At (m (tk t)) (q t)) -> R At (x <- PeekN 2;; m x)%monad (t <-- ppeek2 p0;; q t).
Proof.
  intros H k s X. destruct (Next_at0 _ _ _ _ X) as (s1 & Q1 & T1). destruct (Next_at0 _ _ _ _ (att_at _ _ _ _ _ T1)) as (s2 & Q2 & T2).
  set (k1 := snd (lexc p0 0 k)) in *. set (k2 := snd (lexc p0 0 k1)) in *.
  destruct (UnNextTo_at _ _ _ k2 k2 s2 (lexc_front p0 0 k1) (att_at _ _ _ _ _ T2) eq_refl eq_refl) as (s3 & Q3 & X3).
  edestruct (UnNextTo_at _ _ _ k1 _ s3 (lexc_front p0 0 k) X3 eq_refl eq_refl) as (s4 & Q4 & X4).
  assert (E : PeekN 2 s = (Ok (tk (fst (lexc p0 0 k1))), s4)).
  { unfold PeekN. cbn [nexts_raw unnext_all]. rewrite bind_assoc. rwb Q1. rewrite bind_assoc, bind_gets, bind_assoc. rwb Q2.
    rewrite bind_assoc, bind_gets, bind_ret, bind_gets. cbn [unnext_all]. rewrite bind_assoc.
    rewrite (att_lraw _ _ _ _ _ T1), (att_lraw _ _ _ _ _ T2), (att_tok _ _ _ _ _ T2). rwb Q3. rewrite bind_assoc. rwb Q4. reflexivity. }
  rwb E. unfold ppeek2, pbind, ptok. destruct (lexc p0 0 k) as [t1 k1'] eqn:E1. cbn [fst snd] in *. subst k1.
  destruct (lexc p0 0 k1') as [t2 k2'] eqn:E2. cbn [fst snd] in *. apply H. exact X4.
Qed.

(** *** look-ahead of peekIsGroup *)
Definition keeps {A} (q : PM A) : Prop := forall k a k', q k = POk a k' -> cc k' = cc k /\ cr k' = cr k.
Lemma keeps_ret {A} (a : A) : keeps (pret a).
Proof. intros k b k' E. injection E as _ <-. auto. Qed.
Lemma keeps_tok {A} mo (q : ti -> PM A) : keeps (t <-- ptok p0 mo;; pdefer t (q t)).
Proof.
  intros k a k' E. unfold pbind, ptok, pdefer in E. destruct (lexc p0 mo k) as [t k1] eqn:E1.
  destruct (q t k1); try discriminate. injection E as _ <-. unfold lexc in E1. injection E1 as <- _. auto.
Qed.
Lemma R_defer {A} t (m : M A) q : keeps q -> R (AtT t) m q -> R (AtT t) (deferUnNext m) (pdefer t q).
Proof.
  intros K H k s X. unfold deferUnNext. rewrite bind_gets, (att_lraw _ _ _ _ _ X). specialize (H k s X). unfold pdefer.
  destruct (q k) as [a k'|kb ka|k' w| | | |] eqn:E; cbn [Refine.out] in *.
  - destruct H as (s' & Q & X'). destruct (K _ _ _ E) as [E1 E2]. rwb Q.
    destruct (UnNextTo_at _ _ _ _ _ _ (att_front _ _ _ _ _ X) X' E1 E2) as (s2 & Q2 & X2). rwb Q2. exists s2. split; [reflexivity|exact X2].
  - destruct H as (e & s' & Q & X'). unfold bind. rewrite Q. eauto.
  - destruct H as (e & s' & Q & X'). unfold bind. rewrite Q. eauto.
  - destruct H as (e & s' & Q & X'). unfold bind. rewrite Q. eauto.
  - exact I.
  - destruct H as (s' & Q). unfold bind. rewrite Q. eauto.
  - destruct H as (s' & Q). unfold bind. rewrite Q. eauto.
Qed.
Lemma R_trynum {A} (f : str + err -> M A) q :
  (forall t, tok_eqb (tk t) TINTLIT = true -> R (AtT t) (f (inl (tx t))) (q t)) ->
  (forall t e, tok_eqb (tk t) TINTLIT = false -> R (AtT t) (f (inr e)) (q t)) ->
  R At (try parseFieldNumber f) (t <-- ptok p0 ScanNumberLit;; q t).
Proof.
  intros H1 H0 k s X. destruct (NextM_at _ _ ScanNumberLit _ _ X) as (s1 & Q & T). unfold try, parseFieldNumber, NextNumberLit.
  rwb Q. unfold expect. rewrite bind_assoc, bind_gets, (att_tok _ _ _ _ _ T). unfold pbind, ptok.
  destruct (lexc p0 ScanNumberLit k) as [t k']. cbn [fst snd] in *. destruct (tok_eqb (tk t) TINTLIT) eqn:E.
  - rewrite bind_ret. unfold gets. rewrite (att_txt _ _ _ _ _ T). apply H1; assumption.
  - cbn. apply H0; assumption.
Qed.

(** *** tries *)
Lemma R_try {A B} (m : M A) q (f : A + err -> M B) g : R At m q -> (forall a, R At (f (inl a)) (g (Some a))) ->
  (forall e, err_ok full p0 e -> R At (f (inr e)) (g None)) -> R At (try m f) (ptry q g).
Proof.
  intros H H1 H0 k s X. specialize (H k s X). unfold ptry, try. destruct (q k) as [a k'|kb ka|k' w| | | |]; cbn [Refine.out] in *.
  - destruct H as (s' & Q & X'). rewrite Q. apply H1. exact X'.
  - destruct H as (e & s' & Q & X' & _ & _ & G). rewrite Q. apply H0; assumption.
  - destruct H as (e & s' & Q & X' & _ & _ & _ & G). rewrite Q. apply H0; assumption.
  - exact I.
  - exact I.
  - destruct H as (s' & Q). rewrite Q. exists s'. reflexivity.
  - destruct H as (s' & Q). rewrite Q. exists s'. reflexivity.
Qed.
Lemma R_trybind {A B} (m : M A) q (f : A -> M B) h g : R At m q -> (forall a, R At (f a) (g a)) -> (forall e, failing full p0 (err_ok full p0 e) (h e)) ->
  R At (try m (fun r => match r with inl a => f a | inr e => h e end)) (pbind q g).
Proof.
  intros H H1 F k s X. specialize (H k s X). unfold try, pbind. destruct (q k) as [a k'|kb ka|k' w| | | |]; cbn [Refine.out] in *.
  - destruct H as (s' & Q & X'). rewrite Q. apply H1. exact X'.
  - destruct H as (e & s' & Q & X1 & X2 & X3 & X4). rewrite Q. destruct (F e s') as (e' & -> & G). eauto 10.
  - destruct H as (e & s' & Q & X1 & X2 & X3 & X4 & X5). rewrite Q. destruct (F e s') as (e' & -> & G). eauto 10.
  - destruct H as (e & s' & Q & X'). rewrite Q. destruct (F e s') as (e' & -> & G). eauto.
  - exact I.
  - destruct H as (s' & Q). rewrite Q. exists s'. reflexivity.
  - destruct H as (s' & Q). rewrite Q. exists s'. reflexivity.
Qed.
Lemma R_recover {A} (m : M A) q (ok : A -> visitee) : R At m q ->
  R At (try m (fun r => match r with inl a => ret (ok a) | inr e => recoverEmpty e end)) (precover p0 q ok).
Proof.
  intros H k s X. specialize (H k s X). unfold try, precover. destruct (q k) as [a k'|kb ka|k' w| | | |]; cbn [Refine.out] in *.
  - destruct H as (s' & Q & X'). rewrite Q. exists s'. auto.
  - destruct H as (e & s' & Q & X' & F & _ & G). rewrite Q. unfold recoverEmpty.
    destruct (UnNext_gen _ _ _ _ _ _ X' eq_refl F) as (s1 & Q1 & X1 & _). rwb Q1.
    destruct (Next_at0 _ _ _ _ X1) as (s2 & Q2 & T). unfold try, ReadEmptyStatement. rwb Q2. rewrite bind_gets, (att_tok _ _ _ _ _ T).
    unfold pbind, ptok. destruct (lexc p0 0 kb) as [t k2]. cbn [fst snd] in *. destruct (tok_eqb (tk t) TSEMICOLON).
    + exists s2. split; [reflexivity|apply T].
    + destruct (UnNext_at _ _ _ _ _ T) as (s3 & Q3 & U). rwb Q3. cbn. eexists. exists s3. split; [reflexivity|].
      split; [apply U|]. split; [apply U|]. split; [exact (atu_rest _ _ _ _ _ U)|]. split; [apply U|].
      split; [exact G|]. exists (ltok s3). apply U.
  - destruct H as (e & s' & Q & X' & W & (r & Hr) & _). rewrite Q.
    destruct (fatal w (skipn (List.length w) (cr k'))) eqn:F; [|exact I].
    assert (D : Dead s').
    { eapply (fatal_dead w r); try assumption.
      - rewrite (at_rest _ _ _ _ X'). pose proof (at_nonul _ _ _ _ X') as N. apply nonul_app in N. apply N.
      - apply X'.
      - rewrite <- (at_rest _ _ _ _ X'), Hr, skipn_app, skipn_all, Nat.sub_diag in F. exact F. }
    destruct (Dead_recover s' e D) as (e' & s2 & Q2 & D2). rewrite Q2. exists e', s2. auto.
  - destruct H as (e & s' & Q & D). rewrite Q. destruct (Dead_recover s' e D) as (e' & s2 & Q2 & D2). rewrite Q2. exists e', s2. auto.
  - exact I.
  - destruct H as (s' & Q). rewrite Q. exists s'. reflexivity.
  - destruct H as (s' & Q). rewrite Q. exists s'. reflexivity.
Qed.
Lemma R_tryempty {A} (m1 : M A) m0 q1 q0 : R At m1 q1 -> R At m0 q0 ->
  R At (try ReadEmptyStatement (fun e => match e with inl _ => m1 | inr _ => m0 end))
       (t <-- ptok p0 0;; if tok_eqb (tk t) TSEMICOLON then q1 else pback t;;; q0).
Proof.
  intros H1 H0 k s X. destruct (Next_at0 _ _ _ _ X) as (s1 & Q & T). unfold try, ReadEmptyStatement.
  rwb Q. rewrite bind_gets, (att_tok _ _ _ _ _ T). unfold pbind, ptok.
  destruct (lexc p0 0 k) as [t k']. cbn [fst snd] in *. destruct (tok_eqb (tk t) TSEMICOLON).
  - cbn. apply H1. apply T.
  - destruct (UnNext_at _ _ _ _ _ T) as (s2 & Q2 & U). rwb Q2. cbn. apply H0. apply U.
Qed.
Lemma R_consume {A V} T (f : token -> M A) (a1 a0 : V) g : R At (f T) (g a1) -> R At (f TILLEGAL) (g a0) ->
  R At (ConsumeToken T;; x <- gets ltok;; f x)%monad
       (t <-- ptok p0 0;; a <-- (if tok_eqb (tk t) T then pret a1 else pback t;;; pret a0);; g a).
Proof.
  intros H1 H0 k s X. destruct (Next_at0 _ _ _ _ X) as (s1 & Q & T1). unfold ConsumeToken. rewrite bind_assoc.
  rwb Q. rewrite bind_assoc, bind_gets, (att_tok _ _ _ _ _ T1). unfold pbind, ptok.
  destruct (lexc p0 0 k) as [t k']. cbn [fst snd] in *. destruct (tok_eqb (tk t) T) eqn:E.
  - rewrite bind_ret, bind_gets, (att_tok _ _ _ _ _ T1). apply tokb_eq in E. rewrite E. apply H1. apply T1.
  - destruct (UnNext_at _ _ _ _ _ T1) as (s2 & Q2 & U). rwb Q2. rewrite bind_gets, (atu_tok _ _ _ _ _ U). apply H0. apply U.
Qed.
End Rules.
