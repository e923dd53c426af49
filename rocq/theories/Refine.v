(** The model's parser computes the pure parser of Pure.v on NUL-free input. *)
From Coq Require Import List NArith ZArith Bool String Ascii Lia.
From Verif Require Import Base Token Scanner Lexer Ast Parser Lexing ScanRefine LexFacts LexSpec LexProofs
  ScanFacts LexerFacts ScanProps Cursor Pure.
Import ListNotations.
Open Scope N_scope.
Open Scope pure_scope.

(** ** States at a cursor *)
Ltac lcbn := cbn [fst snd cc cr cm lp rest raw pos cols mode comments ltok ltext lraw lpos set_mode tk tx tp tw kb tg].

(** [fl]: also the recorded comments belong to the text; [ftext]: the text *)
Record fctx := mkF { fl : bool; ftext : list rune }.

Section At.
Variable full : fctx.
Variable p0 : mpos.

(** [p], [x] and [t] tell of the token read at some place of the text in some
    mode: its position, text and kind, or after un-reading it the position in
    front of its gap *)
Definition Told (p : mpos) (x : str) (t : token) : Prop :=
  exists m a b, ftext full = a ++ b /\ x = lx_txt (lex m b) /\
    ((t = lx_tok (lex m b) /\ p = posat p0 (a ++ lx_gap (lex m b))) \/ (t = TILLEGAL /\ p = posat p0 a)).
Definition Last (s : st) : Prop := Told (lpos s) (ltext s) (ltok s).
Fixpoint err_ok (e : err) : Prop :=
  match e with
  | EScan _ _ _ => False
  | ELex p _ x => exists t, Told p x t
  | EParse p _ x t => Told p x t
  | EPair a b => err_ok a /\ err_ok b
  end.

Definition cms_ok (src : list rune) (l : list text) : Prop :=
  Forall (fun c => Literal c <> [] /\ exists x y, src = x ++ Literal c ++ y /\ TPos c = posafter p0 x) l.

Record At (k : cur) (s : st) : Prop := mkAt {
  at_rest : rest s = cr k;
  at_pos : pos s = posat p0 (cc k);
  at_cols : newline_cols p0 (cc k) (cols s);
  at_mode : mode s = 0;
  at_cms : comments s = cm k;
  at_lpos : lpos s = lp k;
  at_nonul : nonul (cc k ++ cr k);
  at_com : fl full = true -> cms_ok (cc k ++ cr k) (cm k);
  at_src : ftext full = cc k ++ cr k }.

(** [kb] is in front of the text [w], [k] behind it *)
Definition front (kb : cur) (w : list rune) (k : cur) : Prop :=
  cc k = cc kb ++ w /\ cr kb = w ++ cr k /\ cm kb = cm k /\ lp kb = posat p0 (cc kb).

Record AtT (t : ti) (k : cur) (s : st) : Prop := mkAtT {
  att_at : At k s;
  att_tok : ltok s = tk t;
  att_txt : ltext s = tx t;
  att_pos : lpos s = tp t;
  att_raw : raw s = tw t;
  att_lraw : lraw s = tw t;
  att_front : front (kb t) (tw t) k;
  att_last : Last s;
  att_lastu : Told (lp (kb t)) (tx t) TILLEGAL }.

(** the state after [UnNext] on [AtT t] *)
Record AtU (t : ti) (k : cur) (s : st) : Prop := mkAtU {
  atu_at : At k s;
  atu_tok : ltok s = TILLEGAL;
  atu_raw : raw s = tw t;
  atu_kb : k = kb t;
  atu_rest : exists r, rest s = tw t ++ r;
  atu_last : Last s }.

(** no empty statement can be read here, however often the last token is un-read *)
Definition bare (c : rune) (x : list rune) : Prop :=
  c <> ch "/" \/ exists d x', x = d :: x' /\ d <> ch "/" /\ d <> ch "*".
Definition Dead (s : st) : Prop :=
  nonul (rest s) /\ nonul (raw s) /\ mode s = 0 /\
  ((exists g cs c x y, Gap g cs /\ isSpace c = false /\ bare c x /\ c <> ch ";" /\
     raw s = g ++ c :: x /\ rest s = g ++ c :: y) \/
   (exists g cs, Gap g cs /\ raw s = g /\ rest s = g)).

Definition out {A} (r : pres A) (o : res A * st) : Prop :=
  match r with
  | POk a k' => exists s', o = (Ok a, s') /\ At k' s'
  | PErr kb ka => exists e s', o = (Err e, s') /\ At ka s' /\ front kb (raw s') ka /\ Last s' /\ err_ok e
  | PBal k' w => exists e s', o = (Err e, s') /\ At k' s' /\ raw s' = w /\ (exists r, rest s' = w ++ r) /\ Last s' /\ err_ok e
  | PFatal => exists e s', o = (Err e, s') /\ Dead s'
  | PBad => True
  | PPanic => exists s', o = (Panic, s')
  | PFuel => exists s', o = (Fuel, s')
  end.
Definition R {A} (P : cur -> st -> Prop) (m : M A) (q : PM A) : Prop := forall k s, P k s -> out (q k) (m s).

Lemma R_intro {A} (P : cur -> st -> Prop) (m : M A) q : (forall k s, P k s -> out (q k) (m s)) -> R P m q.
Proof. intros H. exact H. Qed.
Lemma R_elim {A} (P : cur -> st -> Prop) (m : M A) q : R P m q -> forall k s, P k s -> out (q k) (m s).
Proof. intros H. exact H. Qed.

(** ** Reading and un-reading a token *)
Lemma cms_ok_app src l l' : cms_ok src l -> cms_ok src l' -> cms_ok src (l ++ l').
Proof. intros A B. apply Forall_app. split; assumption. Qed.

(** comments of a gap lie in it *)
Lemma lex_cms_in m r : forall x, x = lex m r ->
  Forall (fun gc : list rune * str => snd gc <> [] /\ exists y, lx_gap x ++ lx_raw x = fst gc ++ snd gc ++ y) (lx_cms x).
Proof.
  remember (List.length r) as n eqn:E. revert r E. induction n as [n IH] using lt_wf_ind. intros r E x X.
  assert (SK : forall w cm0 r', r = w ++ r' -> w <> [] ->
     Forall (fun gc : list rune * str => snd gc <> [] /\ exists y, w = fst gc ++ snd gc ++ y) cm0 ->
     Forall (fun gc : list rune * str => snd gc <> [] /\ exists y, lx_gap (skip w cm0 (lex m r')) ++ lx_raw (skip w cm0 (lex m r')) = fst gc ++ snd gc ++ y)
        (lx_cms (skip w cm0 (lex m r')))).
  { intros w cm0 r' H N F. unfold skip. cbn [lx_gap lx_raw lx_cms]. apply Forall_app. split.
    - eapply Forall_impl; [|exact F]. intros [a c] [NE [y Y]]. cbn in *. split; [exact NE|]. exists (y ++ lx_gap (lex m r') ++ lx_raw (lex m r')).
      rewrite Y at 1. rewrite <- !app_assoc. reflexivity.
    - apply Forall_map. cbn. eapply Forall_impl; [|eapply (IH (List.length r')); [|reflexivity|reflexivity]].
      + intros [a c] [NE [y Y]]. cbn in *. split; [exact NE|]. exists y. rewrite <- !app_assoc. f_equal. exact Y.
      + subst r n. rewrite app_length. destruct w; [congruence|]. cbn. lia. }
  subst x. destruct r as [|c r']; [constructor|]. rewrite lex_cons.
  destruct (isSpace c). { apply SK; [reflexivity|discriminate|constructor]. }
  destruct (identStart c). { destruct (span identChar r'). constructor. }
  destruct (N.eqb_spec c (ch "/")) as [->|_].
  - destruct (head_is (fun d => d =? ch "/") r').
    + destruct (span (fun d => negb (d =? NL)) r') as [b r2] eqn:S. apply span_spec in S. destruct S as (S & _ & _).
      destruct (has m ScanComment).
      * unfold comment_token. cbn. constructor; [|constructor]. cbn. split; [discriminate|]. eexists. reflexivity.
      * apply SK.
        -- rewrite S. cbn. f_equal. rewrite <- app_assoc. f_equal. destruct r2; reflexivity.
        -- discriminate.
        -- constructor; [|constructor]. cbn. split; [discriminate|]. eexists. reflexivity.
    + destruct (head_is (fun d => d =? ch "*") r').
      * destruct r' as [|d r2]; [constructor|]. destruct (find_close r2) as [[b r3]|] eqn:F; [|constructor].
        apply find_close_spec in F. destruct (has m ScanComment).
        -- cbn. constructor; [|constructor]. cbn. split; [discriminate|]. exists []. rewrite app_nil_r. reflexivity.
        -- apply SK.
           ++ cbn. f_equal. f_equal. destruct F as (F & _). exact F.
           ++ discriminate.
           ++ constructor; [|constructor]. cbn. split; [discriminate|]. exists []. rewrite app_nil_r. reflexivity.
      * destruct r'; constructor.
  - destruct (isQuote c && has m ScanStrLit).
    + unfold lit_token. destruct (cons_out _ _) as [[[] ?] ?]; constructor.
    + destruct (_ && has m ScanNumberLit).
      * destruct (pnum c r') as [t o]. unfold lit_token. destruct o as [[[] ?] ?]; constructor.
      * constructor.
Qed.

Lemma lexc_front m k : front (kb (fst (lexc p0 m k))) (tw (fst (lexc p0 m k))) (snd (lexc p0 m k)).
Proof.
  unfold lexc. lcbn. repeat split. rewrite <- app_assoc. apply lex_app.
Qed.
Lemma place_ok p c l w r : Forall (fun gc : list rune * str => snd gc <> [] /\ exists y, w = fst gc ++ snd gc ++ y) l ->
  p = posat p0 c -> cms_ok (c ++ w ++ r) (place p l).
Proof.
  intros F ->. unfold cms_ok, place. apply Forall_map. eapply Forall_impl; [|exact F]. intros [a x] [NE [y Y]]. cbn in *. split; [exact NE|].
  exists (c ++ a), (y ++ r). split; [rewrite Y, <- !app_assoc; reflexivity|]. unfold posat. rewrite posafter_app. reflexivity.
Qed.

Lemma Next_at m k s : At k (set_mode 0 s) -> mode s = m ->
  exists s1, Next s = (Ok tt, s1) /\ mode s1 = m /\ AtT (fst (lexc p0 m k)) (snd (lexc p0 m k)) (set_mode 0 s1).
Proof.
  intros [R1 P C M K L N F SR] E. cbn in R1, P, C, K, L. assert (N' : nonul (rest s)) by (rewrite R1; apply nonul_app in N; apply N).
  destruct (Next_spec s N') as (s1 & Q & X). exists s1. split; [exact Q|].
  assert (LX : lexs s = lex m (cr k)). { unfold lexs. rewrite E, R1. reflexivity. }
  pose proof (nexted_nonul _ _ X N') as N1. pose proof (rest_split s) as RS.
  destruct X as [X1 X2 X3 X4 X5 X6 X7 X8 X9 X10 X11]. rewrite LX in *. unfold lx_all in *.
  split; [congruence|]. unfold lexc. split; lcbn; try assumption.
  - split; lcbn.
    + exact X1.
    + rewrite X3, P. unfold posat. rewrite !posafter_app. reflexivity.
    + eapply newline_cols_step; [exact C|]. rewrite P in X4. exact X4.
    + reflexivity.
    + rewrite X6, K, P. reflexivity.
    + rewrite X10, P. unfold posat. rewrite !posafter_app. reflexivity.
    + apply nonul_app in N. rewrite R1 in RS. rewrite <- app_assoc. rewrite <- RS. apply nonul_app. exact N.
    + intros B. rewrite R1 in RS. rewrite <- !app_assoc. rewrite <- app_assoc in RS. apply cms_ok_app.
      * specialize (F B). rewrite RS in F. exact F.
      * rewrite app_assoc with (l := lx_gap _). apply place_ok; [|reflexivity]. apply (lex_cms_in m (cr k)). reflexivity.
    + rewrite SR, <- app_assoc. f_equal. rewrite <- R1 at 1. exact RS.
  - rewrite X10, P. unfold posat. rewrite !posafter_app. reflexivity.
  - apply (lexc_front m k).
  - exists m, (cc k), (cr k). split; [exact SR|]. lcbn. split; [congruence|]. left. split; [congruence|].
    rewrite X10, P. unfold posat. rewrite !posafter_app. reflexivity.
  - exists m, (cc k), (cr k). auto.
Qed.
Lemma set_mode_same s : mode s = 0 -> set_mode 0 s = s.
Proof. intros <-. destruct s. reflexivity. Qed.
Lemma Next_at0 k s : At k s -> exists s1, Next s = (Ok tt, s1) /\ AtT (fst (lexc p0 0 k)) (snd (lexc p0 0 k)) s1.
Proof.
  intros H. pose proof (at_mode _ _ H) as M. rewrite <- (set_mode_same s M) in H.
  destruct (Next_at 0 k s H M) as (s1 & Q & M1 & X). exists s1. split; [exact Q|]. rewrite set_mode_same in X; assumption.
Qed.
Lemma NextM_at m k s : At k s -> exists s1, nextWithSpecificMode m s = (Ok tt, s1) /\ AtT (fst (lexc p0 m k)) (snd (lexc p0 m k)) s1.
Proof.
  intros H. pose proof (at_mode _ _ H) as M.
  assert (H' : At k (set_mode 0 (set_mode m s))). { destruct H as [A1 A2 A3 A4 A5 A6 A7 A8 A9]. split; cbn; try assumption. reflexivity. }
  destruct (Next_at m k _ H' eq_refl) as (s1 & Q & M1 & X). exists (set_mode 0 s1). split; [|exact X].
  unfold nextWithSpecificMode. rewrite bind_gets, bind_modify. rwb Q. rewrite M. reflexivity.
Qed.

(** un-reading the text [w] *)
Lemma UnNext_gen kb w k s : At k s -> raw s = w -> front kb w k ->
  exists s1, UnNext s = (Ok tt, s1) /\ At kb s1 /\ ltok s1 = TILLEGAL /\ raw s1 = w /\ rest s1 = w ++ rest s /\ ltext s1 = ltext s.
Proof.
  intros [R1 P C M K L N F SR] W (F1 & F2 & F3 & F4).
  rewrite (UnNext_spec s (posat p0 (cc kb)) w W).
  - eexists. split; [reflexivity|]. cbn. repeat split; cbn; try assumption; try reflexivity.
    + rewrite R1. symmetry. exact F2.
    + rewrite F1 in C. eapply newline_cols_pre. exact C.
    + rewrite K. symmetry. exact F3.
    + symmetry. exact F4.
    + rewrite F1, <- app_assoc, <- F2 in N. exact N.
    + intros B. specialize (F B). rewrite F1, <- app_assoc, <- F2, <- F3 in F. exact F.
    + rewrite SR, F1, F2, <- app_assoc. reflexivity.
  - rewrite P, F1. unfold posat. apply posafter_app.
  - intros a b E. rewrite F1, E in C. specialize (C (cc kb ++ a) b). rewrite <- !app_assoc in C. specialize (C eq_refl).
    unfold posat. rewrite <- posafter_app. exact C.
Qed.
Lemma UnNext_at t k s : AtT t k s -> exists s1, UnNext s = (Ok tt, s1) /\ AtU t (kb t) s1.
Proof.
  intros [A _ X _ W _ F _ U]. destruct (UnNext_gen _ _ _ _ A W F) as (s1 & Q & A1 & T & W1 & R1 & X1).
  exists s1. split; [exact Q|]. split; try assumption; [reflexivity|eexists; exact R1|].
  unfold Last. rewrite T, X1, X, (at_lpos _ _ A1). exact U.
Qed.
(** un-reading to an earlier token after looking ahead *)
Lemma UnNextTo_at t k k' s : front (kb t) (tw t) k -> At k' s -> cc k' = cc k -> cr k' = cr k ->
  exists s1, UnNextTo (tw t) s = (Ok tt, s1) /\ At (mkCur (cc (kb t)) (cr (kb t)) (cm k') (lp (kb t))) s1.
Proof.
  intros (F1 & F2 & F3 & F4) A E1 E2. unfold UnNextTo. rewrite bind_modify.
  assert (A' : At k' (set_raw (tw t) s)). { destruct A. split; cbn; assumption. }
  destruct (UnNext_gen (mkCur (cc (kb t)) (cr (kb t)) (cm k') (lp (kb t))) (tw t) k' _ A' eq_refl) as (s1 & Q & A1 & _).
  { unfold front. lcbn. rewrite E1, E2. auto. }
  exists s1. split; assumption.
Qed.

(** ** Rules *)
Lemma R_next {A} (m : M A) q : (forall t, R (AtT t) m (q t)) -> R At (Next;; m)%monad (t <-- ptok p0 0;; q t).
Proof.
  intros H k s X. destruct (Next_at0 k s X) as (s1 & Q & T). unfold ptok, pbind. destruct (lexc p0 0 k) as [t k'] eqn:E.
  rwb Q. apply H. exact T.
Qed.
Lemma R_nextm {A} mo (m : M A) q : (forall t, R (AtT t) m (q t)) -> R At (nextWithSpecificMode mo;; m)%monad (t <-- ptok p0 mo;; q t).
Proof.
  intros H k s X. destruct (NextM_at mo k s X) as (s1 & Q & T). unfold ptok, pbind. destruct (lexc p0 mo k) as [t k'] eqn:E.
  rwb Q. apply H. exact T.
Qed.
Lemma R_weak {A} t (m : M A) q : R At m q -> R (AtT t) m q.
Proof. intros H k s X. apply att_at in X. apply H. exact X. Qed.
Lemma R_weaku {A} t (m : M A) q : R At m q -> R (AtU t) m q.
Proof. intros H k s X. apply atu_at in X. apply H. exact X. Qed.
Lemma R_ltok {A} t (m : token -> M A) q : R (AtT t) (m (tk t)) q -> R (AtT t) (x <- gets ltok;; m x)%monad q.
Proof. intros H k s X. rewrite bind_gets, (att_tok _ _ _ X). apply H. exact X. Qed.
Lemma R_ltext {A} t (m : str -> M A) q : R (AtT t) (m (tx t)) q -> R (AtT t) (x <- gets ltext;; m x)%monad q.
Proof. intros H k s X. rewrite bind_gets, (att_txt _ _ _ X). apply H. exact X. Qed.
Lemma R_lpos {A} t (m : mpos -> M A) q : R (AtT t) (m (tp t)) q -> R (AtT t) (x <- gets lpos;; m x)%monad q.
Proof. intros H k s X. rewrite bind_gets, (att_pos _ _ _ X). apply H. exact X. Qed.
Lemma R_last {A} (m : mpos -> M A) q : (forall p, R (fun k s => At k s /\ lp k = p) (m p) (q p)) -> R At (x <- gets lpos;; m x)%monad (p <-- plast;; q p).
Proof. intros H k s X. rewrite bind_gets, (at_lpos _ _ X). unfold plast, pbind. apply H. split; [exact X|reflexivity]. Qed.
Lemma R_fuel {A} (m : nat -> M A) q : (forall n, R At (m n) (q n)) -> R At (n <- fuel_here;; m n)%monad (n <-- pfuel;; q n).
Proof. intros H k s X. unfold fuel_here. rewrite bind_gets, (at_rest _ _ X). unfold pfuel, pbind. apply H. exact X. Qed.
Lemma R_ret {A} (a : A) : R At (ret a) (pret a).
Proof. intros k s X. exists s. split; [reflexivity|exact X]. Qed.
Lemma R_oof {A} : R At (@oof A) poof.
Proof. intros k s X. exists s. reflexivity. Qed.
Lemma R_panic {A} : R At (@panic A) ppanic.
Proof. intros k s X. exists s. reflexivity. Qed.
Lemma R_unnext {A} t (m : M A) q : R At m q -> R (AtT t) (UnNext;; m)%monad (pback t;;; q).
Proof.
  intros H k s X. destruct (UnNext_at t k s X) as (s1 & Q & U). rwb Q. unfold pback, pbind. apply H. apply U.
Qed.
Lemma R_unnext1 t : R (AtT t) UnNext (pback t).
Proof. intros k s X. destruct (UnNext_at t k s X) as (s1 & Q & U). exists s1. split; [exact Q|apply U]. Qed.
Lemma R_err {A} t e : R (AtT t) (@p_unexpected A e) (perr t).
Proof.
  intros k s X. unfold perr, out, p_unexpected. eexists. exists s. split; [reflexivity|]. split; [apply X|].
  rewrite (att_raw _ _ _ X). split; [apply X|]. split; [apply X|]. exact (att_last _ _ _ X).
Qed.
Lemma R_lerr {A} t e : R (AtT t) (@l_unexpected A e) (perr t).
Proof.
  intros k s X. unfold perr, out, l_unexpected. eexists. exists s. split; [reflexivity|]. split; [apply X|].
  rewrite (att_raw _ _ _ X). split; [apply X|]. split; [apply X|]. exists (ltok s). exact (att_last _ _ _ X).
Qed.
(** an error right after un-reading *)
Definition failing {A} (P : Prop) (m : M A) : Prop := forall s, exists e, m s = (Err e, s) /\ (P -> Last s -> err_ok e).
Lemma failing_p (P : Prop) {A} e : failing P (@p_unexpected A e). Proof. intros s. eexists. split; [reflexivity|]. intros _ L. exact L. Qed.
Lemma failing_l (P : Prop) {A} e : failing P (@l_unexpected A e). Proof. intros s. eexists. split; [reflexivity|]. intros _ L. exists (ltok s). exact L. Qed.
Lemma failing_fail (P : Prop) {A} e : (P -> err_ok e) -> failing P (@fail A e). Proof. intros E s. eexists. split; [reflexivity|]. intros p _. exact (E p). Qed.
Lemma R_bal {A} t (m : M A) : failing True m -> R (AtT t) (UnNext;; m)%monad (pbal t).
Proof.
  intros F k s X. destruct (UnNext_at t k s X) as (s1 & Q & U). rwb Q. destruct (F s1) as (e & E & G). rewrite E.
  unfold pbal, out. exists e, s1. split; [reflexivity|]. split; [apply U|]. split; [apply U|]. split; [exact (atu_rest _ _ _ U)|].
  split; [apply U|]. apply G; [exact I|apply U].
Qed.
Lemma R_expect {A} t T e (m : M A) q : R (AtT t) m q ->
  R (AtT t) (expect T e;; m)%monad (if tok_eqb (tk t) T then q else perr t).
Proof.
  intros H k s X. unfold expect. rewrite bind_assoc, bind_gets, (att_tok _ _ _ X). destruct (tok_eqb (tk t) T).
  - rewrite bind_ret. apply H. exact X.
  - apply R_err. exact X.
Qed.
Lemma R_bind {A B} P (m : M A) q (f : A -> M B) g : R P m q -> (forall a, R At (f a) (g a)) -> R P (bind m f) (pbind q g).
Proof.
  intros H G k s X. specialize (H k s X). unfold pbind. destruct (q k) as [a k'|kb ka|k' w| | | |]; cbn [out] in *.
  - destruct H as (s' & Q & X'). rwb Q. apply G. exact X'.
  - destruct H as (e & s' & Q & X'). unfold bind. rewrite Q. eauto.
  - destruct H as (e & s' & Q & X'). unfold bind. rewrite Q. eauto.
  - destruct H as (e & s' & Q & X'). unfold bind. rewrite Q. eauto.
  - exact I.
  - destruct H as (s' & Q). unfold bind. rewrite Q. eauto.
  - destruct H as (s' & Q). unfold bind. rewrite Q. eauto.
Qed.
Lemma R_or {A} (m : M A) q e : R At m q -> R At (or_unexpected m e) q.
Proof.
  intros H k s X. specialize (H k s X). unfold or_unexpected, try. destruct (q k) as [a k'|kb ka|k' w| | | |]; cbn [out] in *.
  - destruct H as (s' & Q & X'). rewrite Q. exists s'. auto.
  - destruct H as (er & s' & Q & X1 & X2 & X3 & _). rewrite Q. eexists. exists s'. split; [reflexivity|auto].
  - destruct H as (er & s' & Q & X1 & X2 & X3 & X4 & _). rewrite Q. eexists. exists s'. split; [reflexivity|auto].
  - destruct H as (er & s' & Q & X'). rewrite Q. eexists. exists s'. split; [reflexivity|exact X'].
  - exact I.
  - destruct H as (s' & Q). rewrite Q. exists s'. reflexivity.
  - destruct H as (s' & Q). rewrite Q. exists s'. reflexivity.
Qed.

(** ** Recovery *)
Lemma tokb_eq a b : tok_eqb a b = true -> a = b.
Proof. unfold tok_eqb. destruct (token_eq_dec a b); [auto|discriminate]. Qed.
Lemma UnNext_rest s : exists s1, UnNext s = (Ok tt, s1) /\ rest s1 = raw s ++ rest s /\ raw s1 = raw s /\ mode s1 = mode s.
Proof.
  unfold UnNext, modify, UnScan. eexists. split; [reflexivity|]. cbn.
  assert (H : forall w s, rest (fold_left (fun s c => unread c s) (rev w) s) = w ++ rest s /\
    raw (fold_left (fun s c => unread c s) (rev w) s) = raw s /\ mode (fold_left (fun s c => unread c s) (rev w) s) = mode s).
  { clear s. induction w as [|c w IH] using rev_ind; intros s; [auto|].
    rewrite rev_app_distr. cbn [rev app fold_left]. destruct (IH (unread c s)) as (A & B & C). rewrite A, B, C.
    cbn. rewrite <- app_assoc. auto. }
  apply H.
Qed.
Lemma misc_semi c : asMiscToken c <> TSEMICOLON -> c <> ch ";".
Proof. intros H ->. apply H. reflexivity. Qed.
Lemma misc_semi_inv c : asMiscToken c = TSEMICOLON -> c = ch ";".
Proof.
  unfold asMiscToken. repeat (match goal with |- context[if ?a =? ?b then _ else _] => destruct (N.eqb_spec a b) end; [discriminate || auto|]); discriminate.
Qed.
Lemma bare_app c x y : bare c x -> bare c (x ++ y).
Proof. intros [H|(d & x' & -> & H)]; [left; exact H|right; exists d, (x' ++ y); auto]. Qed.
Lemma head_token c y : isSpace c = false -> bare c y -> c <> ch ";" ->
  exists t tx rw r, lex 0 (c :: y) = mkLexed [] [] t tx (c :: rw) r /\ t <> TSEMICOLON /\ bare c rw.
Proof.
  intros S H1 H2. rewrite lex_cons, S. destruct (identStart c) eqn:IS.
  - destruct (span identChar y) as [x r]. do 4 eexists. split; [reflexivity|]. split; [discriminate|].
    left. apply identStart_class in IS. destruct IS as (_ & IS & _). apply N.eqb_neq. exact IS.
  - destruct H1 as [H1|(d & x' & -> & H3 & H4)].
    + pose proof H1 as H1'. apply N.eqb_neq in H1. rewrite H1, !andb_false_r. do 4 eexists. split; [reflexivity|].
      split; [|left; exact H1']. intros E. apply misc_semi_inv in E. congruence.
    + destruct (N.eqb_spec c (ch "/")) as [->|Nc].
      * pose proof H3 as H3'. pose proof H4 as H4'. apply N.eqb_neq in H3, H4. cbn [head_is]. rewrite H3, H4. do 4 eexists. split; [reflexivity|].
        split; [discriminate|]. right. exists d, []. auto.
      * rewrite !andb_false_r. do 4 eexists. split; [reflexivity|]. split; [|left; exact Nc]. intros E. apply misc_semi_inv in E. congruence.
Qed.
Lemma lex_slash w a d : lx_tok (lex 0 w) = TILLEGAL -> lx_txt (lex 0 w) = [] -> lx_raw (lex 0 w) = [a; d] -> d <> ch "*" ->
  exists g cs, Gap g cs /\ w = g ++ ch "/" :: d :: lx_rest (lex 0 w) /\ d <> ch "/".
Proof.
  intros T X W D. pose proof (lex_gap_ok 0 w) as GO. unfold gap_ok in GO. change (has 0 ScanComment) with false in GO. cbn iota in GO. rewrite T in GO.
  pose proof (lex_app 0 w) as L. unfold lexed_app in L. rewrite W in L. cbn [app] in L.
  exists (lx_gap (lex 0 w)), (lx_cms (lex 0 w)). split; [exact GO|].
  assert (K : a = ch "/" /\ d <> ch "/"); [|destruct K as [-> K]; split; [exact L|exact K]].
  remember (lx_gap (lex 0 w)) as g eqn:Eg. remember (lx_cms (lex 0 w)) as cs eqn:Ec. remember (lx_rest (lex 0 w)) as r eqn:Er. clear Ec Er.
  rewrite L, (lex_gap 0 g cs) in T, X, W, Eg by (reflexivity || exact GO). unfold skip in *. cbn [lx_tok lx_txt lx_raw lx_gap] in *.
  rewrite lex_cons in T, X, W, Eg. destruct (isSpace a) eqn:Sp.
  { exfalso. unfold skip in Eg. cbn [lx_gap] in Eg. apply (f_equal (@List.length _)) in Eg. rewrite !app_length in Eg. cbn in Eg. lia. }
  destruct (identStart a). { destruct (span identChar (d :: r)). discriminate T. }
  destruct (N.eqb_spec a (ch "/")) as [->|Na].
  - split; [reflexivity|]. intros ->. cbn [head_is] in *. rewrite N.eqb_refl in *. destruct (span (fun d => negb (d =? NL)) (ch "/" :: r)) as [b r2].
    change (has 0 ScanComment) with false in *. cbn iota in *. unfold skip in Eg. cbn [lx_gap] in Eg. apply (f_equal (@List.length _)) in Eg. rewrite !app_length in Eg. cbn in Eg. lia.
  - exfalso. rewrite !andb_false_r in X. discriminate X.
Qed.
Lemma ReadEmpty_fails s : nonul (rest s) -> mode s = 0 -> lx_tok (lex 0 (rest s)) <> TSEMICOLON ->
  exists e s', ReadEmptyStatement s = (Err e, s') /\ rest s' = rest s /\ raw s' = lx_all (lex 0 (rest s)) /\ mode s' = 0.
Proof.
  intros N M T. destruct (Next_spec s N) as (s1 & Q & X). unfold ReadEmptyStatement. rwb Q. rewrite bind_gets.
  rewrite (nx_tok _ _ X). unfold lexs. rewrite M. destruct (tok_eqb _ TSEMICOLON) eqn:E; [apply tokb_eq in E; congruence|].
  destruct (UnNext_rest s1) as (s2 & Q2 & A & B & C). rwb Q2. unfold l_unexpected. do 2 eexists. split; [reflexivity|].
  rewrite A, B, C, (nx_raw _ _ X), (nx_mode _ _ X), M. unfold lexs. rewrite M. split; [|auto].
  rewrite (nx_rest _ _ X). pose proof (rest_split s) as RS. unfold lexs in RS |- *. rewrite M in RS |- *. symmetry. exact RS.
Qed.
Lemma Dead_recover s e : Dead s -> exists e' s', recoverEmpty e s = (Err e', s') /\ Dead s'.
Proof.
  intros (N & N' & M & H). destruct (UnNext_rest s) as (s1 & Q & A & B & C). unfold recoverEmpty. rwb Q.
  assert (N1 : nonul (rest s1)). { rewrite A. apply nonul_app. auto. }
  rewrite M in C.
  assert (K : lx_tok (lex 0 (rest s1)) <> TSEMICOLON /\
    forall s2, rest s2 = rest s1 -> raw s2 = lx_all (lex 0 (rest s1)) -> mode s2 = 0 -> Dead s2).
  { destruct H as [(g & cs & c & x & y & G & Sc & H1 & H2 & W & R0)|(g & cs & G & W & R0)].
    - rewrite A, W, R0, <- app_assoc. cbn [app]. rewrite (lex_gap 0 g cs) by (reflexivity || exact G).
      destruct (head_token c (x ++ g ++ c :: y) Sc (bare_app _ _ _ H1) H2) as (t & tx & rw & r & E & T & BR). rewrite E. split; [exact T|].
      intros s2 R2 W2 M2. unfold lx_all, skip in W2. cbn in W2. rewrite app_nil_r in W2.
      rewrite A, W, R0, <- app_assoc in N1. cbn [app] in N1.
      assert (L : nonul (raw s2)).
      { pose proof (lex_app 0 (g ++ c :: x ++ g ++ c :: y)) as L.
        rewrite (lex_gap 0 g cs) in L by (reflexivity || exact G). rewrite E in L. unfold lexed_app, skip in L.
        cbn [lx_gap lx_raw lx_rest] in L. rewrite app_nil_r in L.
        rewrite L in N1. rewrite app_assoc in N1. apply nonul_app in N1. rewrite W2. tauto. }
      split; [rewrite R2; exact N1|]. split; [exact L|]. split; [exact M2|]. left.
      exists g, cs, c, rw, (x ++ g ++ c :: y). auto 10.
    - assert (G2 : Gap (g ++ g) (cs ++ shift g cs)) by (apply Gap_app; assumption).
      assert (E : lex 0 (rest s1) = mkLexed (g ++ g) (cs ++ shift g cs) TEOF [] [] []).
      { rewrite A, W, R0. apply lex_endgap; [reflexivity|]. apply egap_gap. exact G2. }
      rewrite E. split; [discriminate|]. intros s2 R2 W2 M2. unfold lx_all in W2. cbn in W2. rewrite app_nil_r in W2.
      rewrite A, W, R0 in N1, R2. split; [rewrite R2; exact N1|]. split; [rewrite W2; exact N1|]. split; [exact M2|]. right.
      exists (g ++ g), (cs ++ shift g cs). auto. }
  destruct K as [T K]. destruct (ReadEmpty_fails s1 N1 C T) as (e2 & s2 & Q2 & R2 & W2 & M2).
  unfold try. rewrite Q2. do 2 eexists. split; [reflexivity|]. apply K; assumption.
Qed.
Lemma lex_head w : lx_tok (lex 0 w) = TEOF \/ (lx_tok (lex 0 w) = TILLEGAL /\ lx_txt (lex 0 w) = []) \/
  exists g cs c y, w = g ++ c :: y /\ Gap g cs /\ isSpace c = false /\ c <> ch "/" /\ (lx_tok (lex 0 w) <> TSEMICOLON -> c <> ch ";").
Proof.
  induction w as [w IH] using len_ind. destruct w as [|c r]; [left; reflexivity|].
  assert (SK : forall u cu r', c :: r = u ++ r' -> (0 < List.length u)%nat -> Gap u cu ->
    (lex 0 (c :: r) = skip u cu (lex 0 r')) -> 
    lx_tok (lex 0 (c :: r)) = TEOF \/ (lx_tok (lex 0 (c :: r)) = TILLEGAL /\ lx_txt (lex 0 (c :: r)) = []) \/
  exists g cs d y, c :: r = g ++ d :: y /\ Gap g cs /\ isSpace d = false /\ d <> ch "/" /\ (lx_tok (lex 0 (c :: r)) <> TSEMICOLON -> d <> ch ";")).
  { intros u cu r' E L G X. rewrite X. cbn [skip lx_tok lx_txt]. destruct (IH r') as [H|[H|(g & cs & d & y & H & G' & H1 & H2 & H3)]].
    - rewrite E, app_length. lia.
    - auto.
    - auto.
    - right. right. exists (u ++ g), (cu ++ shift u cs), d, y. rewrite E, H, app_assoc. repeat (split; [auto using Gap_app|]).
      rewrite H in H3. exact H3. }
  assert (E : lex 0 (c :: r) = lex 0 (c :: r)) by reflexivity. rewrite lex_cons in E at 2.
  destruct (isSpace c) eqn:Sc. { apply (SK [c] [] r); [reflexivity|cbn; lia|apply Gap_space1; exact Sc|exact E]. }
  destruct (identStart c) eqn:Ic.
  { right. right. exists [], [], c, r. repeat split; [constructor|exact Sc| |].
    - apply identStart_class in Ic. destruct Ic as (_ & Ic & _). apply N.eqb_neq. exact Ic.
    - intros _ ->. discriminate. }
  destruct (N.eqb_spec c (ch "/")) as [->|Nc].
  - destruct (head_is (fun d => d =? ch "/") r) eqn:H1.
    + destruct r as [|d r]; [discriminate|]. cbn in H1. apply N.eqb_eq in H1. subst d. clear E.
      destruct (span (fun d => negb (d =? NL)) r) as [b r2] eqn:S. apply span_spec in S. destruct S as (-> & F & Hd).
      assert (Nb : ~ In NL b). { intros I. rewrite Forall_forall in F. specialize (F _ I). discriminate. }
      change (ch "/" :: ch "/" :: b ++ r2) with (lit "//" ++ b ++ r2) in *.
      destruct r2 as [|d r2].
      * left. rewrite app_nil_r. change (lx_tok (lex 0 (lit "//" ++ b)) = TEOF). rewrite lex_line_eof by (reflexivity || exact Nb). reflexivity.
      * cbn in Hd. apply negb_false_iff, N.eqb_eq in Hd. subst d.
        apply (SK (lit "//" ++ b ++ [NL]) [([], lit "//" ++ b)] r2).
        -- rewrite <- !app_assoc. reflexivity.
        -- cbn. lia.
        -- rewrite app_assoc. apply Gap_line1, is_line_intro. exact Nb.
        -- apply lex_line; [reflexivity|exact Nb].
    + destruct (head_is (fun d => d =? ch "*") r) eqn:H2.
      * destruct r as [|d r]; [discriminate|]. cbn in H2. apply N.eqb_eq in H2. subst d.
        destruct (find_close r) as [[b r3]|] eqn:Fc.
        -- destruct (find_close_body _ _ _ Fc) as (w & -> & Hw). apply find_close_spec in Fc. destruct Fc as (-> & _).
           rewrite <- app_assoc in *. change (ch "/" :: ch "*" :: w ++ lit "*/" ++ r3) with (lit "/*" ++ w ++ lit "*/" ++ r3) in *.
           apply (SK (lit "/*" ++ w ++ lit "*/") [([], lit "/*" ++ w ++ lit "*/")] r3).
           ++ rewrite <- !app_assoc. reflexivity.
           ++ cbn. lia.
           ++ apply Gap_block1. exists w. split; [reflexivity|exact Hw].
           ++ apply lex_block; [reflexivity|exact Hw].
        -- right. left. rewrite E. auto.
      * right. left. rewrite E. destruct r; auto.
  - rewrite !andb_false_r in E. right. right. exists [], [], c, r. repeat split; [constructor|exact Sc|exact Nc|].
    rewrite E. cbn. intros H ->. apply H. reflexivity.
Qed.
Lemma fatal_dead w r s : nonul (rest s) -> mode s = 0 -> raw s = w -> rest s = w ++ r -> fatal w r = true -> Dead s.
Proof.
  intros N M W R0 F. assert (N' : nonul (raw s)). { rewrite W. rewrite R0 in N. apply nonul_app in N. tauto. }
  split; [exact N|]. split; [exact N'|]. split; [exact M|]. unfold fatal in F.
  destruct (lex_head w) as [E|[[E1 E2]|(g & cs & c & y & E & G & H1 & H2 & H3)]].
  - right. rewrite E in F. apply andb_true_iff in F. destruct F as [F1 F2]. apply tokb_eq in F1.
    destruct r; [|discriminate]. rewrite app_nil_r in R0.
    pose proof (lex_gap_ok 0 w) as GO. unfold gap_ok in GO. cbn [has] in GO. change (has 0 ScanComment) with false in GO. cbn iota in GO.
    rewrite E in GO. assert (EW : w = lx_gap (lex 0 w)).
    { pose proof (lex_app 0 w) as L. unfold lexed_app in L. pose proof (lex_eof 0 w E) as (_ & L1 & L2). rewrite L1, L2, !app_nil_r in L. exact L. }
    rewrite <- EW in GO. clear EW E. remember (lx_cms (lex 0 w)) as c0 eqn:E0. clear E0. destruct GO as [g cs G|g cs x G Hx].
    + exists g, cs. auto.
    + exfalso. destruct Hx as (b & -> & Hb). rewrite <- app_assoc in F1. rewrite (lex_gap 0 g cs) in F1 by (reflexivity || exact G).
      unfold skip in F1. cbn [lx_tok] in F1. rewrite <- app_assoc in F1. rewrite lex_line_eof in F1; [discriminate|reflexivity|].
      rewrite in_app_iff. intros [I|[I|[]]]; [auto|discriminate].
  - left. rewrite E1, E2 in F. destruct (lx_raw (lex 0 w)) as [|a [|d [|? ?]]] eqn:E3; try discriminate F. apply negb_true_iff, N.eqb_neq in F.
    destruct (lex_slash w a d E1 E2 E3 F) as (g & cs & G & E & D). remember (lx_rest (lex 0 w)) as y eqn:Ey. clear Ey E1 E2 E3. exists g, cs, (ch "/"), (d :: y), (d :: y ++ r).
    split; [exact G|]. split; [reflexivity|]. split; [right; exists d, y; auto|]. split; [discriminate|]. rewrite W, R0, E, <- app_assoc. auto.
  - left. assert (T : lx_tok (lex 0 w) <> TSEMICOLON). { intros T. rewrite T in F. discriminate. }
    exists g, cs, c, y, (y ++ r). rewrite R0, W, E, <- app_assoc. split; [exact G|]. split; [exact H1|]. split; [left; exact H2|]. auto.
Qed.
End At.
