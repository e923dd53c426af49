(** The permissive parser accepts what the other one accepts, for every text
    without NUL, and finds the same there: constants, options and fields. *)
From Coq Require Import List NArith ZArith Bool String Ascii Lia.
From Verif Require Import Base BareSpec AgreeSpec Token Scanner Lexer Lexing ScanRefine Ast Parser LexFacts LexSpec LexProofs ScanFacts LexerFacts ScanProps Cursor Refine Lock Agree LexModes.
Import ListNotations.
Open Scope N_scope.
Open Scope monad_scope.
Local Notation any := Lock.any.
Local Notation NN := Lock.NN.

(** ** Texts where the parser gives up *)
(** the last token is not a semicolon, however often it is un-read *)
Definition D (s : st) : Prop := sane s /\ exists g cs c x, Gap g cs /\ isSpace c = false /\ bare c x /\ c <> ch ";" /\ raw s = g ++ c :: x.
(** in front of a second string literal, where only the permissive parser goes on *)
Definition doomed (s : st) : Prop := sane s /\ lx_tok (lex 0 (rest s)) = TQUOTE.
Lemma read_front g cs c y : Gap g cs -> isSpace c = false -> bare c y -> c <> ch ";" -> exists rw, lx_all (lex 0 (g ++ c :: y)) = g ++ c :: rw /\ bare c rw /\ lx_tok (lex 0 (g ++ c :: y)) <> TSEMICOLON.
Proof.
  intros G S B N. rewrite (lex_gap 0 g cs) by (reflexivity || exact G). destruct (head_token c y S B N) as (t & tx & rw & r & Q & T & BR). rewrite Q. exists rw. unfold lx_all, skip. cbn [lx_gap lx_raw lx_tok]. rewrite app_nil_r. auto.
Qed.
Lemma D_read s t : read_with 0 s t -> lx_tok (lex 0 (rest s)) <> TEOF -> lx_tok (lex 0 (rest s)) <> TILLEGAL -> lx_tok (lex 0 (rest s)) <> TSEMICOLON -> D t.
Proof.
  intros R N1 N2 N3. split; [exact (rw_sane _ _ _ R)|]. destruct (lex_head (rest s)) as [H|[[H _]|(g & cs & c & y & W & G & S & B & C)]]; [contradiction..|].
  destruct (read_front g cs c y G S (or_introl B) (C N3)) as (rw & Q & BR & _). exists g, cs, c, rw. rewrite (rw_raw _ _ _ R), W, Q. auto 10.
Qed.
Lemma UnNext_eq s : sane s -> exists t, UnNext s = (Ok tt, t) /\ unread_from (raw s) s t.
Proof. intros []. apply UnNext_unread; assumption. Qed.
Lemma D_back s t : D s -> unread_from (raw s) s t -> D t.
Proof. intros [S (g & cs & c & x & H)] U. split; [exact (ur_sane _ _ _ U)|]. exists g, cs, c, x. rewrite (ur_raw _ _ _ U). exact H. Qed.
Definition Die {A} (m : M A) : Prop := forall s, D s -> match m s with (Ok _, _) => False | (Err _, t) => D t | _ => True end.
Lemma Die_recover e : Die (recoverEmpty e).
Proof.
  intros s X. unfold recoverEmpty. destruct (UnNext_eq s (proj1 X)) as (t & Q & U). rwb Q. pose proof (D_back _ _ X U) as Y. unfold try, ReadEmptyStatement.
  destruct (Next_read t (ur_sane _ _ _ U)) as (v & Q2 & RV). rwb Q2. rewrite bind_gets. destruct X as [S (g & cs & c & x & G & SP & B & C & W)].
  destruct (read_front g cs c (x ++ rest s) G SP (bare_app _ _ _ B) C) as (rw & QA & BR & T).
  assert (RT : rest t = g ++ c :: x ++ rest s). { rewrite (ur_rest _ _ _ U), W, <- app_assoc. reflexivity. }
  rewrite <- RT in QA, T. rewrite (rw_tok _ _ _ RV). destruct (tok_eqb _ TSEMICOLON) eqn:TE; [apply tokb_eq in TE; contradiction|].
  destruct (UnNext_eq v (rw_sane _ _ _ RV)) as (z & Q3 & UZ). rwb Q3. cbn [l_unexpected fail]. split; [exact (ur_sane _ _ _ UZ)|]. exists g, cs, c, rw. rewrite (ur_raw _ _ _ UZ), (rw_raw _ _ _ RV), QA. auto 10.
Qed.
(** reading a token and un-reading it *)
Lemma round m s t u : sane s -> read_with m s t -> unread_from (raw t) t u -> E0 s u /\ Line (lpos u) = Line (pos s).
Proof.
  intros S R U. assert (L : Line (pos u) = Line (pos s)). { rewrite (ur_line _ _ _ U), (rw_line _ _ _ R), (rw_raw _ _ _ R). lia. }
  split; [|rewrite (ur_lpos _ _ _ U); exact L]. split; [|exact L|exact S|exact (ur_sane _ _ _ U)]. rewrite (ur_rest _ _ _ U), (rw_raw _ _ _ R), (rw_rest _ _ _ R). symmetry. unfold lx_all. rewrite <- app_assoc. apply lex_app.
Qed.
Lemma Peek_eq s : sane s -> exists t u, Peek s = (Ok (lx_tok (lex 0 (rest s))), u) /\ read_with 0 s t /\ unread_from (raw t) t u.
Proof.
  intros S. destruct (Next_read s S) as (t & Q & R). destruct (UnNext_eq t (rw_sane _ _ _ R)) as (u & Q2 & U). exists t, u. split; [|split; assumption]. unfold Peek. rwb Q. rewrite bind_gets. rwb Q2. rewrite (rw_tok _ _ _ R). reflexivity.
Qed.

(** ** Both modes *)
Definition Lr {A B} (Q : st -> st -> Prop) (R : A -> B -> Prop) (d : bool) (o : res A * st) (o' : res B * st) : Prop :=
  match o with
  | (Ok a, t) => (exists b t', o' = (Ok b, t') /\ R a b /\ Q t t') \/ (d = true /\ doomed t)
  | (Err _, t) => (exists e' t', o' = (Err e', t') /\ E t t') \/ D t
  | _ => True
  end.
Definition L {A B} (K Q : st -> st -> Prop) (R : A -> B -> Prop) (d : bool) (m : M A) (m' : M B) : Prop := forall s s', K s s' -> Lr Q R d (m s) (m' s').
Definition Doom {A} (d : bool) (m : M A) : Prop := forall s, doomed s -> match m s with (Ok _, t) => d = true /\ doomed t | (Err _, t) => D t | _ => True end.
Lemma L_bind {A B C F} K Qm Q (R1 : A -> B -> Prop) (R : C -> F -> Prop) d1 d m m' f f' :
  L K Qm R1 d1 m m' -> (forall a b, R1 a b -> L Qm Q R d (f a) (f' b)) -> (d1 = true -> forall a, Doom d (f a)) -> L K Q R d (bind m f) (bind m' f').
Proof.
  intros H G X s s' HK. specialize (H s s' HK). unfold bind. unfold Lr in H. destruct (m s) as [[a|e| |] t]; try exact I.
  - destruct H as [(b & t' & -> & RA & Q1)|[E1 D1]]; [exact (G a b RA _ _ Q1)|]. specialize (X E1 a t D1). unfold Lr. destruct (f a t) as [[?|?| |] ?]; auto.
  - destruct H as [(e' & t' & -> & Y)|H]; [left; eauto|right; exact H].
Qed.
Lemma L_bind0 {A B C F} K Qm Q (R1 : A -> B -> Prop) (R : C -> F -> Prop) d m m' f f' :
  L K Qm R1 false m m' -> (forall a b, R1 a b -> L Qm Q R d (f a) (f' b)) -> L K Q R d (bind m f) (bind m' f').
Proof. intros H G. eapply L_bind; [exact H|exact G|discriminate]. Qed.
Lemma L_N {A B} K (R : A -> B -> Prop) d m m' : NN K R m m' -> L K E R d m m'.
Proof. intros H s s' X. specialize (H s s' X). unfold Lr. destruct (m s) as [[a|e| |] t]; auto. Qed.
Lemma L_ret {A B} K (R : A -> B -> Prop) d a b : R a b -> L K K R d (ret a) (ret b).
Proof. intros H s s' X. left. do 2 eexists. split; [reflexivity|auto]. Qed.
Lemma L_mono {A B} (K K2 Q Q2 : st -> st -> Prop) (R R2 : A -> B -> Prop) d m m' : L K Q R d m m' -> (forall s s', K2 s s' -> K s s') -> (forall s s', Q s s' -> Q2 s s') -> (forall a b, R a b -> R2 a b) -> L K2 Q2 R2 d m m'.
Proof.
  intros H A1 A2 A3 s s' X. specialize (H s s' (A1 _ _ X)). unfold Lr in *. destruct (m s) as [[a|e| |] t]; auto. destruct H as [(b & t' & Q1 & RA & Y)|H]; [left; exists b, t'; auto|right; exact H].
Qed.
Lemma L_post {A B} K (Q Q2 : st -> st -> Prop) (R : A -> B -> Prop) d m m' : (forall s s', Q s s' -> Q2 s s') -> L K Q R d m m' -> L K Q2 R d m m'.
Proof. intros H X. eapply L_mono; [exact X|auto..]. Qed.
Lemma L_oof {A B} K Q (R : A -> B -> Prop) d m' : L K Q R d oof m'. Proof. intros s s' X. exact I. Qed.
Lemma L_err {A B} Q (R : A -> B -> Prop) d x x' : L E Q R d (p_unexpected x) (p_unexpected x').
Proof. intros s s' X. left. do 2 eexists. split; [reflexivity|exact X]. Qed.
Lemma L_lerr {A B} Q (R : A -> B -> Prop) d x x' : L E Q R d (l_unexpected x) (l_unexpected x').
Proof. intros s s' X. left. do 2 eexists. split; [reflexivity|exact X]. Qed.
Lemma L_or {A B} K Q (R : A -> B -> Prop) d m m' x x' : L K Q R d m m' -> L K Q R d (or_unexpected m x) (or_unexpected m' x').
Proof.
  intros H s s' X. specialize (H s s' X). unfold or_unexpected, try. unfold Lr in H. destruct (m s) as [[a|e| |] t]; try exact I.
  - destruct H as [(b & t' & -> & RA & Y)|H]; [left; do 2 eexists; split; [reflexivity|auto]|right; exact H].
  - destruct H as [(e' & t' & -> & Y)|H]; [left; do 2 eexists; split; [reflexivity|exact Y]|right; exact H].
Qed.
(** a doomed text is not continued *)
Lemma Doom_next {A} T x (f : M A) d : T <> TQUOTE -> Doom d (Next;; expect T x;; f).
Proof.
  intros N s [S X]. destruct (Next_read s S) as (t & Q & R). rwb Q. unfold expect. unfold bind, gets. rewrite (rw_tok _ _ _ R), X. destruct (tok_eqb TQUOTE T) eqn:TE; [apply tokb_eq in TE; congruence|]. cbn [p_unexpected].
  eapply D_read; [exact R|rewrite X; discriminate..].
Qed.
Lemma Doom_ret {A} (a : A) : Doom true (ret a). Proof. intros s X. split; [reflexivity|exact X]. Qed.
Lemma Doom_bind {A B} d1 d (m : M A) (f : A -> M B) : Doom d1 m -> (d1 = true -> forall a, Doom d (f a)) -> Doom d (bind m f).
Proof. intros H F s X. specialize (H s X). unfold bind. destruct (m s) as [[a|e| |] t]; auto. destruct H as [Q Y]. exact (F Q a _ Y). Qed.

(** nodes that say the same *)
Definition says {A B} (f : (str -> str) -> A -> B) (a b : A) : Prop := f collapse a = f (fun c => c) b.
Definition kept (c c' : str) : Prop := c' = collapse c.
Ltac nl := match goal with |- NN _ _ ?m ?m => nleaf end.
Ltac lb := eapply L_bind0; [solve [eapply L_N; first [nl | (apply n_or; nl)]]|ni].
Ltac lcase := match goal with |- L _ _ _ _ (match ?a with _ => _ end) _ => destruct a end.
Ltac lret := apply L_ret; first [exact I|reflexivity|assumption].
Definition parenRest (n : str) : M str := fi <- ReadFullIdent;; Next;; expect TRIGHTPAREN ")";; x <- gets ltext;; ret (n ++ fst fi ++ x).
Lemma n0_fullIdent : NN E0 (same fst) ReadFullIdent ReadFullIdent.
Proof. unfold ReadFullIdent. eapply NN_bind; [exact n0_Next|ni]. ngo. Qed.
Lemma v_parenRest n : L E0 E eq false (parenRest n) (parenRest n).
Proof. apply L_N. unfold parenRest. eapply NN_bind; [exact n0_fullIdent|ni]. ngo. Qed.
Lemma v_parenName n : L E E eq false (parseParenName false n) (parseParenName true n).
Proof.
  intros s s' X. pose proof (e_E0 _ _ X) as X0. change (parseParenName false n s) with (parenRest n s).
  destruct (Next_read s (e0_sane _ _ X0)) as (t & Q & T). destruct (Next_read s' (e0_sane' _ _ X0)) as (t' & Q' & T'). pose proof (read_E _ _ _ _ _ X0 T T') as Y.
  assert (PE : parseParenName true n s' = if tok_eqb (ltok t) TDOT then parenRest (n ++ [ch "."]) t' else match UnNext t' with (Ok _, u) => parenRest n u | _ => parseParenName true n s' end).
  { unfold parseParenName. unfold bind at 1 2. rewrite Q'. rewrite bind_gets. rewrite (e_tok _ _ Y). destruct (tok_eqb _ TDOT); [reflexivity|]. destruct (UnNext_eq t' (rw_sane _ _ _ T')) as (u & QU & _). unfold bind at 1. rewrite QU. reflexivity. }
  rewrite PE. clear PE. destruct (tok_eqb (ltok t) TDOT) eqn:TD.
  - (* the strict parser meets the dot *)
    apply tokb_eq in TD. unfold parenRest, ReadFullIdent. unfold bind at 1 2. rewrite Q. rewrite bind_gets, TD. cbn [tok_eqb negb]. right. rewrite (rw_tok _ _ _ T) in TD. eapply D_read; [exact T|rewrite TD; discriminate..].
  - destruct (UnNext_eq t' (rw_sane _ _ _ T')) as (u & QU & U). rewrite QU. apply v_parenRest. destruct (round _ _ _ _ (e0_sane' _ _ X0) T' U) as [R0 _]. eapply E0_trans; eassumption.
Qed.
Lemma v_optionName_loop n : forall x, L E E eq false (optionName_loop false n x) (optionName_loop true n x).
Proof.
  induction n as [|n IH]; intros x; cbn [optionName_loop]; [apply L_oof|]. do 2 lb. destruct (negb _). { lb. lret. }
  do 4 lb. lcase; try apply L_err; [apply IH|]. eapply L_bind0; [apply v_parenName|]. ni. apply IH.
Qed.
Lemma v_optionName : L E E eq false (parseOptionName false) (parseOptionName true).
Proof.
  unfold parseOptionName. do 3 lb. eapply L_bind0 with (R1 := eq) (Qm := E). { lcase; try apply L_err; [lret|apply v_parenName]. }
  ni. lb. apply v_optionName_loop.
Qed.
Definition kc (a b : str * mpos) : Prop := kept (fst a) (fst b).
Lemma v_merge (p p2 : mpos) t t' : E t t' -> ltok t = TSTRLIT -> is_str (ltext t) -> Lr E0 kc true (ret (ltext t, p) t) ((b <- mergeMultilineStrLit;; ret (b, p2)) t').
Proof.
  intros X T IS. pose proof (e_E0 _ _ X) as X0. destruct (tok_eqb (lx_tok (lex ScanLit (rest t))) TSTRLIT) eqn:TE.
  - right. split; [reflexivity|]. split; [exact (e0_sane _ _ X0)|]. apply tokb_eq in TE. apply lex_str_quote. exact TE.
  - left. unfold mergeMultilineStrLit. destruct (NextM_read ScanLit t' (e0_sane' _ _ X0)) as (v & Q & R). destruct (UnNext_eq v (rw_sane _ _ _ R)) as (u & QU & U).
    assert (ME : forall n q b, merge_loop (S (S n)) q b t' = (Ok (b ++ trim q (ltext t')), v)).
    { intros n q b. cbn [merge_loop]. rewrite bind_gets. rewrite (e_tok _ _ X), T. change (tok_eqb TSTRLIT TSTRLIT) with true. cbv iota. rewrite bind_gets. unfold NextLit. rwb Q. rewrite bind_gets, (rw_tok _ _ _ R), (e0_rest _ _ X0), TE. reflexivity. }
    unfold fuel_here. rewrite bind_assoc, bind_gets. cbv zeta. rewrite !bind_assoc, bind_gets, bind_assoc. match goal with |- context [merge_loop _ ?q ?b] => rwb (ME (List.length (rest t')) q b) end.
    rewrite bind_assoc. rwb QU. do 2 eexists. split; [reflexivity|]. split.
    + unfold kc, kept. cbn [fst]. rewrite (e_txt _ _ X). destruct (trim_str _ IS) as (q & l & EQ & HQ & <-). rewrite EQ. assert (QQ : (if q =? DQ then DQ else SQ) = q) by (destruct HQ as [-> | ->]; reflexivity). rewrite QQ. rewrite <- app_assoc. reflexivity.
    + eapply E0_trans; [exact X0|]. exact (proj1 (round _ _ _ _ (e0_sane' _ _ X0) R U)).
Qed.
(** an error, or a result with the cursor at the same place *)
Lemma L0_ret {A B} (R : A -> B -> Prop) d (a : A) (b : B) : R a b -> L E E0 R d (ret a) (ret b).
Proof. intros H. eapply L_post; [exact e_E0|]. lret. Qed.
Lemma v_constant0 : L E E0 kc true (ReadConstant false) (ReadConstant true).
Proof.
  intros s s' X. pose proof (e_E0 _ _ X) as X0. unfold ReadConstant, NextLit. destruct (NextM_read ScanLit s (e0_sane _ _ X0)) as (t & Q & T). destruct (NextM_read ScanLit s' (e0_sane' _ _ X0)) as (t' & Q' & T'). rwb Q. rwb Q'. rewrite !bind_gets.
  pose proof (read_E _ _ _ _ _ X0 T T') as Y. rewrite (e_tok _ _ Y). pose proof (read_kind _ _ _ (e0_sane _ _ X0) T) as K. clear Q Q' T T' X X0 s s'.
  assert (PL : In (ltok t) [TINTLIT; TFLOATLIT; TBOOLLIT; TIDENT] -> forall p p', Lr E0 kc true (ret (ltext t, p) t) (ret (ltext t', p') t')).
  { intros I p p'. apply (L0_ret kc true _ _) with (2 := Y). unfold kc, kept. cbn [fst]. rewrite (e_txt _ _ Y), (plain_collapse _ (kind_plain _ _ _ K I)). reflexivity. }
  assert (SG : forall p p', Lr E0 kc true ((if str_eqb (ltext t) (lit "-") || str_eqb (ltext t) (lit "+") then NextLit;; t2 <- gets ltok;; match t2 with TINTLIT | TFLOATLIT => y <- gets ltext;; ret (ltext t ++ y, p) | _ => l_unexpected "TINTLIT or TFLOATLIT" end else l_unexpected "constant") t) ((if str_eqb (ltext t') (lit "-") || str_eqb (ltext t') (lit "+") then NextLit;; t2 <- gets ltok;; match t2 with TINTLIT | TFLOATLIT => y <- gets ltext;; ret (ltext t' ++ y, p') | _ => l_unexpected "TINTLIT or TFLOATLIT" end else l_unexpected "constant") t')).
  { intros p p'. rewrite (e_txt _ _ Y). destruct (_ || _) eqn:SGN; [|exact (L_lerr E0 kc true "constant" "constant" t t' Y)]. assert (PX : plain (ltext t)). { apply orb_true_iff in SGN. destruct SGN as [SGN|SGN]; apply str_eqb_eq in SGN; rewrite SGN; eexists _, _; split; reflexivity. }
    clear PL. generalize dependent (ltext t). intros x K SGN PX.
    assert (G : L E E0 kc true (NextLit;; t2 <- gets ltok;; match t2 with TINTLIT | TFLOATLIT => y <- gets ltext;; ret (x ++ y, p) | _ => l_unexpected "TINTLIT or TFLOATLIT" end) (NextLit;; t2 <- gets ltok;; match t2 with TINTLIT | TFLOATLIT => y <- gets ltext;; ret (x ++ y, p') | _ => l_unexpected "TINTLIT or TFLOATLIT" end)).
    { do 2 lb. lcase; first [apply L_lerr | (lb; apply L0_ret; unfold kc, kept; cbn [fst]; rewrite plain_collapse; [reflexivity|apply plain_app; exact PX])]. }
    exact (G t t' Y). }
  destruct (ltok t) eqn:TK; try (apply PL; cbn; tauto); try exact (SG _ _).
  - assert (H : NN E (same fst) (UnNext;; ReadFullIdent) (UnNext;; ReadFullIdent)) by ngo. specialize (H t t' Y). pose proof (n_UnNext t t' Y) as HU. unfold bind in *. destruct (UnNext t) as [[u|e| |] t1]; try exact I; [|left; exact H]. destruct HU as (u' & t1' & QU & _ & YU). rewrite QU in *. unfold Lr.
    destruct (ReadFullIdent t1) as [[[x p]|e| |] t2] eqn:QF; try exact I; [|left; exact H]. left. destruct H as ([x' p'] & t2' & Q2 & S2 & Y2). exists (x', p'), t2'. split; [exact Q2|]. split; [|exact (e_E0 _ _ Y2)]. unfold same in S2. cbn [fst] in S2. subst x'. unfold kc, kept. cbn [fst].
    symmetry. apply plain_collapse. eapply fullIdent_plain; [exact (e0_sane _ _ (e_E0 _ _ YU))|exact QF].
  - apply v_merge; [exact Y|exact TK|exact (kind_str _ _ _ K eq_refl)].
Qed.
Lemma v_optionConstant n : L E E0 kept true (parseOptionConstant false n) (parseOptionConstant true n).
Proof.
  destruct n as [|n]; [apply L_oof|]. cbn [parseOptionConstant negb]. intros s s' X. pose proof (e_E0 _ _ X) as X0. pose proof (n_Peek s s' X) as P. destruct (Peek_eq s (e0_sane _ _ X0)) as (t & u & Q & R & U). rewrite Q in P. destruct P as (b & u' & Q' & <- & Y). rwb Q. rwb Q'.
  assert (G : L E E0 kept true (c <- ReadConstant false;; ret (fst c)) (c <- ReadConstant true;; ret (fst c))).
  { eapply L_bind; [apply v_constant0| |intros _ ?; apply Doom_ret]. intros c c' H. intros t1 t1' Z. left. do 2 eexists. split; [reflexivity|]. split; [exact H|exact Z]. }
  assert (DD : forall T, T <> TEOF -> T <> TILLEGAL -> T <> TSEMICOLON -> lx_tok (lex 0 (rest s)) = T -> D u).
  { intros T N1 N2 N3 TE. eapply D_back; [|exact U]. eapply D_read; [exact R|congruence..]. }
  destruct (lx_tok (lex 0 (rest s))) eqn:TK; try exact (G _ _ Y); right; eapply DD; try reflexivity; discriminate.
Qed.
Lemma v_constant : L E E0 kept true (parseConstant false) (parseConstant true).
Proof. unfold parseConstant. lb. apply v_optionConstant. Qed.
(** behind a constant *)
Lemma L_next0 {A B} Q (R : A -> B -> Prop) d (f f' : M _) : L E Q R d f f' -> L E0 Q R d (Next;; f) (Next;; f').
Proof. intros H. eapply L_bind0; [apply L_N; exact n0_Next|]. intros _ _ _. exact H. Qed.
Lemma v_option : L E E (says say_option) false (ParseOption false) (ParseOption true).
Proof.
  unfold ParseOption. do 3 lb. eapply L_bind0; [apply v_optionName|]. ni. do 2 lb. eapply L_bind; [apply v_constant| |intros _ ?; apply Doom_next; discriminate].
  intros c c' H. apply L_next0. do 2 lb. rewrite H. lret.
Qed.
Section Options.
(** the options of a field or an enum value *)
Variables (X : Type) (mk : str -> str -> X) (what : string) (sy : (str -> str) -> X -> X).
Hypothesis (sy_mk : forall f a b, sy f (mk a b) = mk a (f b)).
Definition sys (f : str -> str) (l : list X) : list X := map (sy f) l.
Lemma sys_app o o' l l' : says sy o o' -> says sys l l' -> says sys (l ++ [o]) (l' ++ [o']).
Proof. unfold says, sys. intros A B. rewrite !map_app, B. cbn [map]. rewrite A. reflexivity. Qed.
Definition oneOption (perm : bool) : M X := name <- parseOptionName perm;; Next;; expect TEQUALS "=";; constant <- parseConstant perm;; ret (mk name constant).
Lemma v_oneOption : L E E0 (says sy) true (oneOption false) (oneOption true).
Proof.
  unfold oneOption. eapply L_bind0; [apply v_optionName|]. ni. do 2 lb. eapply L_bind; [apply v_constant| |intros _ ?; apply Doom_ret].
  intros c c' H t1 t1' Z. left. do 2 eexists. split; [reflexivity|]. split; [|exact Z]. unfold says. rewrite !sy_mk, H. reflexivity.
Qed.
Fixpoint optionsLoop (perm : bool) (n : nat) (opts : list X) : M (list X) :=
  match n with
  | O => oof
  | S n' => Next;; t <- gets ltok;; if negb (tok_eqb t TCOMMA) then UnNext;; ret opts else opt <- or_unexpected (oneOption perm) what;; optionsLoop perm n' (opts ++ [opt])
  end.
Lemma Doom_optionsLoop perm n l : Doom true (optionsLoop perm n l).
Proof.
  destruct n as [|n]; cbn [optionsLoop]; [intros s _; exact I|]. intros s [S Y]. destruct (Next_read s S) as (t & Q & R). rwb Q. rewrite bind_gets, (rw_tok _ _ _ R), Y. change (negb (tok_eqb TQUOTE TCOMMA)) with true. cbv iota.
  destruct (UnNext_eq t (rw_sane _ _ _ R)) as (u & Q2 & U). rwb Q2. split; [reflexivity|]. destruct (round _ _ _ _ S R U) as [Z _]. split; [exact (e0_sane' _ _ Z)|]. rewrite (e0_rest _ _ Z). exact Y.
Qed.
Lemma v_optionsLoop n : forall l l', says sys l l' -> L E0 E (says sys) true (optionsLoop false n l) (optionsLoop true n l').
Proof.
  induction n as [|n IH]; intros l l' HL; cbn [optionsLoop]; [apply L_oof|]. apply L_next0. lb. destruct (negb _). { lb. lret. }
  eapply L_bind; [apply L_or; apply v_oneOption|intros ? ? HO; apply IH; apply sys_app; assumption|intros _ ?; apply Doom_optionsLoop].
Qed.
Lemma v_rest o o' : says sys o o' -> L E0 E (says sys) true (n <- fuel_here;; optionsLoop false n o) (n <- fuel_here;; optionsLoop true n o').
Proof. intros HO s s' Y. unfold fuel_here. rewrite !bind_gets. rewrite (e0_rest _ _ Y). apply v_optionsLoop; [exact HO|exact Y]. Qed.
Lemma Doom_rest perm o : Doom true (n <- fuel_here;; optionsLoop perm n o).
Proof. intros s Y. unfold fuel_here. rewrite !bind_gets. apply Doom_optionsLoop. exact Y. Qed.
Lemma one o o' : says sy o o' -> says sys [o] [o'].
Proof. intros H. apply (sys_app o o' [] [] H). reflexivity. Qed.
Lemma v_close : L E E (says sys) false (opt <- or_unexpected (oneOption false) what;; opts <- (n <- fuel_here;; optionsLoop false n [opt]);; Next;; expect TRIGHTSQUARE "]";; ret opts) (opt <- or_unexpected (oneOption true) what;; opts <- (n <- fuel_here;; optionsLoop true n [opt]);; Next;; expect TRIGHTSQUARE "]";; ret opts).
Proof.
  eapply L_bind; [apply L_or; apply v_oneOption| |].
  - intros ? ? HO. eapply L_bind; [apply v_rest; apply one; exact HO| |intros _ ?; apply Doom_next; discriminate]. intros ? ? HL. do 2 lb. lret.
  - intros _ ?. eapply Doom_bind; [apply Doom_rest|]. intros _ ?. apply Doom_next. discriminate.
Qed.
Lemma v_some : L E E (says sys) true (opt <- oneOption false;; n <- fuel_here;; optionsLoop false n [opt]) (opt <- oneOption true;; n <- fuel_here;; optionsLoop true n [opt]).
Proof. eapply L_bind; [apply v_oneOption|intros ? ? HO; apply v_rest; apply one; exact HO|intros _ ?; apply Doom_rest]. Qed.
End Options.
Lemma bind_pt {A B} (m : M A) (f g : A -> M B) s : (forall a t, f a t = g a t) -> bind m f s = bind m g s.
Proof. intros H. unfold bind. destruct (m s) as [[a|e| |] t]; auto. Qed.
Lemma v_fieldOptionsOption : L E E (says (sys fieldOption say_fo)) false (parseFieldOptionsOption false) (parseFieldOptionsOption true).
Proof.
  unfold parseFieldOptionsOption. do 2 lb. destruct (tok_eqb _ _); [|lb; lret]. eapply L_bind; [exact (v_some fieldOption mkFieldOption "fieldOption" say_fo (fun _ _ _ => eq_refl))| |intros _ ?; apply Doom_next; discriminate]. intros ? ? HO. do 2 lb. lret.
Qed.
Lemma v_enumValueOptions : L E E (says (sys enumValueOption say_ev)) false (parseEnumValueOptions false) (parseEnumValueOptions true).
Proof.
  unfold parseEnumValueOptions. do 2 lb. destruct (negb _); [lb; lret|]. pose proof (v_close enumValueOption mkEnumValueOption "enumValueOption" say_ev (fun _ _ _ => eq_refl)) as H. intros s s' Y. specialize (H s s' Y).
  assert (P : forall perm s, (opt <- or_unexpected (oneOption enumValueOption mkEnumValueOption perm) "enumValueOption";; opts <- (n <- fuel_here;; optionsLoop enumValueOption mkEnumValueOption "enumValueOption" perm n [opt]);; Next;; expect TRIGHTSQUARE "]";; ret opts) s =
     (opt <- or_unexpected (parseEnumValueOption perm) "enumValueOption";; n <- fuel_here;; opts <- enumValueOptions_loop perm n [opt];; Next;; expect TRIGHTSQUARE "]";; ret opts) s).
  { intros perm s1. change (oneOption enumValueOption mkEnumValueOption perm) with (parseEnumValueOption perm). apply bind_pt. intros o t. rewrite bind_assoc. unfold fuel_here. rewrite !bind_gets. reflexivity. }
  rewrite <- !P. exact H.
Qed.
Lemma said_field r q o t n k a b l l' i i' m m' : says (sys fieldOption say_fo) a b -> says say_field (mkField r q o t n k a l i m) (mkField r q o t n k b l' i' m').
Proof. unfold says, say_field, sys. cbn. intros ->. reflexivity. Qed.
Lemma said_mapField t u n k a b l l' i i' m m' : says (sys fieldOption say_fo) a b -> says say_mapField (mkMapField t u n k a l i m) (mkMapField t u n k b l' i' m').
Proof. unfold says, say_mapField, sys. cbn. intros ->. reflexivity. Qed.
Lemma said_oneofField t n k a b l l' i i' m m' : says (sys fieldOption say_fo) a b -> says say_oneofField (mkOneofField t n k a l i m) (mkOneofField t n k b l' i' m').
Proof. unfold says, say_oneofField, sys. cbn. intros ->. reflexivity. Qed.
Lemma said_enumField n k a b l l' i i' m m' : says (sys enumValueOption say_ev) a b -> says say_enumField (mkEnumField n k a l i m) (mkEnumField n k b l' i' m').
Proof. unfold says, say_enumField, sys. cbn. intros ->. reflexivity. Qed.
Lemma v_field : L E E (says say_field) false (ParseField false) (ParseField true).
Proof.
  unfold ParseField. lb. match goal with |- L _ _ _ _ (let '(_, _) := ?a in _) _ => destruct a as ((? & ?) & ?) end. lb. do 6 lb. eapply L_bind0; [apply v_fieldOptionsOption|]. ni. do 3 lb. apply L_ret. apply said_field. assumption.
Qed.
Lemma v_mapField : L E E (says say_mapField) false (ParseMapField false) (ParseMapField true).
Proof. unfold ParseMapField. do 17 lb. eapply L_bind0; [apply v_fieldOptionsOption|]. ni. do 3 lb. apply L_ret. apply said_mapField. assumption. Qed.
Lemma v_oneofField : L E E (says say_oneofField) false (parseOneofField false) (parseOneofField true).
Proof. unfold parseOneofField. do 7 lb. eapply L_bind0; [apply v_fieldOptionsOption|]. ni. do 3 lb. apply L_ret. apply said_oneofField. assumption. Qed.
Lemma v_enumField : L E E (says say_enumField) false (parseEnumField false) (parseEnumField true).
Proof. unfold parseEnumField. do 8 lb. cbv zeta. do 3 lb. eapply L_bind0; [apply v_enumValueOptions|]. ni. do 3 lb. apply L_ret. apply said_enumField. assumption. Qed.
