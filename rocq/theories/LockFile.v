(** The permissive parser accepts what the other one accepts, for every text
    without NUL, and finds the same there: bodies and files.  Behind a block the permissive parser takes a
    semicolon that the other one reads as an empty statement. *)
From Coq Require Import List NArith ZArith Bool String Ascii Lia Arith.
From Verif Require Import Base BareSpec AgreeSpec Token Scanner Lexer Lexing ScanRefine Ast Parser Api LexFacts LexSpec LexProofs ScanFacts LexerFacts ScanProps Cursor Term2 LexModes Refine Lock Agree LockPerm SimCases.
Import ListNotations.
Open Scope N_scope.
Open Scope monad_scope.
Local Notation any := Lock.any.
Local Notation NN := Lock.NN.
Local Notation D := LockPerm.D.

(** ** What nodes say *)
Definition says_block := says (fun f (x : block) => mkBlock (b_name x) (say_body f (b_body x)) [] None None nowhere).
Definition says_group := says (fun f (g : groupField) => mkGroupField (g_repeated g) (g_required g) (g_optional g) (g_name g) (say_body f (g_body g)) (g_number g) [] None None nowhere).
Definition says_body (a b : body_result) : Prop := says say_body (fst (fst a)) (fst (fst b)).
Lemma say_body_app f l l2 : say_body f (l ++ l2) = say_body f l ++ say_body f l2.
Proof. induction l as [|v l IH]; cbn [app say_body]; [reflexivity|rewrite IH; apply app_assoc]. Qed.
Lemma say_body_one f v : say_body f [v] = say f v. Proof. cbn [say_body]. apply app_nil_r. Qed.
Lemma say_body_comments f b l : say_body f (body_comments b l) = [].
Proof. destruct b; [|reflexivity]. cbn [body_comments]. induction l; auto. Qed.
Lemma say_with f c v : say f (with_comments c v) = say f v. Proof. destruct v; reflexivity. Qed.
Lemma say_inline f c v y : set_inline c v = Some y -> say f y = say f v. Proof. destruct v; intros H; try discriminate H; injection H as <-; reflexivity. Qed.
Lemma says_add l l' v v' : says say_body l l' -> says say v v' -> says say_body (l ++ [v]) (l' ++ [v']).
Proof. unfold says. intros A B. rewrite !say_body_app, !say_body_one, A, B. reflexivity. Qed.
Lemma says_end b c c' l l' : says say_body l l' -> says say_body (l ++ body_comments b c) (l' ++ body_comments b c').
Proof. unfold says. intros A. rewrite !say_body_app, !say_body_comments, A. reflexivity. Qed.
Lemma says_more l l' v : says say_body l l' -> say collapse v = [] -> says say_body (l ++ [v]) l'.
Proof. unfold says. intros A B. rewrite !say_body_app, !say_body_one, A, B. apply app_nil_r. Qed.
Lemma says_with {A} (mk : A -> visitee) (sy : (str -> str) -> A -> A) c c' a b : (forall f x, say f (mk x) = [mk (sy f x)]) -> says sy a b -> says say (with_comments c (mk a)) (with_comments c' (mk b)).
Proof. unfold says. intros H HA. rewrite !say_with, !H, HA. reflexivity. Qed.
Ltac sw := first
  [ refine (says_with VOption say_option _ _ _ _ (fun _ _ => eq_refl) _); assumption
  | refine (says_with VField say_field _ _ _ _ (fun _ _ => eq_refl) _); assumption
  | refine (says_with VMapField say_mapField _ _ _ _ (fun _ _ => eq_refl) _); assumption
  | refine (says_with VEnumField say_enumField _ _ _ _ (fun _ _ => eq_refl) _); assumption
  | refine (says_with VOneof say_oneof _ _ _ _ (fun _ _ => eq_refl) _); assumption
  | refine (says_with VRPC say_rpc _ _ _ _ (fun _ _ => eq_refl) _); assumption
  | refine (says_with VImport (fun _ => bare_import) _ _ _ _ (fun _ _ => eq_refl) _); assumption
  | refine (says_with VPackage (fun _ => bare_package) _ _ _ _ (fun _ _ => eq_refl) _); assumption
  | refine (says_with VReserved (fun _ => bare_reserved) _ _ _ _ (fun _ _ => eq_refl) _); assumption
  | refine (says_with VExtensions (fun _ => bare_extensions) _ _ _ _ (fun _ _ => eq_refl) _); assumption
  | refine (says_with VGroupField _ _ _ _ _ (fun _ _ => eq_refl) _); assumption
  | refine (says_with VMessage _ _ _ _ _ (fun _ _ => eq_refl) _); assumption
  | refine (says_with VEnum _ _ _ _ _ (fun _ _ => eq_refl) _); assumption
  | refine (says_with VService _ _ _ _ _ (fun _ _ => eq_refl) _); assumption
  | refine (says_with VExtend _ _ _ _ _ (fun _ _ => eq_refl) _); assumption
  | reflexivity ].

(** the permissive parser is at the same place, or behind one more semicolon *)
Record pend (s s' : st) : Prop := mkPend { pn_sane : sane s; pn_sane' : sane s'; pn_tok : lx_tok (lex 0%N (rest s)) = TSEMICOLON; pn_rest : rest s' = lx_rest (lex 0%N (rest s));
  pn_line : Line (pos s') = (Line (pos s) + newlines (lx_all (lex 0%N (rest s))))%Z; pn_lpos : Line (lpos s') = (Line (pos s) + newlines (lx_gap (lex 0%N (rest s))))%Z }.
Definition wp (s s' : st) : Prop := E1 s s' \/ pend s s'.
Definition eol (s s' : st) : Prop := E s s' /\ Line (lpos s) = Line (pos s).
Lemma E_wp s s' : E s s' -> wp s s'. Proof. left. apply E_E1. assumption. Qed.
Lemma pend_E0 s s1 s' : E0 s s1 -> pend s s' -> pend s1 s'.
Proof. intros [R Ln S S'] []. split; rewrite ?R, ?Ln; assumption. Qed.
Lemma pend_read s s' t : pend s s' -> read_with 0 s t -> E1 t s'.
Proof. intros [] []. split; [split; congruence || assumption|congruence]. Qed.

(** results of which nothing is claimed *)
Definition quiet {A} (r : res A * st) : Prop := match r with (Ok _, _) | (Err _, _) => False | _ => True end.
Lemma quiet_L {A B} Q (R : A -> B -> Prop) d r r' : quiet r -> Lr Q R d r r'.
Proof. unfold quiet, Lr. destruct r as [[?|?| |] ?]; tauto. Qed.
Lemma quiet_bind {A B} (m : M A) (f : A -> M B) s : quiet (m s) -> quiet (bind m f s).
Proof. unfold bind, quiet. destruct (m s) as [[?|?| |] ?]; tauto. Qed.

(** an error of a field taken for an empty statement *)
Definition rv (v v' : visitee) : Prop := v' = VNil -> v = VNil.
Definition rn (v v' : visitee) : Prop := v' <> VNil /\ says say v v'.
Lemma rn_rv v v' : rn v v' -> rv v v'. Proof. intros RN X. destruct (proj1 RN X). Qed.
Lemma n_recover e e' : NN E rn (recoverEmpty e) (recoverEmpty e').
Proof. unfold recoverEmpty. eapply NN_bind; [exact n_UnNext|ni]. eapply NN_try; [exact n_empty|ni; apply NN_ret; split; [discriminate|reflexivity]|intros; apply NN_fail]. Qed.
Lemma w_recover {A B} (Q : st -> st -> Prop) (R : A -> B -> Prop) (m : M A) (m' : M B) ok ok' : (forall a b, R a b -> rn (ok a) (ok' b)) -> (forall s s', E s s' -> Q s s') -> L E Q R false m m' ->
  L E Q rn false (try m (fun r => match r with inl a => ret (ok a) | inr e => recoverEmpty e end)) (try m' (fun r => match r with inl a => ret (ok' a) | inr e => recoverEmpty e end)).
Proof.
  intros NV EQ H s s' X. specialize (H s s' X). unfold try. unfold Lr in H. destruct (m s) as [[a|e| |] t]; try exact I.
  - destruct H as [(b & t' & -> & RA & Y)|[H _]]; [|discriminate H]. left. do 2 eexists. split; [reflexivity|]. split; [apply NV; exact RA|exact Y].
  - destruct H as [(e' & t' & -> & Y)|H].
    + exact (L_post _ _ _ _ _ _ _ EQ (L_N _ _ _ _ _ (n_recover e e')) t t' Y).
    + pose proof (Die_recover e t H) as G. unfold Lr. destruct (recoverEmpty e t) as [[?|?| |] ?]; try exact I; [destruct G|right; exact G].
Qed.

(** ** The end of a block *)
Lemma w_blockEnd : L eol wp any false (blockEnd false) (blockEnd true).
Proof.
  intros s s' [X Ln]. pose proof (e_E0 _ _ X) as X0. unfold blockEnd. rewrite !bind_gets. destruct (Next_read s' (e0_sane' _ _ X0)) as (t & Q & R). unfold ConsumeToken. rewrite bind_assoc. rwb Q. rewrite bind_assoc, bind_gets. pose proof (rw_tok _ _ _ R) as RT.
  left. destruct (tok_eqb (ltok t) TSEMICOLON) eqn:S.
  - unfold bind at 1. unfold ret at 1 2. rewrite bind_gets. rewrite S. unfold gets. do 2 eexists. split; [reflexivity|]. split; [exact I|]. right. apply tokb_eq in S.
    destruct X0 as [XR XL XS XS'], R. rewrite XR in *. split; try assumption; try congruence; lia.
  - destruct (UnNext_eq t (rw_sane _ _ _ R)) as (u & Q2 & U). rwb Q2. rewrite bind_gets, (ur_tok _ _ _ U). change (tok_eqb TILLEGAL TSEMICOLON) with false. cbv iota. do 2 eexists. split; [reflexivity|]. split; [exact I|].
    destruct (round _ _ _ _ (e0_sane' _ _ X0) R U) as [R0 RL]. left. split; [eapply E0_trans; eassumption|]. rewrite RL, Ln. exact (e0_line _ _ X0).
Qed.
Lemma brace_eol s s' t t' : E0 s s' -> lx_tok (lex 0 (rest s)) = TRIGHTCURLY -> read_with 0 s t -> read_with 0 s' t' -> eol t t'.
Proof.
  intros X T R R'. split; [exact (read_E _ _ _ _ _ X R R')|]. rewrite (rw_lpos _ _ _ R), (rw_line _ _ _ R). unfold lx_all. rewrite newlines_app, (lex_brace _ T). change (newlines [ch "}"]) with 0%Z. lia.
Qed.
Lemma L_brace {A B} Q (R : A -> B -> Prop) (f f' : token -> M _) :
  L eol Q R false (f TRIGHTCURLY) (f' TRIGHTCURLY) -> (forall t, t <> TRIGHTCURLY -> L E Q R false (f t) (f' t)) -> L E Q R false (Next;; t <- gets ltok;; f t) (Next;; t <- gets ltok;; f' t).
Proof.
  intros F G s s' X. pose proof (e_E0 _ _ X) as X0. destruct (Next_read s (e0_sane _ _ X0)) as (t & Q1 & R1). destruct (Next_read s' (e0_sane' _ _ X0)) as (t' & Q1' & R1'). rwb Q1. rwb Q1'. rewrite !bind_gets.
  pose proof (read_E _ _ _ _ _ X0 R1 R1') as Y. rewrite (e_tok _ _ Y). destruct (tok_eqb (ltok t) TRIGHTCURLY) eqn:S.
  - apply tokb_eq in S. rewrite S. apply F. eapply brace_eol; try eassumption. rewrite <- (rw_tok _ _ _ R1). exact S.
  - apply G; [|exact Y]. intros S2. rewrite S2 in S. discriminate S.
Qed.
Lemma w_bodyEnd (ilc ilc' : option comment) l l' s s' : says say_body l l' -> E s s' -> lx_tok (lex 0 (rest s)) = TRIGHTCURLY ->
  Lr wp says_body false ((Next;; lastPos <- blockEnd false;; ret (l, ilc, lastPos)) s) ((Next;; lastPos <- blockEnd true;; ret (l', ilc', lastPos)) s').
Proof.
  intros SB X T. pose proof (e_E0 _ _ X) as X0. destruct (Next_read s (e0_sane _ _ X0)) as (t & Q1 & R1). destruct (Next_read s' (e0_sane' _ _ X0)) as (t' & Q1' & R1'). rwb Q1. rwb Q1'.
  pose proof (brace_eol _ _ _ _ X0 T R1 R1') as Y. revert t t' Y Q1 R1 Q1' R1'. assert (G : L eol wp says_body false (lastPos <- blockEnd false;; ret (l, ilc, lastPos)) (lastPos <- blockEnd true;; ret (l', ilc', lastPos))).
  { eapply L_bind0; [apply w_blockEnd|]. ni. lret. }
  intros t t' Y _ _ _ _. exact (G t t' Y).
Qed.
Lemma w_emptyBody {A B} Q (R : A -> B -> Prop) f f' : (forall p p', L wp Q R false (f (Some p)) (f' (Some p'))) -> L E Q R false (f None) (f' None) -> L E Q R false (bind (emptyBody false) f) (bind (emptyBody true) f').
Proof.
  intros F G. assert (P : forall X perm (f : option mpos -> M X) s, bind (emptyBody perm) f s = (Next;; t <- gets ltok;; (fun t => if tok_eqb t TRIGHTCURLY then p <- blockEnd perm;; f (Some p) else UnNext;; f None) t) s).
  { intros X perm h s. unfold emptyBody. rewrite bind_assoc. apply bind_pt. intros _ t. rewrite bind_assoc. apply bind_pt. intros tk u. destruct (tok_eqb tk TRIGHTCURLY); rewrite bind_assoc; reflexivity. }
  intros s s' X. rewrite !P. revert s s' X. apply L_brace.
  - cbn [tok_eqb]. eapply L_bind0; [apply w_blockEnd|]. intros p p' _. apply F.
  - intros t N. destruct (tok_eqb t TRIGHTCURLY) eqn:S; [apply tokb_eq in S; contradiction|]. lb. exact G.
Qed.

(** ** A pending semicolon *)
Lemma read_recol m s t u : read_with m s t -> recol t u -> read_with m s u.
Proof. intros [] [c ->]. split; try assumption. destruct rw_sane. split; assumption. Qed.
Lemma comment_cases s : sane s -> (exists c t, parseComment s = (Ok c, t) /\ read_with ScanComment s t /\ lx_tok (lex ScanComment (rest s)) = TCOMMENT) \/ (exists e u, parseComment s = (Err e, u) /\ E0 s u).
Proof.
  intros S. unfold parseComment. destruct (NextM_read ScanComment s S) as (t & Q & R). unfold NextComment. rwb Q. rewrite bind_gets. pose proof (rw_tok _ _ _ R) as RT. destruct (tok_eqb (ltok t) TCOMMENT) eqn:T.
  - left. rewrite !bind_gets. destruct (mk_comment_eq (lpos t) (ltext t) t) as (c & u & -> & RC & _). do 2 eexists. split; [reflexivity|]. split; [exact (read_recol _ _ _ _ R RC)|]. apply tokb_eq in T. congruence.
  - right. destruct (UnNext_eq t (rw_sane _ _ _ R)) as (u & Q2 & U). rwb Q2. do 2 eexists. split; [reflexivity|]. exact (proj1 (round _ _ _ _ S R U)).
Qed.
Lemma pend_comment s s' t : pend s s' -> read_with ScanComment s t -> lx_tok (lex ScanComment (rest s)) = TCOMMENT -> pend t s'.
Proof.
  intros [P1 P2 P3 P4 P5 P6] [R1 R2 R3 R4 R5 R6 R7 R8] T. destruct (lex_past_comment (rest s) T) as (A & B & C & DD & F). rewrite <- R1 in A, B, C, DD, F. unfold lx_all in *. split; try assumption; try congruence.
  - unfold lx_all. rewrite P5, R6, F, C, !newlines_app. lia.
  - rewrite P6, R6, F, !newlines_app. lia.
Qed.
Lemma pend_inline s s' : pend s s' -> exists c t, parseInlineComment s = (Ok c, t) /\ pend t s'.
Proof.
  intros P. unfold parseInlineComment. rewrite bind_gets. unfold try. destruct (comment_cases s (pn_sane _ _ P)) as [(c & t & -> & R & T)|(e & u & -> & X)].
  - destruct (negb _); [|do 2 eexists; split; [reflexivity|exact (pend_comment _ _ _ P R T)]]. destruct (UnNext_eq t (rw_sane _ _ _ R)) as (u & Q2 & U). rwb Q2. do 2 eexists. split; [reflexivity|].
    eapply pend_E0; [|exact P]. exact (proj1 (round _ _ _ _ (pn_sane _ _ P) R U)).
  - do 2 eexists. split; [reflexivity|]. eapply pend_E0; eassumption.
Qed.
Lemma pend_maybe v s s' : pend s s' -> quiet (MaybeScanInlineComment set_inline v s) \/ exists x t, MaybeScanInlineComment set_inline v s = (Ok x, t) /\ say collapse x = say collapse v /\ pend t s'.
Proof.
  intros P. unfold MaybeScanInlineComment. destruct (pend_inline s s' P) as (c & t & Q & X). rwb Q. destruct c as [c|]; [destruct (set_inline c v) eqn:SI; [|left; exact I]|]; right; do 2 eexists; (split; [reflexivity|]); (split; [first [reflexivity|exact (say_inline _ _ _ _ SI)]|exact X]).
Qed.
Lemma pend_comments_loop n : forall acc s s', pend s s' -> quiet (parseComments_loop n acc s) \/ exists l t, parseComments_loop n acc s = (Ok l, t) /\ pend t s'.
Proof.
  induction n as [|n IH]; intros acc s s' P; cbn [parseComments_loop]; [left; exact I|]. unfold try. destruct (comment_cases s (pn_sane _ _ P)) as [(c & t & -> & R & T)|(e & u & -> & X)].
  - apply IH. exact (pend_comment _ _ _ P R T).
  - right. do 2 eexists. split; [reflexivity|]. eapply pend_E0; eassumption.
Qed.
Lemma pend_comments s s' : pend s s' -> quiet (ParseComments s) \/ exists l t, ParseComments s = (Ok l, t) /\ pend t s'.
Proof. intros P. unfold ParseComments, fuel_here. rewrite bind_gets. apply pend_comments_loop. exact P. Qed.
Lemma peekKeyword_eq s : sane s -> exists u, peekKeyword s = (Ok (lx_tok (lex ScanKeyword (rest s))), u) /\ E0 s u.
Proof.
  intros S. unfold peekKeyword, NextKeyword. destruct (NextM_read ScanKeyword s S) as (t & Q & R). rwb Q. rewrite bind_gets. destruct (UnNext_eq t (rw_sane _ _ _ R)) as (u & Q2 & U). rwb Q2.
  rewrite (rw_tok _ _ _ R). eexists. split; [reflexivity|]. exact (proj1 (round _ _ _ _ S R U)).
Qed.
Lemma IsEOF_eq s : sane s -> exists u, p_IsEOF s = (Ok (tok_eqb (lx_tok (lex 0 (rest s))) TEOF), u) /\ E0 s u.
Proof.
  intros S. unfold p_IsEOF. destruct (Next_read s S) as (t & Q & R). rwb Q. unfold lex_IsEOF. rewrite bind_gets. destruct (UnNext_eq t (rw_sane _ _ _ R)) as (u & Q2 & U). rwb Q2.
  rewrite (rw_tok _ _ _ R). eexists. split; [reflexivity|]. exact (proj1 (round _ _ _ _ S R U)).
Qed.
Lemma pend_peek s s' : pend s s' -> exists u, peekKeyword s = (Ok TSEMICOLON, u) /\ pend u s'.
Proof. intros P. destruct (peekKeyword_eq s (pn_sane _ _ P)) as (u & Q & X). rewrite (lex_semi_kw _ (pn_tok _ _ P)) in Q. exists u. split; [exact Q|]. eapply pend_E0; eassumption. Qed.
(** the empty statement read by the strict parser *)
Lemma pend_empty s s' : pend s s' -> exists t, ReadEmptyStatement s = (Ok tt, t) /\ E1 t s'.
Proof.
  intros P. destruct (Next_read s (pn_sane _ _ P)) as (t & Q & R). exists t. split; [|exact (pend_read _ _ _ P R)]. unfold ReadEmptyStatement. rwb Q. rewrite bind_gets, (rw_tok _ _ _ R), (pn_tok _ _ P). reflexivity.
Qed.

(** ** Statements in a row *)
Definition cont {X} (v : visitee) (f : visitee -> M X) : M X := x <- MaybeScanInlineComment set_inline v;; f x.
Lemma set_inline_rv v v' c c' y : rv v v' -> set_inline c v = Some y -> exists y', set_inline c' v' = Some y'.
Proof. intros R N. destruct v'; try (eexists; reflexivity). rewrite (R eq_refl) in N. discriminate N. Qed.
(** [x] says what [v] says, and [y] what [v'] says *)
Definition kin (v v' x y : visitee) : Prop := say collapse x = say collapse v /\ say (fun c => c) y = say (fun c => c) v'.
Lemma kin_says v v' x y : says say v v' -> kin v v' x y -> says say x y. Proof. unfold says, kin. intros H [-> ->]. exact H. Qed.
Lemma w_maybe v v' : rv v v' -> L E1 E (kin v v') false (MaybeScanInlineComment set_inline v) (MaybeScanInlineComment set_inline v').
Proof. intros R. apply L_N. apply n1_maybe; [split; reflexivity|]. intros c c' y Q. destruct (set_inline_rv _ _ c c' _ R Q) as [y' Q']. exists y'. split; [exact Q'|]. split; eapply say_inline; eassumption. Qed.
Lemma w_maybe_rn v v' : rn v v' -> L E E (says say) false (MaybeScanInlineComment set_inline v) (MaybeScanInlineComment set_inline v').
Proof. intros RN. eapply L_mono; [apply w_maybe; apply rn_rv; exact RN|exact E_E1|auto|]. intros x y. apply kin_says. exact (proj2 RN). Qed.
Lemma w_cont {X Y} Q (R : X -> Y -> Prop) f f' v v' : rv v v' -> says say v v' -> (forall x y, says say x y -> L E Q R false (f x) (f' y)) ->
  (forall x s s', say collapse x = say collapse v -> pend s s' -> quiet (f x s) \/ exists v2 g t, rv v2 v' /\ say collapse v2 = [] /\ E1 t s' /\ f x s = cont v2 g t /\ forall z y, say collapse z = [] -> says say x y -> L E Q R false (g z) (f' y)) ->
  L wp Q R false (cont v f) (cont v' f').
Proof.
  intros RV SV F P s s' [K|K].
  - assert (X1 : L E1 Q R false (cont v f) (cont v' f')) by (eapply L_bind0; [apply w_maybe; exact RV|intros x y H; apply F; eapply kin_says; eassumption]). exact (X1 s s' K).
  - destruct (pend_maybe v s s' K) as [H|(x & t & Q1 & SX & K2)]; [apply quiet_L; apply quiet_bind; exact H|]. unfold cont at 1. rwb Q1.
    destruct (P x t s' SX K2) as [H|(v2 & g & t3 & RV2 & S2 & K3 & -> & G)]; [apply quiet_L; exact H|].
    assert (X1 : L E1 Q R false (cont v2 g) (cont v' f')). { eapply L_bind0; [apply w_maybe; exact RV2|]. intros z y [H1 H2]. apply G; [congruence|]. unfold says. rewrite SX, H2. exact SV. } exact (X1 t3 s' K3).
Qed.
Ltac lrn := apply L_ret; split; [discriminate|sw].
(** the keyword at the front of a statement, and the end of the body *)
Lemma w_front {A B} Q (R : A -> B -> Prop) (e : M A) (g : token -> M A) (h : token -> M B) (e'' : M B) :
  (forall s s', E s s' -> lx_tok (lex 0 (rest s)) = TRIGHTCURLY -> Lr Q R false (e s) (e'' s')) -> (forall t, L E Q R false (g t) (h t)) ->
  L E Q R false (t <- peekKeyword;; match t with TRIGHTCURLY => e | _ => g t end) (t <- peekKeyword;; match t with TRIGHTCURLY => e'' | _ => h t end).
Proof.
  intros HE G s s' K. destruct (peekKeyword_eq s (e0_sane _ _ (e_E0 _ _ K))) as (u & Q1 & X). pose proof (n_peekKeyword s s' K) as N. rewrite Q1 in N. destruct N as (b & u' & Q2 & <- & Y). rwb Q1. rwb Q2. rewrite !match_rc.
  destruct (tok_eqb _ _) eqn:S; [|apply G; exact Y]. apply tokb_eq in S. apply HE; [exact Y|]. rewrite (e0_rest _ _ X). apply lex_kw_misc; [symmetry; exact S|discriminate|]. cbn. intuition discriminate.
Qed.

(** *** Oneof *)
Definition ofs (f : str -> str) (p : list oneofField * list option_) := (map (say_oneofField f) (fst p), map (say_option f) (snd p)).
Lemma n_maybe_says {A B} (sy : (str -> str) -> A -> B) (set : comment -> A -> A) a b : (forall f c x, sy f (set c x) = sy f x) -> says sy a b -> NN E (fun x y => says sy x y) (MaybeScanInlineComment (total_set set) a) (MaybeScanInlineComment (total_set set) b).
Proof. intros H HA. eapply NN_K; [exact E_E1|]. apply n1_maybe; [exact HA|]. intros c c' y Q. injection Q as <-. eexists. split; [reflexivity|]. unfold says. rewrite !H. exact HA. Qed.
Lemma ofs_option1 o o' F F' O O' : says ofs (F, O) (F', O') -> says say_option o o' -> says ofs (F, O ++ [o]) (F', O' ++ [o']).
Proof. unfold says, ofs. cbn [fst snd]. intros H K. injection H as H1 H2. rewrite !map_app, H1, H2. cbn [map]. rewrite K. reflexivity. Qed.
Lemma ofs_field1 o o' F F' O O' : says ofs (F, O) (F', O') -> says say_oneofField o o' -> says ofs (F ++ [o], O) (F' ++ [o'], O').
Proof. unfold says, ofs. cbn [fst snd]. intros H K. injection H as H1 H2. rewrite !map_app, H1, H2. cbn [map]. rewrite K. reflexivity. Qed.
Lemma w_oneof_loop n : forall f f' o o', says ofs (f, o) (f', o') -> L E eol (says ofs) false (oneof_loop false n f o) (oneof_loop true n f' o').
Proof.
  induction n as [|n IH]; intros f f' o o' HO; cbn [oneof_loop]; [apply L_oof|]. lb.
  assert (TR : forall (h h' : unit + err -> M (list oneofField * list option_)), L E eol (says ofs) false (h (inl tt)) (h' (inl tt)) -> (forall e e', L E eol (says ofs) false (h (inr e)) (h' (inr e'))) -> L E eol (says ofs) false (try ReadEmptyStatement h) (try ReadEmptyStatement h')).
  { intros h h' H1 H2 s s' X. pose proof (n_empty s s' X) as N. unfold try. destruct (ReadEmptyStatement s) as [[[]|e| |] t]; try exact I.
    - destruct N as ([] & t' & -> & _ & Y). exact (H1 t t' Y).
    - destruct N as (e' & t' & -> & Y). exact (H2 e e' t t' Y). }
  apply TR; [apply IH; exact HO|]. intros e e'. lb.
  eapply L_bind0 with (R1 := says ofs) (Qm := E).
  - destruct (tok_eqb _ _).
    + eapply L_bind0; [apply v_option|]. intros x y HX. eapply L_bind0; [apply L_N; apply (n_maybe_says say_option); [reflexivity|exact HX]|]. intros u v HU. apply L_ret. apply ofs_option1; assumption.
    + eapply L_bind0; [apply v_oneofField|]. intros x y HX. eapply L_bind0; [apply L_N; apply (n_maybe_says say_oneofField); [reflexivity|exact HX]|]. intros u v HU. apply L_ret. apply ofs_field1; assumption.
  - intros [fa oa] [fb ob] HA. apply (L_brace eol (says ofs) (fun t => if tok_eqb t TRIGHTCURLY then ret (fa, oa) else UnNext;; oneof_loop false n fa oa) (fun t => if tok_eqb t TRIGHTCURLY then ret (fb, ob) else UnNext;; oneof_loop true n fb ob)).
    + cbn [tok_eqb]. lret.
    + intros t TK. destruct (tok_eqb t TRIGHTCURLY) eqn:S; [apply tokb_eq in S; contradiction|]. lb. apply IH. exact HA.
Qed.
Lemma w_oneof : L E wp (says say_oneof) false (ParseOneof false) (ParseOneof true).
Proof.
  unfold ParseOneof. do 8 lb. eapply L_bind0; [eapply L_N; exact n_inline|]. intros ? ? _. lb. eapply L_bind0; [apply w_oneof_loop; reflexivity|]. intros [? ?] [? ?] HO. eapply L_bind0; [apply w_blockEnd|]. ni. apply L_ret.
  unfold says, ofs, say_oneof in *. cbn [fst snd oo_fields oo_name oo_options] in *. injection HO as -> ->. reflexivity.
Qed.
(** *** Enum *)
Ltac linl := eapply L_bind0; [eapply L_N; exact n_inline|intros ? ? _].
Lemma said_block n a b l l' i i' j j' m m' : says say_body a b -> says_block (mkBlock n a l i j m) (mkBlock n b l' i' j' m').
Proof. unfold says_block, says. cbn. intros ->. reflexivity. Qed.
Ltac lbody := let p := fresh in let q := fresh in let HB := fresh in intros p q HB; destruct p as ((? & ?) & ?), q as ((? & ?) & ?); apply L_ret; apply said_block; exact HB.
Lemma w_enumBody_loop bic ilc ilc' n : forall l l', says say_body l l' -> L E wp says_body false (enumBody_loop false bic ilc n l) (enumBody_loop true bic ilc' n l').
Proof.
  induction n as [|n IH]; intros l l' HL; cbn [enumBody_loop]; [apply L_oof|]. lb.
  apply (w_front wp says_body _ (fun token => stmt <- match token with TOPTION => o <- ParseOption false;; ret (with_comments _ (VOption o)) | TRESERVED => r <- ParseReserved;; ret (with_comments _ (VReserved r)) | _ => try (parseEnumField false) _ end;; cont stmt _)
    (fun token => stmt <- match token with TOPTION => o <- ParseOption true;; ret (with_comments _ (VOption o)) | TRESERVED => r <- ParseReserved;; ret (with_comments _ (VReserved r)) | _ => try (parseEnumField true) _ end;; cont stmt _)).
  { intros s s' K T. apply w_bodyEnd; [apply says_end|..]; assumption. }
  intros t. eapply L_bind0 with (R1 := rn) (Qm := E).
  - destruct t; try (eapply w_recover; [|auto|apply v_enumField]; intros ? ? HA; split; [discriminate|sw]).
    + eapply L_bind0; [apply v_option|]. ni. lrn.
    + lb. lrn.
  - intros st1 st2 RN. eapply L_bind0; [apply w_maybe_rn; exact RN|]. intros x y HX. apply IH. apply says_add; assumption.
Qed.
Lemma w_enum bic : L E wp says_block false (ParseEnum false bic) (ParseEnum true bic).
Proof. unfold ParseEnum, parseEnumBody. do 6 lb. eapply L_bind0 with (R1 := says_body) (Qm := wp); [|lbody]. do 2 lb. linl. lb. apply w_enumBody_loop. reflexivity. Qed.
(** *** Extend *)
Lemma w_extendBody_loop bic ilc ilc' n : forall l l', says say_body l l' -> L E wp says_body false (extendBody_loop false bic ilc n l) (extendBody_loop true bic ilc' n l').
Proof.
  induction n as [|n IH]; intros l l' HL; cbn [extendBody_loop]; [apply L_oof|]. lb.
  apply (w_front wp says_body _ (fun token => stmt <- try (ParseField false) _;; cont stmt _) (fun token => stmt <- try (ParseField true) _;; cont stmt _)).
  { intros s s' K T. apply w_bodyEnd; [apply says_end|..]; assumption. }
  intros t. eapply L_bind0; [eapply w_recover; [|intros ? ? X; exact X|apply v_field]; intros ? ? HA; split; [discriminate|sw]|].
  intros st1 st2 RN. eapply L_bind0; [apply w_maybe_rn; exact RN|]. intros x y HX. apply IH. apply says_add; assumption.
Qed.
Lemma w_extend bic : L E wp says_block false (ParseExtend false bic) (ParseExtend true bic).
Proof.
  unfold ParseExtend, parseExtendBody. do 4 lb. eapply L_bind0 with (R1 := says_body) (Qm := wp); [|lbody]. do 2 lb. linl. apply w_emptyBody; [intros; lret|]. lb. apply w_extendBody_loop. reflexivity.
Qed.
(** *** Service *)
Definition ops (f : str -> str) (l : list option_) := map (say_option f) l.
Lemma ops_add o o' l l' : says say_option o o' -> says ops l l' -> says ops (l ++ [o]) (l' ++ [o']).
Proof. unfold says, ops. intros A B. rewrite !map_app, B. cbn [map]. rewrite A. reflexivity. Qed.
Lemma w_rpcOptions_loop n : forall l l', says ops l l' -> L E eol (says ops) false (rpcOptions_loop false n l) (rpcOptions_loop true n l').
Proof.
  induction n as [|n IH]; intros l l' HL; cbn [rpcOptions_loop]; [apply L_oof|]. lb. eapply L_bind0 with (R1 := says ops) (Qm := E).
  - assert (DD : L E E (says ops) false (ReadEmptyStatement;; ret l) (ReadEmptyStatement;; ret l')) by (lb; lret).
    lcase; try exact DD; [lret|]. eapply L_bind0; [apply v_option|]. intros ? ? HO. apply L_ret. apply ops_add; assumption.
  - intros u v HU. apply (L_brace eol (says ops) (fun t => if tok_eqb t TRIGHTCURLY then ret u else UnNext;; rpcOptions_loop false n u) (fun t => if tok_eqb t TRIGHTCURLY then ret v else UnNext;; rpcOptions_loop true n v)).
    + cbn [tok_eqb]. lret.
    + intros t TK. destruct (tok_eqb t TRIGHTCURLY) eqn:S; [apply tokb_eq in S; contradiction|]. lb. apply IH. exact HU.
Qed.
Lemma w_rpc : L E wp (says say_rpc) false (parseRPC false) (parseRPC true).
Proof.
  unfold parseRPC. do 6 lb. eapply L_bind0; [apply L_N; exact n_rpcParam|intros p1 p1' H1]. do 2 lb. eapply L_bind0; [apply L_N; exact n_rpcParam|intros p2 p2' H2]. do 2 lb. eapply L_bind0; [eapply L_N; apply n_embedded|intros ? ? _]. lb.
  eapply L_bind0 with (R1 := fun a b => says ops (fst (fst a)) (fst (fst b))) (Qm := wp).
  - lcase; try apply L_err.
    + eapply L_post; [exact E_wp|]. lret.
    + lb. unfold parseRPCOptions. eapply L_bind0 with (R1 := fun a b => says ops (fst a) (fst b)) (Qm := eol).
      * do 2 lb. linl. lb. eapply L_bind0; [apply w_rpcOptions_loop; reflexivity|]. intros ? ? HO. apply L_ret. exact HO.
      * intros [? ?] [? ?] HO. eapply L_bind0; [apply w_blockEnd|]. ni. apply L_ret. exact HO.
  - intros ((? & ?) & ?) ((? & ?) & ?) HO. apply L_ret. cbn [fst] in HO. unfold says, same, ops, say_rpc in *. cbn. unfold Lock.same in *. rewrite H1, H2, HO. reflexivity.
Qed.
Lemma w_serviceBody_loop bic ilc ilc' n : forall n' l l', (n <= n')%nat -> says say_body l l' -> L E wp says_body false (serviceBody_loop false bic ilc n l) (serviceBody_loop true bic ilc' n' l').
Proof.
  induction n as [n IH] using (well_founded_induction lt_wf). intros n' l l' LN HL. destruct n as [|n]; cbn [serviceBody_loop]; [apply L_oof|]. destruct n' as [|n']; [lia|]. cbn [serviceBody_loop]. lb.
  apply (w_front wp says_body _ (fun token => stmt <- match token with TOPTION => o <- ParseOption false;; ret (with_comments _ (VOption o)) | TRPC => r <- parseRPC false;; ret (with_comments _ (VRPC r)) | _ => ReadEmptyStatement;; ret (VEmpty (mkEmpty None)) end;; cont stmt (fun x => serviceBody_loop false bic ilc n (l ++ [x])))
    (fun token => stmt <- match token with TOPTION => o <- ParseOption true;; ret (with_comments _ (VOption o)) | TRPC => r <- parseRPC true;; ret (with_comments _ (VRPC r)) | _ => ReadEmptyStatement;; ret (VEmpty (mkEmpty None)) end;; cont stmt (fun x => serviceBody_loop true bic ilc' n' (l' ++ [x])))).
  { intros s s' K T. apply w_bodyEnd; [apply says_end|..]; assumption. }
  intros t. eapply L_bind0 with (R1 := rn) (Qm := wp).
  - assert (DD : L E wp rn false (ReadEmptyStatement;; ret (VEmpty (mkEmpty None))) (ReadEmptyStatement;; ret (VEmpty (mkEmpty None)))) by (eapply L_post; [exact E_wp|]; lb; lrn).
    destruct t; try exact DD.
    + eapply L_bind0; [apply w_rpc|]. ni. lrn.
    + eapply L_post; [exact E_wp|]. eapply L_bind0; [apply v_option|]. ni. lrn.
  - intros st1 st2 RN. apply w_cont; [apply rn_rv; exact RN|exact (proj2 RN)|intros; apply IH; [lia|lia|apply says_add; assumption]|]. intros x s s' SX P.
    destruct n as [|n]; [left; exact I|]. cbn [serviceBody_loop]. destruct (pend_comments s s' P) as [H|(cs & s2 & Q1 & P2)]; [left; apply quiet_bind; exact H|].
    destruct (pend_peek _ _ P2) as (s3 & Q2 & P3). destruct (pend_empty _ _ P3) as (s4 & Q3 & K3).
    right. exists (VEmpty (mkEmpty None)). eexists. exists s4. split; [intros X; destruct (proj1 RN X)|]. split; [reflexivity|]. split; [exact K3|]. split; [rwb Q1; rwb Q2; rewrite bind_assoc; rwb Q3; reflexivity|].
    intros z y HZ HX. cbn beta. apply IH; [lia|lia|]. apply says_more; [apply says_add; assumption|exact HZ].
Qed.
Lemma w_service bic : L E wp says_block false (ParseService false bic) (ParseService true bic).
Proof. unfold ParseService, parseServiceBody. do 6 lb. eapply L_bind0 with (R1 := says_body) (Qm := wp); [|lbody]. do 2 lb. linl. lb. apply w_serviceBody_loop; [lia|reflexivity]. Qed.
(** *** Messages *)
Lemma w_message_ mb mb' : L E wp says_body false mb mb' -> L E wp says_block false (ParseMessage_ mb) (ParseMessage_ mb').
Proof. intros H. unfold ParseMessage_. do 6 lb. eapply L_bind0; [exact H|lbody]. Qed.
Lemma w_groupField mb mb' : L E wp says_body false mb mb' -> L E wp says_group false (ParseGroupField mb) (ParseGroupField mb').
Proof.
  intros H. unfold ParseGroupField. lb. match goal with |- L _ _ _ _ (let '(_, _) := ?a in _) _ => destruct a as ((? & ?) & ?) end.
  do 5 lb. destruct (negb _); [apply L_err|]. do 3 lb. eapply L_bind0; [exact H|]. intros ((? & ?) & ?) ((? & ?) & ?) HB. apply L_ret. unfold says_body, says_group, says in *. cbn [fst] in HB. cbn. rewrite HB. reflexivity.
Qed.
Lemma w_messageStmt bic mb mb' T c c' : L E wp says_body false mb mb' -> L E wp rn false (messageStmt false bic mb T c) (messageStmt true bic mb' T c').
Proof.
  intros H. unfold messageStmt.
  assert (DD : L E wp rn false (isGroup <- peekIsGroup;; if isGroup then try (ParseGroupField mb) (fun r => match r with inl g => ret (with_comments c (VGroupField g)) | inr e => recoverEmpty e end) else try (ParseField false) (fun r => match r with inl f => ret (with_comments c (VField f)) | inr e => recoverEmpty e end))
    (isGroup <- peekIsGroup;; if isGroup then try (ParseGroupField mb') (fun r => match r with inl g => ret (with_comments c' (VGroupField g)) | inr e => recoverEmpty e end) else try (ParseField true) (fun r => match r with inl f => ret (with_comments c' (VField f)) | inr e => recoverEmpty e end))).
  { eapply L_bind0; [eapply L_N; exact n_isGroup|]. intros [|] ? <-; [eapply w_recover; [|exact E_wp|apply w_groupField; exact H]; intros ? ? HA; split; [discriminate|sw]|]. eapply L_post; [exact E_wp|]. eapply w_recover; [|auto|apply v_field]. intros ? ? HA; split; [discriminate|sw]. }
  destruct T; first [exact DD | eapply L_bind0; [first [apply w_enum|apply w_extend|apply w_message_; exact H|apply w_oneof]|intros ? ? HA; lrn]
    | (eapply L_post; [exact E_wp|]; eapply L_bind0; [first [apply v_option|apply v_mapField]|intros ? ? HA; lrn]) | (eapply L_post; [exact E_wp|]; lb; lrn)].
Qed.
(** an empty statement in a message *)
Lemma read_semi s s1 : lx_tok (lex 0 (rest s)) = TSEMICOLON -> E0 s s1 -> exists t u, Next s1 = (Ok tt, t) /\ read_with 0 s1 t /\ ltok t = TSEMICOLON /\ ltext t = [ch ";"] /\ UnNext t = (Ok tt, u) /\ E0 s u.
Proof.
  intros S X. destruct (Next_read s1 (e0_sane' _ _ X)) as (t & Q & R). destruct (UnNext_eq t (rw_sane _ _ _ R)) as (u & Q2 & U). exists t, u. split; [exact Q|]. split; [exact R|]. rewrite (rw_tok _ _ _ R), (rw_txt _ _ _ R), (e0_rest _ _ X).
  split; [exact S|]. split; [exact (lex_semi _ S)|]. split; [exact Q2|]. eapply E0_trans; [exact X|]. exact (proj1 (round _ _ _ _ (e0_sane' _ _ X) R U)).
Qed.
Lemma read_kw_semi s s1 : lx_tok (lex 0 (rest s)) = TSEMICOLON -> E0 s s1 -> exists t u, NextKeyword s1 = (Ok tt, t) /\ read_with ScanKeyword s1 t /\ ltok t = TSEMICOLON /\ UnNext t = (Ok tt, u) /\ E0 s u.
Proof.
  intros S X. destruct (NextM_read ScanKeyword s1 (e0_sane' _ _ X)) as (t & Q & R). destruct (UnNext_eq t (rw_sane _ _ _ R)) as (u & Q2 & U). exists t, u. split; [exact Q|]. split; [exact R|]. rewrite (rw_tok _ _ _ R), (e0_rest _ _ X).
  split; [exact (lex_semi_kw _ S)|]. split; [exact Q2|]. eapply E0_trans; [exact X|]. exact (proj1 (round _ _ _ _ (e0_sane' _ _ X) R U)).
Qed.
Lemma field_semi perm s : sane s -> lx_tok (lex 0 (rest s)) = TSEMICOLON -> exists e t u, ParseField perm s = (Err e, t) /\ UnNext t = (Ok tt, u) /\ E0 s u.
Proof.
  intros SN S. unfold ParseField. destruct (read_kw_semi s s S (E0_refl _ SN)) as (t1 & u1 & Q1 & R1 & T1 & V1 & X1).
  destruct (read_semi s u1 S X1) as (t2 & u2 & Q2 & R2 & T2 & Y2 & V2 & X2). destruct (read_semi s u2 S X2) as (t3 & u3 & Q3 & R3 & T3 & Y3 & V3 & X3). destruct (read_semi s u3 S X3) as (t4 & u4 & Q4 & R4 & T4 & Y4 & V4 & X4).
  assert (LB : exists p, parseLabel s = (Ok (p, (false, false, false)), u1)). { unfold parseLabel. rwb Q1. rewrite !bind_gets, T1. rwb V1. eexists. reflexivity. }
  destruct LB as (p & LB). rwb LB. assert (TY : exists e, parseType u1 = (Err e, t4)).
  { unfold parseType. rwb Q2. rewrite bind_gets, Y2. change (str_mem [ch ";"] typeConstants) with false. cbv iota. rwb V2. unfold ReadMessageType. rwb Q3. rewrite !bind_gets, T3. change (tok_eqb TSEMICOLON TDOT) with false. cbv iota.
    rewrite bind_assoc. rwb V3. unfold bind at 1. unfold ret at 1. rwb Q4. unfold fuel_here. rewrite bind_gets. cbn [messageType_loop]. unfold lex_IsEOF. rewrite bind_assoc, bind_gets, T4. change (tok_eqb TSEMICOLON TEOF) with false. cbv iota. rewrite bind_assoc, bind_gets, T4. eexists. reflexivity. }
  destruct TY as (e & TY). assert (TO : exists e, or_unexpected parseType "type" u1 = (Err e, t4)) by (unfold or_unexpected, try; rewrite TY; eexists; reflexivity). destruct TO as (e2 & TO). exists e2, t4, u4. split; [unfold bind; rewrite TO; reflexivity|]. split; assumption.
Qed.
Lemma isGroup_semi s : sane s -> lx_tok (lex 0 (rest s)) = TSEMICOLON -> exists u, peekIsGroup s = (Ok false, u) /\ E0 s u.
Proof.
  intros SN S. unfold peekIsGroup. destruct (read_kw_semi s s S (E0_refl _ SN)) as (t1 & u1 & Q1 & R1 & T1 & V1 & X1). rwb Q1. rewrite bind_gets, T1. rwb V1. unfold peekIsGroup_tail.
  destruct (read_kw_semi s u1 S X1) as (t2 & u2 & Q2 & R2 & T2 & V2 & X2). rwb Q2. unfold deferUnNext. rewrite bind_gets. rewrite bind_assoc, bind_gets, T2. change (negb (tok_eqb TSEMICOLON TGROUP)) with true. cbv iota. unfold bind at 1. unfold ret at 1.
  assert (SR : set_raw (lraw t2) t2 = t2). { rewrite (rw_lraw _ _ _ R2), <- (rw_raw _ _ _ R2). destruct t2; reflexivity. }
  unfold UnNextTo. rewrite bind_assoc, bind_modify, SR. rwb V2. exists u2. split; [reflexivity|exact X2].
Qed.
Lemma messageStmt_semi perm bic mb c s s' : pend s s' -> exists t, messageStmt perm bic mb TSEMICOLON c s = (Ok (VEmpty (mkEmpty None)), t) /\ E1 t s'.
Proof.
  intros P. unfold messageStmt. destruct (isGroup_semi s (pn_sane _ _ P) (pn_tok _ _ P)) as (s1 & Q1 & X1). rwb Q1. pose proof (pend_E0 _ _ _ X1 P) as P1. destruct (field_semi perm s1 (pn_sane _ _ P1) (pn_tok _ _ P1)) as (e & t & u & Q2 & V & X2).
  unfold try. rewrite Q2. unfold recoverEmpty. rwb V. pose proof (pend_E0 _ _ _ X2 P1) as P2. destruct (pend_empty _ _ P2) as (w & Q3 & K). unfold try. rewrite Q3. exists w. split; [reflexivity|exact K].
Qed.
Lemma w_messageBody_loop bic mb mb' ilc ilc' n : L E wp says_body false mb mb' -> forall n' l l', (n <= n')%nat -> says say_body l l' -> L E wp says_body false (messageBody_loop false bic mb ilc n l) (messageBody_loop true bic mb' ilc' n' l').
Proof.
  intros MB. induction n as [n IH] using (well_founded_induction lt_wf). intros n' l l' LN HL. destruct n as [|n]; cbn [messageBody_loop]; [apply L_oof|]. destruct n' as [|n']; [lia|]. cbn [messageBody_loop]. lb.
  apply (w_front wp says_body _ (fun token => stmt <- messageStmt false bic mb token _;; cont stmt (fun x => messageBody_loop false bic mb ilc n (l ++ [x]))) (fun token => stmt <- messageStmt true bic mb' token _;; cont stmt (fun x => messageBody_loop true bic mb' ilc' n' (l' ++ [x])))).
  { intros s s' K T. apply w_bodyEnd; [apply says_end|..]; assumption. }
  intros t. eapply L_bind0; [apply w_messageStmt; exact MB|].
  intros st1 st2 RN. apply w_cont; [apply rn_rv; exact RN|exact (proj2 RN)|intros; apply IH; [lia|lia|apply says_add; assumption]|]. intros x s s' SX P.
  destruct n as [|n]; [left; exact I|]. cbn [messageBody_loop]. destruct (pend_comments s s' P) as [H|(cs & s2 & Q1 & P2)]; [left; apply quiet_bind; exact H|].
  destruct (pend_peek _ _ P2) as (s3 & Q2 & P3). destruct (messageStmt_semi false bic mb cs _ _ P3) as (s4 & Q3 & K3).
  right. exists (VEmpty (mkEmpty None)). eexists. exists s4. split; [intros X; destruct (proj1 RN X)|]. split; [reflexivity|]. split; [exact K3|]. split; [rwb Q1; rwb Q2; rwb Q3; reflexivity|].
  intros z y HZ HX. cbn beta. apply IH; [lia|lia|]. apply says_more; [apply says_add; assumption|exact HZ].
Qed.
Lemma w_messageBody bic n : forall n', (n <= n')%nat -> L E wp says_body false (parseMessageBody false bic n) (parseMessageBody true bic n').
Proof.
  induction n as [|n IH]; intros n' LN; cbn [parseMessageBody]; [apply L_oof|]. destruct n' as [|n']; [lia|]. cbn [parseMessageBody]. do 2 lb. linl. apply w_emptyBody; [intros; lret|].
  apply w_messageBody_loop; [apply IH; lia|lia|reflexivity].
Qed.
(** *** The file *)
Definition rp (a b : list visitee * visitee) : Prop := rv (snd a) (snd b) /\ says say (snd a) (snd b) /\ says say_body (fst a) (fst b).
Lemma w_protoStmt bic n n' T c c' : (n <= n')%nat -> L E wp rp false (protoStmt false bic n T c) (protoStmt true bic n' T c').
Proof.
  intros LN. unfold protoStmt.
  assert (DD : L E wp rp false (ReadEmptyStatement;; ret ([VEmpty (mkEmpty None)], VNil)) (ReadEmptyStatement;; ret ([VEmpty (mkEmpty None)], VNil))).
  { eapply L_post; [exact E_wp|]. lb. apply L_ret. split; [intros X; reflexivity|]. split; reflexivity. }
  assert (R : forall x y, y <> VNil -> says say x y -> rp ([], x) ([], y)) by (intros x y N X; split; [intros Z; destruct (N Z)|split; [exact X|reflexivity]]).
  destruct T; first [exact DD | eapply L_bind0; [first [apply w_enum|apply w_extend|apply w_message_; apply w_messageBody; exact LN|apply w_service]|intros ? ? HA; apply L_ret; apply R; [discriminate|sw]]
    | (eapply L_post; [exact E_wp|]; eapply L_bind0; [apply v_option|intros ? ? HA; apply L_ret; apply R; [discriminate|sw]])
    | (eapply L_post; [exact E_wp|]; lb; apply L_ret; apply R; [discriminate|sw])].
Qed.
Lemma says_app l l' p p' : says say_body l l' -> says say_body p p' -> says say_body (l ++ p) (l' ++ p').
Proof. unfold says. intros A B. rewrite !say_body_app, A, B. reflexivity. Qed.
Lemma w_protoBody_loop bic n : forall n' l l', (n <= n')%nat -> says say_body l l' -> L E E (says say_body) false (protoBody_loop false bic n l) (protoBody_loop true bic n' l').
Proof.
  induction n as [n IH] using (well_founded_induction lt_wf). intros n' l l' LN HL. destruct n as [|n]; cbn [protoBody_loop]; [apply L_oof|]. destruct n' as [|n']; [lia|]. cbn [protoBody_loop]. do 2 lb. lcase; [apply L_ret; apply says_end; exact HL|]. lb.
  eapply L_bind0; [apply (w_protoStmt bic n n'); lia|]. intros [p v] [p' v'] (RV & SV & SP). cbn [fst snd] in *.
  apply (w_cont E (says say_body) (fun x => protoBody_loop false bic n (l ++ p ++ [x])) (fun x => protoBody_loop true bic n' (l' ++ p' ++ [x]))); [exact RV|exact SV|intros; apply IH; [lia|lia|apply says_app; [exact HL|apply says_add; assumption]]|]. intros x s s' SX P.
  destruct n as [|n]; [left; exact I|]. cbn [protoBody_loop]. destruct (pend_comments s s' P) as [H|(cs & s2 & Q1 & P2)]; [left; apply quiet_bind; exact H|].
  destruct (IsEOF_eq s2 (pn_sane _ _ P2)) as (s3 & Q2 & X2). rewrite (pn_tok _ _ P2) in Q2. pose proof (pend_E0 _ _ _ X2 P2) as P3.
  destruct (pend_peek _ _ P3) as (s4 & Q3 & P4). destruct (pend_empty _ _ P4) as (s5 & Q4 & K).
  right. exists VNil. eexists. exists s5. split; [intros X; reflexivity|]. split; [reflexivity|]. split; [exact K|]. split.
  - rwb Q1. rwb Q2. change (tok_eqb TSEMICOLON TEOF) with false. cbv iota. rwb Q3. unfold protoStmt. rewrite bind_assoc. rwb Q4. reflexivity.
  - intros z y HZ HX. cbn beta. apply (IH n); [lia|lia|]. change ([VEmpty (mkEmpty None)] ++ [z]) with ([VEmpty (mkEmpty None); z]). rewrite app_assoc. unfold says. rewrite say_body_app. cbn [say_body]. rewrite HZ. cbn [say app]. rewrite app_nil_r. rewrite <- app_assoc.
    apply says_app; [exact HL|apply says_add; assumption].
Qed.
Definition says_proto := says (fun f p => (option_map bare_syntax (p_syntax p), option_map bare_edition (p_edition p), say_body f (p_body p))).
Lemma w_set {A} (sy : A -> A) (set : comment -> A -> A) (mk : list comment -> A -> A) (c c' : list comment) a b : (forall c x, sy (set c x) = sy x) -> (forall c x, sy (mk c x) = sy x) -> Lock.same (option_map sy) a b ->
  L E E (Lock.same (option_map sy)) false (match a with None => ret None | Some x => x <- MaybeScanInlineComment (total_set set) (mk c x);; ret (Some x) end) (match b with None => ret None | Some x => x <- MaybeScanInlineComment (total_set set) (mk c' x);; ret (Some x) end).
Proof.
  intros H1 H2 H. destruct a as [a|], b as [b|]; try discriminate H; [|lret]. injection H as H. eapply L_bind0; [apply L_N; apply (n_maybe_says (fun _ => sy)); [intros; apply H1|]|]. { unfold says. rewrite !H2. exact H. }
  intros x y HX. apply L_ret. unfold Lock.same. cbn [option_map]. f_equal. exact HX.
Qed.
Theorem w_proto bic n : L E E says_proto false (ParseProto false bic n) (ParseProto true bic n).
Proof.
  unfold ParseProto. do 2 lb. eapply L_bind0; [apply L_N; exact n_syntax|intros sx sx' HS].
  eapply L_bind0; [apply (w_set bare_syntax set_sy_inline (fun cs x => mkSyntax (sy_version x) (sy_versionQuote x) cs (sy_inline x) (sy_meta x))); [reflexivity|reflexivity|exact HS]|]. intros sy sy' HS2.
  eapply L_bind0; [apply L_N; exact n_edition|intros ex ex' HE].
  eapply L_bind0; [apply (w_set bare_edition set_ed_inline (fun cs x => mkEdition (ed_edition x) (ed_editionQuote x) cs (ed_inline x) (ed_meta x))); [reflexivity|reflexivity|exact HE]|]. intros ey ey' HE2.
  eapply L_bind0; [apply w_protoBody_loop; [apply le_n|reflexivity]|]. intros bd bd' HB. lb. apply L_ret. unfold says_proto, says in *. cbn [p_syntax p_edition p_body]. unfold Lock.same in *. rewrite HS2, HE2, HB. reflexivity.
Qed.
Lemma init_sane fn input : nonul input -> sane (init_st fn input).
Proof. intros N. split; [exact N|constructor..|reflexivity]. Qed.
Theorem permissive_all opts input pr : nonul input -> Parse (opts ++ [WithPermissive false]) input = Ok pr -> exists pr', Parse (opts ++ [WithPermissive true]) input = Ok pr' /\ agree pr pr'.
Proof.
  intros NU Q. assert (FN : forall b, cfg_filename (config_of (opts ++ [WithPermissive b])) = cfg_filename (config_of opts)) by (intros b; unfold config_of; rewrite fold_left_app; reflexivity).
  assert (G : exists pr', Parse (opts ++ [WithPermissive true]) input = Ok pr' /\ says_proto pr pr').
  { clear FN. unfold Parse, parse_fuel, config_of in *. rewrite fold_left_app in *. cbn [fold_left apply_opt cfg_permissive cfg_filename cfg_bodyIncludingComments] in *.
    set (c := fold_left _ opts _) in *.
    set (n := S (S (List.length input))) in *. pose proof (w_proto (cfg_bodyIncludingComments c) n _ _ (E_refl _ (init_sane (cfg_filename c) input NU))) as H.
    match type of Q with context [ParseProto false ?b n ?i] => destruct (ParseProto false b n i) as [r s] eqn:Q1 end.
    unfold Lr in H. cbn [fst] in Q. subst r. destruct H as [(b & t' & Q2 & H & _)|[H _]]; [|discriminate H]. exists b. rewrite Q2. split; [reflexivity|exact H]. }
  destruct G as (pr' & Q' & H). exists pr'. split; [exact Q'|]. unfold agree, say_proto. unfold says_proto, says in H. injection H as H1 H2 H3. rewrite H1, H2, H3. f_equal.
  transitivity (cfg_filename (config_of opts)); [rewrite <- (FN false)|rewrite <- (FN true); symmetry].
  - exact (proj1 (name_labels _ _ _ Q)).
  - exact (proj1 (name_labels _ _ _ Q')).
Qed.
