(** Two runs of the parser over the same text, without NUL, compared by what they
    leave unread and by lines: the logic, and the functions without a mode. *)
From Coq Require Import List NArith ZArith Bool String Ascii Lia.
From Verif Require Import Base Token Scanner Lexer Lexing ScanRefine Ast Parser LexFacts LexSpec LexProofs ScanFacts LexerFacts ScanProps Cursor Refine BareSpec.
Import ListNotations.
Open Scope N_scope.
Open Scope monad_scope.

(** ** States *)
Record sane (s : st) : Prop := mkSane { sn_rest : nonul (rest s); sn_raw : nonul (raw s); sn_lraw : nonul (lraw s); sn_mode : mode s = 0 }.
(** the same text is left, on the same line *)
Record E0 (s s' : st) : Prop := mkE0 { e0_rest : rest s' = rest s; e0_line : Line (pos s') = Line (pos s); e0_sane : sane s; e0_sane' : sane s' }.
(** the same last token too *)
Record E (s s' : st) : Prop := mkE { e_E0 : E0 s s'; e_raw : raw s' = raw s; e_lraw : lraw s' = lraw s; e_tok : ltok s' = ltok s; e_txt : ltext s' = ltext s; e_lpos : Line (lpos s') = Line (lpos s) }.
Definition E1 (s s' : st) : Prop := E0 s s' /\ Line (lpos s') = Line (lpos s).
Lemma E_E1 s s' : E s s' -> E1 s s'. Proof. intros []. split; assumption. Qed.
Lemma E0_refl s : sane s -> E0 s s. Proof. intros H. split; auto. Qed.
Lemma E_refl s : sane s -> E s s. Proof. intros H. split; auto. apply E0_refl. exact H. Qed.
Lemma E0_trans a b c : E0 a b -> E0 b c -> E0 a c. Proof. intros [] []. split; congruence || auto. Qed.
Lemma E1_trans a b c : E1 a b -> E1 b c -> E1 a c. Proof. intros [A B] [C D]. split; [eapply E0_trans; eassumption|congruence]. Qed.
Lemma E0_sym a b : E0 a b -> E0 b a. Proof. intros []. split; auto. Qed.
Lemma E1_sym a b : E1 a b -> E1 b a. Proof. intros [A B]. split; [apply E0_sym; exact A|auto]. Qed.

(** ** Reading and un-reading a token *)
Lemma Next_sane s : nonul (rest s) -> mode s = 0 -> exists t, Next s = (Ok tt, t) /\ nexted s t /\ sane t.
Proof.
  intros N M. destruct (Next_spec s N) as (t & Q & X). exists t. split; [exact Q|]. split; [exact X|]. pose proof (nexted_split _ _ X) as S. rewrite S in N. apply nonul_app in N. destruct N as [N1 N2].
  split; [exact N2|rewrite (nx_raw _ _ X); exact N1|rewrite (nx_lraw _ _ X); exact N1|rewrite (nx_mode _ _ X); exact M].
Qed.
Record read_with (m : smode) (s t : st) : Prop := mkRW {
  rw_rest : rest t = lx_rest (lex m (rest s)); rw_raw : raw t = lx_all (lex m (rest s)); rw_lraw : lraw t = lx_all (lex m (rest s)); rw_tok : ltok t = lx_tok (lex m (rest s)); rw_txt : ltext t = lx_txt (lex m (rest s));
  rw_line : Line (pos t) = (Line (pos s) + newlines (lx_all (lex m (rest s))))%Z; rw_lpos : Line (lpos t) = (Line (pos s) + newlines (lx_gap (lex m (rest s))))%Z; rw_sane : sane t }.
Lemma Next_read s : sane s -> exists t, Next s = (Ok tt, t) /\ read_with 0 s t.
Proof.
  intros [N R L M]. destruct (Next_sane s N M) as (t & Q & X & S). exists t. split; [exact Q|]. destruct X. unfold lexs in *. rewrite M in *. split; auto.
  - rewrite nx_pos, posafter_line_eq. reflexivity.
  - rewrite nx_lpos, posafter_line_eq. reflexivity.
Qed.
Lemma NextM_read m s : sane s -> exists t, nextWithSpecificMode m s = (Ok tt, t) /\ read_with m s t.
Proof.
  intros [N R L M]. destruct (Next_spec (set_mode m s) N) as (t & Q & X). unfold nextWithSpecificMode. rewrite bind_gets, bind_modify. rwb Q. eexists. split; [reflexivity|].
  pose proof (nexted_split _ _ X) as S. cbn [rest set_mode] in S. rewrite S in N. apply nonul_app in N. destruct N as [N1 N2]. destruct X. unfold lexs in *. cbn [mode rest set_mode pos cols comments] in *. rewrite M. split; auto.
  - cbn [pos set_mode]. rewrite nx_pos, posafter_line_eq. reflexivity.
  - cbn [lpos set_mode]. rewrite nx_lpos, posafter_line_eq. reflexivity.
  - split; cbn [rest raw lraw mode set_mode]; [exact N2|rewrite nx_raw; exact N1|rewrite nx_lraw; exact N1|reflexivity].
Qed.
Record unread_from (w : list rune) (s t : st) : Prop := mkUR {
  ur_rest : rest t = w ++ rest s; ur_raw : raw t = w; ur_lraw : lraw t = lraw s; ur_tok : ltok t = TILLEGAL; ur_txt : ltext t = ltext s; ur_line : Line (pos t) = (Line (pos s) - newlines w)%Z; ur_lpos : lpos t = pos t; ur_sane : sane t }.
Lemma UnScan_parts w : forall s, let t := fold_left (fun s c => unread c s) (rev w) s in
  rest t = w ++ rest s /\ raw t = raw s /\ mode t = mode s /\ ltext t = ltext s /\ lraw t = lraw s /\ Line (pos t) = (Line (pos s) - newlines w)%Z.
Proof.
  induction w as [|c w IH] using rev_ind; intros s; cbn zeta. { cbn. unfold newlines. cbn. repeat split. lia. }
  rewrite rev_app_distr. cbn [rev app fold_left]. specialize (IH (unread c s)). cbn zeta in IH. destruct IH as (A & B & C & D & F & G). rewrite A, B, C, D, F, G, newlines_app. rewrite <- app_assoc. unfold unread. cbn [rest raw mode ltext lraw set_pc set_rest pos].
  repeat split. unfold Revert. unfold newlines. cbn [count_occ]. destruct (N.eqb_spec c NL) as [EC|EC], (N.eq_dec c NL); try contradiction; cbn [fst Line]; lia.
Qed.
Lemma UnNext_unread s : nonul (rest s) -> nonul (raw s) -> nonul (lraw s) -> mode s = 0 -> exists t, UnNext s = (Ok tt, t) /\ unread_from (raw s) s t.
Proof.
  intros N R L M. unfold UnNext, modify, UnScan. eexists. split; [reflexivity|]. destruct (UnScan_parts (raw s) s) as (A & B & C & D & F & G). cbn zeta.
  split; cbn [rest raw lraw ltok ltext pos lpos set_tokpos]; auto. split; cbn [rest raw lraw mode set_tokpos]; try congruence. rewrite A. apply nonul_app. auto.
Qed.

(** ** Two runs *)
Definition NN {A B} (K : st -> st -> Prop) (R : A -> B -> Prop) (m : M A) (m' : M B) : Prop := forall s s', K s s' ->
  match m s with
  | (Ok a, t) => exists b t', m' s' = (Ok b, t') /\ R a b /\ E t t'
  | (Err _, t) => exists e' t', m' s' = (Err e', t') /\ E t t'
  | _ => True
  end.
Definition any {A B} (a : A) (b : B) : Prop := True.
(** the same as far as [f] looks *)
Definition same {A C} (f : A -> C) (a b : A) : Prop := f a = f b.
Definition oeq {A B} (a : option A) (b : option B) : Prop := match a, b with Some _, Some _ | None, None => True | _, _ => False end.
Lemma NN_ret {A B} (R : A -> B -> Prop) a b : R a b -> NN E R (ret a) (ret b).
Proof. intros H s s' X. do 2 eexists. split; [reflexivity|auto]. Qed.
Lemma NN_bind {A B C D} K (R1 : A -> B -> Prop) (R : C -> D -> Prop) m m' f f' : NN K R1 m m' -> (forall a b, R1 a b -> NN E R (f a) (f' b)) -> NN K R (bind m f) (bind m' f').
Proof.
  intros H F s s' X. specialize (H s s' X). unfold bind. destruct (m s) as [[a|e| |] t]; auto.
  - destruct H as (b & t' & -> & RA & Y). exact (F a b RA _ _ Y).
  - destruct H as (e' & t' & -> & Y). do 2 eexists. split; [reflexivity|exact Y].
Qed.
Lemma NN_try {A B C D} K (R1 : A -> B -> Prop) (R : C -> D -> Prop) m m' f f' : NN K R1 m m' -> (forall a b, R1 a b -> NN E R (f (inl a)) (f' (inl b))) -> (forall e e', NN E R (f (inr e)) (f' (inr e'))) -> NN K R (try m f) (try m' f').
Proof.
  intros H F G s s' X. specialize (H s s' X). unfold try. destruct (m s) as [[a|e| |] t]; auto.
  - destruct H as (b & t' & -> & RA & Y). exact (F a b RA _ _ Y).
  - destruct H as (e' & t' & -> & Y). exact (G e e' _ _ Y).
Qed.
Lemma NN_K {A B} (K K2 : st -> st -> Prop) (R : A -> B -> Prop) m m' : (forall s s', K2 s s' -> K s s') -> NN K R m m' -> NN K2 R m m'.
Proof. intros H F s s' X. apply F. apply H. exact X. Qed.
Lemma NN_R {A B} K (R R2 : A -> B -> Prop) m m' : (forall a b, R a b -> R2 a b) -> NN K R m m' -> NN K R2 m m'.
Proof. intros H F s s' X. specialize (F s s' X). destruct (m s) as [[a|e| |] t]; auto. destruct F as (b & t' & Q & RA & Y). do 2 eexists. split; [exact Q|auto]. Qed.
Lemma NN_any {A} (R : A -> A -> Prop) m : NN E R m m -> NN E any m m. Proof. apply NN_R. intros; exact I. Qed.
Lemma NN_oof {A B} K (R : A -> B -> Prop) m' : NN K R oof m'. Proof. intros s s' X. exact I. Qed.
Lemma NN_panic {A B} K (R : A -> B -> Prop) m' : NN K R panic m'. Proof. intros s s' X. exact I. Qed.
Lemma NN_p {A B} (R : A -> B -> Prop) x x' : NN E R (p_unexpected x) (p_unexpected x'). Proof. intros s s' X. do 2 eexists. split; [reflexivity|exact X]. Qed.
Lemma NN_l {A B} (R : A -> B -> Prop) x x' : NN E R (l_unexpected x) (l_unexpected x'). Proof. intros s s' X. do 2 eexists. split; [reflexivity|exact X]. Qed.
Lemma NN_fail {A B} (R : A -> B -> Prop) x x' : NN E R (fail x) (fail x'). Proof. intros s s' X. do 2 eexists. split; [reflexivity|exact X]. Qed.
Lemma NN_gets {A} (R : A -> A -> Prop) (f : st -> A) : (forall s s', E s s' -> R (f s) (f s')) -> NN E R (gets f) (gets f).
Proof. intros H s s' X. do 2 eexists. split; [reflexivity|auto]. Qed.
Lemma n_ltok : NN E eq (gets ltok) (gets ltok). Proof. apply NN_gets. intros s s' []. auto. Qed.
Lemma n_ltext : NN E eq (gets ltext) (gets ltext). Proof. apply NN_gets. intros s s' []. auto. Qed.
Lemma n_lraw : NN E eq (gets lraw) (gets lraw). Proof. apply NN_gets. intros s s' []. auto. Qed.
Lemma n_lpos : NN E any (gets lpos) (gets lpos). Proof. apply NN_gets. intros; exact I. Qed.
Lemma n_fname : NN E any (gets (fun s => Filename (lpos s))) (gets (fun s => Filename (lpos s))). Proof. apply NN_gets. intros; exact I. Qed.
Lemma n_fuel : NN E eq fuel_here fuel_here. Proof. apply NN_gets. intros s s' [[] ? ? ? ? ?]. congruence. Qed.
Lemma n_lexEOF : NN E eq lex_IsEOF lex_IsEOF. Proof. apply NN_gets. intros s s' []. congruence. Qed.
Lemma read_E m s s' t t' : E0 s s' -> read_with m s t -> read_with m s' t' -> E t t'.
Proof.
  intros [R L S S'] [] []. rewrite R in *. split; [split; [congruence|lia|assumption|assumption]|congruence..|lia].
Qed.
Lemma n0_Next : NN E0 eq Next Next.
Proof.
  intros s s' X. destruct (Next_read s (e0_sane _ _ X)) as (t & -> & T). destruct (Next_read s' (e0_sane' _ _ X)) as (t' & -> & T'). do 2 eexists. split; [reflexivity|]. split; [reflexivity|exact (read_E _ _ _ _ _ X T T')].
Qed.
Lemma n0_mode m : NN E0 eq (nextWithSpecificMode m) (nextWithSpecificMode m).
Proof.
  intros s s' X. destruct (NextM_read m s (e0_sane _ _ X)) as (t & -> & T). destruct (NextM_read m s' (e0_sane' _ _ X)) as (t' & -> & T'). do 2 eexists. split; [reflexivity|]. split; [reflexivity|exact (read_E _ _ _ _ _ X T T')].
Qed.
Lemma n_Next : NN E eq Next Next. Proof. eapply NN_K; [exact e_E0|exact n0_Next]. Qed.
Lemma n_mode m : NN E eq (nextWithSpecificMode m) (nextWithSpecificMode m). Proof. eapply NN_K; [exact e_E0|exact (n0_mode m)]. Qed.
Lemma n_NextKeyword : NN E eq NextKeyword NextKeyword. Proof. apply n_mode. Qed.
Lemma n_NextKS : NN E eq NextKeywordOrStrLit NextKeywordOrStrLit. Proof. apply n_mode. Qed.
Lemma n_NextStrLit : NN E eq NextStrLit NextStrLit. Proof. apply n_mode. Qed.
Lemma n_NextLit : NN E eq NextLit NextLit. Proof. apply n_mode. Qed.
Lemma n_NextNumberLit : NN E eq NextNumberLit NextNumberLit. Proof. apply n_mode. Qed.
Lemma n_NextComment : NN E eq NextComment NextComment. Proof. apply n_mode. Qed.
Lemma unread_E w s s' t t' : E s s' -> unread_from w s t -> unread_from w s' t' -> E t t'.
Proof. intros [[] ? ? ? ? ?] [] []. split; [split; congruence || lia || assumption|congruence..|]. rewrite ur_lpos0, ur_lpos1. lia. Qed.
Lemma n_UnNext : NN E eq UnNext UnNext.
Proof.
  intros s s' X. destruct (e0_sane _ _ (e_E0 _ _ X)) as [A B C D]. destruct (e0_sane' _ _ (e_E0 _ _ X)) as [A' B' C' D'].
  destruct (UnNext_unread s A B C D) as (t & -> & T). destruct (UnNext_unread s' A' B' C' D') as (t' & -> & T'). do 2 eexists. split; [reflexivity|]. split; [reflexivity|]. rewrite (e_raw _ _ X) in T'. exact (unread_E _ _ _ _ _ X T T').
Qed.
Lemma n_set_raw r : nonul r -> NN E eq (modify (set_raw r)) (modify (set_raw r)).
Proof.
  intros N s s' [[R L [] []] ? ? ? ? ?]. do 2 eexists. split; [reflexivity|]. split; [reflexivity|]. split; auto. split; auto; split; auto.
Qed.
(** [defer] *)
Lemma n_defer {A B} (R : A -> B -> Prop) m m' : NN E R m m' -> NN E R (deferUnNext m) (deferUnNext m').
Proof.
  intros H s s' X. unfold deferUnNext. rewrite !bind_gets. rewrite (e_lraw _ _ X). pose proof (sn_lraw _ (e0_sane _ _ (e_E0 _ _ X))) as N. set (r := lraw s) in *. clearbody r. revert s s' X.
  change (NN E R (a <- m;; UnNextTo r;; ret a) (a <- m';; UnNextTo r;; ret a)). eapply NN_bind; [exact H|]. intros a b RA. eapply NN_bind with (R1 := eq); [|intros ? ? _; apply NN_ret; exact RA].
  unfold UnNextTo. eapply NN_bind; [apply n_set_raw; exact N|]. intros ? ? _. apply n_UnNext.
Qed.
(** comment nodes *)
Definition recol (s t : st) : Prop := exists c, t = set_pc (pos s, c) s.
Lemma E_recol s s' t t' : E s s' -> recol s t -> recol s' t' -> E t t'.
Proof. intros [[R L [] []] ? ? ? ? ?] [c ->] [c' ->]. split; auto. split; auto; split; auto. Qed.
Lemma mk_comment_eq p l s : exists c t, mk_comment p l s = (Ok c, t) /\ recol s t /\ Pos (c_meta c) = p.
Proof. unfold mk_comment. destruct (AdvancedBulk p (cols s) l) as [q cl]. do 2 eexists. split; [reflexivity|]. split; [eexists; reflexivity|reflexivity]. Qed.
Lemma mk_comments_eq l : forall s, exists c t, mk_comments l s = (Ok c, t) /\ recol s t.
Proof.
  induction l as [|x l IH]; intros s; cbn [mk_comments]. { do 2 eexists. split; [reflexivity|]. exists (cols s). destruct s; reflexivity. }
  destruct (mk_comment_eq (TPos x) (Literal x) s) as (c & t & Q & [cl RC] & _). rwb Q. destruct (IH t) as (cs & t2 & Q2 & [cl2 RC2]). rwb Q2. do 2 eexists. split; [reflexivity|]. subst. eexists. reflexivity.
Qed.
Lemma n_embedded p q p' q' : NN E any (findEmbeddedComments p q) (findEmbeddedComments p' q').
Proof.
  intros s s' X. unfold findEmbeddedComments. rewrite !bind_gets. destruct (mk_comments_eq (FindMidComments p q s) s) as (c & t & -> & RC). destruct (mk_comments_eq (FindMidComments p' q' s') s') as (c' & t' & -> & RC').
  do 2 eexists. split; [reflexivity|]. split; [exact I|]. eapply E_recol; eassumption.
Qed.
Definition RC (c c' : comment) : Prop := Line (Pos (c_meta c')) = Line (Pos (c_meta c)).
Lemma parseComment_E0 s s' : E0 s s' -> match parseComment s with
  | (Ok c, t) => exists c' t', parseComment s' = (Ok c', t') /\ RC c c' /\ E t t' | (Err _, t) => exists e' t', parseComment s' = (Err e', t') /\ E t t' | _ => False end.
Proof.
  intros X. unfold parseComment. destruct (NextM_read ScanComment s (e0_sane _ _ X)) as (t & Q & T). destruct (NextM_read ScanComment s' (e0_sane' _ _ X)) as (t' & Q' & T'). unfold NextComment. rwb Q. rwb Q'. rewrite !bind_gets.
  pose proof (read_E _ _ _ _ _ X T T') as Y. rewrite (e_tok _ _ Y). destruct (tok_eqb (ltok t) TCOMMENT).
  - rewrite !bind_gets. destruct (mk_comment_eq (lpos t) (ltext t) t) as (c & t2 & -> & R2 & P). destruct (mk_comment_eq (lpos t') (ltext t') t') as (c' & t2' & -> & R2' & P').
    do 2 eexists. split; [reflexivity|]. split; [unfold RC; rewrite P, P'; exact (e_lpos _ _ Y)|eapply E_recol; eassumption].
  - pose proof (n_UnNext t t' Y) as H. unfold UnNext, modify in *. unfold bind. cbn zeta in *. destruct H as (b & t2' & H & _ & Z). injection H as _ <-. cbn [fail]. do 2 eexists. split; [reflexivity|]. exact Z.
Qed.
Lemma n0_parseComment : NN E0 RC parseComment parseComment.
Proof. intros s s' X. pose proof (parseComment_E0 s s' X) as H. destruct (parseComment s) as [[c|e| |] t]; auto. Qed.
Lemma n_parseComment : NN E RC parseComment parseComment.
Proof. eapply NN_K; [exact e_E0|exact n0_parseComment]. Qed.
Lemma n1_inline : NN E1 oeq parseInlineComment parseInlineComment.
Proof.
  intros s s' [X L]. unfold parseInlineComment. rewrite !bind_gets. pose proof (parseComment_E0 s s' X) as H. unfold try. destruct (parseComment s) as [[c|e| |] t]; auto.
  - destruct H as (c' & t' & -> & RA & Y). rewrite L, RA. destruct (negb _).
    + exact (NN_bind E eq oeq _ _ (fun _ => ret None) (fun _ => ret None) n_UnNext (fun _ _ _ => NN_ret _ _ _ I) t t' Y).
    + do 2 eexists. split; [reflexivity|]. split; [exact I|exact Y].
  - destruct H as (e' & t' & -> & Y). do 2 eexists. split; [reflexivity|]. split; [exact I|exact Y].
Qed.
Lemma n_inline : NN E oeq parseInlineComment parseInlineComment.
Proof. eapply NN_K; [exact E_E1|exact n1_inline]. Qed.
Lemma n1_maybe {A B} (R : A -> B -> Prop) set set' x x' : R x x' -> (forall c c' y, set c x = Some y -> exists y', set' c' x' = Some y' /\ R y y') -> NN E1 R (MaybeScanInlineComment set x) (MaybeScanInlineComment set' x').
Proof.
  intros H F. unfold MaybeScanInlineComment. eapply NN_bind; [exact n1_inline|]. intros [c|] [c'|] O; try contradiction O; [|apply NN_ret; exact H].
  specialize (F c c'). destruct (set c x) as [y|]; [|apply NN_panic]. destruct (F y eq_refl) as (y' & -> & RY). apply NN_ret. exact RY.
Qed.

(** ** The functions without a mode *)
Lemma n_or {A B} (R : A -> B -> Prop) m m' x x' : NN E R m m' -> NN E R (or_unexpected m x) (or_unexpected m' x').
Proof. intros H. unfold or_unexpected. eapply NN_try; [exact H|intros a b RA; apply NN_ret; exact RA|intros; apply NN_p]. Qed.
Create HintDb nn.
#[global] Hint Resolve n_ltok n_ltext n_lraw n_lpos n_fname n_fuel n_lexEOF n_Next n_NextKeyword n_NextKS n_NextStrLit n_NextLit n_NextNumberLit n_NextComment n_UnNext n_parseComment n_inline n_embedded : nn.
Ltac nr := first [exact I | reflexivity | assumption | (unfold same in *; first [reflexivity | assumption | congruence])].
Ltac ni := let H := fresh in intros ? ? H; match type of H with
  | ?x = ?y => is_var x; is_var y; subst y
  | same fst ?x ?y => is_var x; is_var y; destruct x, y; unfold same in H; cbn [fst] in H; subst
  | same snd ?x ?y => is_var x; is_var y; destruct x, y; unfold same in H; cbn [snd] in H; subst
  | oeq ?x ?y => is_var x; is_var y; destruct x, y; try contradiction H; clear H
  | any _ _ => clear H
  | RC _ _ => clear H
  | _ => idtac end.
Ltac nleaf := first [solve [eauto 2 with nn nocore] | solve [eapply NN_any; eauto 2 with nn nocore]].
Ltac nstep :=
  match goal with
  | |- NN _ _ (ret _) (ret _) => apply NN_ret; nr
  | |- NN _ _ oof _ => apply NN_oof
  | |- NN _ _ panic _ => apply NN_panic
  | |- NN _ _ (p_unexpected _) (p_unexpected _) => apply NN_p
  | |- NN _ _ (l_unexpected _) (l_unexpected _) => apply NN_l
  | |- NN _ _ (fail _) (fail _) => apply NN_fail
  | |- NN _ _ (bind (bind _ _) _) (bind _ _) => first [eapply NN_bind with (R1 := eq); [solve [ngo]|ni] | eapply NN_bind with (R1 := any); [|ni]]
  | |- NN _ _ (bind _ _) (bind _ _) => eapply NN_bind; [nleaf|ni]
  | |- NN _ _ (bind (or_unexpected _ _) _) (bind _ _) => eapply NN_bind; [apply n_or; nleaf|ni]
  | |- NN _ _ (bind (match ?x with _ => _ end) _) (bind (match ?x with _ => _ end) _) => first [eapply NN_bind with (R1 := eq); [solve [destruct x; ngo]|ni] | eapply NN_bind with (R1 := any); [destruct x|ni]]
  | |- NN _ _ (try _ _) (try _ _) => eapply NN_try; [nleaf|ni|intros ? ?]
  | |- NN _ _ (match ?x with _ => _ end) (match ?x with _ => _ end) => destruct x
  | |- NN _ _ (match ?x with (_, _) => _ end) (match ?y with (_, _) => _ end) => destruct x, y
  | |- NN _ _ (deferUnNext _) (deferUnNext _) => apply n_defer
  end
with ngo := repeat (nleaf || nstep || (cbv zeta; nstep) || assumption).
Lemma n_expect t x : NN E eq (expect t x) (expect t x). Proof. unfold expect. ngo. Qed.
#[global] Hint Resolve n_expect : nn.
Lemma n_Peek : NN E eq Peek Peek. Proof. unfold Peek. ngo. Qed.
Lemma n_Consume t : NN E eq (ConsumeToken t) (ConsumeToken t). Proof. unfold ConsumeToken. ngo. Qed.
Lemma n_empty : NN E eq ReadEmptyStatement ReadEmptyStatement. Proof. unfold ReadEmptyStatement. ngo. Qed.
#[global] Hint Resolve n_Peek n_Consume n_empty : nn.
Lemma n_fi_loop n : forall l, NN E eq (fullIdent_loop n l) (fullIdent_loop n l). Proof. induction n as [|n IH]; intros l; cbn [fullIdent_loop]; ngo. Qed.
Lemma n_mt_loop n : forall l, NN E eq (messageType_loop n l) (messageType_loop n l). Proof. induction n as [|n IH]; intros l; cbn [messageType_loop]; ngo. Qed.
#[global] Hint Resolve n_fi_loop n_mt_loop : nn.
Lemma n_fullIdent : NN E (same fst) ReadFullIdent ReadFullIdent. Proof. unfold ReadFullIdent. ngo. Qed.
Lemma n_messageType : NN E (same fst) ReadMessageType ReadMessageType. Proof. unfold ReadMessageType. ngo. Qed.
#[global] Hint Resolve n_fullIdent n_messageType : nn.
Lemma n_pEOF : NN E eq p_IsEOF p_IsEOF. Proof. unfold p_IsEOF. ngo. Qed.
Lemma n_peekKeyword : NN E eq peekKeyword peekKeyword. Proof. unfold peekKeyword. ngo. Qed.
Lemma n_comments_loop n : forall l l', NN E any (parseComments_loop n l) (parseComments_loop n l'). Proof. induction n as [|n IH]; intros l l'; cbn [parseComments_loop]; ngo. Qed.
#[global] Hint Resolve n_pEOF n_peekKeyword n_comments_loop : nn.
Lemma n_comments : NN E any ParseComments ParseComments. Proof. unfold ParseComments. ngo. Qed.
Lemma n_syntax : NN E (same (option_map bare_syntax)) ParseSyntax ParseSyntax. Proof. unfold ParseSyntax. ngo. Qed.
Lemma n_edition : NN E (same (option_map bare_edition)) ParseEdition ParseEdition. Proof. unfold ParseEdition. ngo. Qed.
Lemma n_import : NN E (same bare_import) ParseImport ParseImport. Proof. unfold ParseImport. ngo. Qed.
Lemma n_package : NN E (same bare_package) ParsePackage ParsePackage. Proof. unfold ParsePackage. ngo. Qed.
Lemma n_type : NN E (same fst) parseType parseType. Proof. unfold parseType. ngo. Qed.
Lemma n_fieldNumber : NN E eq parseFieldNumber parseFieldNumber. Proof. unfold parseFieldNumber. ngo. Qed.
Lemma n_label : NN E (same snd) parseLabel parseLabel. Proof. unfold parseLabel. ngo. Qed.
Lemma n_keyType : NN E eq parseKeyType parseKeyType. Proof. unfold parseKeyType. ngo. Qed.
#[global] Hint Resolve n_comments n_syntax n_edition n_import n_package n_type n_fieldNumber n_label n_keyType : nn.
Lemma n_range : NN E eq parseRange parseRange. Proof. unfold parseRange. ngo. Qed.
#[global] Hint Resolve n_range : nn.
Lemma n_ranges_loop n : forall l, NN E eq (ranges_loop n l) (ranges_loop n l). Proof. induction n as [|n IH]; intros l; cbn [ranges_loop]; ngo. Qed.
#[global] Hint Resolve n_ranges_loop : nn.
Lemma n_ranges : NN E eq parseRanges parseRanges. Proof. unfold parseRanges. ngo. Qed.
Lemma n_quoted : NN E eq parseQuotedFieldName parseQuotedFieldName. Proof. unfold parseQuotedFieldName. ngo. Qed.
#[global] Hint Resolve n_ranges n_quoted : nn.
Lemma n_fieldName : NN E eq parseFieldName parseFieldName. Proof. unfold parseFieldName. ngo. Qed.
#[global] Hint Resolve n_fieldName : nn.
Lemma n_fieldNames_loop n : forall l, NN E eq (fieldNames_loop n l) (fieldNames_loop n l). Proof. induction n as [|n IH]; intros l; cbn [fieldNames_loop]; ngo. Qed.
#[global] Hint Resolve n_fieldNames_loop : nn.
Lemma n_fieldNames : NN E eq parseFieldNames parseFieldNames. Proof. unfold parseFieldNames. ngo. Qed.
#[global] Hint Resolve n_fieldNames : nn.
Lemma n_reserved : NN E (same bare_reserved) ParseReserved ParseReserved.
Proof. unfold ParseReserved. do 3 nstep. eapply NN_bind with (R1 := eq); [|intros ? [? ?] ->; ngo]. eapply NN_try; [nleaf|ni; ngo|intros e e']. eapply NN_try; [nleaf|ni; ngo|intros f f'; ngo]. Qed.
Lemma n_declaration_loop n : forall v, NN E eq (declaration_loop n v) (declaration_loop n v).
Proof. induction n as [|n IH]; intros v; cbn [declaration_loop]; [apply NN_oof|]. ngo. Qed.
#[global] Hint Resolve n_reserved n_declaration_loop : nn.
Lemma n_declaration : NN E (same bare_declaration) ParseDeclaration ParseDeclaration. Proof. unfold ParseDeclaration. ngo. Qed.
#[global] Hint Resolve n_declaration : nn.
Lemma assign_same l : forall d, bare_declaration (assignInlineComments d l) = bare_declaration d.
Proof. unfold assignInlineComments. induction l as [|[c|] l IH]; intros d; cbn [fold_left]; [reflexivity|rewrite IH; reflexivity|apply IH]. Qed.
Lemma declared cs cs' d d' l l' ics ics' : same bare_declaration d d' -> same (map bare_declaration) l l' -> same (map bare_declaration) (l ++ [assignInlineComments (set_d_comments cs d) ics]) (l' ++ [assignInlineComments (set_d_comments cs' d') ics']).
Proof. unfold same. intros H K. rewrite !map_app, K. cbn [map]. rewrite !assign_same. f_equal. f_equal. destruct d, d'. injection H as -> -> -> -> ->. reflexivity. Qed.
Lemma n_declarations_loop n : forall l l', same (map bare_declaration) l l' -> NN E (same (map bare_declaration)) (declarations_loop n l) (declarations_loop n l').
Proof.
  induction n as [|n IH]; intros l l' H; cbn [declarations_loop]; [apply NN_oof|]. eapply NN_bind; [nleaf|intros cs cs' _]. eapply NN_bind; [nleaf|intros d d' RD]. cbv zeta. do 2 nstep. eapply NN_bind; [nleaf|intros i1 i1' _]. destruct (tok_eqb _ _).
  - eapply NN_bind; [nleaf|intros i2 i2' _]. apply NN_ret. apply declared; assumption.
  - destruct (negb _); [apply NN_p|]. eapply NN_bind; [nleaf|intros i2 i2' _]. apply IH. apply declared; assumption.
Qed.
Lemma n_declarations : NN E (same (fun x => map bare_declaration (fst x))) parseDeclarations parseDeclarations.
Proof. unfold parseDeclarations. do 2 nstep. destruct (negb _); [ngo|]. eapply NN_bind; [nleaf|intros i i' _]. nstep. eapply NN_bind; [apply n_declarations_loop; reflexivity|]. intros d d' H. apply NN_ret. exact H. Qed.
#[global] Hint Resolve n_declarations : nn.
Lemma n_extensions : NN E (same bare_extensions) ParseExtensions ParseExtensions.
Proof.
  unfold ParseExtensions. do 4 nstep. eapply NN_bind; [nleaf|]. intros [d i] [d' i'] H. do 3 nstep. apply NN_ret. unfold same, bare_extensions in *. cbn [fst xs_ranges xs_declarations] in *. rewrite H. reflexivity.
Qed.
Lemma n_rpcParam : NN E (same bare_param) parseRPCParam parseRPCParam. Proof. unfold parseRPCParam. ngo. Qed.
Lemma n_bom : NN E eq parseBOM parseBOM. Proof. unfold parseBOM. ngo. Qed.
Lemma n_isGroup_tail : NN E eq peekIsGroup_tail peekIsGroup_tail. Proof. unfold peekIsGroup_tail. ngo. Qed.
#[global] Hint Resolve n_extensions n_rpcParam n_bom n_isGroup_tail : nn.
Lemma n_isGroup : NN E eq peekIsGroup peekIsGroup. Proof. unfold peekIsGroup. ngo. Qed.
#[global] Hint Resolve n_isGroup : nn.
