(** Two runs of the parser that differ in the positions they report and in
    bodyIncludingComments proceed in step: for every state, hence every input. *)
From Coq Require Import List NArith ZArith Bool String Ascii Lia.
From Verif Require Import Base Token Scanner Lexer Ast Parser AstMap.
Import ListNotations.
Open Scope N_scope.
Open Scope monad_scope.

Section Simul.
Variables (f g : mpos -> mpos) (d d' bic bic' : bool) (dz : Z) (CR : colmap -> colmap -> Prop) (nm nm' : str -> str).
Definition PE (p p' : mpos) : Prop := g p' = f p.
Hypothesis PE_line : forall p p' q q', PE p p' -> PE q q' -> (Line p' =? Line q')%Z = (Line p =? Line q)%Z.
Hypothesis PE_off : forall p p', PE p p' -> Offset p' = (Offset p + dz)%Z.
Hypothesis PE_name : forall p p', PE p p' -> nm' (Filename p') = nm (Filename p).
Definition PCR (a a' : mpos * colmap) : Prop := PE (fst a) (fst a') /\ CR (snd a) (snd a').
Hypothesis PE_adv : forall a a' r, PCR a a' -> PCR (Advance a r) (Advance a' r).
Hypothesis PE_rev : forall a a' r, PCR a a' -> PCR (Revert a r) (Revert a' r).
Hypothesis Hbic : forall l l', map (map_comment g) l' = map (map_comment f) l -> map_body g d' (body_comments bic' l') = map_body f d (body_comments bic l).

(** ** Relations *)
Definition TR (a a' : text) : Prop := Literal a' = Literal a /\ PE (TPos a) (TPos a').
Definition UC (l l' : list text) : Prop := Forall2 TR (unique_comments [] l) (unique_comments [] l').
(** the comments recorded by the scanners *)
Variable CM : list text -> list text -> Prop.
Hypothesis CM_snoc : forall l l' c c', CM l l' -> TR c c' -> CM (l ++ [c]) (l' ++ [c']).
Hypothesis CM_unique : forall l l', CM l l' -> UC l l'.
(** the fields of the lexers *)
Definition regs (s : st) := (ltok s, ltext s, lraw s, lpos s).
Section LR.
Variable LR : token * str * list rune * mpos -> token * str * list rune * mpos -> Prop.
Record SR (s s' : st) : Prop := mkSR {
  sr_rest : rest s' = rest s; sr_raw : raw s' = raw s; sr_pos : PE (pos s) (pos s'); sr_cols : CR (cols s) (cols s');
  sr_mode : mode s' = mode s; sr_com : CM (comments s) (comments s');
  sr_regs : LR (regs s) (regs s') }.
Definition ER (e e' : err) : Prop := map_err g e' = map_err f e.
Definition Rel {A} (RA : A -> A -> Prop) (m m' : M A) : Prop := forall s s', SR s s' ->
  match m s, m' s' with
  | (Ok a, t), (Ok a', t') => RA a a' /\ SR t t'
  | (Err e, t), (Err e', t') => ER e e' /\ SR t t'
  | (Panic, _), (Panic, _) => True
  | (Fuel, _), (Fuel, _) => True
  | _, _ => False
  end.
Lemma Rel_ret {A} (RA : A -> A -> Prop) a a' : RA a a' -> Rel RA (ret a) (ret a').
Proof. intros H s s' S. split; assumption. Qed.
Lemma Rel_fail {A} (RA : A -> A -> Prop) e e' : ER e e' -> Rel RA (fail e) (fail e').
Proof. intros H s s' S. split; assumption. Qed.
Lemma Rel_oof {A} (RA : A -> A -> Prop) : Rel RA oof oof. Proof. intros s s' S. exact I. Qed.
Lemma Rel_panic {A} (RA : A -> A -> Prop) : Rel RA panic panic. Proof. intros s s' S. exact I. Qed.
Lemma Rel_bind {A B} (RA : A -> A -> Prop) (RB : B -> B -> Prop) m m' k k' : Rel RA m m' -> (forall a a', RA a a' -> Rel RB (k a) (k' a')) -> Rel RB (bind m k) (bind m' k').
Proof.
  intros H K s s' S. specialize (H s s' S). unfold bind. destruct (m s) as [[a|e| |] t], (m' s') as [[a'|e'| |] t']; try destruct H; auto. apply (K _ _ H). assumption.
Qed.
Lemma Rel_try {A B} (RA : A -> A -> Prop) (RB : B -> B -> Prop) m m' k k' : Rel RA m m' -> (forall a a', RA a a' -> Rel RB (k (inl a)) (k' (inl a'))) ->
  (forall e e', ER e e' -> Rel RB (k (inr e)) (k' (inr e'))) -> Rel RB (try m k) (try m' k').
Proof.
  intros H K E s s' S. specialize (H s s' S). unfold try. destruct (m s) as [[a|e| |] t], (m' s') as [[a'|e'| |] t']; try destruct H; auto; [apply (K _ _ H)|apply (E _ _ H)]; assumption.
Qed.
Lemma Rel_gets {A} (RA : A -> A -> Prop) (h h' : st -> A) : (forall s s', SR s s' -> RA (h s) (h' s')) -> Rel RA (gets h) (gets h').
Proof. intros H s s' S. split; [apply H|]; assumption. Qed.
Lemma Rel_modify h h' : (forall s s', SR s s' -> SR (h s) (h' s')) -> Rel eq (modify h) (modify h').
Proof. intros H s s' S. split; [reflexivity|]. apply H, S. Qed.
Lemma Rel_impl {A} (RA RB : A -> A -> Prop) m m' : (forall a a', RA a a' -> RB a a') -> Rel RA m m' -> Rel RB m m'.
Proof. intros I H s s' S. specialize (H s s' S). destruct (m s) as [[a|e| |] t], (m' s') as [[a'|e'| |] t']; try destruct H; auto. Qed.

(** *** Scanner *)
Lemma g_rest : Rel eq (gets rest) (gets rest). Proof. apply Rel_gets. intros s s' []. auto. Qed.
Lemma g_pos : Rel PE (gets pos) (gets pos). Proof. apply Rel_gets. intros s s' []. auto. Qed.
Lemma g_mode : Rel eq (gets mode) (gets mode). Proof. apply Rel_gets. intros s s' []. auto. Qed.
Lemma g_fuel : Rel eq fuel_here fuel_here. Proof. apply Rel_gets. intros s s' []. congruence. Qed.
Lemma SR_pc s s' a a' : SR s s' -> PCR a a' -> SR (set_pc a s) (set_pc a' s').
Proof. intros [] [? ?]. constructor; cbn; auto. Qed.
Lemma SR_rest s s' r : SR s s' -> SR (set_rest r s) (set_rest r s').
Proof. intros []. constructor; cbn; auto. Qed.
Lemma SR_raw s s' r : SR s s' -> SR (set_raw r s) (set_raw r s').
Proof. intros []. constructor; cbn; auto. Qed.
Lemma SR_mode s s' r : SR s s' -> SR (set_mode r s) (set_mode r s').
Proof. intros []. constructor; cbn; auto. Qed.
Lemma SR_PCR s s' : SR s s' -> PCR (pos s, cols s) (pos s', cols s').
Proof. intros []. split; assumption. Qed.
Lemma x_read : Rel eq read read.
Proof.
  intros s s' S. unfold read. rewrite (sr_rest _ _ S). destruct (rest s) as [|c r] eqn:ER; [split; [reflexivity|exact S]|].
  destruct (c =? eof); [split; [reflexivity|apply SR_rest, S]|]. split; [reflexivity|]. rewrite (sr_raw _ _ S). apply SR_pc; [apply SR_raw, SR_rest, S|]. apply PE_adv, SR_PCR, S.
Qed.
Lemma SR_unread s s' c : SR s s' -> SR (unread c s) (unread c s').
Proof. intros S. unfold unread. rewrite (sr_rest _ _ S). apply SR_pc; [apply SR_rest, S|]. apply PE_rev, SR_PCR, S. Qed.
Lemma SR_UnScan s s' : SR s s' -> SR (UnScan s) (UnScan s').
Proof.
  intros S. unfold UnScan. rewrite (sr_raw _ _ S). generalize (rev (raw s)) as l. intros l. clear - S PE_rev. revert s s' S. induction l as [|c l IH]; intros s s' S; [exact S|]. cbn [fold_left].
  apply IH. apply SR_unread, S.
Qed.
Lemma x_peek : Rel eq peek peek.
Proof.
  unfold peek. eapply Rel_bind; [exact x_read|]. intros c ? <-. destruct (c =? eof); [apply Rel_ret; reflexivity|]. eapply Rel_bind; [|intros ? ? _; apply Rel_ret; reflexivity].
  apply Rel_modify. intros s s' S. rewrite (sr_raw _ _ S). apply SR_unread, SR_raw, S.
Qed.
Create HintDb sim discriminated.
Ltac simleaf := solve [eauto 3 with sim nocore].
Ltac simi := let H := fresh in intros ? ? H; match type of H with ?x = ?y => is_var x; is_var y; subst y | _ => idtac end.
Ltac sim0 :=
  match goal with
  | |- Rel _ (ret _) (ret _) => apply Rel_ret; try reflexivity; try assumption
  | |- Rel _ oof oof => apply Rel_oof
  | |- Rel _ panic panic => apply Rel_panic
  | |- Rel _ (match ?t with _ => _ end) (match ?t with _ => _ end) => destruct t
  | |- Rel _ (bind _ _) (bind _ _) => eapply Rel_bind; [simleaf|simi]
  | |- Rel _ (bind (if _ then _ else _) _) (bind _ _) => eapply (Rel_bind eq); [|simi]
  | |- Rel _ (try _ _) (try _ _) => eapply Rel_try; [simleaf|simi|simi]
  | |- Rel _ _ _ => simleaf
  end.
Ltac sim := repeat sim0.
Hint Resolve g_rest g_pos g_mode g_fuel x_read x_peek : sim.

Lemma x_isEOF : Rel eq isEOF isEOF. Proof. unfold isEOF. sim. Qed.
Hint Resolve x_isEOF : sim.
Lemma x_s_unexpected {A} (RA : A -> A -> Prop) c x : Rel RA (s_unexpected c x) (s_unexpected c x).
Proof. unfold s_unexpected. eapply Rel_bind; [simleaf|]. intros p p' H. apply Rel_fail. unfold ER. cbn. f_equal. exact H. Qed.
Hint Resolve x_s_unexpected : sim.
Lemma x_ident_loop n : forall l, Rel eq (ident_loop n l) (ident_loop n l).
Proof. induction n as [|n IH]; intros l; cbn [ident_loop]; sim. Qed.
Hint Resolve x_ident_loop : sim.
Lemma x_scanIdent : Rel eq scanIdent scanIdent. Proof. unfold scanIdent. sim. Qed.
Lemma x_line_loop n : forall l c, Rel eq (line_loop n l c) (line_loop n l c).
Proof. induction n as [|n IH]; intros l c; cbn [line_loop]; sim. Qed.
Lemma x_block_loop n : forall l c, Rel eq (block_loop n l c) (block_loop n l c).
Proof. induction n as [|n IH]; intros l c; cbn [block_loop]; sim. Qed.
Hint Resolve x_scanIdent x_line_loop x_block_loop : sim.
Lemma x_scanComment : Rel eq scanComment scanComment. Proof. unfold scanComment. sim. Qed.
Lemma x_digits_loop n cls : forall l, Rel eq (digits_loop n cls l) (digits_loop n cls l).
Proof. induction n as [|n IH]; intros l; cbn [digits_loop]; sim. Qed.
Hint Resolve x_scanComment x_digits_loop : sim.
Lemma x_scanDecimals : Rel eq scanDecimals scanDecimals. Proof. unfold scanDecimals. sim. Qed.
Hint Resolve x_scanDecimals : sim.
Lemma x_scanExponent : Rel eq scanExponent scanExponent. Proof. unfold scanExponent. sim. Qed.
Hint Resolve x_scanExponent : sim.
Lemma x_scanFractionPart : Rel eq scanFractionPart scanFractionPart.
Proof. unfold scanFractionPart. sim0. eapply (Rel_bind eq); [sim|simi]. sim. Qed.
Lemma x_scanFractionPartNoOmit : Rel eq scanFractionPartNoOmit scanFractionPartNoOmit. Proof. unfold scanFractionPartNoOmit. sim. Qed.
Hint Resolve x_scanFractionPart x_scanFractionPartNoOmit : sim.
Lemma x_scanNumberLit : Rel eq scanNumberLit scanNumberLit. Proof. unfold scanNumberLit. sim. Qed.
Lemma x_escape_digits n cls : forall l, Rel eq (escape_digits n cls l) (escape_digits n cls l).
Proof. induction n as [|n IH]; intros l; cbn [escape_digits]; sim. Qed.
Hint Resolve x_scanNumberLit x_escape_digits : sim.
Lemma x_tryScanEscape : Rel eq tryScanEscape tryScanEscape. Proof. unfold tryScanEscape. sim. Qed.
Hint Resolve x_tryScanEscape : sim.
Lemma x_scanCharValue : Rel eq scanCharValue scanCharValue. Proof. unfold scanCharValue. sim. Qed.
Hint Resolve x_scanCharValue : sim.
Lemma x_str_loop n q : forall l c, Rel eq (str_loop n q l c) (str_loop n q l c).
Proof. induction n as [|n IH]; intros l c; cbn [str_loop]; sim. Qed.
Hint Resolve x_str_loop : sim.
Lemma x_scanStrLit : Rel eq scanStrLit scanStrLit. Proof. unfold scanStrLit. sim. Qed.
Hint Resolve x_scanStrLit : sim.

(** scan results: same token and text, corresponding position *)
Definition SC (x x' : scanned) : Prop := fst (fst x') = fst (fst x) /\ PE (snd (fst x)) (snd (fst x')).
Lemma SC_intro t l p p' e e' : PE p p' -> SC (t, l, p, e) (t, l, p', e'). Proof. intros H. split; [reflexivity|exact H]. Qed.
Lemma x_or_illegal p p' m : PE p p' -> Rel eq m m -> Rel SC (or_illegal p m) (or_illegal p' m).
Proof.
  intros H HM. unfold or_illegal. eapply Rel_try; [exact HM| |].
  - intros [t l] ? <-. apply Rel_ret, SC_intro, H.
  - intros e e' _. apply Rel_ret, SC_intro, H.
Qed.
Lemma unique_snoc l c : forall acc, unique_comments acc (l ++ [c]) =
  let u := unique_comments acc l in if existsb (fun uc => same_comment c uc) u then u else u ++ [c].
Proof. induction l as [|x l IH]; intros acc; cbn [app unique_comments]; [destruct (existsb _ acc); reflexivity|]. destruct (existsb _ acc); apply IH. Qed.
Lemma TR_same a a' b b' : TR a a' -> TR b b' -> same_comment a' b' = same_comment a b.
Proof.
  intros [L P] [L' P']. unfold same_comment. rewrite L, L', (PE_off _ _ P), (PE_off _ _ P'). f_equal.
  destruct (Z.eqb_spec (Offset (TPos a)) (Offset (TPos b))); [apply Z.eqb_eq|apply Z.eqb_neq]; lia.
Qed.
Lemma TR_exists c c' l l' : TR c c' -> Forall2 TR l l' -> existsb (fun uc => same_comment c' uc) l' = existsb (fun uc => same_comment c uc) l.
Proof. intros H F. induction F as [|a a' l l' HA F IH]; [reflexivity|]. cbn [existsb]. rewrite IH, (TR_same _ _ _ _ H HA). reflexivity. Qed.
Lemma UC_snoc l l' c c' : UC l l' -> TR c c' -> UC (l ++ [c]) (l' ++ [c']).
Proof.
  intros H T. unfold UC in *. rewrite !unique_snoc. cbn zeta. rewrite (TR_exists _ _ _ _ T H). destruct (existsb _ _); [exact H|]. apply Forall2_app; [exact H|]. constructor; [exact T|constructor].
Qed.
Lemma x_scan n : Rel SC (scan n) (scan n).
Proof.
  induction n as [|n IH]; cbn [scan]; [apply Rel_oof|]. sim0. eapply Rel_bind; [simleaf|]. intros p p' H.
  destruct (isSpace a). { eapply Rel_bind; [simleaf|]. intros ? ? _. exact IH. }
  eapply Rel_bind; [simleaf|]. intros b ? <-. destruct b; [apply Rel_ret, SC_intro, H|].
  destruct (isLetter a || (a =? ch "_")).
  { sim0. sim0. repeat match goal with |- Rel _ (if ?b then _ else _) _ => destruct b end; apply Rel_ret, SC_intro, H. }
  destruct (a =? ch "/").
  { eapply Rel_try; [simleaf| |].
    - intros l ? <-. eapply (Rel_bind eq).
      + apply Rel_modify. intros s s' []. constructor; cbn; auto. apply CM_snoc; [assumption|]. split; [reflexivity|exact H].
      + intros ? ? _. eapply Rel_bind; [simleaf|]. intros mo ? <-. destruct (has mo ScanComment); [apply Rel_ret, SC_intro, H|exact IH].
    - intros e e' _. apply Rel_ret, SC_intro, H. }
  sim0. destruct (isQuote a && has a0 ScanStrLit).
  { apply x_or_illegal; [exact H|]. sim. }
  destruct ((isDecimalDigit a || (a =? ch ".")) && has a0 ScanNumberLit).
  { apply x_or_illegal; [exact H|]. sim. }
  sim0. apply Rel_ret, SC_intro, H.
Qed.
Lemma x_Scan : Rel SC Scan Scan.
Proof. unfold Scan. eapply (Rel_bind eq). { apply Rel_modify. intros s s' S. apply SR_raw, S. } intros ? ? _. sim0. apply x_scan. Qed.
End LR.

(** [Next] sets the fields of the lexer *)
Definition LP (a a' : token * str * list rune * mpos) : Prop := fst a' = fst a /\ PE (snd a) (snd a').
Definition after {A} LR (RA : A -> A -> Prop) (o o' : res A * st) : Prop :=
  match o, o' with (Ok a, t), (Ok a', t') => RA a a' /\ SR LP t t' | (Fuel, _), (Fuel, _) => True | (Err e, t), (Err e', t') => ER e e' /\ SR LR t t' | (Panic, _), (Panic, _) => True | _, _ => False end.
Lemma next_any LR s s' : SR LR s s' -> after LR eq (Next s) (Next s').
Proof.
  intros S. unfold Next, bind. pose proof (x_Scan LR s s' S) as H. destruct (Scan s) as [[a|e| |] t], (Scan s') as [[a'|e'| |] t']; try contradiction H; auto.
  destruct a as [[[k x] p] e], a' as [[[k' x'] p'] e']. destruct H as [[E P] H0]. injection E as <- <-. cbn [fst snd] in P. cbn. split; [reflexivity|]. destruct H0. constructor; cbn; auto. split; cbn; [congruence|assumption].
Qed.
Lemma nextm_any LR m s s' : SR LR s s' -> after LR eq (nextWithSpecificMode m s) (nextWithSpecificMode m s').
Proof.
  intros S. unfold nextWithSpecificMode, bind, gets, modify. pose proof (next_any LR (set_mode m s) (set_mode m s') (SR_mode _ _ _ _ S)) as H.
  destruct (Next (set_mode m s)) as [[a|e| |] t], (Next (set_mode m s')) as [[a'|e'| |] t']; try contradiction H; auto. destruct H as [_ H]. split; [reflexivity|]. rewrite (sr_mode _ _ _ S). apply SR_mode, H.
Qed.

Local Arguments map_body : simpl never.
Notation Rl := (Rel LP).
Ltac simleaf := solve [eauto 3 with sim nocore].
Ltac simi := let H := fresh in intros ? ? H; match type of H with ?x = ?y => is_var x; is_var y; subst y | _ => idtac end.
Ltac sim0 :=
  match goal with
  | |- Rl _ (ret _) (ret _) => apply Rel_ret; try reflexivity; try assumption
  | |- Rl _ oof oof => apply Rel_oof
  | |- Rl _ panic panic => apply Rel_panic
  | |- Rl _ (match ?t with _ => _ end) (match ?t with _ => _ end) => destruct t
  | |- Rl _ (bind _ _) (bind _ _) => eapply Rel_bind; [simleaf|simi]
  | |- Rl _ (bind (if _ then _ else _) _) (bind _ _) => eapply (Rel_bind _ eq); [|simi]
  | |- Rl _ (bind (match _ with _ => _ end) _) (bind _ _) => eapply (Rel_bind _ eq); [|simi]
  | |- Rl _ (try _ _) (try _ _) => eapply Rel_try; [simleaf|simi|simi]
  | |- Rl _ _ _ => simleaf
  end.
Ltac sim := repeat sim0.
Lemma SR_ltok s s' : SR LP s s' -> ltok s' = ltok s. Proof. intros S. destruct (sr_regs _ _ _ S) as [E _]. injection E. auto. Qed.
Lemma SR_ltext s s' : SR LP s s' -> ltext s' = ltext s. Proof. intros S. destruct (sr_regs _ _ _ S) as [E _]. injection E. auto. Qed.
Lemma SR_lraw s s' : SR LP s s' -> lraw s' = lraw s. Proof. intros S. destruct (sr_regs _ _ _ S) as [E _]. injection E. auto. Qed.
Lemma SR_lpos s s' : SR LP s s' -> PE (lpos s) (lpos s'). Proof. intros S. exact (proj2 (sr_regs _ _ _ S)). Qed.
Lemma g_lraw : Rl eq (gets lraw) (gets lraw). Proof. apply Rel_gets. intros s s' S. symmetry. apply SR_lraw, S. Qed.
Lemma g_ltok : Rl eq (gets ltok) (gets ltok). Proof. apply Rel_gets. intros s s' S. symmetry. apply SR_ltok, S. Qed.
Lemma g_ltext : Rl eq (gets ltext) (gets ltext). Proof. apply Rel_gets. intros s s' S. symmetry. apply SR_ltext, S. Qed.
Hint Resolve g_fuel g_mode g_lraw g_ltok g_ltext : sim.

(** ** Lexer *)
Lemma g_lpos : Rl PE (gets lpos) (gets lpos). Proof. apply Rel_gets. exact SR_lpos. Qed.
Lemma x_Next : Rl eq Next Next. Proof. intros s s' S. exact (next_any _ _ _ S). Qed.
Hint Resolve g_lpos x_Next : sim.
Lemma x_NextN n : Rl eq (NextN n) (NextN n). Proof. induction n as [|n IH]; cbn [NextN]; sim. Qed.
Lemma x_mode m : Rl eq (nextWithSpecificMode m) (nextWithSpecificMode m).
Proof.
  unfold nextWithSpecificMode. sim0. eapply (Rel_bind _ eq); [apply Rel_modify; intros s s' S; apply SR_mode, S|simi]. sim0. apply Rel_modify. intros s s' S. apply SR_mode, S.
Qed.
Lemma x_NextKeywordOrStrLit : Rl eq NextKeywordOrStrLit NextKeywordOrStrLit. Proof. apply x_mode. Qed.
Lemma x_NextKeyword : Rl eq NextKeyword NextKeyword. Proof. apply x_mode. Qed.
Lemma x_NextStrLit : Rl eq NextStrLit NextStrLit. Proof. apply x_mode. Qed.
Lemma x_NextLit : Rl eq NextLit NextLit. Proof. apply x_mode. Qed.
Lemma x_NextNumberLit : Rl eq NextNumberLit NextNumberLit. Proof. apply x_mode. Qed.
Lemma x_NextComment : Rl eq NextComment NextComment. Proof. apply x_mode. Qed.
Lemma x_UnNext : Rl eq UnNext UnNext.
Proof. apply Rel_modify. intros s s' S. apply SR_UnScan in S. cbn zeta. pose proof (SR_ltext _ _ S) as E1. pose proof (SR_lraw _ _ S) as E2. destruct S. constructor; cbn; auto. split; cbn; [congruence|assumption]. Qed.
Hint Resolve x_NextN x_NextKeywordOrStrLit x_NextKeyword x_NextStrLit x_NextLit x_NextNumberLit x_NextComment x_UnNext : sim.
Lemma x_UnNextTo r : Rl eq (UnNextTo r) (UnNextTo r).
Proof. unfold UnNextTo. eapply (Rel_bind _ eq); [apply Rel_modify; intros s s' S; apply SR_raw, S|simi]. sim. Qed.
Lemma x_lex_IsEOF : Rl eq lex_IsEOF lex_IsEOF. Proof. apply Rel_gets. intros s s' S. rewrite (SR_ltok _ _ S). reflexivity. Qed.
Lemma x_Peek : Rl eq Peek Peek. Proof. unfold Peek. sim. Qed.
Lemma x_nexts_raw n : forall l, Rl eq (nexts_raw n l) (nexts_raw n l). Proof. induction n as [|n IH]; intros l; cbn [nexts_raw]; sim. Qed.
Hint Resolve x_UnNextTo x_lex_IsEOF x_Peek x_nexts_raw : sim.
Lemma x_unnext_all l : Rl eq (unnext_all l) (unnext_all l). Proof. induction l as [|r l IH]; cbn [unnext_all]; sim. Qed.
Hint Resolve x_unnext_all : sim.
Lemma x_PeekN n : Rl eq (PeekN n) (PeekN n). Proof. unfold PeekN. sim. Qed.
Lemma x_ConsumeToken t : Rl eq (ConsumeToken t) (ConsumeToken t). Proof. unfold ConsumeToken. sim. Qed.
Lemma x_l_unexpected {A} (RA : A -> A -> Prop) x : Rl RA (l_unexpected x) (l_unexpected x).
Proof. intros s s' S. cbn. split; [|exact S]. pose proof (SR_ltok _ _ S). pose proof (SR_ltext _ _ S). pose proof (SR_lpos _ _ S). unfold ER. cbn. unfold PE in *. congruence. Qed.
Hint Resolve x_PeekN x_ConsumeToken x_l_unexpected : sim.
Lemma x_ReadEmptyStatement : Rl eq ReadEmptyStatement ReadEmptyStatement. Proof. unfold ReadEmptyStatement. sim. Qed.
Lemma x_fullIdent_loop n : forall l, Rl eq (fullIdent_loop n l) (fullIdent_loop n l). Proof. induction n as [|n IH]; intros l; cbn [fullIdent_loop]; sim. Qed.
Lemma x_messageType_loop n : forall l, Rl eq (messageType_loop n l) (messageType_loop n l). Proof. induction n as [|n IH]; intros l; cbn [messageType_loop]; sim. Qed.
Hint Resolve x_ReadEmptyStatement x_fullIdent_loop x_messageType_loop : sim.
(** a text and its position *)
Definition XP (x x' : str * mpos) : Prop := fst x' = fst x /\ PE (snd x) (snd x').
Lemma XP_intro x p p' : PE p p' -> XP (x, p) (x, p'). Proof. intros H. split; [reflexivity|exact H]. Qed.
Ltac simx := sim; try (apply XP_intro; assumption).
Lemma x_ReadFullIdent : Rl XP ReadFullIdent ReadFullIdent. Proof. unfold ReadFullIdent. simx. Qed.
Lemma x_ReadMessageType : Rl XP ReadMessageType ReadMessageType. Proof. unfold ReadMessageType. simx. Qed.
Lemma x_merge_loop n q : forall l, Rl eq (merge_loop n q l) (merge_loop n q l). Proof. induction n as [|n IH]; intros l; cbn [merge_loop]; sim. Qed.
Hint Resolve x_ReadFullIdent x_ReadMessageType x_merge_loop : sim.
Lemma x_mergeMultilineStrLit : Rl eq mergeMultilineStrLit mergeMultilineStrLit. Proof. unfold mergeMultilineStrLit. sim. Qed.
Hint Resolve x_mergeMultilineStrLit : sim.
Lemma x_ReadConstant perm : Rl XP (ReadConstant perm) (ReadConstant perm). Proof. unfold ReadConstant. simx. Qed.
Hint Resolve x_ReadConstant : sim.

(** ** Parser *)
Definition MC (c c' : comment) : Prop := map_comment g c' = map_comment f c.
Definition MCs (c c' : list comment) : Prop := map (map_comment g) c' = map (map_comment f) c.
Definition MO (c c' : option comment) : Prop := option_map (map_comment g) c' = option_map (map_comment f) c.
Lemma x_p_unexpected {A} (RA : A -> A -> Prop) x : Rl RA (p_unexpected x) (p_unexpected x).
Proof. intros s s' S. cbn. split; [|exact S]. pose proof (SR_ltok _ _ S). pose proof (SR_ltext _ _ S). pose proof (SR_lpos _ _ S). unfold ER. cbn. unfold PE in *. congruence. Qed.
Hint Resolve x_p_unexpected : sim.
Lemma x_expect t x : Rl eq (expect t x) (expect t x). Proof. unfold expect. sim. Qed.
Hint Resolve x_expect : sim.
Lemma x_p_IsEOF : Rl eq p_IsEOF p_IsEOF. Proof. unfold p_IsEOF. sim. Qed.
Lemma x_peekKeyword : Rl eq peekKeyword peekKeyword. Proof. unfold peekKeyword. sim. Qed.
Hint Resolve x_p_IsEOF x_peekKeyword : sim.
Lemma adv_all l : forall a a', PCR a a' -> PCR (fold_left Advance l a) (fold_left Advance l a').
Proof. induction l as [|c l IH]; intros a a' H; [exact H|]. cbn [fold_left]. apply IH, PE_adv, H. Qed.
Lemma x_mk_comment p p' l : PE p p' -> Rl MC (mk_comment p l) (mk_comment p' l).
Proof.
  intros H s s' S. unfold mk_comment. assert (X : PCR (AdvancedBulk p (cols s) l) (AdvancedBulk p' (cols s') l)).
  { apply PE_rev, adv_all. split; [exact H|exact (sr_cols _ _ _ S)]. }
  destruct (AdvancedBulk p (cols s) l) as [q c], (AdvancedBulk p' (cols s') l) as [q' c']. destruct X as [X1 X2]. cbn in X1, X2. split.
  - unfold MC, map_comment, map_meta. cbn. unfold PE in *. congruence.
  - apply SR_pc; [exact S|]. split; [exact (sr_pos _ _ _ S)|exact X2].
Qed.
Hint Resolve x_mk_comment : sim.
Lemma x_parseComment : Rl MC parseComment parseComment.
Proof.
  unfold parseComment. do 2 sim0. destruct (tok_eqb _ TCOMMENT); [sim|]. intros s s' S. pose proof (x_UnNext _ _ S) as U. unfold bind. destruct (UnNext s) as [[a1|e| |] t], (UnNext s') as [[a2|e'| |] t']; try destruct U; auto.
  cbn. split; [|assumption]. pose proof (SR_ltok _ _ S). pose proof (SR_ltext _ _ S). pose proof (SR_lpos _ _ S). unfold ER. cbn. unfold PE in *. congruence.
Qed.
Hint Resolve x_parseComment : sim.
Lemma MCs_snoc l l' c c' : MCs l l' -> MC c c' -> MCs (l ++ [c]) (l' ++ [c']).
Proof. unfold MCs, MC. intros H E. rewrite !map_app. cbn. congruence. Qed.
Lemma x_parseComments_loop n : forall l l', MCs l l' -> Rl MCs (parseComments_loop n l) (parseComments_loop n l').
Proof. induction n as [|n IH]; intros l l' H; cbn [parseComments_loop]; sim. apply IH. apply MCs_snoc; assumption. Qed.
Lemma x_ParseComments : Rl MCs ParseComments ParseComments.
Proof. unfold ParseComments. sim0. apply x_parseComments_loop. reflexivity. Qed.
Lemma x_mk_comments : forall l l', Forall2 TR l l' -> Rl MCs (mk_comments l) (mk_comments l').
Proof.
  induction 1 as [|a a' l l' [L P] F IH]; cbn [mk_comments]; [apply Rel_ret; reflexivity|]. rewrite L. sim. unfold MCs, MC in *. cbn. congruence.
Qed.
Lemma x_findEmbeddedComments p q p' q' : PE p p' -> PE q q' -> Rl MCs (findEmbeddedComments p q) (findEmbeddedComments p' q').
Proof.
  intros H K. unfold findEmbeddedComments. eapply (Rel_bind _ (Forall2 TR)); [|intros l l'; apply x_mk_comments]. apply Rel_gets. intros s s' S.
  unfold FindMidComments, GetScannedComments. pose proof (CM_unique _ _ (sr_com _ _ _ S)) as C. unfold UC in C. induction C as [|a a' l l' [L P] F IH]; [constructor|]. cbn [filter].
  rewrite (PE_off _ _ H), (PE_off _ _ K) in *. rewrite (PE_off _ _ P).
  replace (Offset p + dz <? Offset (TPos a) + dz)%Z with (Offset p <? Offset (TPos a))%Z by (destruct (Z.ltb_spec (Offset p) (Offset (TPos a))); symmetry; [apply Z.ltb_lt|apply Z.ltb_ge]; lia).
  replace (Offset (TPos a) + dz <? Offset q + dz)%Z with (Offset (TPos a) <? Offset q)%Z by (destruct (Z.ltb_spec (Offset (TPos a)) (Offset q)); symmetry; [apply Z.ltb_lt|apply Z.ltb_ge]; lia).
  destruct (_ && _); [constructor; [split; assumption|exact IH]|exact IH].
Qed.
Hint Resolve x_ParseComments x_findEmbeddedComments : sim.
Lemma x_parseInlineComment : Rl MO parseInlineComment parseInlineComment.
Proof.
  unfold parseInlineComment. eapply Rel_bind; [simleaf|]. intros p p' H. eapply Rel_try; [simleaf| |].
  - intros c c' HC. assert (EL : PE (Pos (c_meta c)) (Pos (c_meta c'))). { unfold MC, map_comment, map_meta in HC. unfold PE. congruence. }
    rewrite (PE_line _ _ _ _ H EL). destruct (negb _); sim. unfold MO, MC in *. cbn. congruence.
  - intros e e' HE. apply Rel_ret. reflexivity.
Qed.
Hint Resolve x_parseInlineComment : sim.
Definition OR {A} (RA : A -> A -> Prop) (x x' : option A) : Prop := match x, x' with Some a, Some a' => RA a a' | None, None => True | _, _ => False end.
Lemma x_MaybeScanInlineComment {A} (RA : A -> A -> Prop) set x x' : RA x x' -> (forall c c', MC c c' -> OR RA (set c x) (set c' x')) ->
  Rl RA (MaybeScanInlineComment set x) (MaybeScanInlineComment set x').
Proof.
  intros H K. unfold MaybeScanInlineComment. eapply Rel_bind; [simleaf|]. intros [c|] [c'|] HC; try discriminate HC; [|apply Rel_ret; exact H].
  assert (HM : MC c c') by (unfold MO, MC in *; cbn in HC; congruence). specialize (K _ _ HM). destruct (set c x), (set c' x'); try destruct K; [apply Rel_ret; exact K|apply Rel_panic].
Qed.
Lemma x_parseParenName perm x : Rl eq (parseParenName perm x) (parseParenName perm x).
Proof.
  unfold parseParenName. eapply (Rel_bind _ eq); [sim|simi]. eapply Rel_bind; [simleaf|]. intros [fi p] [fi' p'] [E P]. cbn in E. subst fi'. sim.
Qed.
Hint Resolve x_parseParenName : sim.
Lemma x_optionName_loop perm n : forall l, Rl eq (optionName_loop perm n l) (optionName_loop perm n l). Proof. induction n as [|n IH]; intros l; cbn [optionName_loop]; sim. Qed.
Hint Resolve x_optionName_loop : sim.
Lemma x_parseOptionName perm : Rl eq (parseOptionName perm) (parseOptionName perm). Proof. unfold parseOptionName. sim. Qed.
Hint Resolve x_parseOptionName : sim.
Lemma x_cloud_loop perm pc n : Rl eq pc pc -> forall l, Rl eq (cloud_loop perm pc n l) (cloud_loop perm pc n l).
Proof. intros H. induction n as [|n IH]; intros l; cbn [cloud_loop]; sim. Qed.
Lemma x_cloud perm pc n : Rl eq pc pc -> Rl eq (parseCloudEndpointsOptionConstant perm pc n) (parseCloudEndpointsOptionConstant perm pc n).
Proof. intros H. unfold parseCloudEndpointsOptionConstant. sim. apply x_cloud_loop, H. Qed.
Lemma x_constants_loop pc n : Rl eq pc pc -> forall l, Rl eq (constants_loop pc n l) (constants_loop pc n l).
Proof. intros H. induction n as [|n IH]; intros l; cbn [constants_loop]; sim. Qed.
Lemma x_constants pc n : Rl eq pc pc -> Rl eq (parseOptionConstants pc n) (parseOptionConstants pc n).
Proof. intros H. unfold parseOptionConstants. sim0. eapply Rel_bind; [apply x_constants_loop, H|simi]. sim. Qed.
Lemma x_parseOptionConstant perm n : Rl eq (parseOptionConstant perm n) (parseOptionConstant perm n).
Proof.
  induction n as [|n IH]; cbn [parseOptionConstant]; [sim|]. sim0.
  assert (D : Rl eq (c <- ReadConstant perm;; ret (fst c)) (c <- ReadConstant perm;; ret (fst c))).
  { eapply Rel_bind; [simleaf|]. intros [x p] [x' p'] [E P]. cbn in E. subst x'. sim. }
  destruct a; try exact D; clear D.
  - sim. apply x_cloud, IH.
  - sim. eapply Rel_bind; [apply x_constants, IH|simi]. sim.
Qed.
Hint Resolve x_parseOptionConstant : sim.
Lemma x_parseConstant perm : Rl eq (parseConstant perm) (parseConstant perm). Proof. unfold parseConstant. sim. Qed.
Hint Resolve x_parseConstant : sim.

Ltac mp := unfold PE, MC, MCs, MO in *; cbn; repeat rewrite map_app; cbn; congruence.
Notation Eq h := (fun a a' => h g a' = h f a).
Definition MOp : option_ -> option_ -> Prop := Eq map_option.
Lemma x_ParseOption perm : Rl MOp (ParseOption perm) (ParseOption perm).
Proof. unfold ParseOption. sim. unfold MOp, map_option, map_meta. mp. Qed.
Definition MSy : option syntax -> option syntax -> Prop := fun a a' => option_map (map_syntax g) a' = option_map (map_syntax f) a.
Lemma x_ParseSyntax : Rl MSy ParseSyntax ParseSyntax.
Proof. unfold ParseSyntax. sim. unfold MSy, map_syntax, map_meta. mp. Qed.
Definition MEd : option edition -> option edition -> Prop := fun a a' => option_map (map_edition g) a' = option_map (map_edition f) a.
Lemma x_ParseEdition : Rl MEd ParseEdition ParseEdition.
Proof. unfold ParseEdition. sim. unfold MEd, map_edition, map_meta. mp. Qed.
Lemma x_ParseImport : Rl (Eq map_import) ParseImport ParseImport.
Proof. unfold ParseImport. sim. all: unfold map_import, map_meta; mp. Qed.
Lemma x_or_unexpected {A} (RA : A -> A -> Prop) m m' x : Rl RA m m' -> Rl RA (or_unexpected m x) (or_unexpected m' x).
Proof. intros H. unfold or_unexpected. eapply Rel_try; [exact H| |]; intros; sim. Qed.
Hint Resolve x_or_unexpected x_ParseOption : sim.
Lemma x_ParsePackage : Rl (Eq map_package) ParsePackage ParsePackage.
Proof. unfold ParsePackage. do 3 sim0. eapply Rel_bind; [simleaf|]. intros [x p] [x' p'] [E P]. cbn in E. subst x'. sim. unfold map_package, map_meta. mp. Qed.
Lemma x_parseType : Rl XP parseType parseType. Proof. unfold parseType. simx. Qed.
Lemma x_parseFieldNumber : Rl eq parseFieldNumber parseFieldNumber. Proof. unfold parseFieldNumber. sim. Qed.
Lemma x_parseFieldOption perm : Rl eq (parseFieldOption perm) (parseFieldOption perm). Proof. unfold parseFieldOption. sim. Qed.
Hint Resolve x_parseType x_parseFieldNumber x_parseFieldOption : sim.
Lemma x_fieldOptions_loop perm n : forall l, Rl eq (fieldOptions_loop perm n l) (fieldOptions_loop perm n l). Proof. induction n as [|n IH]; intros l; cbn [fieldOptions_loop]; sim. Qed.
Hint Resolve x_fieldOptions_loop : sim.
Lemma x_parseFieldOptions perm : Rl eq (parseFieldOptions perm) (parseFieldOptions perm). Proof. unfold parseFieldOptions. sim. Qed.
Hint Resolve x_parseFieldOptions : sim.
Lemma x_parseFieldOptionsOption perm : Rl eq (parseFieldOptionsOption perm) (parseFieldOptionsOption perm). Proof. unfold parseFieldOptionsOption. sim. Qed.
Hint Resolve x_parseFieldOptionsOption : sim.
Definition LB (x x' : mpos * (bool * bool * bool)) : Prop := snd x' = snd x /\ PE (fst x) (fst x').
Lemma x_parseLabel : Rl LB parseLabel parseLabel. Proof. unfold parseLabel. sim. all: split; [reflexivity|assumption]. Qed.
Hint Resolve x_parseLabel : sim.
Ltac xp := eapply Rel_bind; [simleaf|]; let x := fresh "x" in let p := fresh "p" in let x' := fresh "x" in let p' := fresh "p" in let E := fresh "E" in let P := fresh "P" in
  intros [x p] [x' p'] [E P]; cbn in E, P; subst x'.
Ltac lb := eapply Rel_bind; [simleaf|]; let p := fresh "p" in let x := fresh "x" in let p' := fresh "p" in let E := fresh "E" in let P := fresh "P" in
  intros [p [[? ?] ?]] [p' x] [E P]; cbn in E, P; subst x.
Lemma x_ParseField perm : Rl (Eq map_field) (ParseField perm) (ParseField perm).
Proof. unfold ParseField. lb. xp. sim. unfold map_field, map_meta. mp. Qed.
Lemma x_parseKeyType : Rl eq parseKeyType parseKeyType. Proof. unfold parseKeyType. sim. Qed.
Hint Resolve x_ParseField x_parseKeyType : sim.
Lemma x_ParseMapField perm : Rl (Eq map_mapField) (ParseMapField perm) (ParseMapField perm).
Proof. unfold ParseMapField. do 8 sim0. xp. sim. unfold map_mapField, map_meta. mp. Qed.
Lemma x_deferUnNext {A} (RA : A -> A -> Prop) m m' : Rl RA m m' -> Rl RA (deferUnNext m) (deferUnNext m').
Proof. intros H. unfold deferUnNext. sim0. eapply Rel_bind; [exact H|]. intros x x' HX. sim. Qed.
Lemma x_peekIsGroup_tail : Rl eq peekIsGroup_tail peekIsGroup_tail.
Proof. unfold peekIsGroup_tail. sim0. repeat first [apply x_deferUnNext|sim0]. Qed.
Hint Resolve x_peekIsGroup_tail : sim.
Lemma x_peekIsGroup : Rl eq peekIsGroup peekIsGroup.
Proof. unfold peekIsGroup. sim. all: apply x_deferUnNext; sim. Qed.
Lemma x_blockEnd perm : Rl PE (blockEnd perm) (blockEnd perm). Proof. unfold blockEnd. sim. Qed.
Hint Resolve x_peekIsGroup x_blockEnd : sim.
Definition MOf : oneofField -> oneofField -> Prop := Eq map_oneofField.
Lemma x_parseOneofField perm : Rl MOf (parseOneofField perm) (parseOneofField perm).
Proof. unfold parseOneofField. xp. sim. unfold MOf, map_oneofField, map_meta. mp. Qed.
Hint Resolve x_parseOneofField : sim.
Definition MFs (a a' : list oneofField * list option_) : Prop :=
  map (map_oneofField g) (fst a') = map (map_oneofField f) (fst a) /\ map (map_option g) (snd a') = map (map_option f) (snd a).
Lemma x_oneof_loop perm n : forall a b a' b', MFs (a, b) (a', b') -> Rl MFs (oneof_loop perm n a b) (oneof_loop perm n a' b').
Proof.
  induction n as [|n IH]; intros a b a' b' H; cbn [oneof_loop]; [sim|]. eapply Rel_bind; [simleaf|]. intros cs cs' HC. eapply Rel_try; [simleaf| |]; [intros; apply IH; exact H|]. intros e e' _. sim0.
  eapply (Rel_bind _ MFs).
  - destruct (tok_eqb a0 TOPTION).
    + eapply Rel_bind; [simleaf|]. intros o o' HO. eapply (Rel_bind _ MOp); [|].
      * apply x_MaybeScanInlineComment; [unfold MOp, set_op_comments, map_option in *; cbn in *; unfold MCs in HC; congruence|]. intros c c' HM. unfold OR, total_set, MOp, set_op_inline, set_op_comments, map_option in *. cbn in *. unfold MC, MCs in *. congruence.
      * intros o1 o1' H1. apply Rel_ret. destruct H as [H H']. unfold MFs, MOp in *. cbn in *. rewrite !map_app. cbn. split; congruence.
    + eapply Rel_bind; [simleaf|]. intros o o' HO. eapply (Rel_bind _ MOf); [|].
      * apply x_MaybeScanInlineComment; [unfold MOf, set_oof_comments, map_oneofField in *; cbn in *; unfold MCs in HC; congruence|]. intros c c' HM. unfold OR, total_set, MOf, set_oof_inline, set_oof_comments, map_oneofField in *. cbn in *. unfold MC, MCs in *. congruence.
      * intros o1 o1' H1. apply Rel_ret. destruct H as [H H']. unfold MFs, MOf in *. cbn in *. rewrite !map_app. cbn. split; congruence.
  - intros [x y] [x' y'] H1. sim.
Qed.
Lemma x_ParseOneof perm : Rl (Eq map_oneof) (ParseOneof perm) (ParseOneof perm).
Proof.
  unfold ParseOneof. do 10 sim0. eapply Rel_bind; [apply x_oneof_loop; split; reflexivity|]. intros [x y] [x' y'] [H1 H2]. cbn in H1, H2. sim. unfold map_oneof, map_meta. mp.
Qed.
Lemma x_parseRange : Rl eq parseRange parseRange. Proof. unfold parseRange. sim. Qed.
Hint Resolve x_parseRange : sim.
Lemma x_ranges_loop n : forall l, Rl eq (ranges_loop n l) (ranges_loop n l). Proof. induction n as [|n IH]; intros l; cbn [ranges_loop]; sim. Qed.
Hint Resolve x_ranges_loop : sim.
Lemma x_parseRanges : Rl eq parseRanges parseRanges. Proof. unfold parseRanges. sim. Qed.
Lemma x_parseQuotedFieldName : Rl eq parseQuotedFieldName parseQuotedFieldName. Proof. unfold parseQuotedFieldName. sim. Qed.
Hint Resolve x_parseRanges x_parseQuotedFieldName : sim.
Lemma x_parseFieldName : Rl eq parseFieldName parseFieldName. Proof. unfold parseFieldName. sim. Qed.
Hint Resolve x_parseFieldName : sim.
Lemma x_fieldNames_loop n : forall l, Rl eq (fieldNames_loop n l) (fieldNames_loop n l). Proof. induction n as [|n IH]; intros l; cbn [fieldNames_loop]; sim. Qed.
Hint Resolve x_fieldNames_loop : sim.
Lemma x_parseFieldNames : Rl eq parseFieldNames parseFieldNames. Proof. unfold parseFieldNames. sim. Qed.
Hint Resolve x_parseFieldNames : sim.
Lemma x_ParseReserved : Rl (Eq map_reserved) ParseReserved ParseReserved.
Proof.
  unfold ParseReserved. do 3 sim0. eapply (Rel_bind _ eq).
  - eapply Rel_try; [simleaf| |]; [simi; sim|]. intros e e' HE. eapply Rel_try; [simleaf| |]; [simi; sim|]. intros e1 e1' HE1. apply Rel_fail. unfold ER in *. cbn. congruence.
  - intros [x y] ? <-. sim. unfold map_reserved, map_meta. mp.
Qed.
Lemma x_declaration_loop n : forall v, Rl eq (declaration_loop n v) (declaration_loop n v).
Proof. induction n as [|n IH]; intros v; cbn [declaration_loop]; [sim|]. do 2 sim0. destruct (tok_eqb _ _); [sim|]. eapply (Rel_bind _ eq); [sim|simi]. do 2 sim0. eapply (Rel_bind _ eq); [sim|simi]. apply IH. Qed.
Hint Resolve x_declaration_loop : sim.
Lemma x_ParseDeclaration : Rl (Eq map_declaration) ParseDeclaration ParseDeclaration.
Proof. unfold ParseDeclaration. sim. unfold map_declaration, map_meta. mp. Qed.
Hint Resolve x_ParseDeclaration : sim.
Lemma MD_assign a b a' b' x x' : MO a a' -> MO b b' -> map_declaration g x' = map_declaration f x ->
  map_declaration g (assignInlineComments x' [a'; b']) = map_declaration f (assignInlineComments x [a; b]).
Proof.
  unfold MO, assignInlineComments, map_declaration. cbn [fold_left]. intros A B X. destruct a, a', b, b'; try discriminate A; try discriminate B; cbn in *; congruence.
Qed.
Definition MDs (a a' : list declaration) : Prop := map (map_declaration g) a' = map (map_declaration f) a.
Lemma x_declarations_loop n : forall l l', MDs l l' -> Rl MDs (declarations_loop n l) (declarations_loop n l').
Proof.
  induction n as [|n IH]; intros l l' H; cbn [declarations_loop]; [sim|]. eapply Rel_bind; [simleaf|]. intros cs cs' HC. eapply Rel_bind; [simleaf|]. intros x x' HX.
  do 2 sim0. eapply Rel_bind; [simleaf|]. intros i1 i1' H1.
  assert (X : map_declaration g (set_d_comments cs' x') = map_declaration f (set_d_comments cs x)) by (unfold map_declaration, set_d_comments, MCs in *; cbn in *; congruence).
  assert (Y : forall i2 i2', MO i2 i2' -> MDs (l ++ [assignInlineComments (set_d_comments cs x) [i1; i2]]) (l' ++ [assignInlineComments (set_d_comments cs' x') [i1'; i2']])).
  { intros i2 i2' H2. unfold MDs in *. rewrite !map_app. cbn [map]. f_equal; [exact H|]. f_equal. apply MD_assign; assumption. }
  destruct (tok_eqb _ TRIGHTSQUARE); [eapply Rel_bind; [simleaf|]; intros i2 i2' H2; apply Rel_ret, Y, H2|]. destruct (negb _); [sim|].
  eapply Rel_bind; [simleaf|]. intros i2 i2' H2. apply IH, Y, H2.
Qed.
Definition MDO (a a' : list declaration * option comment) : Prop := MDs (fst a) (fst a') /\ MO (snd a) (snd a').
Lemma x_parseDeclarations : Rl MDO parseDeclarations parseDeclarations.
Proof.
  unfold parseDeclarations. do 2 sim0. destruct (negb _); [sim; split; reflexivity|]. eapply Rel_bind; [simleaf|]. intros i i' HI. sim0. eapply Rel_bind; [apply x_declarations_loop; reflexivity|].
  intros x x' HX. apply Rel_ret. split; assumption.
Qed.
Hint Resolve x_parseDeclarations : sim.
Lemma x_ParseExtensions : Rl (Eq map_extensions) ParseExtensions ParseExtensions.
Proof.
  unfold ParseExtensions. do 4 sim0. eapply Rel_bind; [simleaf|]. intros [x y] [x' y'] [H1 H2]. cbn in H1, H2. unfold MDs in H1. sim. unfold map_extensions, map_meta. mp.
Qed.
Lemma x_parseEnumValueOption perm : Rl eq (parseEnumValueOption perm) (parseEnumValueOption perm). Proof. unfold parseEnumValueOption. sim. Qed.
Hint Resolve x_parseEnumValueOption : sim.
Lemma x_enumValueOptions_loop perm n : forall l, Rl eq (enumValueOptions_loop perm n l) (enumValueOptions_loop perm n l). Proof. induction n as [|n IH]; intros l; cbn [enumValueOptions_loop]; sim. Qed.
Hint Resolve x_enumValueOptions_loop : sim.
Lemma x_parseEnumValueOptions perm : Rl eq (parseEnumValueOptions perm) (parseEnumValueOptions perm). Proof. unfold parseEnumValueOptions. sim. Qed.
Hint Resolve x_parseEnumValueOptions : sim.
Lemma x_parseEnumField perm : Rl (Eq map_enumField) (parseEnumField perm) (parseEnumField perm).
Proof. unfold parseEnumField. sim. unfold map_enumField, map_meta. mp. Qed.
Hint Resolve x_ParseImport x_ParsePackage x_ParseMapField x_ParseOneof x_ParseReserved x_ParseExtensions x_parseEnumField : sim.

(** *** Statements *)
Definition nocom (v : visitee) : Prop := match v with VComment _ => False | _ => True end.
Definition MV (v v' : visitee) : Prop := map_visitee g d' v' = map_visitee f d v.
Definition MS (v v' : visitee) : Prop := MV v v' /\ nocom v /\ nocom v'.
Definition MB (l l' : list visitee) : Prop := map_body g d' l' = map_body f d l.
Lemma MB_snoc l l' v v' : MB l l' -> MS v v' -> MB (l ++ [v]) (l' ++ [v']).
Proof.
  intros H (E & N & N'). unfold MB, MV in *. rewrite !map_body_app, H. f_equal. unfold map_body. cbn [filter]. destruct v; try destruct N; destruct v'; try destruct N'; cbn [dropped negb map]; f_equal; exact E.
Qed.
Lemma map_set_inline h e c v : option_map (map_visitee h e) (set_inline c v) = set_inline (map_comment h c) (map_visitee h e v).
Proof. destruct v; reflexivity. Qed.
Lemma map_with_comments h e cs v : nocom v -> map_visitee h e (with_comments cs v) = with_comments (map (map_comment h) cs) (map_visitee h e v).
Proof. destruct v; intros []; reflexivity. Qed.
Lemma MS_set v v' c c' : MS v v' -> MC c c' -> OR MS (set_inline c v) (set_inline c' v').
Proof.
  intros (E & N & N') H. unfold MV, MC in *. pose proof (map_set_inline f d c v) as A. pose proof (map_set_inline g d' c' v') as B. rewrite E, H in B. rewrite <- A in B.
  assert (K : forall u c0, nocom u -> match set_inline c0 u with Some w => nocom w | None => True end) by (clear; intros u c0 H; destruct u; try destruct H; exact I).
  pose proof (K v c N) as K1. pose proof (K v' c' N') as K2.
  destruct (set_inline c v), (set_inline c' v'); cbn in *; try discriminate; [|exact I]. split; [unfold MV; congruence|split; assumption].
Qed.
Lemma MS_with cs cs' v v' : MCs cs cs' -> MS v v' -> MS (with_comments cs v) (with_comments cs' v').
Proof.
  intros H (E & N & N'). split; [|split; [destruct v; exact N|destruct v'; exact N']]. unfold MV, MCs in *. rewrite !map_with_comments by assumption. congruence.
Qed.
Lemma x_inline v v' : MS v v' -> Rl MS (MaybeScanInlineComment set_inline v) (MaybeScanInlineComment set_inline v').
Proof. intros H. apply x_MaybeScanInlineComment; [exact H|]. intros c c' HC. apply MS_set; assumption. Qed.
Lemma MS_intro v v' : MV v v' -> nocom v -> nocom v' -> MS v v'. Proof. intros. split; auto. Qed.
Ltac ms := apply MS_intro; [unfold MV; cbn [map_visitee]; first [reflexivity|congruence]|exact I|exact I].
Lemma x_recoverEmpty e e' : ER e e' -> Rl MS (recoverEmpty e) (recoverEmpty e').
Proof.
  intros H. unfold recoverEmpty. sim0. eapply Rel_try; [simleaf| |].
  - intros; apply Rel_ret. ms.
  - intros e1 e1' H1. apply Rel_fail. unfold ER in *. cbn. congruence.
Qed.
(** a parse function, then its node with the comments *)
Lemma x_node {A} (RA : A -> A -> Prop) (m m' : M A) (N : A -> visitee) cs cs' : Rl RA m m' -> (forall a a', RA a a' -> MV (N a) (N a')) -> (forall a, nocom (N a)) -> MCs cs cs' ->
  Rl MS (x <- m;; ret (with_comments cs (N x))) (x <- m';; ret (with_comments cs' (N x))).
Proof. intros H K NC HC. eapply Rel_bind; [exact H|]. intros a a' HA. apply Rel_ret, MS_with; [exact HC|]. split; [apply K, HA|split; apply NC]. Qed.
Lemma x_tried {A} (RA : A -> A -> Prop) (m m' : M A) (N : A -> visitee) cs cs' : Rl RA m m' -> (forall a a', RA a a' -> MV (N a) (N a')) -> (forall a, nocom (N a)) -> MCs cs cs' ->
  Rl MS (try m (fun r => match r with inl x => ret (with_comments cs (N x)) | inr e => recoverEmpty e end)) (try m' (fun r => match r with inl x => ret (with_comments cs' (N x)) | inr e => recoverEmpty e end)).
Proof.
  intros H K NC HC. eapply Rel_try; [exact H| |].
  - intros a a' HA. apply Rel_ret, MS_with; [exact HC|]. split; [apply K, HA|split; apply NC].
  - intros e e' HE. apply x_recoverEmpty, HE.
Qed.
Definition MBR (b b' : body_result) : Prop := MB (fst (fst b)) (fst (fst b')) /\ MO (snd (fst b)) (snd (fst b')) /\ PE (snd b) (snd b').
Lemma x_close perm ilc ilc' cs cs' l l' : MO ilc ilc' -> MCs cs cs' -> MB l l' ->
  Rl MBR (Next;; lastPos <- blockEnd perm;; ret (l ++ body_comments bic cs, ilc, lastPos)) (Next;; lastPos <- blockEnd perm;; ret (l' ++ body_comments bic' cs', ilc', lastPos)).
Proof.
  intros HI HC HL. sim0. eapply Rel_bind; [simleaf|]. intros p p' HP. apply Rel_ret. split; [|split; assumption]. cbn. unfold MB in *. rewrite !map_body_app, HL. f_equal. apply Hbic, HC.
Qed.
Ltac node := apply x_node with (RA := MOp) || eapply x_node; [simleaf|intros ? ? ?H; unfold MV; cbn [map_visitee]; unfold MOp in *; congruence|intros; exact I|assumption].
Lemma x_enumBody_loop perm ilc ilc' n : MO ilc ilc' -> forall l l', MB l l' -> Rl MBR (enumBody_loop perm bic ilc n l) (enumBody_loop perm bic' ilc' n l').
Proof.
  intros HI. induction n as [|n IH]; intros l l' H; cbn [enumBody_loop]; [sim|]. eapply Rel_bind; [simleaf|]. intros cs cs' HC. sim0.
  assert (D : forall m m', Rl MS m m' -> Rl MBR (stmt <- m;; stmt <- MaybeScanInlineComment set_inline stmt;; enumBody_loop perm bic ilc n (l ++ [stmt])) (stmt <- m';; stmt <- MaybeScanInlineComment set_inline stmt;; enumBody_loop perm bic' ilc' n (l' ++ [stmt]))).
  { intros m m' HM. eapply Rel_bind; [exact HM|]. intros v v' HV. eapply Rel_bind; [apply x_inline; exact HV|]. intros w w' HW. apply IH. apply MB_snoc; assumption. }
  assert (D' : Rl MS (try (parseEnumField perm) (fun r => match r with inl f => ret (with_comments cs (VEnumField f)) | inr e => recoverEmpty e end))
     (try (parseEnumField perm) (fun r => match r with inl f => ret (with_comments cs' (VEnumField f)) | inr e => recoverEmpty e end))).
  { eapply x_tried; [simleaf| |intros; exact I|exact HC]. intros ? ? HX. unfold MV. cbn [map_visitee]. congruence. }
  destruct a; try (apply D, D'); [|apply D; clear D D'|apply D; clear D D'].
  - apply x_close; assumption.
  - node.
  - node.
Qed.
Lemma x_parseEnumBody perm : Rl MBR (parseEnumBody perm bic) (parseEnumBody perm bic').
Proof. unfold parseEnumBody. do 2 sim0. eapply Rel_bind; [simleaf|]. intros i i' HI. sim0. apply x_enumBody_loop; [exact HI|reflexivity]. Qed.
Definition MBl (b b' : block) : Prop := map_block g (map_body g d') b' = map_block f (map_body f d) b.
Lemma MBl_intro x b i b' i' p p' q q' : MB b b' -> MO i i' -> PE p p' -> PE q q' -> MBl (mkBlock x b [] None i (mkMeta p q)) (mkBlock x b' [] None i' (mkMeta p' q')).
Proof. intros H1 H2 H3 H4. unfold MBl, map_block, map_meta, MB, MO, PE in *. cbn. congruence. Qed.
Ltac body L := eapply Rel_bind; [apply L|]; intros [[? ?] ?] [[? ?] ?] (HB & HI & HP); cbn [fst snd] in HB, HI, HP; apply Rel_ret; apply MBl_intro; assumption.
Lemma x_ParseEnum perm : Rl MBl (ParseEnum perm bic) (ParseEnum perm bic').
Proof. unfold ParseEnum. do 6 sim0. body x_parseEnumBody. Qed.
Lemma x_emptyBody perm : Rl (OR PE) (emptyBody perm) (emptyBody perm).
Proof. unfold emptyBody. sim. Qed.
Hint Resolve x_emptyBody : sim.
Lemma x_extendBody_loop perm ilc ilc' n : MO ilc ilc' -> forall l l', MB l l' -> Rl MBR (extendBody_loop perm bic ilc n l) (extendBody_loop perm bic' ilc' n l').
Proof.
  intros HI. induction n as [|n IH]; intros l l' H; cbn [extendBody_loop]; [sim|]. eapply Rel_bind; [simleaf|]. intros cs cs' HC. sim0.
  assert (D : forall m m', Rl MS m m' -> Rl MBR (stmt <- m;; stmt <- MaybeScanInlineComment set_inline stmt;; extendBody_loop perm bic ilc n (l ++ [stmt])) (stmt <- m';; stmt <- MaybeScanInlineComment set_inline stmt;; extendBody_loop perm bic' ilc' n (l' ++ [stmt]))).
  { intros m m' HM. eapply Rel_bind; [exact HM|]. intros v v' HV. eapply Rel_bind; [apply x_inline; exact HV|]. intros w w' HW. apply IH. apply MB_snoc; assumption. }
  assert (D' : Rl MS (try (ParseField perm) (fun r => match r with inl f => ret (with_comments cs (VField f)) | inr e => recoverEmpty e end))
     (try (ParseField perm) (fun r => match r with inl f => ret (with_comments cs' (VField f)) | inr e => recoverEmpty e end))).
  { eapply x_tried; [simleaf| |intros; exact I|exact HC]. intros ? ? HX. unfold MV. cbn [map_visitee]. congruence. }
  destruct a; try (apply D, D'). apply x_close; assumption.
Qed.
Lemma x_parseExtendBody perm : Rl MBR (parseExtendBody perm bic) (parseExtendBody perm bic').
Proof.
  unfold parseExtendBody. do 2 sim0. eapply Rel_bind; [simleaf|]. intros i i' HI. eapply Rel_bind; [simleaf|]. intros [p|] [p'|] HP; try contradiction HP.
  - apply Rel_ret. split; [reflexivity|split; [reflexivity|exact HP]].
  - sim0. apply x_extendBody_loop; [exact HI|reflexivity].
Qed.
Lemma x_ParseExtend perm : Rl MBl (ParseExtend perm bic) (ParseExtend perm bic').
Proof. unfold ParseExtend. do 3 sim0. xp. body x_parseExtendBody. Qed.
Definition MG (b b' : groupField) : Prop := map_group g (map_body g d') b' = map_group f (map_body f d) b.
Lemma x_ParseGroupField mb mb' : Rl MBR mb mb' -> Rl MG (ParseGroupField mb) (ParseGroupField mb').
Proof.
  intros H. unfold ParseGroupField. lb. do 5 sim0. destruct (negb _); [sim|]. do 3 sim0. eapply Rel_bind; [exact H|]. intros [[? ?] ?] [[? ?] ?] (HB & HI & HP). cbn [fst snd] in HB, HI, HP. apply Rel_ret.
  unfold MG, map_group, map_meta, MB, MO, PE in *. cbn. congruence.
Qed.
Lemma x_ParseMessage_ mb mb' : Rl MBR mb mb' -> Rl MBl (ParseMessage_ mb) (ParseMessage_ mb').
Proof. intros H. unfold ParseMessage_. do 6 sim0. body H. Qed.
Ltac node2 L := eapply x_node; [apply L|intros ? ? ?; unfold MV; rewrite ?map_message, ?map_enum, ?map_extend, ?map_service; unfold MBl in *; congruence|intros; exact I|assumption].
Lemma x_messageStmt perm mb mb' t cs cs' : Rl MBR mb mb' -> MCs cs cs' -> Rl MS (messageStmt perm bic mb t cs) (messageStmt perm bic' mb' t cs').
Proof.
  intros H HC. unfold messageStmt.
  assert (D : Rl MS (isGroup <- peekIsGroup;;
    if isGroup then try (ParseGroupField mb) (fun r => match r with inl g => ret (with_comments cs (VGroupField g)) | inr e => recoverEmpty e end)
    else try (ParseField perm) (fun r => match r with inl f => ret (with_comments cs (VField f)) | inr e => recoverEmpty e end))
   (isGroup <- peekIsGroup;;
    if isGroup then try (ParseGroupField mb') (fun r => match r with inl g => ret (with_comments cs' (VGroupField g)) | inr e => recoverEmpty e end)
    else try (ParseField perm) (fun r => match r with inl f => ret (with_comments cs' (VField f)) | inr e => recoverEmpty e end))).
  { sim0. destruct a.
    - eapply x_tried; [apply x_ParseGroupField, H| |intros; exact I|exact HC]. intros ? ? HX. unfold MV. rewrite !map_groupField. unfold MG in HX. congruence.
    - eapply x_tried; [simleaf| |intros; exact I|exact HC]. intros ? ? HX. unfold MV. cbn [map_visitee]. congruence. }
  destruct t; try exact D; clear D.
  - node2 (x_ParseMessage_ _ _ H).
  - node2 x_ParseExtend.
  - node.
  - node.
  - node.
  - node.
  - node.
  - node2 x_ParseEnum.
Qed.
Lemma x_messageBody_loop perm mb mb' ilc ilc' n : Rl MBR mb mb' -> MO ilc ilc' -> forall l l', MB l l' -> Rl MBR (messageBody_loop perm bic mb ilc n l) (messageBody_loop perm bic' mb' ilc' n l').
Proof.
  intros HM HI. induction n as [|n IH]; intros l l' H; cbn [messageBody_loop]; [sim|]. eapply Rel_bind; [simleaf|]. intros cs cs' HC. sim0.
  assert (D : forall m m', Rl MS m m' -> Rl MBR (stmt <- m;; stmt <- MaybeScanInlineComment set_inline stmt;; messageBody_loop perm bic mb ilc n (l ++ [stmt])) (stmt <- m';; stmt <- MaybeScanInlineComment set_inline stmt;; messageBody_loop perm bic' mb' ilc' n (l' ++ [stmt]))).
  { intros m m' HS. eapply Rel_bind; [exact HS|]. intros v v' HV. eapply Rel_bind; [apply x_inline; exact HV|]. intros w w' HW. apply IH. apply MB_snoc; assumption. }
  destruct a; try (apply D, x_messageStmt; assumption). apply x_close; assumption.
Qed.
Lemma x_parseMessageBody perm n : Rl MBR (parseMessageBody perm bic n) (parseMessageBody perm bic' n).
Proof.
  induction n as [|n IH]; cbn [parseMessageBody]; [sim|]. do 2 sim0. eapply Rel_bind; [simleaf|]. intros i i' HI. eapply Rel_bind; [simleaf|]. intros [p|] [p'|] HP; try contradiction HP.
  - apply Rel_ret. split; [reflexivity|split; [reflexivity|exact HP]].
  - apply x_messageBody_loop; [exact IH|exact HI|reflexivity].
Qed.
Lemma x_ParseMessage perm n : Rl MBl (ParseMessage perm bic n) (ParseMessage perm bic' n).
Proof. apply x_ParseMessage_, x_parseMessageBody. Qed.
Definition MOs (a a' : list option_) : Prop := map (map_option g) a' = map (map_option f) a.
Lemma x_rpcOptions_loop perm n : forall l l', MOs l l' -> Rl MOs (rpcOptions_loop perm n l) (rpcOptions_loop perm n l').
Proof.
  induction n as [|n IH]; intros l l' H; cbn [rpcOptions_loop]; [sim|]. sim0. eapply (Rel_bind _ MOs).
  - assert (D : Rl MOs (ReadEmptyStatement;; ret l) (ReadEmptyStatement;; ret l')) by sim. destruct a; try exact D; [sim|]. eapply Rel_bind; [simleaf|]. intros o o' HO. apply Rel_ret. unfold MOs, MOp in *. rewrite !map_app. cbn. congruence.
  - intros o o' HO. sim.
Qed.
Definition MOO (a a' : list option_ * option comment) : Prop := MOs (fst a) (fst a') /\ MO (snd a) (snd a').
Lemma x_parseRPCOptions perm : Rl MOO (parseRPCOptions perm) (parseRPCOptions perm).
Proof.
  unfold parseRPCOptions. do 2 sim0. eapply Rel_bind; [simleaf|]. intros i i' HI. sim0. eapply Rel_bind; [apply x_rpcOptions_loop; reflexivity|]. intros o o' HO. apply Rel_ret. split; assumption.
Qed.
Definition MP : rpcParam -> rpcParam -> Prop := Eq map_param.
Lemma x_parseRPCParam : Rl MP parseRPCParam parseRPCParam.
Proof. unfold parseRPCParam. do 5 sim0. eapply (Rel_bind _ eq); [sim|simi]. xp. sim. unfold MP, map_param, map_meta. mp. Qed.
Hint Resolve x_parseRPCOptions x_parseRPCParam : sim.
Definition MR3 (a a' : list option_ * option comment * mpos) : Prop := MOO (fst a) (fst a') /\ PE (snd a) (snd a').
Lemma x_parseRPC perm : Rl (Eq map_rpc) (parseRPC perm) (parseRPC perm).
Proof.
  unfold parseRPC. do 6 sim0. eapply Rel_bind; [simleaf|]. intros rq rq' HQ. do 2 sim0. eapply Rel_bind; [simleaf|]. intros rs rs' HR. sim0. eapply Rel_bind; [simleaf|]. intros p p' HP.
  eapply Rel_bind; [apply x_findEmbeddedComments; assumption|]. intros em em' HE. sim0. eapply (Rel_bind _ MR3).
  - match goal with |- Rl _ (match ?t with _ => _ end) _ => destruct t end; try (apply x_p_unexpected).
    + apply Rel_ret. split; [split; reflexivity|exact HP].
    + sim0. eapply Rel_bind; [simleaf|]. intros [o i] [o' i'] [HO HI]. eapply Rel_bind; [simleaf|]. intros q q' HQ'. apply Rel_ret. split; [split|]; assumption.
  - intros [[o i] q] [[o' i'] q'] [[HO HI] HQ']. cbn [fst snd] in *. apply Rel_ret. unfold map_rpc, map_meta. unfold MOs, MP in *. mp.
Qed.
Hint Resolve x_parseRPC : sim.
Lemma x_serviceBody_loop perm ilc ilc' n : MO ilc ilc' -> forall l l', MB l l' -> Rl MBR (serviceBody_loop perm bic ilc n l) (serviceBody_loop perm bic' ilc' n l').
Proof.
  intros HI. induction n as [|n IH]; intros l l' H; cbn [serviceBody_loop]; [sim|]. eapply Rel_bind; [simleaf|]. intros cs cs' HC. sim0.
  assert (D : forall m m', Rl MS m m' -> Rl MBR (stmt <- m;; stmt <- MaybeScanInlineComment set_inline stmt;; serviceBody_loop perm bic ilc n (l ++ [stmt])) (stmt <- m';; stmt <- MaybeScanInlineComment set_inline stmt;; serviceBody_loop perm bic' ilc' n (l' ++ [stmt]))).
  { intros m m' HS. eapply Rel_bind; [exact HS|]. intros v v' HV. eapply Rel_bind; [apply x_inline; exact HV|]. intros w w' HW. apply IH. apply MB_snoc; assumption. }
  assert (D' : Rl MS (ReadEmptyStatement;; ret (VEmpty (mkEmpty None))) (ReadEmptyStatement;; ret (VEmpty (mkEmpty None)))). { sim0. apply Rel_ret. ms. }
  destruct a; try (apply D, D'); [|apply D; clear D D'|apply D; clear D D'].
  - apply x_close; assumption.
  - node.
  - node.
Qed.
Lemma x_parseServiceBody perm : Rl MBR (parseServiceBody perm bic) (parseServiceBody perm bic').
Proof. unfold parseServiceBody. do 2 sim0. eapply Rel_bind; [simleaf|]. intros i i' HI. sim0. apply x_serviceBody_loop; [exact HI|reflexivity]. Qed.
Lemma x_ParseService perm : Rl MBl (ParseService perm bic) (ParseService perm bic').
Proof. unfold ParseService. do 6 sim0. body x_parseServiceBody. Qed.

(** *** Files *)
Definition MPS (a a' : list visitee * visitee) : Prop := MB (fst a) (fst a') /\ MS (snd a) (snd a').
Lemma x_pnode {A} (m m' : M A) (N : A -> visitee) cs cs' : Rl MS (x <- m;; ret (with_comments cs (N x))) (x <- m';; ret (with_comments cs' (N x))) ->
  Rl MPS (x <- m;; ret ([], with_comments cs (N x))) (x <- m';; ret ([], with_comments cs' (N x))).
Proof.
  intros H s s' S. specialize (H s s' S). unfold bind, ret in *. destruct (m s) as [[a|e| |] t], (m' s') as [[a'|e'| |] t']; try exact H. destruct H as [H1 H2]. split; [split; [reflexivity|exact H1]|exact H2].
Qed.
Lemma x_protoStmt perm n t cs cs' : MCs cs cs' -> Rl MPS (protoStmt perm bic n t cs) (protoStmt perm bic' n t cs').
Proof.
  intros HC. unfold protoStmt.
  assert (D : Rl MPS (ReadEmptyStatement;; ret ([VEmpty (mkEmpty None)], VNil)) (ReadEmptyStatement;; ret ([VEmpty (mkEmpty None)], VNil))).
  { sim0. apply Rel_ret. split; [reflexivity|]. split; [reflexivity|split; exact I]. }
  destruct t; try exact D; clear D; apply x_pnode.
  - node2 x_ParseService.
  - node2 x_ParseMessage.
  - node2 x_ParseExtend.
  - node.
  - node.
  - node.
  - node2 x_ParseEnum.
Qed.
Lemma x_protoBody_loop perm n : forall l l', MB l l' -> Rl MB (protoBody_loop perm bic n l) (protoBody_loop perm bic' n l').
Proof.
  induction n as [|n IH]; intros l l' H; cbn [protoBody_loop]; [sim|]. eapply Rel_bind; [simleaf|]. intros cs cs' HC. sim0. destruct a.
  - apply Rel_ret. unfold MB in *. rewrite !map_body_app, H. f_equal. apply Hbic, HC.
  - sim0. eapply Rel_bind; [apply x_protoStmt, HC|]. intros [pre v] [pre' v'] [H1 H2]. cbn [fst snd] in H1, H2. eapply Rel_bind; [apply x_inline, H2|]. intros w w' HW. apply IH.
    unfold MB in *. rewrite !(map_body_app _ _ l), !(map_body_app _ _ l'), H. f_equal. apply MB_snoc; assumption.
Qed.
Definition MPr (p p' : proto) : Prop := map_proto g d' nm' p' = map_proto f d nm p.
(** ParseProto behind its first [Next], and behind ParseComments *)
Definition protoR (perm b : bool) (n : nat) (comments : list comment) : M proto :=
  syntax <- ParseSyntax;;
  syntax <- match syntax with
            | None => ret None
            | Some x =>
              x <- MaybeScanInlineComment (total_set set_sy_inline)
                     (mkSyntax (sy_version x) (sy_versionQuote x) comments (sy_inline x) (sy_meta x));;
              ret (Some x)
            end;;
  edition <- ParseEdition;;
  edition <- match edition with
             | None => ret None
             | Some x =>
               x <- MaybeScanInlineComment (total_set set_ed_inline)
                      (mkEdition (ed_edition x) (ed_editionQuote x) comments (ed_inline x) (ed_meta x));;
               ret (Some x)
             end;;
  body <- protoBody_loop perm b n [];;
  filename <- gets (fun s => Filename (lpos s));;
  ret (mkProto syntax edition body filename).
Definition protoK (perm b : bool) (n : nat) : M proto :=
  (t <- gets ltok;; if tok_eqb t TBOM then ret tt else UnNext);;
  comments <- ParseComments;; protoR perm b n comments.
Lemma proto_next perm b n s : ParseProto perm b n s = (Next;; protoK perm b n) s.
Proof. unfold ParseProto, parseBOM, protoK, protoR, bind. destruct (Next s) as [[a|e| |] t]; reflexivity. Qed.
Lemma x_protoR perm n cs cs' : MCs cs cs' -> Rl MPr (protoR perm bic n cs) (protoR perm bic' n cs').
Proof.
  intros HC. unfold protoR. eapply Rel_bind; [apply x_ParseSyntax|]. intros sy sy' HS. eapply (Rel_bind _ MSy).
  { destruct sy as [x|], sy' as [x'|]; try discriminate HS; [|apply Rel_ret; reflexivity]. eapply (Rel_bind _ (Eq map_syntax)).
    - apply x_MaybeScanInlineComment; unfold MSy, MCs, map_syntax in *; cbn in *; [congruence|]. intros c c' HM. unfold MC, map_comment in *. cbn. congruence.
    - intros y y' HY. apply Rel_ret. unfold MSy. cbn. congruence. }
  clear sy sy' HS. intros sy sy' HS. eapply Rel_bind; [apply x_ParseEdition|]. intros ed ed' HE. eapply (Rel_bind _ MEd).
  { destruct ed as [x|], ed' as [x'|]; try discriminate HE; [|apply Rel_ret; reflexivity]. eapply (Rel_bind _ (Eq map_edition)).
    - apply x_MaybeScanInlineComment; unfold MEd, MCs, map_edition in *; cbn in *; [congruence|]. intros c c' HM. unfold MC, map_comment in *. cbn. congruence.
    - intros y y' HY. apply Rel_ret. unfold MEd. cbn. congruence. }
  clear ed ed' HE. intros ed ed' HE. eapply Rel_bind; [apply x_protoBody_loop; reflexivity|]. intros b b' HB. eapply (Rel_bind _ (fun x x' => nm' x' = nm x)).
  { apply Rel_gets. intros s s' S. apply PE_name, SR_lpos, S. }
  intros x x' HN. apply Rel_ret. unfold MPr, map_proto, MSy, MEd, MB in *. cbn. congruence.
Qed.
Lemma x_protoK perm n : Rl MPr (protoK perm bic n) (protoK perm bic' n).
Proof. unfold protoK. eapply (Rel_bind _ eq); [sim|simi]. eapply Rel_bind; [simleaf|]. intros cs cs' HC. apply x_protoR, HC. Qed.
Definition Outs (o o' : res proto * st) : Prop :=
  match o, o' with
  | (Ok a, _), (Ok a', _) => MPr a a'
  | (Err e, _), (Err e', _) => ER e e'
  | (Panic, _), (Panic, _) => True
  | (Fuel, _), (Fuel, _) => True
  | _, _ => False
  end.
Theorem sim_proto perm n LR s s' : SR LR s s' -> Outs (ParseProto perm bic n s) (ParseProto perm bic' n s').
Proof.
  intros S. rewrite !proto_next. unfold bind. pose proof (next_any LR s s' S) as H. destruct (Next s) as [[a|e| |] t], (Next s') as [[a'|e'| |] t']; try contradiction H; try exact (proj1 H); try exact I.
  pose proof (x_protoK perm n _ _ (proj2 H)) as K. unfold Outs. destruct (protoK perm bic n t) as [[x|e| |] ?], (protoK perm bic' n t') as [[x'|e'| |] ?]; tauto.
Qed.
(** ParseComments sets the fields of the lexers *)
Lemma try_bind {A B C} (m : M A) (k : A -> M B) (h : B + err -> M C) s a t : m s = (Ok a, t) -> try (bind m k) h s = try (k a) h t.
Proof. intros E. unfold try, bind. rewrite E. reflexivity. Qed.
Lemma x_comments_any LR s s' t : SR LR s s' -> NextComment s = (Ok tt, t) -> after LR MCs (ParseComments s) (ParseComments s').
Proof.
  intros S E. unfold ParseComments. unfold bind, fuel_here, gets. rewrite (sr_rest _ _ _ S). set (n := List.length (rest s)). clearbody n. cbn [parseComments_loop].
  pose proof (nextm_any LR ScanComment s s' S) as H. change (nextWithSpecificMode ScanComment) with NextComment in H. rewrite E in H. destruct (NextComment s') as [[[]|e'| |] t'] eqn:E'; try contradiction H. destruct H as [_ H].
  unfold parseComment. rewrite (try_bind _ _ _ _ _ _ E), (try_bind _ _ _ _ _ _ E').
  match goal with |- after _ _ (?m t) (?m' t') => enough (K : Rl MCs m m') end.
  { specialize (K t t' H). match goal with |- after _ _ ?x ?y => destruct x as [[b|e| |] u] eqn:X, y as [[b'|e'| |] u'] eqn:Y end; try exact K; try contradiction K. cbn. clear K. exfalso. clear - X.
    match type of X with try ?m ?h _ = _ => unfold try in X; destruct (m t) as [[c|e0| |] v] end; try discriminate X. revert v X. generalize ([] ++ [c]) as l. induction n as [|n IH]; intros l v X; cbn [parseComments_loop] in X; [discriminate X|]. unfold try in X. destruct (parseComment v) as [[c0|e0| |] w]; try discriminate X. eapply IH, X. }
  eapply (Rel_try _ MC).
  - clear S s s' t t' E E' H. sim0. destruct (tok_eqb _ TCOMMENT); [sim|]. intros s s' S. pose proof (x_UnNext _ _ S) as U. unfold bind. destruct (UnNext s) as [[a1|e| |] t], (UnNext s') as [[a2|e'| |] t']; try destruct U; auto.
    cbn. split; [|assumption]. pose proof (SR_ltok _ _ S). pose proof (SR_ltext _ _ S). pose proof (SR_lpos _ _ S). unfold ER. cbn. unfold PE in *. congruence.
  - intros c c' HC. apply x_parseComments_loop. unfold MCs, MC in *. cbn. congruence.
  - intros e e' _. apply Rel_ret. reflexivity.
Qed.
End Simul.
