(** What the scanner returns depends on the text it takes and one character more. *)
From Coq Require Import List NArith ZArith Bool String Ascii Lia.
From Verif Require Import Base Token Scanner Lexing ScanRefine LexFacts LexSpec LexProofs ScanFacts ScanProps Lexer LexerFacts LookSpec.
Import ListNotations.
Open Scope N_scope.

Section Two.
Variables (b : rune) (v v' : list rune).
Notation K := (S (List.length v)).
Definition R (l l' : list rune) : Prop := exists u, l = u ++ b :: v /\ l' = u ++ b :: v'.
Lemma R_head p l l' : R l l' -> head_is p l' = head_is p l.
Proof. intros (u & -> & ->). destruct u; reflexivity. Qed.
Lemma R_len l l' : R l l' -> (K <= List.length l)%nat.
Proof. intros (u & -> & _). rewrite app_length. cbn. lia. Qed.
Lemma R_cons c l l0 : R (c :: l) l0 -> (K <= List.length l)%nat -> exists l', l0 = c :: l' /\ R l l'.
Proof.
  intros (u & E & ->) H. destruct u as [|d u]; cbn in E; injection E as -> ->; [lia|]. exists (u ++ b :: v'). split; [reflexivity|exists u; split; reflexivity].
Qed.
Lemma R_app a l l0 : R (a ++ l) l0 -> (K <= List.length l)%nat -> exists l', l0 = a ++ l' /\ R l l'.
Proof.
  revert l0. induction a as [|c a IH]; intros l0 H L; [exists l0; split; [reflexivity|exact H]|]. cbn in H. apply R_cons in H; [|rewrite app_length; lia].
  destruct H as (l1 & -> & H). destruct (IH _ H L) as (l' & -> & H'). exists l'. split; [reflexivity|exact H'].
Qed.
Lemma R_span p l l' a r : R l l' -> span p l = (a, r) -> (K <= List.length r)%nat -> exists r', span p l' = (a, r') /\ R r r'.
Proof.
  intros H E L. apply span_spec in E. destruct E as (-> & F & G). destruct (R_app _ _ _ H L) as (r' & -> & H'). exists r'. split; [|exact H'].
  apply span_exact; [exact F|]. rewrite (R_head _ _ _ H'). exact G.
Qed.
Lemma R_upto k p : forall l l' a r, R l l' -> upto k p l = (a, r) -> (K <= List.length r)%nat -> exists r', upto k p l' = (a, r') /\ R r r'.
Proof.
  induction k as [|k IH]; intros l l' a r H E L; cbn in E.
  - injection E as <- <-. exists l'. split; [reflexivity|exact H].
  - destruct l as [|c l]; [destruct H as (u & H & _); destruct u; discriminate H|]. destruct (p c) eqn:P.
    + destruct (upto k p l) as [a1 r1] eqn:E1. injection E as <- <-.
      assert (L1 : (List.length r1 <= List.length l)%nat). { clear - E1. revert l a1 r1 E1. induction k as [|k IH]; intros l a1 r1 E; cbn in E; [injection E as <- <-; lia|]. destruct l as [|c l]; [injection E as <- <-; lia|]. destruct (p c); [|injection E as <- <-; lia]. destruct (upto k p l) as [x y] eqn:E2. injection E as <- <-. apply IH in E2. cbn. lia. }
      destruct (R_cons _ _ _ H ltac:(lia)) as (l1 & -> & H1). destruct (IH _ _ _ _ H1 E1 L) as (r' & E' & H'). exists r'. cbn. rewrite P, E'. split; [reflexivity|exact H'].
    + injection E as <- <-. exists l'. split; [|exact H]. destruct H as (u & Hu & ->). destruct u as [|d u]; cbn in Hu; injection Hu as -> _; cbn; rewrite P; reflexivity.
Qed.
Lemma R_close : forall l l' x r, R l l' -> find_close l = Some (x, r) -> (K <= List.length r)%nat -> exists r', find_close l' = Some (x, r') /\ R r r'.
Proof.
  induction l as [|c l IH]; intros l' x r H E L; [discriminate|]. pose proof (find_close_app _ _ _ E) as EA.
  assert (L1 : (K <= List.length l)%nat). { pose proof (proj2 (find_close_spec _ _ _ E)) as (w & W). apply (f_equal (@List.length _)) in EA. rewrite app_length in EA. rewrite W, app_length in EA. cbn in EA. lia. }
  destruct (R_cons _ _ _ H L1) as (l1 & -> & H1). cbn [find_close] in *. pose proof (R_head (fun d => d =? ch "/") _ _ H1) as HH. unfold head_is in HH. rewrite HH.
  destruct ((c =? ch "*") && _) eqn:C.
  - destruct l as [|d l2]; [discriminate|]. injection E as <- <-. destruct (R_cons _ _ _ H1 L) as (l3 & -> & H3). exists l3. split; [reflexivity|exact H3].
  - destruct (find_close l) as [[y r1]|] eqn:F; [|discriminate]. injection E as <- <-. destruct (IH _ _ _ H1 eq_refl L) as (r' & -> & H'). exists r'. split; [reflexivity|exact H'].
Qed.

(** literals *)
Definition same_out (o o' : lout) : Prop := let '(ok, w, r) := o in (K <= List.length r)%nat -> exists r', o' = (ok, w, r') /\ R r r'.
Lemma same_cons w o o' : same_out o o' -> same_out (cons_out w o) (cons_out w o').
Proof. destruct o as [[ok x] r]. cbn. intros H L. destruct (H L) as (r' & -> & H'). exists r'. split; [reflexivity|exact H']. Qed.
Lemma R_nil l' : ~ R [] l'. Proof. intros (u & H & _). destruct u; discriminate H. Qed.
Lemma R_pexp l l' : R l l' -> same_out (pexp l) (pexp l').
Proof.
  intros H. destruct l as [|e l1]; [destruct (R_nil _ H)|]. unfold same_out. cbn [pexp].
  destruct (head_is _ l1) eqn:E1.
  - destruct l1 as [|sg l2]; [discriminate|]. destruct (span isDecimalDigit l2) as [d l3] eqn:S. intros L. pose proof (span_len _ _ _ _ S).
    destruct (R_cons _ _ _ H ltac:(cbn; lia)) as (m & -> & H1). cbn [pexp]. rewrite (R_head _ _ _ H1), E1. destruct (R_cons _ _ _ H1 ltac:(lia)) as (m2 & -> & H2).
    destruct (R_span _ _ _ _ _ H2 S L) as (r' & -> & H'). exists r'. split; [reflexivity|exact H'].
  - destruct (span isDecimalDigit l1) as [d l3] eqn:S. intros L. pose proof (span_len _ _ _ _ S).
    destruct (R_cons _ _ _ H ltac:(lia)) as (m & -> & H1). cbn [pexp]. rewrite (R_head _ _ _ H1), E1.
    destruct (R_span _ _ _ _ _ H1 S L) as (r' & -> & H'). exists r'. split; [reflexivity|exact H'].
Qed.
Lemma R_popt d l l' : R l l' -> same_out (popt_exp d l) (popt_exp d l').
Proof.
  intros H. unfold popt_exp. rewrite (R_head _ _ _ H). destruct (head_is is_e l); [|intros _; exists l'; split; [reflexivity|exact H]].
  pose proof (R_pexp _ _ H) as X. destruct (pexp l) as [[ok x] l2]. intros L. destruct (X L) as (r' & -> & H'). exists r'. split; [reflexivity|exact H'].
Qed.
Lemma popt_len d l : let '(_, _, r) := popt_exp d l in (List.length r <= List.length l)%nat.
Proof.
  unfold popt_exp. destruct (head_is is_e l); [|lia]. pose proof (pexp_app l) as X. destruct (pexp l) as [[ok x] r]. rewrite X, app_length. lia.
Qed.
Lemma R_pfrac l l' : R l l' -> same_out (pfrac l) (pfrac l').
Proof.
  intros H. unfold pfrac. destruct (span isDecimalDigit l) as [d l1] eqn:S. pose proof (popt_len d l1) as P.
  assert (X : (K <= List.length l1)%nat -> exists l1', span isDecimalDigit l' = (d, l1') /\ R l1 l1') by (intros L; apply (R_span _ _ _ _ _ H S L)).
  destruct (popt_exp d l1) as [[ok x] r] eqn:E. intros L. destruct (X ltac:(lia)) as (l1' & -> & H1). pose proof (R_popt d _ _ H1) as Y. rewrite E in Y. exact (Y L).
Qed.
Lemma R_pfracno l l' : R l l' -> same_out (pfracno l) (pfracno l').
Proof.
  intros H. unfold pfracno. destruct (span isDecimalDigit l) as [d l1] eqn:S. pose proof (popt_len d l1) as P.
  assert (X : (K <= List.length l1)%nat -> exists l1', span isDecimalDigit l' = (d, l1') /\ R l1 l1') by (intros L; apply (R_span _ _ _ _ _ H S L)).
  destruct d as [|d0 d]. { intros L. destruct (X L) as (l1' & -> & H1). exists l1'. split; [reflexivity|exact H1]. }
  destruct (popt_exp (d0 :: d) l1) as [[ok x] r] eqn:E. intros L. destruct (X ltac:(lia)) as (l1' & -> & H1). pose proof (R_popt (d0 :: d) _ _ H1) as Y. rewrite E in Y. exact (Y L).
Qed.
Lemma same_len o o' (P : Prop) : (let '(_, _, r) := o in (K <= List.length r)%nat -> P) -> (P -> same_out o o') -> same_out o o'.
Proof. destruct o as [[ok w] r]. intros H1 H2 L. exact (H2 (H1 L) L). Qed.
Definition out_len (n : nat) (o : lout) : Prop := let '(_, _, r) := o in (List.length r <= n)%nat.
Lemma len_cons w n o : out_len n o -> out_len n (cons_out w o). Proof. destruct o as [[ok x] r]. exact (fun H => H). Qed.
Lemma len_pexp l : out_len (List.length l) (pexp l).
Proof. pose proof (pexp_app l) as X. unfold out_len. destruct (pexp l) as [[ok x] r]. rewrite X, app_length. lia. Qed.
Lemma len_pfrac l : out_len (List.length l) (pfrac l).
Proof. pose proof (pfrac_app l) as X. unfold out_len. destruct (pfrac l) as [[ok x] r]. rewrite X, app_length. lia. Qed.
Lemma len_pstr n q l : out_len (List.length l) (pstr n q l).
Proof. pose proof (pstr_app n q l) as X. unfold out_len, out_app in *. destruct (pstr n q l) as [[ok x] r]. rewrite X, app_length. lia. Qed.
Lemma len_same n o o' : out_len n o -> ((K <= n)%nat -> same_out o o') -> same_out o o'.
Proof. intros H1 H2. apply (same_len _ _ (K <= n)%nat); [|exact H2]. unfold out_len in H1. destruct o as [[ok w] r]. lia. Qed.

Lemma R_pnum c l l' : R l l' -> fst (pnum c l) = fst (pnum c l') /\ same_out (snd (pnum c l)) (snd (pnum c l')) \/ forall ok w r, snd (pnum c l) = (ok, w, r) -> (List.length r < K)%nat.
Proof.
  intros H. unfold pnum. rewrite !(R_head _ _ _ H). destruct (_ && _) eqn:E0.
  { left. apply andb_true_iff in E0. destruct E0 as [_ E0]. destruct l as [|x l1]; [discriminate|]. destruct (span isHexDigit l1) as [h l2] eqn:S. destruct l' as [|x' l1']; [destruct H as (u & _ & H); destruct u; discriminate H|].
    destruct (span isHexDigit l1') as [h' l2'] eqn:S'. split; [reflexivity|]. cbn [snd same_out]. intros L. pose proof (span_len _ _ _ _ S). destruct (R_cons _ _ _ H ltac:(lia)) as (m & Em & H1). injection Em as -> ->.
    destruct (R_span _ _ _ _ _ H1 S L) as (r' & E' & H'). rewrite S' in E'. injection E' as -> ->. exists r'. split; [reflexivity|exact H']. }
  destruct (c =? ch "."). { left. split; [reflexivity|]. apply same_cons, R_pfracno, H. }
  destruct (head_is (fun c => c =? ch ".") l) eqn:E1.
  { left. destruct l as [|d l1]; [discriminate|]. destruct l' as [|d' l1']; [destruct H as (u & _ & H); destruct u; discriminate H|]. split; [reflexivity|]. cbn [snd].
    apply (len_same (List.length l1)); [apply len_cons, len_pfrac|]. intros L. destruct (R_cons _ _ _ H L) as (m & Em & H1). injection Em as -> ->. apply same_cons, R_pfrac, H1. }
  destruct (head_is is_e l). { left. split; [reflexivity|]. apply same_cons, R_pexp, H. }
  destruct (c =? ch "0").
  { left. destruct (span isOctalDigit l) as [d l1] eqn:S. destruct (span isOctalDigit l') as [d' l1'] eqn:S'. split; [reflexivity|]. cbn [snd same_out]. intros L. destruct (R_span _ _ _ _ _ H S L) as (r' & E' & H'). rewrite S' in E'. injection E' as -> ->. exists r'. split; [reflexivity|exact H']. }
  destruct (span isDecimalDigit l) as [d l1] eqn:S. destruct (le_lt_dec K (List.length l1)) as [L|L].
  - left. destruct (R_span _ _ _ _ _ H S L) as (l1' & -> & H1). rewrite !(R_head _ _ _ H1). destruct (head_is (fun c => c =? ch ".") l1) eqn:E2.
    + destruct l1 as [|dt l2]; [discriminate|]. destruct l1' as [|dt' l2']; [destruct H1 as (u & _ & H1); destruct u; discriminate H1|]. split; [reflexivity|]. cbn [snd].
      apply (len_same (List.length l2)); [apply len_cons, len_pfrac|]. intros L2. destruct (R_cons _ _ _ H1 L2) as (m & Em & H2). injection Em as -> ->. apply same_cons, R_pfrac, H2.
    + destruct (head_is is_e l1); [split; [reflexivity|]; apply same_cons, R_pexp, H1|]. split; [reflexivity|]. intros _. exists l1'. split; [reflexivity|exact H1].
  - right. intros ok w r. assert (G : forall o, out_len (List.length l1) o -> o = (ok, w, r) -> (List.length r < K)%nat) by (intros o Ho ->; cbn in Ho; lia).
    destruct (head_is _ l1) eqn:E2.
    + destruct l1 as [|dt l2]; [discriminate|]. cbn [snd]. apply G. apply len_cons. pose proof (len_pfrac l2) as X. unfold out_len in *. destruct (pfrac l2) as [[? ?] ?]. cbn. lia.
    + destruct (head_is is_e l1); cbn [snd]; apply G; [apply len_cons, len_pexp|cbn; lia].
Qed.
Lemma len_pfracno l : out_len (List.length l) (pfracno l).
Proof. pose proof (pfracno_app l) as X. unfold out_len. destruct (pfracno l) as [[ok x] r]. rewrite X, app_length. lia. Qed.
Lemma len_mono n n' o : (n <= n')%nat -> out_len n o -> out_len n' o.
Proof. unfold out_len. destruct o as [[ok x] r]. lia. Qed.
Lemma len_pnum c l : out_len (List.length l) (snd (pnum c l)).
Proof.
  unfold pnum. destruct (_ && _). { destruct l as [|x l1]; [cbn; lia|]. destruct (span isHexDigit l1) as [h l2] eqn:S. pose proof (span_len _ _ _ _ S). cbn. lia. }
  destruct (c =? ch "."). { apply len_cons, len_pfracno. }
  destruct (head_is (fun c => c =? ch ".") l). { destruct l as [|x l1]; [cbn; lia|]. apply len_cons. apply (len_mono (List.length l1)); [cbn; lia|apply len_pfrac]. }
  destruct (head_is is_e l). { apply len_cons, len_pexp. }
  destruct (c =? ch "0"). { destruct (span isOctalDigit l) as [h l2] eqn:S. pose proof (span_len _ _ _ _ S). cbn. lia. }
  destruct (span isDecimalDigit l) as [d l1] eqn:S. pose proof (span_len _ _ _ _ S). destruct (head_is (fun c => c =? ch ".") l1).
  - destruct l1 as [|x l2]; [cbn; lia|]. apply len_cons. apply (len_mono (List.length l2)); [cbn in *; lia|apply len_pfrac].
  - destruct (head_is is_e l1); [apply len_cons; apply (len_mono (List.length l1)); [lia|apply len_pexp]|cbn; lia].
Qed.
Lemma pesc_len l a r : pesc l = (a, r) -> (List.length r <= List.length l)%nat.
Proof. intros E. apply pesc_app in E. rewrite E, app_length. lia. Qed.
Lemma R_pesc l l' a r : R l l' -> pesc l = (a, r) -> (K <= List.length r)%nat -> exists r', pesc l' = (a, r') /\ R r r'.
Proof.
  intros H E L. destruct l as [|c l1]; [destruct (R_nil _ H)|]. assert (HC : exists l1', l' = c :: l1') by (destruct H as (u & Hu & ->); destruct u as [|d u]; cbn in *; injection Hu as -> _; eexists; reflexivity). destruct HC as (l1' & ->).
  assert (RC : (K <= List.length l1)%nat -> R l1 l1') by (intros L1; destruct (R_cons _ _ _ H L1) as (m & Em & H1); injection Em as ->; exact H1).
  cbn [pesc] in *. destruct (_ || _).
  - destruct (upto 2 isHexDigit l1) as [x y] eqn:U. injection E as <- <-. assert (LY : (List.length y <= List.length l1)%nat).
    { clear - U. cbn in U. destruct l1 as [|c1 l1]; [injection U as <- <-; lia|]. destruct (isHexDigit c1); [|injection U as <- <-; lia]. destruct l1 as [|c2 l1]; [injection U as <- <-; cbn; lia|]. destruct (isHexDigit c2); injection U as <- <-; cbn; lia. }
    destruct (R_upto _ _ _ _ _ _ (RC ltac:(lia)) U L) as (r' & -> & H'). exists r'. split; [reflexivity|exact H'].
  - destruct (isOctalDigit c). { exact (R_upto _ _ _ _ _ _ H E L). }
    destruct (isCharEscape c); injection E as <- <-; [exists l1'; split; [reflexivity|apply RC, L]|exists (c :: l1'); split; [reflexivity|exact H]].
Qed.
Lemma R_pstr q : forall n n' l l', (List.length l < n)%nat -> (List.length l' < n')%nat -> R l l' -> same_out (pstr n q l) (pstr n' q l').
Proof.
  induction n as [|n IH]; intros n' l l' F F' H; [lia|]. destruct n' as [|n']; [lia|]. destruct l as [|c l1]; [destruct (R_nil _ H)|].
  assert (HC : exists l1', l' = c :: l1') by (destruct H as (u & Hu & ->); destruct u as [|d u]; cbn in *; injection Hu as -> _; eexists; reflexivity). destruct HC as (l1' & ->).
  assert (RC : (K <= List.length l1)%nat -> R l1 l1') by (intros L1; destruct (R_cons _ _ _ H L1) as (m & Em & H1); injection Em as ->; exact H1). cbn [pstr]. cbn in F, F'.
  destruct (c =? q). { intros L. exists l1'. split; [reflexivity|apply RC, L]. }
  destruct (c =? NL). { intros L. exists (c :: l1'). split; [reflexivity|exact H]. }
  destruct (c =? BSL).
  - destruct (pesc l1) as [a r] eqn:E. pose proof (pesc_len _ _ _ E) as LE. apply (len_same (List.length r)); [apply len_cons, len_pstr|]. intros L. destruct (R_pesc _ _ _ _ (RC ltac:(lia)) E L) as (r' & E' & H'). rewrite E'. pose proof (pesc_len _ _ _ E').
    apply same_cons, IH; [lia|lia|exact H'].
  - apply (len_same (List.length l1)); [apply len_cons, len_pstr|]. intros L. apply same_cons, IH; [lia|lia|apply RC, L].
Qed.

(** a token *)
Definition with_rest (r : list rune) (x : lexed) : lexed := mkLexed (lx_gap x) (lx_cms x) (lx_tok x) (lx_txt x) (lx_raw x) r.
Definition same_lexed (x x' : lexed) : Prop := (K <= List.length (lx_rest x))%nat -> exists r', x' = with_rest r' x /\ R (lx_rest x) r'.
Lemma same_skip w cm x x' : same_lexed x x' -> same_lexed (skip w cm x) (skip w cm x').
Proof. intros H L. destruct (H L) as (r' & -> & H'). exists r'. split; [reflexivity|exact H']. Qed.
Lemma same_lit t o o' : same_out o o' -> same_lexed (lit_token t o) (lit_token t o').
Proof.
  destruct o as [[ok w] r]. intros H L. assert (L' : (K <= List.length r)%nat) by (destruct ok; exact L). destruct (H L') as (r' & -> & H'). exists r'. destruct ok; (split; [reflexivity|exact H']).
Qed.
Lemma lex_len m r : (List.length (lx_rest (lex m r)) <= List.length r)%nat.
Proof. pose proof (lex_app m r) as X. unfold lexed_app in X. apply (f_equal (@List.length _)) in X. rewrite !app_length in X. lia. Qed.
Lemma lex_len_tl m r2 : (List.length (lx_rest (lex m (after_nl r2))) <= List.length r2)%nat.
Proof. pose proof (lex_len m (after_nl r2)) as H. destruct r2; cbn [List.length after_nl] in *; lia. Qed.
Lemma lex_len_tl' m r2 : (0 < List.length (lx_rest (lex m (after_nl r2))) -> List.length (lx_rest (lex m (after_nl r2))) < List.length r2)%nat.
Proof. intros P. pose proof (lex_len m (after_nl r2)) as H. destruct r2; cbn [List.length after_nl] in *; lia. Qed.
Theorem same_lex m : forall n l l', (List.length l <= n)%nat -> R l l' -> same_lexed (lex m l) (lex m l').
Proof.
  induction n as [|n IH]; intros l l' F H; [pose proof (R_len _ _ H); lia|]. destruct l as [|c l1]; [destruct (R_nil _ H)|].
  assert (HC : exists l1', l' = c :: l1') by (destruct H as (u & Hu & ->); destruct u as [|d u]; cbn in *; injection Hu as -> _; eexists; reflexivity). destruct HC as (l1' & ->).
  assert (RC : (K <= List.length l1)%nat -> R l1 l1') by (intros L1; destruct (R_cons _ _ _ H L1) as (x & Em & H1); injection Em as ->; exact H1). cbn in F.
  rewrite !lex_cons. destruct (isSpace c).
  { intros L. apply same_skip; [|exact L]. apply IH; [lia|apply RC]. cbn [lx_rest skip] in L. pose proof (lex_len m l1). lia. }
  destruct (identStart c).
  { destruct (span identChar l1) as [x r1] eqn:S. intros L. cbn [lx_rest] in *. pose proof (span_len _ _ _ _ S). destruct (R_span _ _ _ _ _ (RC ltac:(lia)) S L) as (r' & -> & H'). exists r'. split; [reflexivity|exact H']. }
  destruct (c =? ch "/").
  { intros L. assert (L1 : (K <= List.length l1)%nat).
    { revert L. destruct (head_is (fun d => d =? ch "/") l1).
      - destruct (span (fun d => negb (d =? NL)) l1) as [x r2] eqn:S. pose proof (span_len _ _ _ _ S). destruct (has m ScanComment); cbn [lx_rest comment_token skip]; [destruct r2; cbn in *; lia|].
        pose proof (lex_len_tl m r2). lia.
      - destruct (head_is (fun d => d =? ch "*") l1).
        + destruct l1 as [|d r2]; [cbn; lia|]. destruct (find_close r2) as [[x r3]|] eqn:E; [|cbn; lia]. apply find_close_app in E. apply (f_equal (@List.length _)) in E. rewrite app_length in E. destruct (has m ScanComment); cbn [lx_rest comment_token skip]; [cbn; lia|]. pose proof (lex_len m r3). cbn [List.length]. lia.
        + destruct l1; cbn; lia. }
    pose proof (RC L1) as H1. rewrite !(R_head _ _ _ H1). revert L. destruct (head_is (fun d => d =? ch "/") l1).
    - destruct (span (fun d => negb (d =? NL)) l1) as [x r2] eqn:S. intros L. assert (L2 : (K < List.length r2)%nat).
      { destruct (has m ScanComment); cbn [lx_rest comment_token skip] in L; [destruct r2; cbn in *; lia|]. pose proof (lex_len_tl' m r2). lia. }
      destruct (R_span _ _ _ _ _ H1 S ltac:(lia)) as (r2' & -> & H2). destruct r2 as [|d r3]; [cbn in L2; lia|]. cbn in L2. destruct (R_cons _ _ _ H2 ltac:(lia)) as (r3' & -> & H3). revert L. destruct (has m ScanComment).
      + intros L. exists r3'. split; [reflexivity|exact H3].
      + apply same_skip. apply IH; [|exact H3]. pose proof (span_len _ _ _ _ S). cbn in *. lia.
    - destruct (head_is (fun d => d =? ch "*") l1).
      + destruct l1 as [|d r2]; [cbn; lia|]. destruct (find_close r2) as [[x r3]|] eqn:E; [|cbn; lia]. pose proof (find_close_app _ _ _ E) as EA. apply (f_equal (@List.length _)) in EA. rewrite app_length in EA. intros L.
        assert (L3 : (K <= List.length r3)%nat) by (destruct (has m ScanComment); cbn [lx_rest comment_token skip] in L; [exact L|pose proof (lex_len m r3); lia]).
        destruct (R_cons _ _ _ H1 ltac:(lia)) as (r2' & -> & H2). destruct (R_close _ _ _ _ H2 E L3) as (r3' & -> & H3). revert L. destruct (has m ScanComment).
        * intros L. exists r3'. split; [reflexivity|exact H3].
        * apply same_skip. apply IH; [|exact H3]. cbn in F. lia.
      + destruct l1 as [|d r2]; [cbn; lia|]. intros L. cbn [lx_rest] in L. destruct (R_cons _ _ _ H1 L) as (r2' & -> & H2). exists r2'. split; [reflexivity|exact H2]. }
  destruct (isQuote c && has m ScanStrLit).
  { intros L. refine (same_lit _ _ _ _ L). apply (len_same (List.length l1)); [apply len_cons, len_pstr|]. intros L1. apply same_cons, R_pstr; [lia|lia|apply RC, L1]. }
  destruct (_ && has m ScanNumberLit).
  { destruct (le_lt_dec K (List.length l1)) as [L1|L1].
    - destruct (R_pnum c _ _ (RC L1)) as [[E1 E2]|X].
      + destruct (pnum c l1) as [t o], (pnum c l1') as [t' o']. cbn in E1, E2. subst t'. apply same_lit, E2.
      + destruct (pnum c l1) as [t [[ok w] r]] eqn:E. intros L. specialize (X ok w r eq_refl). destruct ok; cbn in L; lia.
    - pose proof (len_pnum c l1) as X. destruct (pnum c l1) as [t [[ok w] r]]. cbn in X. intros L. exfalso. destruct ok; cbn in L; lia. }
  intros L. cbn [lx_rest] in L. exists l1'. split; [reflexivity|apply RC, L].
Qed.
End Two.

(** ** Scan *)
Lemma scan_two s s' u b v v' y t x p e s1 : nonul (rest s) -> nonul (rest s') -> mode s' = mode s -> pos s' = pos s -> rest s = u ++ b :: v -> rest s' = u ++ b :: v' ->
  Scan s = (Ok (t, x, p, e), s1) -> rest s1 = y ++ b :: v ->
  exists e' s1', Scan s' = (Ok (t, x, p, e'), s1') /\ (e = None <-> e' = None) /\ rest s1' = y ++ b :: v' /\ pos s1' = pos s1 /\ raw s1' = raw s1 /\
    exists l, comments s1 = comments s ++ l /\ comments s1' = comments s' ++ l.
Proof.
  intros N N' M P E E' Q EY. destruct (Scan_spec s N) as (z & f & QZ & ST & RZ & FZ). rewrite Q in QZ. injection QZ as -> -> -> -> ->.
  destruct (Scan_spec s' N') as (z' & f' & QZ' & ST' & RZ' & FZ'). rewrite M, P in *.
  assert (S : same_lexed b v v' (lex (mode s) (rest s)) (lex (mode s) (rest s'))). { apply (same_lex b v v' _ (List.length (rest s))); [lia|]. exists u. split; assumption. }
  destruct S as (r' & S & u0 & R1 & R2). { rewrite <- RZ, EY, app_length. cbn. lia. }
  rewrite S in *. unfold with_rest in *. cbn [lx_gap lx_cms lx_tok lx_txt lx_raw lx_rest] in *.
  exists f', z'. split; [exact QZ'|]. split; [|split; [|split; [|split]]].
  - rewrite FZ, FZ'. unfold is_illegal. cbn [lx_tok lx_txt]. tauto.
  - rewrite RZ', R2. f_equal. rewrite <- RZ, EY in R1. symmetry. apply app_inv_tail in R1. symmetry. exact (eq_sym R1).
  - rewrite (st_pos _ _ _ _ ST), (st_pos _ _ _ _ ST'). cbn. rewrite P. reflexivity.
  - rewrite (st_raw _ _ _ _ ST), (st_raw _ _ _ _ ST'). reflexivity.
  - eexists. split; [exact (st_cms _ _ _ _ ST)|exact (st_cms _ _ _ _ ST')].
Qed.
Theorem one_look s s' u b v v' y t x p e s1 : nonul (rest s) -> nonul (rest s') -> mode s' = mode s -> pos s' = pos s -> rest s = u ++ b :: v -> rest s' = u ++ b :: v' ->
  Scan s = (Ok (t, x, p, e), s1) -> rest s1 = y ++ b :: v ->
  exists e' s1', Scan s' = (Ok (t, x, p, e'), s1') /\ (e = None <-> e' = None) /\ rest s1' = y ++ b :: v' /\ pos s1' = pos s1 /\
    exists l, comments s1 = comments s ++ l /\ comments s1' = comments s' ++ l.
Proof.
  intros N N' M P E E' Q EY. destruct (scan_two _ _ _ _ _ _ _ _ _ _ _ _ N N' M P E E' Q EY) as (e' & s1' & A & B & C & D & _ & F). exists e', s1'. tauto.
Qed.

(** ** Next *)
Theorem next_look s s' u b v v' y s1 : nonul (rest s) -> nonul (rest s') -> mode s' = mode s -> pos s' = pos s -> rest s = u ++ b :: v -> rest s' = u ++ b :: v' ->
  Next s = (Ok tt, s1) -> rest s1 = y ++ b :: v ->
  exists s1', Next s' = (Ok tt, s1') /\ ltok s1' = ltok s1 /\ ltext s1' = ltext s1 /\ lraw s1' = lraw s1 /\ lpos s1' = lpos s1 /\ rest s1' = y ++ b :: v' /\ pos s1' = pos s1 /\
    exists l, comments s1 = comments s ++ l /\ comments s1' = comments s' ++ l.
Proof.
  intros N N' M P E E' Q EY. destruct (Next_spec s N) as (z & QZ & H). rewrite Q in QZ. injection QZ as <-. destruct (Next_spec s' N') as (z' & QZ' & H'). exists z'. split; [exact QZ'|].
  destruct H as [H1 _ H3 _ _ H6 H7 H8 H9 H10 _], H' as [K1 _ K3 _ _ K6 K7 K8 K9 K10 _]. unfold lexs in *. rewrite M, P in *.
  assert (S : same_lexed b v v' (lex (mode s) (rest s)) (lex (mode s) (rest s'))). { apply (same_lex b v v' _ (List.length (rest s))); [lia|]. exists u. split; assumption. }
  destruct S as (r' & S & u0 & R1 & R2). { rewrite <- H1, EY, app_length. cbn. lia. }
  rewrite S in *. unfold with_rest, lx_all in *. cbn [lx_gap lx_cms lx_tok lx_txt lx_raw lx_rest] in *.
  split; [congruence|]. split; [congruence|]. split; [congruence|]. split; [congruence|]. split; [|split; [congruence|eexists; split; [exact H6|exact K6]]].
  rewrite K1, R2. rewrite <- H1, EY in R1. apply app_inv_tail in R1. rewrite R1. reflexivity.
Qed.

(** ** Histories *)
Lemma unscan_rest s : rest (UnScan s) = raw s ++ rest s.
Proof.
  unfold UnScan. rewrite <- (rev_involutive (raw s)) at 2. generalize (rev (raw s)) as l. intros l. revert s. induction l as [|c l IH]; intros s; [reflexivity|]. cbn [fold_left rev]. rewrite IH. cbn. rewrite <- app_assoc. reflexivity.
Qed.
Lemma unscan_raw s : raw (UnScan s) = raw s.
Proof. unfold UnScan. generalize (rev (raw s)) as l. intros l. revert s. induction l as [|c l IH]; intros s; [reflexivity|]. cbn [fold_left]. rewrite IH. reflexivity. Qed.
Lemma hist_pos p0 u b v v' can s s' x : hist p0 (u ++ b :: v) can s -> hist p0 (u ++ b :: v') can s' -> rest s = x ++ b :: v -> rest s' = x ++ b :: v' -> pos s' = pos s.
Proof.
  intros [(w & E & P & _)] [(w' & E' & P' & _)] R1 R2. rewrite R1, app_assoc in E. rewrite R2, app_assoc in E'. apply app_inv_tail in E, E'. rewrite E in E'. apply app_inv_tail in E'. congruence.
Qed.
Lemma answers_two p0 u b v v' : nonul (u ++ b :: v) -> nonul (u ++ b :: v') -> forall ops can s s' x, may can ops -> hist p0 (u ++ b :: v) can s -> hist p0 (u ++ b :: v') can s' ->
  rest s = x ++ b :: v -> rest s' = x ++ b :: v' -> raw s' = raw s -> stays ops s (b :: v) ->
  answers ops s' = answers ops s /\ exists y, rest (srun ops s) = y ++ b :: v /\ rest (srun ops s') = y ++ b :: v'.
Proof.
  intros N N'. induction ops as [|o ops IH]; intros can s s' x M H H' E E' W S; [split; [reflexivity|exists x; split; assumption]|].
  pose proof (hist_pos _ _ _ _ _ _ _ _ _ H H' E E') as P. assert (S' : stays ops (sdo s o) (b :: v)) by (intros n; exact (S (Datatypes.S n))).
  destruct (S 1%nat) as (y & Y). cbn [firstn srun fold_left] in Y.
  assert (NR : forall t c z, nonul t -> hist p0 t c z -> nonul (rest z)). { intros t c z T [(w & Ew & _)]. rewrite Ew in T. apply nonul_app in T. tauto. }
  destruct o as [m|]; cbn [answers may] in *.
  - pose proof (hist_scan _ _ _ _ m N H) as H1. pose proof (hist_scan _ _ _ _ m N' H') as H1'. cbn [sdo] in *.
    destruct (Scan_spec (set_mode m s) (NR _ _ _ N H)) as (s1 & e & Q & _). rewrite Q in *. cbn [fst snd] in *.
    destruct (scan_two (set_mode m s) (set_mode m s') x b v v' y _ _ _ _ _ (NR _ _ _ N H) (NR _ _ _ N' H') eq_refl P E E' Q Y) as (e' & s1' & Q' & EE & R' & _ & RW & _). rewrite Q' in *. cbn [fst snd] in *.
    destruct (IH true s1 s1' y M H1 H1' Y R' RW S') as [A B]. split; [|cbn [srun fold_left sdo]; rewrite Q, Q'; exact B]. f_equal; [|exact A]. unfold told. destruct e, e'; try reflexivity; exfalso; [discriminate (proj2 EE eq_refl)|discriminate (proj1 EE eq_refl)].
  - destruct M as [-> M]. pose proof (hist_unscan _ _ _ H) as H1. pose proof (hist_unscan _ _ _ H') as H1'. cbn [sdo] in *.
    apply (IH false _ _ (raw s ++ x) M H1 H1'); [| | |exact S'].
    + rewrite unscan_rest, E, app_assoc. reflexivity.
    + rewrite unscan_rest, E', W, app_assoc. reflexivity.
    + rewrite !unscan_raw. exact W.
Qed.
Theorem history_look fn u b v v' ops : nonul (u ++ b :: v) -> nonul (u ++ b :: v') -> spaced ops -> stays ops (init_st fn (u ++ b :: v)) (b :: v) ->
  answers ops (init_st fn (u ++ b :: v')) = answers ops (init_st fn (u ++ b :: v)) /\ stays ops (init_st fn (u ++ b :: v')) (b :: v').
Proof.
  intros N N' SP S. pose proof (proj1 (spaced_may _ SP)) as M. split.
  - apply (answers_two _ u b v v' N N' ops true _ _ u M (init_hist fn _) (init_hist fn _) eq_refl eq_refl eq_refl S).
  - intros n. assert (MN : may true (firstn n ops)). { clear - M. revert n M. generalize true. induction ops as [|o ops IH]; intros c n M; destruct n as [|n]; try exact I. destruct o; cbn in *; [apply IH, M|split; [tauto|apply IH; tauto]]. }
    destruct (answers_two _ u b v v' N N' (firstn n ops) true _ _ u MN (init_hist fn _) (init_hist fn _) eq_refl eq_refl eq_refl) as [_ (y & _ & Y)]; [|exists y; exact Y].
    intros k. rewrite firstn_firstn. apply S.
Qed.

(** ** Cases *)
Definition look_ops : list sop := [OScan 0; OScan ScanLit; OUnScan; OScan ScanComment].
Lemma look_case : let u := lit "a /* x */ 1.5e+2" in let v := lit ";  foo" in let v' := lit ";" ++ [NL] ++ lit "/* never closed" in
  nonul (u ++ v) /\ nonul (u ++ v') /\ spaced look_ops /\ stays look_ops (init_st [] (u ++ v)) v /\
  answers look_ops (init_st [] (u ++ v')) = [Some (TIDENT, lit "a", mkPos [] 0 1 1, false); Some (TFLOATLIT, lit "1.5e+2", mkPos [] 10 1 11, false); Some (TCOMMENT, lit "/* x */", mkPos [] 2 1 3, false)].
Proof.
  cbn zeta. split; [repeat constructor; discriminate|]. split; [repeat constructor; discriminate|]. split; [|split].
  - intros a b E. repeat (destruct a as [|? a]; [discriminate E|injection E as _ E]). destruct a; discriminate E.
  - intros n. do 5 (destruct n as [|n]; [vm_compute; match goal with |- exists x, ?l = _ => let k := eval compute in (firstn (List.length l - 6) l) in exists k end; reflexivity|]).
    destruct n; vm_compute; match goal with |- exists x, ?l = _ => let k := eval compute in (firstn (List.length l - 6) l) in exists k end; reflexivity.
  - vm_compute. reflexivity.
Qed.
(** without the character behind the token *)
Lemma no_look : exists u v v' s1 s1' t x p x', nonul (u ++ v) /\ nonul (u ++ v') /\ Scan (init_st [] (u ++ v)) = (Ok (t, x, p, None), s1) /\ rest s1 = v /\
  Scan (init_st [] (u ++ v')) = (Ok (t, x', p, None), s1') /\ x' <> x.
Proof.
  exists (lit "ab"), (lit " c"), (lit "c"). do 6 eexists. split; [repeat constructor; discriminate|]. split; [repeat constructor; discriminate|].
  split; [vm_compute; reflexivity|]. split; [reflexivity|]. split; [vm_compute; reflexivity|]. discriminate.
Qed.
