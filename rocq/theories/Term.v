(** The pure parser consumes text in every round of every loop: with fuel for
    the text it never runs out of fuel. *)
From Coq Require Import List NArith ZArith Bool String Ascii Lia Arith.
From Verif Require Import Base Token Scanner Lexer Ast Parser Lexing ScanRefine LexFacts LexSpec LexProofs
  ScanFacts LexerFacts ScanProps Cursor Pure Refine.
Import ListNotations.
Open Scope N_scope.
Open Scope pure_scope.

Notation len k := (List.length (cr k)).
Definition suffix (r r0 : list rune) : Prop := exists w, r0 = w ++ r.
Lemma suffix_refl r : suffix r r. Proof. exists []. reflexivity. Qed.
Lemma suffix_trans a b c : suffix a b -> suffix b c -> suffix a c.
Proof. intros [x ->] [y ->]. exists (y ++ x). rewrite app_assoc. reflexivity. Qed.
Lemma suffix_len a b : suffix a b -> (List.length a <= List.length b)%nat.
Proof. intros [w ->]. rewrite app_length. lia. Qed.
Lemma suffix_app w r : suffix r (w ++ r). Proof. exists w. reflexivity. Qed.

(** [k] is at or, for [s], strictly behind [k0] *)
Definition adv (s : bool) (k0 k : cur) : Prop := suffix (cr k) (cr k0) /\ (s = true -> (len k < len k0)%nat).
Lemma adv_refl k : adv false k k. Proof. split; [apply suffix_refl|discriminate]. Qed.
Lemma adv_trans s1 s2 a b c : adv s1 a b -> adv s2 b c -> adv (s1 || s2) a c.
Proof.
  intros [A1 A2] [B1 B2]. split; [eapply suffix_trans; eassumption|]. apply suffix_len in A1. apply suffix_len in B1.
  destruct s1; [specialize (A2 eq_refl); lia|]. cbn. intros E. specialize (B2 E). lia.
Qed.
Lemma adv_weak s a b : adv s a b -> adv false a b. Proof. intros [A _]. split; [exact A|discriminate]. Qed.

(** Outcomes of a parse from [k0].  [g]: the outcome PBad is possible.  [any]:
    errors with arbitrary un-read text, otherwise only such that no recovery follows. *)
Definition OK {A} (g any s : bool) (k0 : cur) (r : pres A) : Prop :=
  match r with
  | POk _ k => adv s k0 k
  | PErr kb _ => adv false k0 kb
  | PBal k w => any = true \/ fatal w (skipn (List.length w) (cr k)) = true
  | PFatal => True
  | PBad => g = true
  | PPanic => True
  | PFuel => False
  end.
Lemma OK_from {A} g any s1 s2 k0 k (r : pres A) : adv s1 k0 k -> OK g any s2 k r -> OK g any (s1 || s2) k0 r.
Proof.
  intros H. destruct r as [a k'|kb ka|k' w| | | |]; cbn [OK]; auto.
  - intros H'. eapply adv_trans; eassumption.
  - intros H'. apply (adv_trans _ _ _ _ _ (adv_weak _ _ _ H) H').
Qed.
Lemma OK_weak {A} g any (s : bool) k0 (r : pres A) : OK g any s k0 r -> OK g any false k0 r.
Proof. destruct r; cbn [OK]; auto. apply adv_weak. Qed.
Lemma OK_any {A} g s k0 (r : pres A) : OK g false s k0 r -> OK g true s k0 r.
Proof. destruct r; cbn [OK]; auto. Qed.
Lemma OK_gen {A} g any any' (s s' : bool) k0 (r : pres A) : OK g any s k0 r -> (any = true -> any' = true) -> (s' = true -> s = true) -> OK g any' s' k0 r.
Proof.
  intros H E1 E2. destruct r; cbn [OK] in *; auto.
  - destruct H as [H1 H2]. split; auto.
  - destruct H; auto.
Qed.

(** what is known of a token *)
Definition tinfo (t : ti) (k k' : cur) : Prop :=
  cr (kb t) = cr k /\ suffix (cr k') (cr k) /\ (tk t <> TEOF -> (len k' < len k)%nat).

Lemma pnum_consumes c r : snd (fst (snd (pnum c r))) <> [].
Proof.
  unfold pnum. destruct (_ && _) eqn:E1.
  { apply andb_true_iff in E1. destruct E1 as [_ E1]. destruct r as [|x r]; [discriminate|]. destruct (span isHexDigit r). discriminate. }
  destruct (c =? ch "."). { destruct (pfracno r) as [[o x] l]. discriminate. }
  destruct (head_is (fun c0 => c0 =? ch ".") r) eqn:E2.
  { destruct r as [|d r]; [discriminate|]. destruct (pfrac r) as [[o x] l]. discriminate. }
  destruct (head_is is_e r). { destruct (pexp r) as [[o x] l]. discriminate. }
  destruct (c =? ch "0"). { destruct (span isOctalDigit r). discriminate. }
  destruct (span isDecimalDigit r) as [d r1]. destruct (head_is (fun c0 => c0 =? ch ".") r1) eqn:E3.
  { destruct r1 as [|e r1]; [discriminate|]. destruct (pfrac r1) as [[o x] l]. discriminate. }
  destruct (head_is is_e r1). { destruct (pexp r1) as [[o x] l]. discriminate. }
  discriminate.
Qed.
Lemma lex_consumes m c r : lx_gap (lex m (c :: r)) ++ lx_raw (lex m (c :: r)) <> [].
Proof.
  rewrite lex_cons. destruct (isSpace c); [discriminate|].
  destruct (identStart c). { destruct (span identChar r). discriminate. }
  destruct (c =? ch "/").
  - destruct (head_is (fun d => d =? ch "/") r).
    + destruct (span (fun d => negb (d =? NL)) r) as [b r2]. destruct (has m ScanComment); discriminate.
    + destruct (head_is (fun d => d =? ch "*") r).
      * destruct r as [|d r]; [discriminate|]. destruct (find_close r) as [[b r3]|]; [|discriminate]. destruct (has m ScanComment); discriminate.
      * destruct r; discriminate.
  - destruct (isQuote c && has m ScanStrLit).
    + unfold lit_token, cons_out. destruct (pstr _ c r) as [[[] x] l]; discriminate.
    + destruct (_ && has m ScanNumberLit).
      * pose proof (pnum_consumes c r) as P. destruct (pnum c r) as [t [[[] x] l]]; cbn in *; exact P.
      * discriminate.
Qed.
Section T.
Variable p0 : mpos.
Lemma tok_info m k : exists t k', ptok p0 m k = POk t k' /\ tinfo t k k' /\
  (tk t = lx_tok (lex m (cr k))) /\ tx t = lx_txt (lex m (cr k)) /\ tw t = lx_all (lex m (cr k)) /\ cr k' = lx_rest (lex m (cr k)).
Proof.
  unfold ptok, lexc. do 2 eexists. split; [reflexivity|]. unfold tinfo. lcbn. split; [|auto]. split; [reflexivity|].
  pose proof (lex_app m (cr k)) as L. unfold lexed_app in L. split.
  - exists (lx_gap (lex m (cr k)) ++ lx_raw (lex m (cr k))). rewrite <- app_assoc. exact L.
  - intros H. destruct (cr k) as [|c r] eqn:E; [exfalso; apply H; reflexivity|].
    pose proof (lex_consumes m c r) as C. rewrite L at 2. rewrite app_assoc, app_length.
    destruct (lx_gap (lex m (c :: r)) ++ lx_raw (lex m (c :: r))); [congruence|]. cbn. lia.
Qed.

Section Rules.
Variables g any : bool.
Notation OK := (OK g any).
Lemma OK_tok {A} s m k0 k (f : ti -> PM A) :
  (forall t k', tinfo t k k' -> tk t = lx_tok (lex m (cr k)) -> tw t = lx_all (lex m (cr k)) -> cr k' = lx_rest (lex m (cr k)) -> tx t = lx_txt (lex m (cr k)) -> OK s k0 (f t k')) ->
  OK s k0 (pbind (ptok p0 m) f k).
Proof. intros H. destruct (tok_info m k) as (t & k' & E & I & T & X & W & C). unfold pbind. rewrite E. apply H; assumption. Qed.
Lemma OK_expect {A} s m T k0 k (f : ti -> PM A) : T <> TEOF -> suffix (cr k) (cr k0) ->
  (forall t k', adv true k k' -> cr (kb t) = cr k -> OK s k0 (f t k')) -> OK s k0 (pbind (pexpect p0 m T) f k).
Proof.
  intros NE S H. unfold pexpect. destruct (tok_info m k) as (t & k' & E & (I1 & I2 & I3) & _). unfold pbind at 1 2. rewrite E.
  destruct (tok_eqb (tk t) T) eqn:Q.
  - apply tokb_eq in Q. unfold pret. apply H; [split; [exact I2|]; intros _; apply I3; congruence|exact I1].
  - cbn. split; [|discriminate]. rewrite I1. exact S.
Qed.
Lemma OK_expect1 s m T k0 k : T <> TEOF -> suffix (cr k) (cr k0) -> OK s k0 (pexpect p0 m T k).
Proof.
  intros NE S. unfold pexpect. destruct (tok_info m k) as (t & k' & E & (I1 & I2 & I3) & _). unfold pbind. rewrite E.
  destruct (tok_eqb (tk t) T) eqn:Q.
  - apply tokb_eq in Q. cbn. split; [eapply suffix_trans; eassumption|]. intros _. apply suffix_len in S. assert (tk t <> TEOF) as H by congruence. specialize (I3 H). lia.
  - cbn. split; [|discriminate]. rewrite I1. exact S.
Qed.
Lemma OK_peek {A} s m k0 k (f : ti -> PM A) :
  (forall t k', tk t = lx_tok (lex m (cr k)) -> tw t = lx_all (lex m (cr k)) -> tx t = lx_txt (lex m (cr k)) ->
     cr (kb t) = cr k -> cr k' = cr k -> OK s k0 (f t k')) -> OK s k0 (pbind (ppeek p0 m) f k).
Proof.
  intros H. destruct (tok_info m k) as (t & k' & E & (I1 & I2 & I3) & T & X & W & C). unfold ppeek, pbind at 1 2. rewrite E.
  unfold pback, pbind, pret. apply H; assumption.
Qed.
Lemma OK_back {A} s k0 k t (f : unit -> PM A) : OK s k0 (f tt (kb t)) -> OK s k0 (pbind (pback t) f k).
Proof. intros H. exact H. Qed.
Lemma OK_back1 s k0 k t : adv s k0 (kb t) -> OK s k0 (pback t k).
Proof. intros H. exact H. Qed.
Lemma OK_fuel {A} s k0 k (f : nat -> PM A) : (forall n, (len k < n)%nat -> OK s k0 (f n k)) -> OK s k0 (pbind pfuel f k).
Proof. intros H. unfold pfuel, pbind. apply H. lia. Qed.
Lemma OK_last {A} s k0 k (f : mpos -> PM A) : (forall p, OK s k0 (f p k)) -> OK s k0 (pbind plast f k).
Proof. intros H. unfold plast, pbind. apply H. Qed.
Lemma OK_ret {A} s k0 k (a : A) : adv s k0 k -> OK s k0 (pret a k).
Proof. intros H. exact H. Qed.
Lemma OK_err {A} s k0 k t : suffix (cr (kb t)) (cr k0) -> OK s k0 (@perr A t k).
Proof. intros H. split; [exact H|discriminate]. Qed.
Lemma OK_bal {A} s k0 k t : any = true -> OK s k0 (@pbal A t k).
Proof. intros H. left. exact H. Qed.
(** a call of [q] from [k], in the middle of a parse from [k0] *)
Lemma OK_call {A} (s s1 : bool) k0 k (q : PM A) : Term.OK g any s1 k (q k) -> suffix (cr k) (cr k0) ->
  (s = true -> s1 = true \/ (len k < len k0)%nat) -> OK s k0 (q k).
Proof.
  intros H S E. destruct (q k) as [a k'|kb ka|k' w| | | |]; cbn [Term.OK] in *; auto.
  - destruct H as [H1 H2]. split; [eapply suffix_trans; eassumption|]. intros Q. apply suffix_len in H1. apply suffix_len in S.
    destruct (E Q) as [E'|E']; [specialize (H2 E')|]; lia.
  - destruct H as [H1 H2]. split; [eapply suffix_trans; eassumption|discriminate].
Qed.
Lemma OK_bind {A B} (s s1 : bool) k0 k (q : PM A) (f : A -> PM B) : Term.OK g any s1 k (q k) -> suffix (cr k) (cr k0) ->
  (forall a k', adv s1 k k' -> OK s k0 (f a k')) -> OK s k0 (pbind q f k).
Proof.
  intros H S E. unfold pbind. destruct (q k) as [a k'|kb ka|k' w| | | |]; cbn [Term.OK] in *; auto.
  destruct H as [H1 H2]. split; [eapply suffix_trans; eassumption|discriminate].
Qed.
Lemma OK_bind0 {A B} (s s1 : bool) k0 k (q : PM A) (f : A -> PM B) : OK s1 k0 (q k) ->
  (forall a k', adv s1 k0 k' -> OK s k0 (f a k')) -> OK s k0 (pbind q f k).
Proof. intros H E. unfold pbind. destruct (q k) as [a k'|kb ka|k' w| | | |]; cbn [Term.OK] in *; auto. Qed.
Lemma OK_err_bind {A B} s k0 k t (f : A -> PM B) : suffix (cr (kb t)) (cr k0) -> OK s k0 (pbind (perr t) f k).
Proof. intros H. split; [exact H|discriminate]. Qed.
Lemma OK_bal_bind {A B} s k0 k t (f : A -> PM B) : any = true -> OK s k0 (pbind (pbal t) f k).
Proof. intros H. left. exact H. Qed.
Lemma OK_panic {A} s k0 k : OK s k0 (@ppanic A k).
Proof. exact I. Qed.
End Rules.
End T.

(** ** Solving the side conditions *)
Ltac tprep :=
  repeat match goal with
  | H : tinfo _ _ _ |- _ => let a := fresh "TK" in let b := fresh "TS" in let c := fresh "TL" in destruct H as (a & b & c)
  | H : adv true _ _ |- _ => let a := fresh "AS" in let b := fresh "AL" in destruct H as [a b]; specialize (b eq_refl)
  | H : adv false _ _ |- _ => let a := fresh "AS" in destruct H as [a _]
  | H : tok_eqb _ _ = true |- _ => apply tokb_eq in H
  | H : negb (tok_eqb _ _) = false |- _ => apply negb_false_iff in H
  end.
Ltac sfx := match goal with |- suffix ?a ?b =>
  first [ apply suffix_refl
        | match goal with E : a = ?c |- _ => rewrite E; clear E; sfx end
        | match goal with H : suffix a ?c |- _ => apply (suffix_trans _ _ _ H); clear H; sfx end ] end.
Ltac tlens :=
  repeat match goal with H : tk ?t <> TEOF -> _ |- _ => 
    first [ let Q := fresh in assert (Q : tk t <> TEOF) by (let X := fresh in intros X; congruence); specialize (H Q) | clear H ] end;
  repeat match goal with H : suffix ?a ?b |- _ => apply suffix_len in H end;
  repeat match goal with H : cr _ = _ |- _ => apply (f_equal (@List.length rune)) in H end.
Ltac tlen := tlens; lia.
Ltac tadv := tprep; repeat match goal with E : cr (kb ?t) = _ |- context[cr (kb ?t)] => rewrite E end; match goal with
  | |- adv _ _ _ => split; [sfx|intros; try discriminate; tlen]
  | |- suffix _ _ => sfx
  | |- (_ < _)%nat => tlen
  | |- (_ <= _)%nat => tlen
  | |- true = true \/ _ => left; reflexivity
  | |- false = true \/ _ => right; tlen
  | |- _ -> _ => intros; tadv
  end.
