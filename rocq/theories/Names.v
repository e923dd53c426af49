(** ReadFullIdent and ReadMessageType read the longest name. *)
From Coq Require Import List NArith ZArith Bool String Ascii Lia Arith.
From Verif Require Import Base Token Scanner Lexer Ast Parser Api Lexing ScanRefine LexFacts LexSpec LexProofs
  ScanFacts LexerFacts ScanProps Cursor Pure Refine RefineRules RefineParser Diverge NameSpec Term GramLex SndLex.
Import ListNotations.
Open Scope N_scope.

Inductive view : list rune -> Prop :=
| v_ident g cs t x r : Gap g cs -> ident_then t x r -> lex 0 (g ++ t) = mkLexed g cs TIDENT x x r -> view (g ++ t)
| v_dot g cs r : Gap g cs -> lex 0 (g ++ ch "." :: r) = mkLexed g cs TDOT (lit ".") (lit ".") r -> view (g ++ ch "." :: r)
| v_eof r cs : EndGap r cs -> lex 0 r = mkLexed r cs TEOF [] [] [] -> view r
| v_other r : lx_tok (lex 0 r) <> TIDENT -> lx_tok (lex 0 r) <> TDOT -> lx_tok (lex 0 r) <> TEOF -> view r.

Lemma ident_lex t x r : ident_then t x r -> lex 0 t = mkLexed [] [] TIDENT x x r.
Proof. intros (-> & H & N). rewrite lex_ident_at by assumption. reflexivity. Qed.
Lemma dot_lex r : lex 0 (ch "." :: r) = mkLexed [] [] TDOT (lit ".") (lit ".") r.
Proof. rewrite lex_cons. reflexivity. Qed.
Lemma gap_ident g cs t x r : Gap g cs -> ident_then t x r -> lex 0 (g ++ t) = mkLexed g cs TIDENT x x r.
Proof. intros G H. rewrite (lex_gap 0 g cs _ eq_refl G), (ident_lex _ _ _ H). unfold skip. cbn [lx_gap lx_cms lx_tok lx_txt lx_raw lx_rest map app]. rewrite !app_nil_r. reflexivity. Qed.
Lemma gap_dot g cs r : Gap g cs -> lex 0 (g ++ ch "." :: r) = mkLexed g cs TDOT (lit ".") (lit ".") r.
Proof. intros G. rewrite (lex_gap 0 g cs _ eq_refl G), dot_lex. unfold skip. cbn [lx_gap lx_cms lx_tok lx_txt lx_raw lx_rest map app]. rewrite !app_nil_r. reflexivity. Qed.
Lemma viewed r : view r.
Proof.
  destruct (gap_core r) as (g & cs & r1 & E & D & C & F). specialize (F 0 eq_refl).
  destruct r1 as [|c r1].
  { rewrite app_nil_r in E. subst g. apply (v_eof r cs); [destruct D as [D|[D _]]; [apply egap_gap; exact D|exact D]|].
    rewrite F, lex_nil. unfold skip. cbn. rewrite !app_nil_r. reflexivity. }
  destruct D as [D|[_ D]]; [|discriminate].
  destruct (identStart c) eqn:S.
  { rewrite lex_ident in F by exact S. destruct (span identChar r1) as [x r2] eqn:SP. apply span_spec in SP. destruct SP as (-> & A & H).
    subst r. assert (X : ident_then (c :: x ++ r2) (c :: x) r2).
    { split; [reflexivity|]. split.
      - exists c, x. split; [reflexivity|]. split; [apply ident_start_iff; exact S|]. revert A. apply Forall_impl. intros a. apply ident_char_iff.
      - destruct r2 as [|d r2]; [exact I|]. cbn in H. intros K. apply ident_char_iff in K. congruence. }
    apply (v_ident g cs _ _ _ D X). apply gap_ident; assumption. }
  destruct (N.eqb_spec c (ch ".")) as [->|ND]; [subst r; apply (v_dot g cs); [exact D|apply gap_dot; exact D]|].
  destruct (core_lex 0 _ C) as (G0 & _). destruct C as [Sp Sl]. rewrite lex_cons, Sp, S in F, G0.
  apply v_other; rewrite F; unfold skip; cbn [lx_tok]; clear F G0.
  all: change (has 0 ScanStrLit) with false; change (has 0 ScanNumberLit) with false; change (has 0 ScanComment) with false; rewrite ?andb_false_r; cbv iota.
  all: destruct (N.eqb_spec c (ch "/")) as [->|NS]; [|
    cbn [lx_tok]; unfold asMiscToken; repeat (match goal with |- context[if ?a =? ?b then _ else _] => destruct (N.eqb_spec a b) end; [try discriminate; try congruence|]); discriminate].
  all: specialize (Sl eq_refl); destruct r1 as [|d b]; cbn [head_is]; [discriminate|]; destruct Sl as [S1 S2].
  all: apply N.eqb_neq in S1; rewrite S1; destruct (N.eqb_spec d (ch "*")) as [->|]; [rewrite (S2 eq_refl)|]; discriminate.
Qed.

Lemma no_dot r : lx_tok (lex 0 r) <> TDOT -> ~ (exists g cs t, Gap g cs /\ r = g ++ ch "." :: t).
Proof. intros H (g & cs & t & G & ->). apply H. rewrite (gap_dot g cs t G). reflexivity. Qed.
Lemma dt_lex r v r' : DotTail r v r' -> (v = [] /\ r' = r /\ lx_tok (lex 0 r) <> TDOT) \/ lx_tok (lex 0 r) = TDOT.
Proof.
  destruct 1 as [r N|g cs g' cs' t x r v r' G G' X D]; [left|right; rewrite (gap_dot _ _ _ G); reflexivity].
  split; [reflexivity|]. split; [reflexivity|]. intros E. destruct (viewed r) as [g cs t x r G X L|g cs r G L|r cs G L|r A B C]; rewrite ?L in E; try discriminate.
  - apply N. exists g, cs, r. auto.
  - contradiction.
Qed.
Lemma dt_det r v r' : DotTail r v r' -> forall w s, DotTail r w s -> v = w /\ r' = s.
Proof.
  induction 1 as [r N|g cs g' cs' t x r v r' G G' X D IH]; intros w s D2.
  - inversion D2 as [r1 N2|g1 cs1 g1' cs1' t1 x1 r1 v1 r1' G1 G1' X1 D1 E1]; subst; [auto|]. exfalso. apply N. eauto.
  - remember (g ++ ch "." :: g' ++ t) as T0 eqn:ET. destruct D2 as [r1 N2|g1 cs1 g1' cs1' t1 x1 r1 v1 r1' G1 G1' X1 D1].
    + exfalso. apply N2. exists g, cs, (g' ++ t). auto.
    + pose proof (gap_dot _ _ (g' ++ t) G) as L1. pose proof (gap_dot _ _ (g1' ++ t1) G1) as L2. rewrite ET, L1 in L2. injection L2 as _ _ E.
      pose proof (gap_ident _ _ _ _ _ G' X) as L3. pose proof (gap_ident _ _ _ _ _ G1' X1) as L4. rewrite E, L4 in L3.
      injection L3 as _ _ E1 E2. subst x1 r1. destruct (IH _ _ D1) as [-> ->]. auto.
Qed.
Lemma fi_det t g v r : FullIdentAt t g v r -> forall g' v' r', FullIdentAt t g' v' r' -> g = g' /\ v = v' /\ r = r'.
Proof.
  intros H. destruct H as [g cs t x r v r' G X D]. intros g1 v1 r1 H1. remember (g ++ t) as T0 eqn:ET.
  destruct H1 as [g1 cs1 t1 x1 r1 v1 r1' G1 X1 D1]. pose proof (gap_ident _ _ _ _ _ G X) as L1. pose proof (gap_ident _ _ _ _ _ G1 X1) as L2.
  rewrite ET, L1 in L2. injection L2 as E1 _ E2 E3. subst. destruct (dt_det _ _ _ D _ _ D1) as [-> ->]. auto.
Qed.
Lemma fi_lex t g v r : FullIdentAt t g v r -> lx_tok (lex 0 t) = TIDENT.
Proof. destruct 1 as [g cs t x r v r' G X D]. rewrite (gap_ident _ _ _ _ _ G X). reflexivity. Qed.
Lemma mt_det t g v r : MessageTypeAt t g v r -> forall g' v' r', MessageTypeAt t g' v' r' -> g = g' /\ v = v' /\ r = r'.
Proof.
  intros H. destruct H as [t g v r H|g cs t g' v r G H]; intros g1 v1 r1 H1.
  - remember t as T0 eqn:ET. destruct H1 as [t1 g1 v1 r1 H1|g1 cs1 t1 g1' v1 r1 G1 H1]; [subst; eapply fi_det; eassumption|].
    apply fi_lex in H. rewrite (gap_dot _ _ _ G1) in H. discriminate.
  - remember (g ++ ch "." :: t) as T0 eqn:ET. destruct H1 as [t1 g1 v1 r1 H1|g1 cs1 t1 g1' v1 r1 G1 H1].
    + apply fi_lex in H1. rewrite ET, (gap_dot _ _ _ G) in H1. discriminate.
    + pose proof (gap_dot _ _ t G) as L1. pose proof (gap_dot _ _ t1 G1) as L2. rewrite ET, L1 in L2. injection L2 as E1 _ E2. subst.
      destruct (fi_det _ _ _ _ H _ _ _ H1) as (_ & -> & ->). auto.
Qed.

(** ** The pure reader *)
Section Read.
Variable p0 : mpos.
Notation Y k := (fst (lexc p0 0 k)).
Notation K k := (snd (lexc p0 0 k)).
Lemma ptok_eq m k : ptok p0 m k = POk (fst (lexc p0 m k)) (snd (lexc p0 m k)).
Proof. unfold ptok. destruct (lexc p0 m k). reflexivity. Qed.
Lemma b_tok {B} m (f : ti -> PM B) k : pbind (ptok p0 m) f k = f (fst (lexc p0 m k)) (snd (lexc p0 m k)).
Proof. unfold pbind. rewrite ptok_eq. reflexivity. Qed.
Lemma b_expect {B} m t (f : ti -> PM B) k : pbind (pexpect p0 m t) f k =
  if tok_eqb (tk (fst (lexc p0 m k))) t then f (fst (lexc p0 m k)) (snd (lexc p0 m k)) else PErr (kb (fst (lexc p0 m k))) (snd (lexc p0 m k)).
Proof. unfold pexpect. unfold pbind at 1. rewrite b_tok. destruct (tok_eqb _ _); reflexivity. Qed.
Lemma b_fuel {B} (f : nat -> PM B) k : pbind pfuel f k = f (S (List.length (cr k))) k.
Proof. reflexivity. Qed.
Lemma b_ret {A B} (a : A) (f : A -> PM B) k : pbind (pret a) f k = f a k.
Proof. reflexivity. Qed.
Lemma b_back {B} t (f : unit -> PM B) k : pbind (pback t) f k = f tt (kb t).
Proof. reflexivity. Qed.
Lemma b_back2 {A B} t (a : A) (f : A -> PM B) k : pbind (pback t;;; pret a) f k = f a (kb t).
Proof. reflexivity. Qed.
Lemma shorter k x l : lx_rest (lex 0 (cr k)) = l -> lx_tok (lex 0 (cr k)) = x -> x <> TEOF -> (List.length l < List.length (cr k))%nat.
Proof.
  intros <- <- N. pose proof (lex_app 0 (cr k)) as A. unfold lexed_app in A. destruct (cr k) as [|c r] eqn:E; [rewrite lex_nil in N; contradiction|].
  pose proof (lex_consumes 0 c r) as C. rewrite A at 2. rewrite app_assoc, app_length. destruct (lx_gap (lex 0 (c :: r)) ++ lx_raw (lex 0 (c :: r))); [congruence|]. cbn. lia.
Qed.
Lemma fi_loop n : forall acc k, (List.length (cr (K k)) < n)%nat ->
  (exists v r k', DotTail (cr k) v r /\ qFullIdent_loop p0 n acc (Y k) (K k) = POk (acc ++ v) k' /\ left_over r (cr k')) \/
  ((forall v r, ~ DotTail (cr k) v r) /\ exists kb ka, qFullIdent_loop p0 n acc (Y k) (K k) = PErr kb ka).
Proof.
  induction n as [|n IH]; intros acc k L; [lia|]. cbn [qFullIdent_loop]. unfold lexc in L |- *. cbn [fst snd cr tk] in L |- *.
  destruct (tok_eqb (lx_tok (lex 0 (cr k))) TEOF) eqn:TE.
  { left. apply tokb_eq in TE. exists [], (cr k). eexists. split; [apply dt_end, no_dot; congruence|]. rewrite app_nil_r. split; [reflexivity|].
    destruct (viewed (cr k)) as [g cs t x r G X LX|g cs r G LX|r cs G LX|r A B C]; rewrite ?LX in *; cbn [cr lx_rest]; try discriminate; [|contradiction].
    right. split; [reflexivity|]. eauto. }
  destruct (tok_eqb (lx_tok (lex 0 (cr k))) TDOT) eqn:TD; cbn [negb].
  2: { left. exists [], (cr k). eexists. split; [apply dt_end, no_dot; intros E; rewrite E in TD; discriminate|]. rewrite app_nil_r. split; [reflexivity|]. left. reflexivity. }
  apply tokb_eq in TD. set (k1 := mkCur _ _ _ _).
  assert (K1 : cr k1 = lx_rest (lex 0 (cr k))) by reflexivity. rewrite <- K1 in L. clearbody k1. rewrite b_expect.
  destruct (viewed (cr k)) as [g cs t x r G X LX|g cs r G LX|r cs G LX|r A B C]; rewrite ?LX in *; cbn [lx_tok lx_rest] in *; try discriminate; [|contradiction].
  destruct (tok_eqb (tk (Y k1)) TIDENT) eqn:TI.
  2: { right. split.
    - intros v r' D. remember (g ++ ch "." :: r) as T0 eqn:ET. destruct D as [r1 N1|g1 cs1 g1' cs1' t1 x1 r1 v1 r1' G1 G1' X1 D1].
      + apply N1. exists g, cs, r. auto.
      + rewrite (gap_dot _ _ _ G1) in LX. injection LX as _ _ E. unfold lexc in TI. cbn [fst tk] in TI.
        rewrite K1, <- E, (gap_ident _ _ _ _ _ G1' X1) in TI. discriminate.
    - unfold perr. do 2 eexists. reflexivity. }
  rewrite b_tok. set (acc' := acc ++ _). set (k2 := K k1).
  assert (T1 : lx_tok (lex 0 (cr k1)) = TIDENT) by (apply tokb_eq in TI; exact TI).
  assert (L2 : (List.length (cr (K k2)) < n)%nat).
  { assert (A1 : (List.length (cr k2) < List.length (cr k1))%nat) by (eapply shorter; [reflexivity|exact T1|discriminate]).
    assert (A2 : (List.length (cr (K k2)) <= List.length (cr k2))%nat).
    { unfold lexc. cbn [snd cr]. pose proof (lex_app 0 (cr k2)) as A. unfold lexed_app in A. rewrite A at 2. rewrite !app_length. lia. }
    lia. }
  assert (KX : exists g2 cs2 t2 x2 r2, Gap g2 cs2 /\ r = g2 ++ t2 /\ ident_then t2 x2 r2 /\ tx (Y k1) = x2 /\ cr k2 = r2).
  { unfold k2, lexc. cbn [fst snd tx cr]. rewrite K1 in T1 |- *.
    destruct (viewed r) as [g2 cs2 t2 x2 r2 G2 X2 L3|g2 cs2 r2 G2 L3|r2 cs2 G2 L3|r2 A B C]; try (rewrite L3 in T1; discriminate); [|contradiction].
    rewrite L3. exists g2, cs2, t2, x2, r2. auto. }
  destruct KX as (g2 & cs2 & t2 & x2 & r2 & G2 & -> & X2 & Ex & Er).
  destruct (IH acc' k2 L2) as [(v & r' & k' & D & Q & LO)|(ND & kb & ka & Q)].
  - left. exists (ch "." :: x2 ++ v), r', k'. split; [eapply dt_dot; [exact G|exact G2|exact X2|rewrite <- Er; exact D]|].
    split; [|exact LO]. rewrite Q. unfold acc'. rewrite Ex, <- !app_assoc. reflexivity.
  - right. split; [|eauto]. intros v r' D. remember (g ++ ch "." :: g2 ++ t2) as T0 eqn:ET.
    destruct D as [r1 N1|g1 cs1 g1' cs1' t1 x1 r1 v1 r1' G1 G1' X1 D1]; [apply N1; exists g, cs, (g2 ++ t2); auto|].
    rewrite (gap_dot _ _ _ G1) in LX. injection LX as _ _ E. pose proof (gap_ident _ _ _ _ _ G1' X1) as L5. rewrite E, (gap_ident _ _ _ _ _ G2 X2) in L5.
    injection L5 as _ _ _ E5. subst r1. rewrite Er in ND. exact (ND _ _ D1).
Qed.
Lemma fi_read k :
  (exists g v r k', FullIdentAt (cr k) g v r /\ qReadFullIdent p0 k = POk (v, posat p0 (cc k ++ g)) k' /\ left_over r (cr k')) \/
  ((forall g v r, ~ FullIdentAt (cr k) g v r) /\ exists kb ka, qReadFullIdent p0 k = PErr kb ka).
Proof.
  unfold qReadFullIdent. rewrite b_expect.
  destruct (tok_eqb (tk (Y k)) TIDENT) eqn:TI.
  2: { right. split; [|unfold perr; do 2 eexists; reflexivity]. intros g v r H. apply fi_lex in H. unfold lexc in TI. cbn [fst tk] in TI. rewrite H in TI. discriminate. }
  rewrite b_tok, b_fuel. apply tokb_eq in TI.
  assert (KX : exists g2 cs2 t2 x2 r2, Gap g2 cs2 /\ cr k = g2 ++ t2 /\ ident_then t2 x2 r2 /\ tx (Y k) = x2 /\ cr (K k) = r2 /\ tp (Y k) = posat p0 (cc k ++ g2)).
  { unfold lexc in TI |- *. cbn [fst snd tx cr tk tp] in TI |- *.
    destruct (viewed (cr k)) as [g2 cs2 t2 x2 r2 G2 X2 L3|g2 cs2 r2 G2 L3|r2 cs2 G2 L3|r2 A B C]; try (rewrite L3 in TI; discriminate); [|contradiction].
    rewrite L3. exists g2, cs2, t2, x2, r2. auto 10. }
  destruct KX as (g2 & cs2 & t2 & x2 & r2 & G2 & E2 & X2 & Ex & Er & Ep). unfold pbind.
  destruct (fi_loop (S (List.length (cr (K (K k))))) (tx (Y k)) (K k) ltac:(lia)) as [(v & r' & k' & D & Q & LO)|(ND & kb & ka & Q)]; rewrite Q.
  - left. exists g2, (x2 ++ v), r', k'. rewrite E2, Ex, Ep. split; [econstructor; [exact G2|exact X2|rewrite <- Er; exact D]|]. split; [reflexivity|exact LO].
  - right. split; [|eauto]. intros g v r H. rewrite E2 in H. remember (g2 ++ t2) as T0 eqn:ET. destruct H as [g1 cs1 t1 x1 r1 v1 r1' G1 X1 D1].
    pose proof (gap_ident _ _ _ _ _ G1 X1) as L5. rewrite ET, (gap_ident _ _ _ _ _ G2 X2) in L5.
    injection L5 as _ _ _ E5. subst r1. rewrite Er in ND. exact (ND _ _ D1).
Qed.
(** message types: the same loop, started at an identifier, except that it stops at the end of the text *)
Lemma mt_loop n : forall acc k, cut acc -> (List.length (cr (K k)) < n)%nat ->
  (exists g v r k', FullIdentAt (cr k) g v r /\ qMessageType_loop p0 n acc (Y k) (K k) = POk (acc ++ v) k' /\ left_over r (cr k')) \/
  ((forall g v r, ~ FullIdentAt (cr k) g v r) /\
     ((exists kb ka, qMessageType_loop p0 n acc (Y k) (K k) = PErr kb ka) \/ exists v k', qMessageType_loop p0 n acc (Y k) (K k) = POk v k' /\ cut v /\ cr k' = [])).
Proof.
  induction n as [|n IH]; intros acc k CU L; [lia|]. cbn [qMessageType_loop].
  destruct (tok_eqb (tk (Y k)) TEOF) eqn:TE.
  { right. apply tokb_eq in TE. unfold lexc in TE. cbn [fst tk] in TE. split; [intros g v r H; apply fi_lex in H; congruence|]. right.
    exists acc. eexists. split; [reflexivity|]. split; [exact CU|]. unfold lexc. cbn [snd cr].
    destruct (viewed (cr k)) as [g cs t x r G X LX|g cs r G LX|r cs G LX|r A B C]; rewrite ?LX in *; cbn [lx_rest]; try discriminate; [reflexivity|contradiction]. }
  destruct (tok_eqb (tk (Y k)) TIDENT) eqn:TI; cbn [negb].
  2: { right. split; [|left; unfold perr; do 2 eexists; reflexivity]. intros g v r H. apply fi_lex in H. unfold lexc in TI. cbn [fst tk] in TI. rewrite H in TI. discriminate. }
  apply tokb_eq in TI. rewrite b_tok.
  assert (KX : exists g2 cs2 t2 x2 r2, Gap g2 cs2 /\ cr k = g2 ++ t2 /\ ident_then t2 x2 r2 /\ tx (Y k) = x2 /\ cr (K k) = r2).
  { unfold lexc in TI |- *. cbn [fst snd tx cr tk tp] in TI |- *.
    destruct (viewed (cr k)) as [g2 cs2 t2 x2 r2 G2 X2 L3|g2 cs2 r2 G2 L3|r2 cs2 G2 L3|r2 A B C]; try (rewrite L3 in TI; discriminate); [|contradiction].
    rewrite L3. exists g2, cs2, t2, x2, r2. auto 10. }
  destruct KX as (g2 & cs2 & t2 & x2 & r2 & G2 & E2 & X2 & Ex & Er). set (k1 := K k) in *.
  destruct (tok_eqb (tk (Y k1)) TDOT) eqn:TD; cbn [negb].
  2: { left. exists g2, x2, r2. eexists. split.
    - rewrite E2. rewrite <- (app_nil_r x2). econstructor; [exact G2|exact X2|]. apply dt_end. rewrite <- Er. apply no_dot. intros E. unfold lexc in TD. cbn [fst tk] in TD. rewrite E in TD. discriminate.
    - unfold pback, pbind, pret. rewrite Ex. split; [reflexivity|]. left. unfold lexc. cbn [fst kb cr]. exact Er. }
  rewrite b_tok. apply tokb_eq in TD. set (k2 := K k1).
  assert (KD : exists g3 cs3 r3, Gap g3 cs3 /\ r2 = g3 ++ ch "." :: r3 /\ tx (Y k1) = lit "." /\ cr k2 = r3).
  { unfold k2. unfold lexc in TD |- *. cbn [fst snd tx cr tk tp] in TD |- *. rewrite Er in TD |- *.
    destruct (viewed r2) as [g3 cs3 t3 x3 r3 G3 X3 L3|g3 cs3 r3 G3 L3|r3 cs3 G3 L3|r3 A B C]; try (rewrite L3 in TD; discriminate); [|contradiction].
    rewrite L3. exists g3, cs3, r3. auto. }
  destruct KD as (g3 & cs3 & r3 & G3 & E3 & Ed & E4).
  assert (L2 : (List.length (cr (K k2)) < n)%nat).
  { assert (A1 : (List.length (cr k2) < List.length (cr k1))%nat) by (eapply shorter; [reflexivity|exact TD|discriminate]).
    assert (A2 : (List.length (cr (K k2)) <= List.length (cr k2))%nat).
    { unfold lexc. cbn [snd cr]. pose proof (lex_app 0 (cr k2)) as A. unfold lexed_app in A. rewrite A at 2. rewrite !app_length. lia. }
    lia. }
  destruct (IH ((acc ++ tx (Y k)) ++ tx (Y k1)) k2 ltac:(right; eexists; rewrite Ed; reflexivity) L2) as [(g & v & r & k' & H & Q & LO)|(NF & H)].
  - left. rewrite E4 in H. destruct H as [g cs t x r v r' G X D]. exists g2, (x2 ++ ch "." :: x ++ v), r', k'. split; [|split; [|exact LO]].
    + rewrite E2. econstructor; [exact G2|exact X2|]. rewrite E3. eapply dt_dot; eassumption.
    + rewrite Q, Ex, Ed, <- !app_assoc. reflexivity.
  - right. split; [|exact H]. intros g v r F. rewrite E2 in F. remember (g2 ++ t2) as T0 eqn:ET. destruct F as [g1 cs1 t1 x1 r1 v1 r1' G1 X1 D1].
    pose proof (gap_ident _ _ _ _ _ G1 X1) as L5. rewrite ET, (gap_ident _ _ _ _ _ G2 X2) in L5. injection L5 as _ _ _ E5. subst r1.
    rewrite E3 in D1. remember (g3 ++ ch "." :: r3) as T1 eqn:ET1. destruct D1 as [r5 N5|g5 cs5 g5' cs5' t5 x5 r5 v5 r5' G5 G5' X5 D5]; [apply N5; eauto|].
    pose proof (gap_dot _ _ (g5' ++ t5) G5) as L6. rewrite ET1, (gap_dot _ _ _ G3) in L6. injection L6 as _ _ E6.
    apply (NF g5' (x5 ++ v5) r5'). rewrite E4, E6. econstructor; eassumption.
Qed.
Lemma mt_read k :
  (exists g v r k', MessageTypeAt (cr k) g v r /\ qReadMessageType p0 k = POk (v, posat p0 (cc k ++ g)) k' /\ left_over r (cr k')) \/
  ((forall g v r, ~ MessageTypeAt (cr k) g v r) /\
     ((exists kb ka, qReadMessageType p0 k = PErr kb ka) \/ exists v p k', qReadMessageType p0 k = POk (v, p) k' /\ cut v /\ cr k' = [])).
Proof.
  unfold qReadMessageType. rewrite b_tok.
  destruct (tok_eqb (tk (Y k)) TDOT) eqn:TD.
  - apply tokb_eq in TD. rewrite b_ret, b_tok, b_fuel. set (k1 := K k).
    assert (KD : exists g3 cs3 r3, Gap g3 cs3 /\ cr k = g3 ++ ch "." :: r3 /\ tx (Y k) = lit "." /\ cr k1 = r3 /\ tp (Y k) = posat p0 (cc k ++ g3)).
    { unfold k1. unfold lexc in TD |- *. cbn [fst snd tx cr tk tp] in TD |- *.
      destruct (viewed (cr k)) as [g3 cs3 t3 x3 r3 G3 X3 L3|g3 cs3 r3 G3 L3|r3 cs3 G3 L3|r3 A B C]; try (rewrite L3 in TD; discriminate); [|contradiction].
      rewrite L3. exists g3, cs3, r3. auto 10. }
    destruct KD as (g3 & cs3 & r3 & G3 & E3 & Ed & E4 & Ep).
    assert (NM : forall g v r, MessageTypeAt (cr k) g v r -> exists g' v', FullIdentAt (cr k1) g' v' r /\ v = ch "." :: v' /\ g = g3).
    { intros g v r H. rewrite E3 in H. remember (g3 ++ ch "." :: r3) as T0 eqn:ET. destruct H as [t g v r H|g cs t g' v r G H].
      - apply fi_lex in H. rewrite ET, (gap_dot _ _ _ G3) in H. discriminate.
      - pose proof (gap_dot _ _ t G) as L6. rewrite ET, (gap_dot _ _ _ G3) in L6. injection L6 as E6 _ E7. rewrite E4, E7. eauto 10. }
    unfold pbind. destruct (mt_loop (S (List.length (cr (K k1)))) (tx (Y k)) k1 ltac:(right; exists []; rewrite Ed; reflexivity) ltac:(lia)) as [(g & v & r & k' & H & Q & LO)|(NF & H)].
    + rewrite Q. left. exists g3, (ch "." :: v), r, k'. split; [rewrite E3; econstructor; [exact G3|rewrite <- E4; exact H]|]. rewrite Ed, Ep. split; [reflexivity|exact LO].
    + right. split; [intros g v r X; apply NM in X; destruct X as (g' & v' & X & _); exact (NF _ _ _ X)|].
      destruct H as [(kb & ka & Q)|(v & k' & Q & E)]; rewrite Q; [left; eauto|right; eauto 10].
  - rewrite b_back2. set (k1 := kb (Y k)). rewrite b_tok, b_fuel.
    assert (E1 : cr k1 = cr k) by reflexivity.
    assert (Ep : forall g v r, FullIdentAt (cr k) g v r -> tp (Y k) = posat p0 (cc k ++ g)).
    { intros g v r H. unfold lexc. cbn [fst tp]. destruct H as [g cs t x r v r' G X D]. rewrite (gap_ident _ _ _ _ _ G X). reflexivity. }
    unfold pbind. destruct (mt_loop (S (List.length (cr (K k1)))) [] k1 ltac:(left; reflexivity) ltac:(lia)) as [(g & v & r & k' & H & Q & LO)|(NF & H)].
    + rewrite Q. left. rewrite E1 in H. exists g, v, r, k'. split; [constructor; exact H|]. rewrite (Ep _ _ _ H). split; [reflexivity|exact LO].
    + right. split.
      * intros g v r X. rewrite E1 in NF. remember (cr k) as T0 eqn:ET. destruct X as [t g v r X|g cs t g' v r G X]; [exact (NF _ _ _ X)|].
        unfold lexc in TD. cbn [fst tk] in TD. rewrite <- ET, (gap_dot _ _ _ G) in TD. discriminate.
      * destruct H as [(kb & ka & Q)|(v & k' & Q & E)]; rewrite Q; [left; eauto|right; eauto 10].
Qed.
End Read.

(** ** The reader *)
Lemma full_ident s : nonul (rest s) -> mode s = 0 ->
  (forall g v r, FullIdentAt (rest s) g v r -> exists s', ReadFullIdent s = (Ok (v, posafter (pos s) g), s') /\ left_over r (rest s')) /\
  ((forall g v r, ~ FullIdentAt (rest s) g v r) -> exists e s', ReadFullIdent s = (Err e, s')).
Proof.
  intros N M. assert (Z : Z_ (rest s) s) by (split; auto).
  pose proof (R_elim _ _ _ _ _ (r_fullIdent (mkF false (rest s)) (pos s)) _ _ (Z_at _ _ Z)) as O.
  destruct (fi_read (pos s) (fresh s)) as [(g & v & r & k' & H & Q & LO)|(NF & kb & ka & Q)]; rewrite Q in O; cbn [cr cc fresh app] in *.
  - destruct O as (s' & O & A). split; [|intros X; exfalso; exact (X _ _ _ H)]. intros g1 v1 r1 H1. destruct (fi_det _ _ _ _ H _ _ _ H1) as (<- & <- & <-).
    exists s'. split; [exact O|]. apply at_Z in A. destruct A as (-> & _). exact LO.
  - destruct O as (e & s' & O & _). split; [intros g v r H; exfalso; exact (NF _ _ _ H)|eauto].
Qed.
Lemma message_type s : nonul (rest s) -> mode s = 0 ->
  (forall g v r, MessageTypeAt (rest s) g v r -> exists s', ReadMessageType s = (Ok (v, posafter (pos s) g), s') /\ left_over r (rest s')) /\
  ((forall g v r, ~ MessageTypeAt (rest s) g v r) -> (exists e s', ReadMessageType s = (Err e, s')) \/ exists v p s', ReadMessageType s = (Ok (v, p), s') /\ cut v /\ rest s' = []).
Proof.
  intros N M. assert (Z : Z_ (rest s) s) by (split; auto).
  pose proof (R_elim _ _ _ _ _ (r_messageType (mkF false (rest s)) (pos s)) _ _ (Z_at _ _ Z)) as O.
  destruct (mt_read (pos s) (fresh s)) as [(g & v & r & k' & H & Q & LO)|(NF & [(kb & ka & Q)|(v & p & k' & Q & CU & E)])]; rewrite Q in O; cbn [cr cc fresh app] in *.
  - destruct O as (s' & O & A). split; [|intros X; exfalso; exact (X _ _ _ H)]. intros g1 v1 r1 H1. destruct (mt_det _ _ _ _ H _ _ _ H1) as (<- & <- & <-).
    exists s'. split; [exact O|]. apply at_Z in A. destruct A as (-> & _). exact LO.
  - destruct O as (e & s' & O & _). split; [intros g v r H; exfalso; exact (NF _ _ _ H)|eauto].
  - destruct O as (s' & O & A). split; [intros g v0 r H; exfalso; exact (NF _ _ _ H)|]. intros _. right. exists v, p, s'. split; [exact O|]. split; [exact CU|]. apply at_Z in A. destruct A as (-> & _). exact E.
Qed.
Lemma readable_nonul l : readable l -> nonul l.
Proof. apply Forall_impl. intros a [_ H]. exact H. Qed.
Lemma front_moved p g t : readable (g ++ t) -> moved p g (posafter p g).
Proof. intros H. apply posafter_moved. apply Forall_app in H. destruct H as [H _]. revert H. apply Forall_impl. intros a [V _]. exact V. Qed.
Lemma fi_front t g v r : FullIdentAt t g v r -> exists u, t = g ++ u.
Proof. destruct 1. eauto. Qed.
Lemma mt_front t g v r : MessageTypeAt t g v r -> exists u, t = g ++ u.
Proof. destruct 1 as [t g v r H|]; [eapply fi_front; eassumption|eauto]. Qed.
Lemma full_ident_read s g v r : readable (rest s) -> mode s = 0 -> FullIdentAt (rest s) g v r ->
  exists p s', ReadFullIdent s = (Ok (v, p), s') /\ moved (pos s) g p /\ left_over r (rest s').
Proof.
  intros N M H. destruct (full_ident s (readable_nonul _ N) M) as [A _]. destruct (A _ _ _ H) as (s' & E & L).
  exists (posafter (pos s) g), s'. split; [exact E|]. split; [|exact L]. destruct (fi_front _ _ _ _ H) as [u U]. apply (front_moved _ _ u). rewrite <- U. exact N.
Qed.
Lemma full_ident_none s : nonul (rest s) -> mode s = 0 -> ~ (exists g v r, FullIdentAt (rest s) g v r) -> exists e s', ReadFullIdent s = (Err e, s').
Proof. intros N M H. apply (full_ident s N M). intros g v r X. apply H. eauto. Qed.
Lemma message_type_read s g v r : readable (rest s) -> mode s = 0 -> MessageTypeAt (rest s) g v r ->
  exists p s', ReadMessageType s = (Ok (v, p), s') /\ moved (pos s) g p /\ left_over r (rest s').
Proof.
  intros N M H. destruct (message_type s (readable_nonul _ N) M) as [A _]. destruct (A _ _ _ H) as (s' & E & L).
  exists (posafter (pos s) g), s'. split; [exact E|]. split; [|exact L]. destruct (mt_front _ _ _ _ H) as [u U]. apply (front_moved _ _ u). rewrite <- U. exact N.
Qed.
Lemma message_type_none s : nonul (rest s) -> mode s = 0 -> ~ (exists g v r, MessageTypeAt (rest s) g v r) ->
  (exists e s', ReadMessageType s = (Err e, s')) \/ exists v p s', ReadMessageType s = (Ok (v, p), s') /\ cut v /\ rest s' = [].
Proof. intros N M H. apply (message_type s N M). intros g v r X. apply H. eauto. Qed.
Lemma names_unique t g v r g' v' r' : (FullIdentAt t g v r -> FullIdentAt t g' v' r' -> g = g' /\ v = v' /\ r = r') /\
  (MessageTypeAt t g v r -> MessageTypeAt t g' v' r' -> g = g' /\ v = v' /\ r = r').
Proof. split; intros H H'; [eapply fi_det|eapply mt_det]; eassumption. Qed.
Lemma full_ident_case : FullIdentAt (lit " foo /* c */ . bar;") (lit " ") (lit "foo.bar") (lit ";").
Proof.
  change (lit " foo /* c */ . bar;") with (lit " " ++ lit "foo /* c */ . bar;"). change (lit "foo.bar") with (lit "foo" ++ lit ".bar").
  assert (G : forall c, isSpace c = true -> Gap [c] []). { intros c H. apply (gap_space c [] []); [exact H|constructor]. }
  assert (ID : forall x, match x with [] => False | c :: v => identStart c = true /\ forallb identChar v = true end -> is_ident x).
  { intros [|c v] H; [contradiction|]. destruct H as [S C]. exists c, v. split; [reflexivity|]. split; [apply ident_start_iff; exact S|].
    apply Forall_forall. intros a A. apply ident_char_iff. rewrite forallb_forall in C. apply C, A. }
  assert (NI : forall c, identChar c = false -> ~ ident_char c). { intros c H K. apply ident_char_iff in K. congruence. }
  econstructor.
  - apply G. reflexivity.
  - split; [change (lit "foo /* c */ . bar;") with (lit "foo" ++ lit " /* c */ . bar;"); reflexivity|]. split; [apply ID; vm_compute; auto|]. apply NI. reflexivity.
  - refine (dt_dot (lit " /* c */ ") _ (lit " ") _ (lit "bar;") (lit "bar") (lit ";") [] (lit ";") _ _ _ _).
    + apply (gap_space (ch " ") (lit "/* c */ ") [([], lit "/* c */")]); [reflexivity|].
      apply (gap_block (lit "/* c */") (lit " ") []); [|apply G; reflexivity]. exists (lit " c "). split; [reflexivity|]. intros x y H.
      do 3 (destruct x as [|? x]; cbn in H; [discriminate|]). destruct x as [|? x]; cbn in H; [congruence|].
      destruct x as [|? x]; cbn in H; [discriminate|]. destruct x; discriminate.
    + apply G. reflexivity.
    + split; [reflexivity|]. split; [apply ID; vm_compute; auto|]. apply NI. reflexivity.
    + apply dt_end. apply no_dot. vm_compute. discriminate.
Qed.
Lemma message_type_case : MessageTypeAt (lit ". foo /* c */ . bar;") [] (lit ".foo.bar") (lit ";").
Proof. exact (mt_dot [] [] _ _ _ _ gap_nil full_ident_case). Qed.
Lemma full_ident_none_case : ~ (exists g v r, FullIdentAt (lit "foo.;") g v r).
Proof.
  intros (g & v & r & H). destruct (full_ident (init_st [] (lit "foo.;"))) as [A _]; [repeat constructor; discriminate|reflexivity|].
  destruct (A _ _ _ H) as (s' & E & _). apply (f_equal (fun x => match fst x with Ok _ => true | _ => false end)) in E. cbn [fst] in E.
  match type of E with ?a = _ => assert (X : a = false) by (vm_compute; reflexivity) end. rewrite X in E. discriminate E.
Qed.
Lemma full_ident_dot : ~ (exists g v r, FullIdentAt (lit "foo.") g v r).
Proof.
  intros (g & v & r & H). destruct (full_ident (init_st [] (lit "foo."))) as [A _]; [repeat constructor; discriminate|reflexivity|].
  destruct (A _ _ _ H) as (s' & E & _). apply (f_equal (fun x => match fst x with Ok _ => true | _ => false end)) in E. cbn [fst] in E.
  match type of E with ?a = _ => assert (X : a = false) by (vm_compute; reflexivity) end. rewrite X in E. discriminate E.
Qed.
Lemma message_type_cut : exists text, nonul text /\ ~ (exists g v r, MessageTypeAt text g v r) /\
  exists p s', ReadMessageType (init_st [] text) = (Ok (lit "foo.", p), s').
Proof.
  exists (lit "foo."). split; [repeat constructor; discriminate|]. split; [|eexists; eexists; vm_compute; reflexivity].
  intros (g & v & r & H). remember (lit "foo.") as T0 eqn:ET. destruct H as [t g v r H|g cs t g' v r G H].
  - subst t. apply full_ident_dot. eauto.
  - pose proof (gap_dot g cs t G) as L. rewrite ET in L. vm_compute in L. discriminate.
Qed.
