(** Nested groups make the text read by the recovery double at every level.

    The innermost field fails on the identifier [b].  Each enclosing body un-reads
    the text of the last token again (message.go:229-246), so the recovery of the
    next level sees the identifier twice as long. *)
From Coq Require Import List NArith ZArith Bool String Ascii Lia Arith.
From Verif Require Import Base Token Scanner Lexer Ast Parser Api Spec Lexing ScanRefine LexFacts LexSpec LexProofs
  ScanFacts LexerFacts ScanProps Cursor Pure Refine RefineRules RefineParser Diverge FuelMono.
Import ListNotations.
Open Scope N_scope.
Open Scope monad_scope.

Fixpoint groups (d : nat) : list rune :=
  match d with
  | O => lit "int32 a=b"
  | S d' => lit "group A=1{" ++ groups d'
  end.
Definition nested (d : nat) : list rune := lit "message M{" ++ groups d.
Lemma groups_length d : List.length (groups d) = (10 * d + 9)%nat.
Proof. induction d as [|d IH]; [reflexivity|]. cbn [groups]. rewrite app_length, IH. cbn [List.length lit]. change (List.length (lit "group A=1{")) with 10%nat. lia. Qed.
Lemma nested_length d : List.length (nested d) = (10 * d + 19)%nat.
Proof. unfold nested. rewrite app_length, groups_length. change (List.length (lit "message M{")) with 10%nat. lia. Qed.
Lemma groups_head d : exists c U, groups d = c ++ U /\ (c = lit "group " \/ c = lit "extensions " \/ c = lit "int32 a=").
Proof.
  destruct d as [|d].
  - exists (lit "int32 a="), (lit "b"). split; [reflexivity|]. auto.
  - exists (lit "group "), (lit "A=1{" ++ groups d). split; [reflexivity|]. auto.
Qed.

Definition bs (n : nat) : list rune := repeat (ch "b") n.
Lemma nonul_bs n : nonul (bs n).
Proof. induction n; constructor; [discriminate|assumption]. Qed.
Lemma bs_app n m : bs n ++ bs m = bs (n + m).
Proof. symmetry. apply repeat_app. Qed.
Lemma lex_bs n : lex 0 (bs (S n)) = mkLexed [] [] TIDENT (bs (S n)) (bs (S n)) [].
Proof.
  cbn [bs repeat]. rewrite lex_ident by reflexivity.
  assert (E : span identChar (repeat (ch "b") n) = (repeat (ch "b") n, [])).
  { induction n as [|n IH]; [reflexivity|]. cbn [repeat span]. change (identChar (ch "b")) with true. cbv iota. rewrite IH. reflexivity. }
  rewrite E. reflexivity.
Qed.
Lemma recover_bs e n m s : Z_ (bs m) s -> raw s = bs (S n) ->
  exists p s', recoverEmpty e s = (Err (EPair e (ELex p ";" (bs (S n + m)))), s') /\ Z_ (bs (S n + m)) s' /\ raw s' = bs (S n + m).
Proof.
  intros (R0 & Md & N) W. destruct (UnNext_rest s) as (s1 & Q & A & B & C). unfold recoverEmpty. rwb Q.
  rewrite W, R0, bs_app in A.
  assert (N1 : nonul (rest s1)) by (rewrite A; apply nonul_bs).
  destruct (Next_spec s1 N1) as (s2 & Q2 & X). unfold try, ReadEmptyStatement. rwb Q2. rewrite bind_gets.
  destruct (UnNext_rest s2) as (s3 & Q3 & A3 & B3 & C3).
  assert (L : lexs s1 = lex 0 (bs (S (n + m)))). { unfold lexs. rewrite C, Md, A. reflexivity. }
  rewrite lex_bs in L. rewrite (nx_tok _ _ X), L. cbn [lx_tok]. change (tok_eqb TIDENT TSEMICOLON) with false. cbv iota. rwb Q3.
  assert (T3 : ltext s3 = ltext s2).
  { unfold UnNext, modify in Q3. injection Q3 as <-. cbn. unfold UnScan. generalize (rev (raw s2)) as w. clear. intros w. revert s2.
    induction w as [|c w IH]; intros s; [reflexivity|]. cbn [fold_left]. rewrite IH. reflexivity. }
  unfold l_unexpected. rewrite T3, (nx_txt _ _ X), L. cbn [lx_txt]. do 2 eexists. split; [reflexivity|].
  rewrite (nx_raw _ _ X), L in A3, B3. rewrite (nx_rest _ _ X), L in A3. unfold lx_all in A3, B3. cbn [lx_gap lx_raw lx_rest app] in A3, B3. rewrite app_nil_r in A3.
  split; [|exact B3]. split; [exact A3|]. split; [|apply nonul_bs]. rewrite C3, (nx_mode _ _ X). congruence.
Qed.
Ltac peval := intros; do 2 eexists; split; [lazy -[posafter]; reflexivity|]; split; [reflexivity|]; try exact I; try reflexivity.
Section D.
Variables perm bic : bool.
Lemma field_fails s : Z_ (lit "int32 a=b") s -> exists e s', ParseField perm s = (Err e, s') /\ Z_ [] s' /\ raw s' = bs 1.
Proof.
  intros Z. pose proof (R_elim _ _ _ _ _ (r_field _ (pos s) perm) _ _ (Z_at _ _ Z)) as O. unfold fresh in O.
  destruct Z as (Z1 & _ & _). rewrite Z1 in O.
  assert (E : exists kb ka, qParseField (pos s) perm (mkCur [] (lit "int32 a=b") (comments s) (lpos s)) = PErr kb ka /\ cr ka = [] /\ cr kb = lit "b").
  { do 2 eexists. split; [lazy -[posafter]; reflexivity|]. split; reflexivity. }
  destruct E as (kb & ka & E & K1 & K2). rewrite E in O. destruct O as (e & s' & Q & X & F & _). exists e, s'. split; [exact Q|].
  split; [rewrite <- K1; eapply at_Z; exact X|]. destruct F as (_ & F & _). rewrite K1, K2, app_nil_r in F. symmetry. exact F.
Qed.
Lemma inner_fails s mb ilc j stmts : Z_ (groups 0) s -> exists e p s',
  messageBody_loop perm bic mb ilc (S j) stmts s = (Err (EPair e (ELex p ";" (bs 1))), s') /\ Z_ (bs 1) s' /\ raw s' = bs 1.
Proof.
  intros Z. cbn [groups] in Z.
  destruct (run ParseComments qParseComments _ _ (fun _ => True) (lit "int32 a=b") Z r_comments ltac:(peval)) as (cs & s1 & Q1 & Z1 & _).
  assert (H2 : exists a s2, peekKeyword s1 = (Ok a, s2) /\ Z_ (lit "int32 a=b") s2 /\ a = TIDENT).
  { eapply (run peekKeyword (fun p0 => pbind (ppeek p0 ScanKeyword) (fun t => pret (tk t)))); [exact Z1|apply r_peekk|peval]. }
  destruct H2 as (t & s2 & Q2 & Z2 & ->).
  assert (H3 : exists a s3, peekIsGroup s2 = (Ok a, s3) /\ Z_ (lit "int32 a=b") s3 /\ a = false).
  { eapply run; [exact Z2|intros full p0; apply r_isGroup|peval]. }
  destruct H3 as (t & s3 & Q3 & Z3 & ->). destruct (field_fails s3 Z3) as (e & s4 & Q4 & Z4 & W4).
  destruct (recover_bs e 0 0 s4 Z4 W4) as (p & s5 & Q5 & Z5 & W5). exists e, p, s5. split; [|split; [exact Z5|exact W5]].
  cbn [messageBody_loop]. rwb Q1. rwb Q2. cbv iota.
  assert (E : messageStmt perm bic mb TIDENT cs s2 = recoverEmpty e s4). { unfold messageStmt. rwb Q3. cbv iota. unfold try. rewrite Q4. reflexivity. }
  unfold bind. rewrite E, Q5. reflexivity.
Qed.
Lemma nested_fails d : forall s m ilc j stmts, Z_ (groups d) s -> (d <= m)%nat -> exists e p s',
  messageBody_loop perm bic (parseMessageBody perm bic (S m)) ilc (S j) stmts s = (Err (EPair e (ELex p ";" (bs (2 ^ d)))), s') /\
  Z_ (bs (2 ^ d)) s' /\ raw s' = bs (2 ^ d).
Proof.
  induction d as [|d IH]; intros s m ilc j stmts Z Hm; [apply inner_fails; exact Z|].
  cbn [groups] in Z. destruct (groups_head d) as (c & U & EU & HC).
  destruct (group_enter perm bic (lit "A") (groups d) c U s (or_introl eq_refl) EU HC Z) as (s1 & Z1 & L1).
  destruct (L1 (parseMessageBody perm bic (S m)) ilc j stmts) as [E1 _]. clear L1.
  destruct (body_enter perm bic (groups d) c U s1 EU HC Z1) as (s2 & Z2 & B2).
  destruct m as [|m]; [lia|]. destruct (IH s2 m None m [] Z2 ltac:(lia)) as (e & p & s3 & Q3 & Z3 & W3).
  rewrite <- B2 in Q3. specialize (E1 _ _ Q3).
  destruct (2 ^ d)%nat as [|n] eqn:P; [apply Nat.pow_nonzero in P; [destruct P|lia]|].
  destruct (recover_bs (EPair e (ELex p ";" (bs (S n)))) n (S n) s3 Z3 W3) as (p' & s4 & Q4 & Z4 & W4).
  assert (P2 : (2 ^ S d = S n + S n)%nat). { cbn [Nat.pow]. rewrite P. lia. }
  rewrite P2. do 3 eexists. rewrite E1. unfold bind. rewrite Q4. split; [reflexivity|]. split; [exact Z4|exact W4].
Qed.
Lemma nonul_groups d : nonul (groups d).
Proof. induction d as [|d IH]; [apply nonul_lit; reflexivity|]. cbn [groups]. apply nonul_app. split; [apply nonul_lit; reflexivity|exact IH]. Qed.
Lemma nested_proto d fn n : (d + 3 <= n)%nat -> exists e p s,
  ParseProto perm bic n (init_st fn (nested d)) = (Err (EPair e (ELex p ";" (bs (2 ^ d)))), s).
Proof.
  intros Hn.
  assert (Z0 : Z_ (nested d) (init_st fn (nested d))).
  { split; [reflexivity|]. split; [reflexivity|]. apply nonul_app. split; [apply nonul_lit; reflexivity|apply nonul_groups]. }
  destruct (groups_head d) as (c & U & EU & HC).
  assert (EN : exists U', nested d = lit "message M{" ++ U') by (eexists; reflexivity). destruct EN as (U' & EN).
  rewrite EN in Z0 |- *.
  unfold ParseProto.
  destruct (run parseBOM qBOM _ _ (fun _ => True) (lit "message M{" ++ U') Z0 (r_bom) ltac:(peval)) as (b & s1 & Q1 & Z1 & _). rwb Q1.
  destruct (run ParseComments qParseComments _ _ (fun _ => True) (lit "message M{" ++ U') Z1 r_comments ltac:(peval)) as (cs & s2 & Q2 & Z2 & _). rwb Q2.
  destruct (run ParseSyntax qParseSyntax _ _ (fun x => x = None) (lit "message M{" ++ U') Z2 r_syntax ltac:(peval)) as (x & s3 & Q3 & Z3 & ->). rwb Q3.
  cbv iota. rewrite bind_ret.
  destruct (run ParseEdition qParseEdition _ _ (fun x => x = None) (lit "message M{" ++ U') Z3 r_edition ltac:(peval)) as (x & s4 & Q4 & Z4 & ->). rwb Q4.
  cbv iota. rewrite bind_ret.
  enough (H : exists e p s, protoBody_loop perm bic n [] s4 = (Err (EPair e (ELex p ";" (bs (2 ^ d)))), s)).
  { destruct H as (e & p & s & H); exists e, p, s; unfold bind; rewrite H; reflexivity. }
  destruct n as [|n]; [lia|]. cbn [protoBody_loop].
  destruct (run ParseComments qParseComments _ _ (fun _ => True) (lit "message M{" ++ U') Z4 r_comments ltac:(peval)) as (cs' & s5 & Q5 & Z5 & _). rwb Q5.
  assert (RE : forall full p0, R full p0 (At full p0) p_IsEOF (pbind (ppeek p0 0) (fun t => pret (tok_eqb (tk t) TEOF)))).
  { intros full p0. eapply R_ext; [intros s0; symmetry; apply bind_retr|]. apply R_peekeof. intros t. apply R_weaku, R_ret. }
  destruct (run _ _ _ _ (fun x => x = false) (lit "message M{" ++ U') Z5 RE ltac:(peval)) as (x & s6 & Q6 & Z6 & ->). rwb Q6. cbv iota.
  destruct (run _ _ _ _ (fun x => x = TMESSAGE) (lit "message M{" ++ U') Z6 r_peekk ltac:(peval)) as (x & s7 & Q7 & Z7 & ->). rwb Q7.
  set (b0 := ([], None, zero_pos) : body_result).
  destruct (run _ (fun p0 => qParseMessage_ p0 (pret b0)) _ _ (fun x => True) (lit "{" ++ U') Z7
     (fun full p0 => r_message_ full p0 _ _ (R_ret full p0 b0)) ltac:(peval)) as (x & s8 & Q8 & Z8 & _).
  apply (app_inv_head (lit "message M{")) in EN. rewrite <- EN in Z8.
  destruct (message_split (parseMessageBody perm bic n) _ _ _ _ Q8) as (f & E).
  enough (H : exists e p s, parseMessageBody perm bic n s8 = (Err (EPair e (ELex p ";" (bs (2 ^ d)))), s)).
  { destruct H as (e & p & s & H). exists e, p, s. unfold protoStmt, ParseMessage. unfold bind at 1 2. rewrite E. unfold bind. rewrite H. reflexivity. }
  destruct n as [|[|n]]; [lia|lia|].
  destruct (body_enter perm bic _ c U s8 EU HC Z8) as (s9 & Z9 & B9).
  rewrite B9. destruct (nested_fails d s9 n None n [] Z9 ltac:(lia)) as (e & p & s & Q & _). exists e, p, s. exact Q.
Qed.
End D.

Theorem nested_error opts d : exists e p, Parse opts (nested d) = Err (EPair e (ELex p ";" (bs (2 ^ d)))).
Proof.
  unfold Parse, parse_fuel.
  destruct (nested_proto (cfg_permissive (config_of opts)) (cfg_bodyIncludingComments (config_of opts)) d (cfg_filename (config_of opts)) (S (S (List.length (nested d)))))
    as (e & p & s & Q). { rewrite nested_length. lia. }
  exists e, p. rewrite Q. reflexivity.
Qed.
Lemma nested_size opts d : exists e, Parse opts (nested d) = Err e /\ 2 ^ N.of_nat d < err_size e.
Proof.
  destruct (nested_error opts d) as (e & p & E). eexists. split; [exact E|]. cbn [err_size]. unfold bs. rewrite repeat_length.
  rewrite Nat2N.inj_pow. change (N.of_nat 2) with 2. lia.
Qed.

(** no polynomial bounds it *)
Lemma beats (c b : nat) : exists d, (c * (10 * d + 19) ^ b < 2 ^ d)%nat.
Proof.
  set (i := (c + 7 * b)%nat). set (j := (2 * i)%nat). exists (2 ^ j)%nat.
  assert (P : forall n, (n < 2 ^ n)%nat) by (intros n; apply Nat.pow_gt_lin_r; lia).
  assert (J : (1 <= 2 ^ j)%nat) by (pose proof (P j); lia).
  assert (A : (10 * 2 ^ j + 19 <= 2 ^ (5 + j))%nat). { rewrite Nat.pow_add_r. change (2 ^ 5)%nat with 32%nat. nia. }
  assert (B : ((10 * 2 ^ j + 19) ^ b <= 2 ^ ((5 + j) * b))%nat). { rewrite Nat.pow_mul_r. apply Nat.pow_le_mono_l. exact A. }
  assert (E : (c + (5 + j) * b <= 2 ^ j)%nat).
  { unfold j. replace (2 * i)%nat with (i + i)%nat by lia. rewrite Nat.pow_add_r. pose proof (P i) as Pi.
    assert (Q : ((S i) * (S i) <= 2 ^ i * 2 ^ i)%nat) by (apply Nat.mul_le_mono; lia). 
    apply (Nat.le_trans _ (S i * S i)%nat); [|exact Q]. unfold i. nia. }
  apply (Nat.lt_le_trans _ (2 ^ c * 2 ^ ((5 + j) * b))%nat).
  - apply (Nat.le_lt_trans _ (c * 2 ^ ((5 + j) * b))%nat); [apply Nat.mul_le_mono_l; exact B|].
    apply Nat.mul_lt_mono_pos_r; [|apply P]. pose proof (P ((5 + j) * b)%nat). lia.
  - rewrite <- Nat.pow_add_r. apply Nat.pow_le_mono_r; [lia|exact E].
Qed.
Theorem no_polynomial opts (c b : nat) : exists input e, Parse opts input = Err e /\
  N.of_nat (c * List.length input ^ b) < err_size e.
Proof.
  destruct (beats c b) as (d & B). destruct (nested_size opts d) as (e & E & L). exists (nested d), e. split; [exact E|].
  rewrite nested_length. change 2 with (N.of_nat 2) in L. rewrite <- Nat2N.inj_pow in L. lia.
Qed.
