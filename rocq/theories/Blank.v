(** White space in front of a text: the run on the text with white space goes
    through the run on the text alone. *)
From Coq Require Import List NArith ZArith Bool String Ascii Lia.
From Verif Require Import Base Token Scanner Lexer Ast Parser Api AstMap Simul Lexing ScanRefine LexFacts LexSpec ScanFacts LexProofs LexerFacts SimSpec SimCases FuelMono Bom BlankScan.
Import ListNotations.
Open Scope N_scope.
Open Scope monad_scope.

(** ** Skipping white space *)
Lemma space_not_eof c : isSpace c = true -> (c =? eof) = false.
Proof. intros H. destruct (N.eqb_spec c eof) as [->|]; [discriminate H|reflexivity]. Qed.
Lemma peek_some c r s : rest s = c :: r -> (c =? eof) = false -> peek s = (Ok c, set_pc (pos s, snd (Advance (pos s, cols s) c)) s).
Proof.
  intros R E. unfold peek, bind, read. rewrite R, E. cbv beta iota. rewrite E. unfold modify, unread. cbn [raw pos cols rest set_raw set_pc set_rest]. rewrite removelast_last.
  rewrite (surjective_pairing (Advance (pos s, cols s) c)). cbn [fst snd]. rewrite Advance_fst, Revert_padv.
  - destruct s. cbn in *. subst. reflexivity.
  - intros ->. cbn. rewrite Z.eqb_refl. reflexivity.
Qed.
Lemma col_adv p cl c l : (Line p < l)%Z \/ c <> NL -> col_get (snd (Advance (p, cl) c)) l = col_get cl l.
Proof.
  intros H. unfold Advance. destruct (N.eqb_spec c NL); [|reflexivity]. destruct H as [H|H]; [|contradiction]. cbn. destruct (Z.eqb_spec l (Line p)); [lia|reflexivity].
Qed.
Lemma skip_one c r n s : rest s = c :: r -> isSpace c = true -> exists cl,
  scan (S n) s = scan n (mkSt r (raw s ++ [c]) (padv (pos s) c) cl (mode s) (comments s) (ltok s) (ltext s) (lraw s) (lpos s) (scanErr s)) /\
  (forall l, (Line (pos s) < l)%Z \/ c <> NL -> col_get cl l = col_get (cols s) l).
Proof.
  intros R SP. pose proof (space_not_eof _ SP) as E. cbn [scan]. unfold bind at 1. rewrite (peek_some _ _ _ R E). unfold bind at 1, gets at 1. rewrite SP. unfold bind at 1, read. cbn [rest set_pc pos cols]. rewrite R, E.
  eexists. split.
  - unfold set_rest, set_raw, set_pc. cbn [rest raw pos cols mode comments ltok ltext lraw lpos scanErr fst snd]. rewrite Advance_fst. reflexivity.
  - intros l H. rewrite !col_adv by exact H. reflexivity.
Qed.
Lemma padv_nl p c : Line (padv p c) = (Line p + (if (c =? NL)%N then 1 else 0))%Z.
Proof. unfold padv. destruct (c =? NL); cbn; lia. Qed.
Lemma skip_all : forall w r n s, rest s = w ++ r -> Spaces w -> exists cl,
  scan (List.length w + n) s = scan n (mkSt r (raw s ++ w) (posafter (pos s) w) cl (mode s) (comments s) (ltok s) (ltext s) (lraw s) (lpos s) (scanErr s)) /\
  (forall l, (Line (posafter (pos s) w) <= l)%Z -> col_get cl l = col_get (cols s) l).
Proof.
  induction w as [|c w IH]; intros r n s R SP.
  - exists (cols s). split; [|reflexivity]. destruct s. cbn in *. subst. rewrite app_nil_r. reflexivity.
  - inversion SP as [|? ? H1 H2]; subst. cbn [List.length plus]. destruct (skip_one c (w ++ r) (List.length w + n) s R H1) as (cl1 & E1 & C1). rewrite E1.
    match goal with |- context [scan _ ?x = _] => destruct (IH r n x eq_refl H2) as (cl & E2 & C2) end. exists cl. rewrite E2. cbn [rest raw pos cols mode comments ltok ltext lraw lpos scanErr posafter fold_left] in *. fold (posafter (padv (pos s) c) w) in *. split.
    + rewrite <- app_assoc. reflexivity.
    + intros l L. rewrite C2 by exact L. apply C1. pose proof (posafter_line (padv (pos s) c) w) as P. rewrite padv_nl in P. destruct (N.eqb_spec c NL); [left; lia|right; assumption].
Qed.

(** ** The next token behind white space *)
(** [t] after white space [w] was read with it *)
Definition wide (w : list rune) (t : st) : st :=
  mkSt (rest t) (w ++ raw t) (pos t) (cols t) (mode t) (comments t) (ltok t) (ltext t) (w ++ raw t) (lpos t) (scanErr t).
Lemma next_skips w s' r : rest s' = w ++ r -> Spaces w -> exists cl, (forall l, (Line (posafter (pos s') w) <= l)%Z -> col_get cl l = col_get (cols s') l) /\
  forall rw lt lx lr lp t, Next (mkSt r rw (posafter (pos s') w) cl (mode s') (comments s') lt lx lr lp (scanErr s')) = (Ok tt, t) -> Next s' = (Ok tt, wide w t).
Proof.
  intros R SP. destruct (skip_all w r (S (List.length r)) (set_raw [] s') R SP) as (cl & E & C). cbn [raw pos cols mode comments ltok ltext lraw lpos scanErr set_raw app] in E, C.
  exists cl. split; [exact C|]. intros rw lt lx lr lp t H. unfold Next, Scan, bind, modify, fuel_here, gets in *. cbn [rest set_raw] in H.
  replace (S (List.length (rest (set_raw [] s')))) with (List.length w + S (List.length r))%nat by (cbn [rest set_raw]; rewrite R, app_length; lia). rewrite E. clear E.
  match type of H with (match scan ?n ?x with _ => _ end) = _ => set (x0 := x) in *; pose proof (com_scan w (ltok s') (ltext s') (lraw s') (lpos s') n x0) as K end.
  unfold lay at 1 in K. cbn [x0 rest raw pos cols mode comments scanErr set_raw app] in K. rewrite app_nil_r in K. rewrite K. clear K. destruct (scan _ x0) as [[[[[t0 x1] p0] e0]|e| |] u]; try discriminate H.
  cbn [fst snd]. injection H as <-. reflexivity.
Qed.
(** the lexer and what was read last do not matter *)
Lemma next_same s rw lt lx lr lp t : Next s = (Ok tt, t) -> Next (mkSt (rest s) rw (pos s) (cols s) (mode s) (comments s) lt lx lr lp (scanErr s)) = (Ok tt, t).
Proof.
  intros H. unfold Next, Scan, bind, modify, fuel_here, gets in *. cbn [rest set_raw] in *.
  match type of H with (match scan ?n ?x with _ => _ end) = _ => pose proof (com_scan [] lt lx lr lp n x) as K end. unfold lay at 1 in K. cbn [rest raw pos cols mode comments scanErr set_raw app] in K.
  unfold set_raw at 1. cbn [rest raw pos cols mode comments ltok ltext lraw lpos scanErr]. rewrite K. clear K. destruct (scan _ (set_raw [] s)) as [[[[[t0 x1] p0] e0]|e| |] u]; try discriminate H. injection H as <-. reflexivity.
Qed.
