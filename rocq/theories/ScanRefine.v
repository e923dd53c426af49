(** The model's [Scan] computes the pure lexer, and moves the position by exactly
    the text it consumes. *)
From Coq Require Import List NArith ZArith Bool String Ascii Lia.
From Verif Require Import Base Token Scanner Lexing.
Import ListNotations.
Open Scope N_scope.

Definition nonul (l : list rune) : Prop := Forall (fun c => c <> 0) l.

Lemma nonul_app a b : nonul (a ++ b) <-> nonul a /\ nonul b.
Proof. unfold nonul. apply Forall_app. Qed.
Lemma nonul_cons a b : nonul (a :: b) <-> a <> 0 /\ nonul b.
Proof. unfold nonul. split; [inversion 1; auto | constructor; tauto]. Qed.
Lemma nonul_nil : nonul [].
Proof. constructor. Qed.

(** ** Positions *)

(** position after one rune / a text *)
Definition padv (p : mpos) (c : rune) : mpos :=
  if c =? NL then mkPos (Filename p) (Offset p + rune_len c) (Line p + 1) 1
  else mkPos (Filename p) (Offset p + rune_len c) (Line p) (Column p + 1).
Definition posafter (p : mpos) (w : list rune) : mpos := fold_left padv w p.

Lemma posafter_app p a b : posafter p (a ++ b) = posafter (posafter p a) b.
Proof. unfold posafter. apply fold_left_app. Qed.

Lemma Advance_fst p cl c : fst (Advance (p, cl) c) = padv p c.
Proof. unfold Advance, padv. destruct (c =? NL); reflexivity. Qed.

Lemma padv_line p c : (Line p <= Line (padv p c))%Z.
Proof. unfold padv. destruct (c =? NL); simpl; lia. Qed.
Lemma posafter_line p w : (Line p <= Line (posafter p w))%Z.
Proof.
  revert p. induction w as [|c w IH]; intro p; simpl; [lia|].
  etransitivity; [apply padv_line|apply IH].
Qed.
Lemma padv_filename p c : Filename (padv p c) = Filename p.
Proof. unfold padv. destruct (c =? NL); reflexivity. Qed.
Lemma posafter_filename p w : Filename (posafter p w) = Filename p.
Proof.
  revert p. induction w as [|c w IH]; intro p; simpl; [reflexivity|].
  rewrite IH. apply padv_filename.
Qed.

(** What consuming [w] from position [p] does to the columns map. *)
Definition cols_step (p : mpos) (w : list rune) (cl cl' : colmap) : Prop :=
  (forall k, (k < Line p)%Z -> col_get cl' k = col_get cl k) /\
  (forall a b, w = a ++ NL :: b ->
     col_get cl' (Line (posafter p a)) = Column (posafter p a)).

Lemma cols_step_nil p cl : cols_step p [] cl cl.
Proof.
  split; [reflexivity|]. intros a b H. destruct a; discriminate.
Qed.

Lemma cols_step_trans p a b c1 c2 c3 :
  cols_step p a c1 c2 -> cols_step (posafter p a) b c2 c3 -> cols_step p (a ++ b) c1 c3.
Proof.
  intros [A1 A2] [B1 B2]. split.
  - intros k Hk. rewrite B1; [apply A1; exact Hk|].
    pose proof (posafter_line p a). lia.
  - intros x y E.
    apply app_eq_app in E. destruct E as [l [[E1 E2]|[E1 E2]]].
    + (* a = x ++ l *)
      destruct l as [|d l].
      * simpl in E2. rewrite app_nil_r in E1. subst x.
        specialize (B2 [] y). simpl in B2. apply B2. symmetry. exact E2.
      * injection E2 as Ed E2. subst d a.
        rewrite B1.
        -- apply (A2 x l). reflexivity.
        -- rewrite (posafter_app p x (NL :: l)).
           change (posafter (posafter p x) (NL :: l)) with (posafter (padv (posafter p x) NL) l).
           pose proof (posafter_line (padv (posafter p x) NL) l) as L.
           unfold padv at 1 in L. rewrite N.eqb_refl in L. simpl in L. lia.
    + (* x = a ++ l *)
      subst x. rewrite posafter_app. apply (B2 l y). exact E2.
Qed.

Lemma cols_step_one p c cl : cols_step p [c] cl (snd (Advance (p, cl) c)).
Proof.
  split.
  - intros k Hk. unfold Advance. destruct (c =? NL); simpl; [|reflexivity].
    destruct (k =? Line p)%Z eqn:E; [lia|reflexivity].
  - intros a b E. destruct a as [|x a].
    + injection E as E _. subst c. simpl. rewrite Z.eqb_refl. reflexivity.
    + destruct a; discriminate.
Qed.

(** Reverting one rune after consuming it. *)
Lemma Revert_padv p c cl :
  (c = NL -> col_get cl (Line p) = Column p) ->
  Revert (padv p c, cl) c = (p, cl).
Proof.
  intro H. unfold Revert, padv. destruct (N.eqb_spec c NL) as [E|E].
  - subst c. simpl. replace (Line p + 1 - 1)%Z with (Line p) by lia.
    rewrite (H eq_refl). destruct p as [f o l c]; simpl. f_equal. f_equal; lia.
  - destruct p as [f o l c']; simpl. f_equal. f_equal; lia.
Qed.

(** ** Steps of the scanner *)

Definition sameregs (s s' : st) : Prop :=
  ltok s' = ltok s /\ ltext s' = ltext s /\ lraw s' = lraw s /\ lpos s' = lpos s /\
  scanErr s' = scanErr s.

(** [s'] is [s] after consuming [w] and recording the comments [cm]. *)
Record step (s : st) (w : list rune) (cm : list text) (s' : st) : Prop := mkStep {
  st_rest : rest s = w ++ rest s';
  st_raw : raw s' = raw s ++ w;
  st_pos : pos s' = posafter (pos s) w;
  st_cols : cols_step (pos s) w (cols s) (cols s');
  st_mode : mode s' = mode s;
  st_cms : comments s' = comments s ++ cm;
  st_regs : sameregs s s' }.

Lemma step_refl s : step s [] [] s.
Proof.
  constructor; rewrite ?app_nil_r; auto using cols_step_nil. repeat split.
Qed.

Lemma step_trans s a ca s1 b cb s2 :
  step s a ca s1 -> step s1 b cb s2 -> step s (a ++ b) (ca ++ cb) s2.
Proof.
  intros [R1 W1 P1 C1 M1 K1 G1] [R2 W2 P2 C2 M2 K2 G2].
  constructor.
  - rewrite R1, R2, app_assoc. reflexivity.
  - rewrite W2, W1, app_assoc. reflexivity.
  - rewrite P2, P1, posafter_app. reflexivity.
  - eapply cols_step_trans; [exact C1|]. rewrite <- P1. exact C2.
  - congruence.
  - rewrite K2, K1, app_assoc. reflexivity.
  - destruct G1 as (A1&A2&A3&A4&A5), G2 as (B1&B2&B3&B4&B5).
    repeat split; congruence.
Qed.

Lemma step_trans0 s a s1 b cb s2 :
  step s a [] s1 -> step s1 b cb s2 -> step s (a ++ b) cb s2.
Proof. intros A B. exact (step_trans _ _ [] _ _ _ _ A B). Qed.

Lemma read_nil s : rest s = [] -> read s = (Ok 0, s).
Proof. intro E. unfold read. rewrite E. reflexivity. Qed.

Lemma read_cons s c r : rest s = c :: r -> c <> 0 ->
  exists s', read s = (Ok c, s') /\ step s [c] [] s'.
Proof.
  intros E Hc. unfold read. rewrite E.
  destruct (N.eqb_spec c eof) as [X|X]; [exfalso; apply Hc; exact X|].
  eexists. split; [reflexivity|].
  constructor; cbn [rest raw pos cols mode comments set_pc set_raw set_rest app].
  - exact E.
  - reflexivity.
  - apply Advance_fst.
  - apply cols_step_one.
  - reflexivity.
  - rewrite app_nil_r. reflexivity.
  - repeat split.
Qed.

Lemma peek_nil s : rest s = [] -> peek s = (Ok 0, s).
Proof. intro E. unfold peek, bind. rewrite read_nil by exact E. reflexivity. Qed.

Lemma peek_cons s c r : rest s = c :: r -> c <> 0 ->
  exists s', peek s = (Ok c, s') /\ step s [] [] s'.
Proof.
  intros E Hc. unfold peek, bind.
  destruct (read_cons s c r E Hc) as (s1 & E1 & S1). rewrite E1.
  destruct (N.eqb_spec c eof) as [X|X]; [exfalso; apply Hc; exact X|].
  unfold modify, ret. eexists. split; [reflexivity|].
  destruct S1 as [R1 W1 P1 C1 M1 K1 G1].
  assert (RV : Revert (pos s1, cols s1) c = (pos s, cols s1)).
  { rewrite P1. apply (Revert_padv (pos s)). intro Ec.
    destruct C1 as [_ C1]. apply (C1 [] []). rewrite Ec. reflexivity. }
  unfold unread.
  constructor; cbn [rest raw pos cols mode comments set_pc set_raw set_rest app].
  - rewrite E in R1. rewrite E. injection R1 as R1. rewrite R1. reflexivity.
  - rewrite W1, removelast_last, app_nil_r. reflexivity.
  - rewrite RV. reflexivity.
  - rewrite RV. simpl. split; [apply C1|]. intros a b H. destruct a; discriminate.
  - exact M1.
  - rewrite K1. reflexivity.
  - exact G1.
Qed.

Lemma rest_step s w cm s' r : step s w cm s' -> rest s = w ++ r -> rest s' = r.
Proof. intros [R _ _ _ _ _ _] E. rewrite R in E. apply app_inv_head in E. exact E. Qed.

(** The next rune, 0 at the end. *)
Definition hd0 (l : list rune) : rune := match l with c :: _ => c | [] => 0 end.

Lemma peek_any s r : rest s = r -> nonul r ->
  exists s', peek s = (Ok (hd0 r), s') /\ step s [] [] s'.
Proof.
  intros E N. destruct r as [|c r].
  - exists s. split; [apply peek_nil; exact E|apply step_refl].
  - apply nonul_cons in N. destruct N as [Nc N]. apply (peek_cons s c r E Nc).
Qed.

Lemma isEOF_any s r : rest s = r -> nonul r ->
  exists s', isEOF s = (Ok (match r with [] => true | _ => false end), s') /\ step s [] [] s'.
Proof.
  intros E N. destruct (peek_any s r E N) as (s1 & E1 & S1).
  unfold isEOF, bind. rewrite E1. exists s1. split; [|exact S1].
  unfold ret. destruct r as [|c r]; simpl; [reflexivity|].
  apply nonul_cons in N. destruct N as [Nc _].
  destruct (N.eqb_spec c eof) as [X|X]; [exfalso; apply Nc; exact X|reflexivity].
Qed.

(** Tactics: run the primitive at the head of a [bind], and move the facts about
    the new state. *)
Ltac fuse :=
  repeat match goal with
  | A : step ?s ?w ?c ?s1, B : step ?s1 ?w' ?c' ?s2 |- _ =>
      let T := fresh "ST" in
      pose proof (step_trans _ _ _ _ _ _ _ A B) as T; clear A B; cbn [app] in T
  end.

Ltac fin :=
  repeat match goal with H : step _ _ _ _ |- _ => rewrite app_nil_r in H end;
  cbn [app] in *; assumption.

Lemma fuel_here_eq s : fuel_here s = (Ok (S (List.length (rest s))), s).
Proof. reflexivity. Qed.

Lemma bind_eq {A B} (m : M A) (f : A -> M B) s a s1 :
  m s = (Ok a, s1) -> bind m f s = f a s1.
Proof. intro E. unfold bind. rewrite E. reflexivity. Qed.
Lemma bind_err {A B} (m : M A) (f : A -> M B) s e s1 :
  m s = (Err e, s1) -> bind m f s = (Err e, s1).
Proof. intro E. unfold bind. rewrite E. reflexivity. Qed.
Lemma bind_ret {A B} (a : A) (f : A -> M B) s : bind (ret a) f s = f a s.
Proof. reflexivity. Qed.
Lemma bind_gets {A B} (g : st -> A) (f : A -> M B) s : bind (gets g) f s = f (g s) s.
Proof. reflexivity. Qed.
Lemma bind_modify {B} (g : st -> st) (f : unit -> M B) s : bind (modify g) f s = f tt (g s).
Proof. reflexivity. Qed.
Lemma bind_assoc {A B C} (m : M A) (f : A -> M B) (g : B -> M C) s :
  bind (bind m f) g s = bind m (fun a => bind (f a) g) s.
Proof. unfold bind. destruct (m s) as [[a|e| |] s1]; reflexivity. Qed.

Ltac rwb Q := rewrite (bind_eq _ _ _ _ _ Q); cbv beta.
Ltac rwe Q := rewrite (bind_err _ _ _ _ _ Q); cbv beta.

(** [dread H]: goal contains [bind read f s] with [H : rest s = c :: r]. *)
Ltac dpeek s1 :=
  match goal with
  | E : rest ?s = ?r, N : nonul ?r |- context [bind peek _ ?s] =>
      let Q := fresh "Q" in let S := fresh "S" in let Rn := fresh "Er" in
      destruct (peek_any s r E N) as (s1 & Q & S);
      rwb Q; clear Q;
      pose proof (rest_step _ _ _ _ r S E) as Rn
  end.
Ltac deof s1 :=
  match goal with
  | E : rest ?s = ?r, N : nonul ?r |- context [bind isEOF _ ?s] =>
      let Q := fresh "Q" in let S := fresh "S" in let Rn := fresh "Er" in
      destruct (isEOF_any s r E N) as (s1 & Q & S);
      rwb Q; clear Q;
      pose proof (rest_step _ _ _ _ r S E) as Rn
  end.
Ltac dread s1 :=
  match goal with
  | E : rest ?s = ?c :: ?r, N : nonul (?c :: ?r) |- context [bind read _ ?s] =>
      let Q := fresh "Q" in let S := fresh "S" in let Rn := fresh "Er" in
      let N1 := fresh "N" in let N2 := fresh "N" in
      destruct (proj1 (nonul_cons c r) N) as [N1 N2];
      destruct (read_cons s c r E N1) as (s1 & Q & S);
      rwb Q; clear Q;
      pose proof (rest_step _ _ _ _ r S E) as Rn
  end.

(** ** The loops *)

Lemma span_app p l a b : span p l = (a, b) -> l = a ++ b.
Proof.
  revert a b. induction l as [|c l IH]; intros a b H; simpl in H.
  - injection H as <- <-. reflexivity.
  - destruct (p c); [|injection H as <- <-; reflexivity].
    destruct (span p l) as [a' b']. injection H as <- <-. simpl. f_equal. auto.
Qed.

Lemma ident_loop_ok : forall r n acc s x r',
  rest s = r -> nonul r -> (List.length r < n)%nat -> span identChar r = (x, r') ->
  exists s', ident_loop n acc s = (Ok (acc ++ x), s') /\ step s x [] s'.
Proof.
  induction r as [|c r IH]; intros n acc s x r' E N L H; (destruct n as [|n]; [simpl in L; lia|]); cbn [ident_loop].
  - injection H as <- <-. dpeek s1. cbn. exists s1. rewrite app_nil_r. split; [reflexivity|exact S].
  - cbn [span] in H. dpeek s1. cbn [hd0].
    change (isLetter c || isDecimalDigit c || (c =? ch "_")) with (identChar c).
    destruct (identChar c) eqn:I.
    + destruct (span identChar r) as [a b] eqn:SP. injection H as <- <-.
      dread s2.
      destruct (IH n (acc ++ [c]) s2 a b Er0 N1 ltac:(simpl in L; lia) eq_refl) as (s3 & Q3 & S3).
      rewrite Q3. exists s3. rewrite <- app_assoc. split; [reflexivity|]. fuse. assumption.
    + injection H as <- <-. exists s1. rewrite app_nil_r. split; [reflexivity|exact S].
Qed.

Lemma digits_loop_ok cls : forall r n acc s x r',
  rest s = r -> nonul r -> (List.length r < n)%nat -> span cls r = (x, r') ->
  exists s', digits_loop n cls acc s = (Ok (acc ++ x), s') /\ step s x [] s'.
Proof.
  induction r as [|c r IH]; intros n acc s x r' E N L H; (destruct n as [|n]; [simpl in L; lia|]); cbn [digits_loop].
  - injection H as <- <-. deof s1. exists s1. rewrite app_nil_r. split; [reflexivity|exact S].
  - cbn [span] in H. deof s1. dpeek s2. cbn [hd0].
    destruct (cls c) eqn:I; cbn [negb].
    + destruct (span cls r) as [a b] eqn:SP. injection H as <- <-.
      dread s3.
      destruct (IH n (acc ++ [c]) s3 a b Er1 N1 ltac:(simpl in L; lia) eq_refl) as (s4 & Q4 & S4).
      rewrite Q4. exists s4. rewrite <- app_assoc. split; [reflexivity|]. fuse. assumption.
    + injection H as <- <-. exists s2. rewrite app_nil_r. split; [reflexivity|]. fuse. assumption.
Qed.

Lemma escape_digits_ok cls : forall k r acc s x r',
  rest s = r -> nonul r -> cls 0 = false -> upto k cls r = (x, r') ->
  exists s', escape_digits k cls acc s = (Ok (acc ++ x), s') /\ step s x [] s'.
Proof.
  induction k as [|k IH]; intros r acc s x r' E N Z H; cbn [escape_digits].
  - destruct r; injection H as <- <-; exists s; rewrite app_nil_r; split; auto using step_refl.
  - dpeek s1. destruct r as [|c r]; cbn [hd0]; cbn [upto] in H.
    + rewrite Z. cbn [negb]. injection H as <- <-. exists s1. rewrite app_nil_r. split; [reflexivity|exact S].
    + destruct (cls c) eqn:I; cbn [negb].
      * destruct (upto k cls r) as [a b] eqn:SP. injection H as <- <-.
        dread s2.
        destruct (IH r (acc ++ [c]) s2 a b Er0 N1 Z SP) as (s3 & Q3 & S3).
        rewrite Q3. exists s3. rewrite <- app_assoc. split; [reflexivity|]. fuse. assumption.
      * injection H as <- <-. exists s1. rewrite app_nil_r. split; [reflexivity|exact S].
Qed.

Lemma line_loop_ok : forall r n acc c s b r2,
  rest s = r -> nonul r -> (List.length r < n)%nat -> c <> NL ->
  span (fun d => negb (d =? NL)) r = (b, r2) ->
  exists s', line_loop n acc c s = (Ok (acc ++ [c] ++ b), s') /\
             step s (b ++ match r2 with d :: _ => [d] | [] => [] end) [] s'.
Proof.
  induction r as [|d r IH]; intros n acc c s b r2 E N L Hc H; (destruct n as [|n]; [simpl in L; lia|]); cbn [line_loop].
  - apply N.eqb_neq in Hc. rewrite Hc. cbn zeta. injection H as <- <-.
    deof s1. exists s1. split; [reflexivity|exact S].
  - apply N.eqb_neq in Hc. rewrite Hc. cbn zeta. cbn [span] in H. deof s1. dread s2.
    destruct (N.eqb_spec d NL) as [D|D]; cbn [negb] in H.
    + injection H as <- <-. subst d. destruct n as [|n]; [simpl in L; lia|]. cbn [line_loop].
      rewrite N.eqb_refl. exists s2. split; [reflexivity|]. fuse. assumption.
    + destruct (span (fun d => negb (d =? NL)) r) as [a b'] eqn:SP. injection H as <- <-.
      destruct (IH n (acc ++ [c]) d s2 a b' Er0 N1 ltac:(simpl in L; lia) D eq_refl) as (s3 & Q3 & S3).
      rewrite Q3. exists s3. rewrite <- !app_assoc. split; [reflexivity|]. fuse. assumption.
Qed.

Lemma block_loop_ok : forall r n acc c s,
  rest s = r -> nonul r -> (List.length r < n)%nat ->
  match find_close r with
  | Some (b, r') => exists s', block_loop n acc c s = (Ok (acc ++ [c] ++ b), s') /\ step s b [] s'
  | None => exists s' e, block_loop n acc c s = (Err e, s') /\ step s r [] s'
  end.
Proof.
  induction r as [|d r IH]; intros n acc c s E N L; (destruct n as [|n]; [simpl in L; lia|]); cbn [block_loop find_close].
  - deof s1. eexists s1, _. split; [reflexivity|exact S].
  - deof s1. cbn zeta. dread s2. dpeek s3.
    replace ((d =? ch "*") && match r with d :: _ => d =? ch "/" | [] => false end)
      with ((d =? ch "*") && (hd0 r =? ch "/")) by (destruct r; reflexivity).
    destruct ((d =? ch "*") && (hd0 r =? ch "/")) eqn:T.
    + apply andb_prop in T. destruct T as [T1 T2].
      destruct r as [|d2 r]; [discriminate T2|].
      dread s4. cbn [ret]. exists s4. rewrite <- !app_assoc. split; [reflexivity|]. fuse. assumption.
    + assert (LL : (List.length r < n)%nat) by (simpl in L; lia).
      specialize (IH n (acc ++ [c]) d s3 Er1 N1 LL).
      destruct (find_close r) as [[b r']|].
      * destruct IH as (s4 & Q4 & S4). exists s4. rewrite Q4, <- !app_assoc. split; [reflexivity|].
        fuse. assumption.
      * destruct IH as (s4 & e & Q4 & S4). exists s4, e. rewrite Q4. split; [reflexivity|].
        fuse. assumption.
Qed.

(** ** Literals *)

(** [m] consumes according to [o]: on success it returns [acc ++] the text. *)
Definition lit_ok (m : M str) (acc : list rune) (o : lout) (s : st) : Prop :=
  let '(ok, w, r) := o in
  if ok then exists s', m s = (Ok (acc ++ w), s') /\ step s w [] s'
  else exists s' e, m s = (Err e, s') /\ step s w [] s'.

Lemma scanDecimals_ok s r d r' :
  rest s = r -> nonul r -> span isDecimalDigit r = (d, r') ->
  match d with
  | [] => exists s' e, scanDecimals s = (Err e, s') /\ step s [] [] s'
  | _ => exists s', scanDecimals s = (Ok d, s') /\ step s d [] s'
  end.
Proof.
  intros E N H. unfold scanDecimals. dpeek s1.
  destruct r as [|c r]; cbn [hd0].
  - injection H as <- <-. eexists s1, _. split; [reflexivity|exact S].
  - cbn [span] in H. destruct (isDecimalDigit c) eqn:I; cbn [negb].
    + destruct (span isDecimalDigit r) as [a b] eqn:SP. injection H as <- <-.
      dread s2. rwb (fuel_here_eq s2).
      destruct (digits_loop_ok isDecimalDigit r (Datatypes.S (List.length (rest s2))) [c] s2 a b Er0 N1
                  ltac:(rewrite Er0; lia) SP) as (s3 & Q3 & S3).
      rewrite Q3. exists s3. split; [reflexivity|]. fuse. assumption.
    + injection H as <- <-. eexists s1, _. split; [reflexivity|exact S].
Qed.

Lemma hd_is_head p l : p 0 = false -> p (hd0 l) = head_is p l.
Proof. intro H. destruct l; [exact H|reflexivity]. Qed.

Lemma scanExponent_ok s r :
  rest s = r -> nonul r -> head_is is_e r = true -> lit_ok scanExponent [] (pexp r) s.
Proof.
  intros E N H. destruct r as [|e r]; [discriminate H|]. cbn [head_is] in H.
  unfold lit_ok, scanExponent, pexp. dpeek s1. cbn [hd0]. rewrite H.
  dread s2. dpeek s3.
  change ((hd0 r =? ch "+") || (hd0 r =? ch "-"))
    with ((fun c : rune => (c =? ch "+") || (c =? ch "-")) (hd0 r)).
  rewrite hd_is_head by reflexivity.
  destruct (head_is (fun c : rune => (c =? ch "+") || (c =? ch "-")) r) eqn:SG.
  - destruct r as [|sg r]; [discriminate SG|].
    dread s4. destruct (span isDecimalDigit r) as [d r'] eqn:SP.
    pose proof (scanDecimals_ok s4 r d r' Er2 N3 SP) as D.
    destruct d as [|d0 d]; cbn [negb].
    + destruct D as (s5 & e5 & Q5 & S5). rwe Q5.
      exists s5, e5. split; [reflexivity|]. fuse. assumption.
    + destruct D as (s5 & Q5 & S5). rwb Q5.
      exists s5. split; [reflexivity|]. fuse. assumption.
  - destruct (span isDecimalDigit r) as [d r'] eqn:SP.
    pose proof (scanDecimals_ok s3 r d r' Er1 N1 SP) as D.
    destruct d as [|d0 d]; cbn [negb].
    + destruct D as (s5 & e5 & Q5 & S5). rwe Q5.
      exists s5, e5. split; [reflexivity|]. fuse. assumption.
    + destruct D as (s5 & Q5 & S5). rwb Q5.
      exists s5. split; [reflexivity|]. fuse. assumption.
Qed.

(** the tail shared by the fraction parts *)
Lemma tail_exp_ok s d r :
  rest s = r -> nonul r ->
  let '(ok, w, r') := (if head_is is_e r then pexp r else (true, [], r)) in
  if ok then exists s', (c <- peek;; if is_e c then e <- scanExponent;; ret (d ++ e) else ret d) s
                        = (Ok (d ++ w), s') /\ step s w [] s'
  else exists s' e, (c <- peek;; if is_e c then e <- scanExponent;; ret (d ++ e) else ret d) s
                        = (Err e, s') /\ step s w [] s'.
Proof.
  intros E N. dpeek s1. rewrite hd_is_head by reflexivity.
  destruct (head_is is_e r) eqn:H.
  - pose proof (scanExponent_ok s1 r Er N H) as X. unfold lit_ok in X.
    destruct (pexp r) as [[ok w] r']. destruct ok.
    + destruct X as (s2 & Q2 & S2). rwb Q2. exists s2. split; [reflexivity|].
      fuse. assumption.
    + destruct X as (s2 & e & Q2 & S2). rwe Q2. exists s2, e. split; [reflexivity|].
      fuse. assumption.
  - exists s1. rewrite app_nil_r. split; [reflexivity|exact S].
Qed.

Lemma popt_exp_eq d l :
  popt_exp d l = cons_out d (if head_is is_e l then pexp l else (true, [], l)).
Proof.
  unfold popt_exp. destruct (head_is is_e l); cbn [cons_out].
  - destruct (pexp l) as [[ok x] l2]. reflexivity.
  - rewrite app_nil_r. reflexivity.
Qed.

Lemma scanFractionPart_ok s r :
  rest s = r -> nonul r -> lit_ok scanFractionPart [] (pfrac r) s.
Proof.
  intros E N. unfold scanFractionPart, pfrac. destruct (span isDecimalDigit r) as [d r'] eqn:SP.
  unfold lit_ok. dpeek s1. rewrite hd_is_head by reflexivity.
  rewrite popt_exp_eq.
  assert (D : exists s2, (if head_is isDecimalDigit r then scanDecimals else ret []) s1 = (Ok d, s2)
                         /\ step s1 d [] s2).
  { destruct r as [|c r]; cbn [head_is span] in *.
    - injection SP as <- <-. exists s1. split; [reflexivity|apply step_refl].
    - destruct (isDecimalDigit c) eqn:I.
      + pose proof (scanDecimals_ok s1 (c :: r) d r' Er N) as D. cbn [span] in D. rewrite I in D.
        specialize (D SP). destruct (span isDecimalDigit r). injection SP as <- <-. exact D.
      + injection SP as <- <-. exists s1. split; [reflexivity|apply step_refl]. }
  destruct D as (s2 & Q2 & S2). rwb Q2.
  pose proof (span_app _ _ _ _ SP) as EA.
  assert (E2 : rest s2 = r') by (eapply rest_step; [exact S2|]; rewrite Er; exact EA).
  assert (N2 : nonul r') by (rewrite EA in N; apply nonul_app in N; tauto).
  pose proof (tail_exp_ok s2 d r' E2 N2) as T.
  destruct (if head_is is_e r' then pexp r' else (true, [], r')) as [[ok w] r2].
  cbn [cons_out]. destruct ok.
  - destruct T as (s3 & Q3 & S3). exists s3. split; [exact Q3|]. fuse. assumption.
  - destruct T as (s3 & e & Q3 & S3). exists s3, e. split; [exact Q3|]. fuse. assumption.
Qed.

Lemma scanFractionPartNoOmit_ok s r :
  rest s = r -> nonul r -> lit_ok scanFractionPartNoOmit [] (pfracno r) s.
Proof.
  intros E N. unfold scanFractionPartNoOmit, pfracno. destruct (span isDecimalDigit r) as [d r'] eqn:SP.
  pose proof (span_app _ _ _ _ SP) as EA.
  pose proof (scanDecimals_ok s r d r' E N SP) as D.
  unfold lit_ok. destruct d as [|d0 d].
  - destruct D as (s1 & e & Q1 & S1). rwe Q1. exists s1, e. auto.
  - destruct D as (s1 & Q1 & S1). rwb Q1. rewrite popt_exp_eq.
    assert (E2 : rest s1 = r') by (eapply rest_step; [exact S1|]; rewrite E; exact EA).
    assert (N2 : nonul r') by (rewrite EA in N; apply nonul_app in N; tauto).
    pose proof (tail_exp_ok s1 (d0 :: d) r' E2 N2) as T.
    destruct (if head_is is_e r' then pexp r' else (true, [], r')) as [[ok w] r2].
    cbn [cons_out]. destruct ok.
    + destruct T as (s3 & Q3 & S3). exists s3. split; [exact Q3|]. fuse. assumption.
    + destruct T as (s3 & e & Q3 & S3). exists s3, e. split; [exact Q3|]. fuse. assumption.
Qed.

Definition num_ok (m : M (token * str)) (o : token * lout) (s : st) : Prop :=
  let '(t, (ok, w, r)) := o in
  if ok then exists s', m s = (Ok (t, w), s') /\ step s w [] s'
  else exists s' e, m s = (Err e, s') /\ step s w [] s'.

Ltac use_lit X s4 :=
  let Q4 := fresh "Q" in let S4 := fresh "S" in let e := fresh "e" in
  match type of X with
  | lit_ok _ _ ?o _ =>
    unfold lit_ok in X; destruct o as [[? ?] ?]; cbn [cons_out];
    match type of X with
    | if ?ok then _ else _ =>
      destruct ok;
      [ destruct X as (s4 & Q4 & S4); rwb Q4; exists s4; split; [try reflexivity|fuse; try assumption]
      | destruct X as (s4 & e & Q4 & S4); rwe Q4; exists s4, e; split; [try reflexivity|fuse; try assumption] ]
    end
  end.

Lemma scanNumberLit_ok s c0 r :
  rest s = c0 :: r -> nonul (c0 :: r) -> num_ok scanNumberLit (pnum c0 r) s.
Proof.
  intros E N. unfold num_ok, scanNumberLit, pnum. dread s1. cbn zeta. dpeek s2.
  change ((hd0 r =? ch "x") || (hd0 r =? ch "X")) with ((fun c : rune => (c =? ch "x") || (c =? ch "X")) (hd0 r)).
  rewrite hd_is_head by reflexivity.
  destruct ((c0 =? ch "0") && head_is (fun c => (c =? ch "x") || (c =? ch "X")) r) eqn:HX.
  { apply andb_prop in HX. destruct HX as [_ HX]. destruct r as [|x r]; [discriminate HX|].
    destruct (span isHexDigit r) as [h r'] eqn:SP. dread s3. dpeek s4.
    destruct r as [|h0 r]; cbn [hd0].
    - injection SP as <- <-. cbn [negb isHexDigit]. 
      replace (negb (isHexDigit 0)) with true by reflexivity.
      dpeek s5. eexists s5, _. split; [reflexivity|]. fuse. assumption.
    - cbn [span] in SP. destruct (isHexDigit h0) eqn:IH; cbn [negb].
      + destruct (span isHexDigit r) as [a b] eqn:SP2. injection SP as <- <-. cbn [negb].
        dread s5. rwb (fuel_here_eq s5).
        destruct (digits_loop_ok isHexDigit r (Datatypes.S (List.length (rest s5))) ([c0] ++ [x] ++ [h0]) s5 a b Er3 N5
                  ltac:(rewrite Er3; lia) SP2) as (s6 & Q6 & S6).
        rwb Q6. exists s6. split; [reflexivity|]. fuse. assumption.
      + injection SP as <- <-. cbn [negb]. dpeek s5. eexists s5, _. split; [reflexivity|]. fuse. assumption. }
  destruct (c0 =? ch ".") eqn:DOT.
  { pose proof (scanFractionPartNoOmit_ok s2 r Er0 N1) as X. use_lit X s4. }
  change (hd0 r =? ch ".") with ((fun c : rune => c =? ch ".") (hd0 r)).
  rewrite hd_is_head by reflexivity.
  destruct (head_is (fun c => c =? ch ".") r) eqn:HD.
  { destruct r as [|d r]; [discriminate HD|]. dread s3.
    pose proof (scanFractionPart_ok s3 r Er1 N3) as X. use_lit X s4. }
  rewrite hd_is_head by reflexivity.
  destruct (head_is is_e r) eqn:HE.
  { pose proof (scanExponent_ok s2 r Er0 N1 HE) as X. use_lit X s4. }
  destruct (c0 =? ch "0") eqn:Z.
  { destruct (span isOctalDigit r) as [d r'] eqn:SP. rwb (fuel_here_eq s2).
    destruct (digits_loop_ok isOctalDigit r (Datatypes.S (List.length (rest s2))) [c0] s2 d r' Er0 N1
                  ltac:(rewrite Er0; lia) SP) as (s6 & Q6 & S6).
    rwb Q6. exists s6. split; [reflexivity|]. fuse. assumption. }
  destruct (span isDecimalDigit r) as [d r'] eqn:SP. rwb (fuel_here_eq s2).
  pose proof (span_app _ _ _ _ SP) as EA.
  destruct (digits_loop_ok isDecimalDigit r (Datatypes.S (List.length (rest s2))) [c0] s2 d r' Er0 N1
                  ltac:(rewrite Er0; lia) SP) as (s6 & Q6 & S6).
  rwb Q6.
  assert (E6 : rest s6 = r') by (eapply rest_step; [exact S6|]; rewrite Er0; exact EA).
  assert (N6 : nonul r') by (rewrite EA in N1; apply nonul_app in N1; tauto).
  dpeek s7. 
  change (hd0 r' =? ch ".") with ((fun c : rune => c =? ch ".") (hd0 r')).
  rewrite hd_is_head by reflexivity.
  destruct (head_is (fun c => c =? ch ".") r') eqn:HD2.
  { destruct r' as [|dt r']; [discriminate HD2|]. dread s8.
    pose proof (scanFractionPart_ok s8 r' Er2 N3) as X. fuse.
    use_lit X s9.
    cbn [app]. rewrite <- app_assoc. reflexivity. }
  rewrite hd_is_head by reflexivity.
  destruct (head_is is_e r') eqn:HE2.
  { pose proof (scanExponent_ok s7 r' Er1 N6 HE2) as X. fuse. use_lit X s9.
    all: rewrite app_nil_r in *; assumption. }
  exists s7. split; [reflexivity|]. fuse. rewrite app_nil_r in *. assumption.
Qed.

Lemma pesc_app l a b : pesc l = (a, b) -> l = a ++ b.
Proof.
  assert (U : forall k p l a b, upto k p l = (a, b) -> l = a ++ b).
  { induction k as [|k IH]; intros p l0 a0 b0 H; [destruct l0; injection H as <- <-; reflexivity|].
    destruct l0 as [|c l0]; cbn [upto] in H; [injection H as <- <-; reflexivity|].
    destruct (p c); [|injection H as <- <-; reflexivity].
    destruct (upto k p l0) as [x y] eqn:Q. injection H as <- <-. simpl. f_equal. eauto. }
  destruct l as [|c l]; cbn [pesc]; intro H; [injection H as <- <-; reflexivity|].
  destruct ((c =? ch "x") || (c =? ch "X")).
  - destruct (upto 2 isHexDigit l) as [x y] eqn:Q. injection H as <- <-. simpl. f_equal. eauto.
  - destruct (isOctalDigit c); [eauto|].
    destruct (isCharEscape c); injection H as <- <-; reflexivity.
Qed.

Lemma tryScanEscape_ok s r a b :
  rest s = BSL :: r -> nonul (BSL :: r) -> pesc r = (a, b) ->
  exists s', tryScanEscape s = (Ok (BSL :: a), s') /\ step s (BSL :: a) [] s'.
Proof.
  intros E N H. unfold tryScanEscape. dread s1. cbn zeta. dpeek s2.
  destruct r as [|c r]; cbn [hd0].
  { injection H as <- <-. exists s2. split; [reflexivity|]. fuse. assumption. }
  cbn [pesc] in H.
  destruct ((c =? ch "x") || (c =? ch "X")) eqn:X.
  - destruct (upto 2 isHexDigit r) as [x y] eqn:Q. injection H as <- <-.
    dread s3.
    destruct (escape_digits_ok isHexDigit 2 r ([BSL] ++ [c]) s3 x y Er1 N3 eq_refl Q) as (s4 & Q4 & S4).
    rewrite Q4. exists s4. split; [reflexivity|]. fuse. assumption.
  - destruct (isOctalDigit c) eqn:O.
    + destruct (escape_digits_ok isOctalDigit 3 (c :: r) [BSL] s2 a b Er0 N1 eq_refl H) as (s4 & Q4 & S4).
      rewrite Q4. exists s4. split; [reflexivity|]. fuse. assumption.
    + destruct (isCharEscape c) eqn:C.
      * injection H as <- <-. dread s3. exists s3. split; [reflexivity|]. fuse. assumption.
      * injection H as <- <-. exists s2. split; [reflexivity|]. fuse. assumption.
Qed.

Lemma str_loop_ok q : q <> 0 -> forall n r acc s,
  rest s = r -> nonul r -> (List.length r < n)%nat ->
  lit_ok (str_loop n q acc (hd0 r)) acc (pstr n q r) s.
Proof.
  intro Hq. induction n as [|n IH]; intros r acc s E N L; [lia|].
  unfold lit_ok. cbn [str_loop pstr].
  destruct r as [|c r]; cbn [hd0].
  - destruct (N.eqb_spec 0 q) as [X|X]; [congruence|].
    unfold scanCharValue. rewrite bind_assoc. dpeek s1. cbn [hd0].
    eexists s1, _. split; [reflexivity|exact S].
  - destruct (c =? q) eqn:CQ.
    { dread s1. exists s1. split; [reflexivity|exact S]. }
    unfold scanCharValue. rewrite bind_assoc. dpeek s1. cbn [hd0].
    destruct (proj1 (nonul_cons c r) N) as [Nc Nr].
    destruct (N.eqb_spec c eof) as [X|X]; [exfalso; apply Nc; exact X|]. cbn [orb].
    destruct (c =? NL) eqn:CNL.
    { eexists s1, _. split; [reflexivity|exact S]. }
    destruct (N.eqb_spec c BSL) as [B|B].
    + subst c. destruct (pesc r) as [a b] eqn:PE.
      pose proof (pesc_app _ _ _ PE) as EA.
      destruct (tryScanEscape_ok s1 r a b Er N PE) as (s2 & Q2 & S2).
      rwb Q2.
      assert (E2 : rest s2 = b) by (eapply rest_step; [exact S2|]; rewrite Er, EA; reflexivity).
      assert (N2 : nonul b) by (rewrite EA in Nr; apply nonul_app in Nr; tauto).
      dpeek s3.
      specialize (IH b (acc ++ BSL :: a) s3 Er0 N2
                    ltac:(rewrite EA in L; simpl in L; rewrite app_length in L; lia)).
      unfold lit_ok in IH. destruct (pstr n q b) as [[ok w] r2]. cbn [cons_out].
      destruct ok.
      * destruct IH as (s4 & Q4 & S4). exists s4. rewrite Q4, <- app_assoc. split; [reflexivity|].
        fuse. fin.
      * destruct IH as (s4 & e & Q4 & S4). exists s4, e. rewrite Q4. split; [reflexivity|].
        fuse. fin.
    + rewrite bind_assoc. dread s2. rewrite bind_ret. dpeek s3.
      specialize (IH r (acc ++ [c]) s3 Er1 Nr ltac:(simpl in L; lia)).
      unfold lit_ok in IH. destruct (pstr n q r) as [[ok w] r2]. cbn [cons_out].
      destruct ok.
      * destruct IH as (s4 & Q4 & S4). exists s4. rewrite Q4, <- app_assoc. split; [reflexivity|].
        fuse. assumption.
      * destruct IH as (s4 & e & Q4 & S4). exists s4, e. rewrite Q4. split; [reflexivity|].
        fuse. assumption.
Qed.

Lemma scanStrLit_ok s q r :
  rest s = q :: r -> nonul (q :: r) ->
  lit_ok scanStrLit [] (cons_out [q] (pstr (Datatypes.S (List.length r)) q r)) s.
Proof.
  intros E N. unfold lit_ok, scanStrLit. dread s1. dpeek s2.
  rwb (fuel_here_eq s2).
  pose proof (str_loop_ok q N0 (Datatypes.S (List.length (rest s2))) r [q] s2 Er0 N1 ltac:(rewrite Er0; lia)) as X.
  rewrite Er0 in *. unfold lit_ok in X.
  destruct (pstr (Datatypes.S (List.length r)) q r) as [[ok w] r2]. cbn [cons_out].
  destruct ok.
  - destruct X as (s4 & Q4 & S4). exists s4. rewrite Q4. split; [reflexivity|]. fuse. assumption.
  - destruct X as (s4 & e & Q4 & S4). exists s4, e. rewrite Q4. split; [reflexivity|]. fuse. assumption.
Qed.

(** ** The whole scanner *)

(** [skip] up to the comments, as positions *)
Definition place (p : mpos) (l : list (list rune * str)) : list text :=
  map (fun pc => mkText (snd pc) (posafter p (fst pc))) l.

Lemma place_skip p w l :
  place p (map (fun pc => (w ++ fst pc, snd pc)) l) = place (posafter p w) l.
Proof.
  unfold place. rewrite map_map. apply map_ext. intros [a b]. cbn [fst snd].
  rewrite posafter_app. reflexivity.
Qed.

Definition scan_ok (m : M scanned) (x : lexed) (s : st) : Prop :=
  exists s' e,
    m s = (Ok (lx_tok x, lx_txt x, posafter (pos s) (lx_gap x), e), s') /\
    step s (lx_gap x ++ lx_raw x) (place (pos s) (lx_cms x)) s'.

Lemma scanComment_step s c r :
  rest s = c :: r -> nonul (c :: r) -> c = ch "/" ->
  (head_is (fun d => d =? ch "/") r = true ->
     forall b r2, span (fun d => negb (d =? NL)) r = (b, r2) ->
     exists s', scanComment s = (Ok (c :: b), s') /\
       step s (c :: b ++ match r2 with d :: _ => [d] | [] => [] end) [] s') /\
  (head_is (fun d => d =? ch "*") r = true -> forall d r2, r = d :: r2 ->
     match find_close r2 with
     | Some (b, r3) => exists s', scanComment s = (Ok (c :: d :: b), s') /\ step s (c :: d :: b) [] s'
     | None => exists s' e, scanComment s = (Err e, s') /\ step s (c :: r) [] s'
     end) /\
  (head_is (fun d => d =? ch "/") r = false -> head_is (fun d => d =? ch "*") r = false ->
     exists s' e, scanComment s = (Err e, s') /\ step s (c :: match r with d :: _ => [d] | [] => [] end) [] s').
Proof.
  intros E N Hc. unfold scanComment. dread s1.
  destruct r as [|d r].
  - split; [|split]; try discriminate. intros _ _.
    rewrite (bind_eq _ _ _ _ _ (read_nil s1 Er)). cbv beta. rwb (fuel_here_eq s1).
    eexists s1, _. split; [reflexivity|exact S].
  - dread s2. rwb (fuel_here_eq s2). split; [|split].
    + cbn [head_is]. intros H b r2 SP. rewrite H.
      assert (D : d <> NL).
      { apply N.eqb_eq in H. subst d. discriminate. }
      cbn [span] in SP. destruct (N.eqb_spec d NL) as [X|X]; [contradiction|]. cbn [negb] in SP.
      destruct (span (fun d => negb (d =? NL)) r) as [a b'] eqn:SP2. injection SP as <- <-.
      destruct (line_loop_ok r (Datatypes.S (List.length (rest s2))) [c] d s2 a b' Er0 N3
                  ltac:(rewrite Er0; lia) D SP2) as (s3 & Q3 & S3).
      exists s3. rewrite Q3. split; [reflexivity|]. fuse. assumption.
    + cbn [head_is]. intros H d' r2 EQ. injection EQ as <- <-.
      destruct (N.eqb_spec d (ch "/")) as [X|X].
      { subst d. discriminate H. }
      rewrite H.
      pose proof (block_loop_ok r (Datatypes.S (List.length (rest s2))) [c] d s2 Er0 N3 ltac:(rewrite Er0; lia)) as BL.
      destruct (find_close r) as [[b r3]|].
      * destruct BL as (s3 & Q3 & S3). exists s3. rewrite Q3. split; [reflexivity|]. fuse. assumption.
      * destruct BL as (s3 & e & Q3 & S3). exists s3, e. rewrite Q3. split; [reflexivity|]. fuse. assumption.
    + cbn [head_is]. intros H1 H2. rewrite H1, H2. eexists s2, _. split; [reflexivity|]. fuse. assumption.
Qed.

Lemma lit_token_ok (m : M (token * str)) t o s :
  num_ok m (t, o) s -> scan_ok (or_illegal (pos s) m) (lit_token t o) s.
Proof.
  unfold num_ok, scan_ok, or_illegal, try, lit_token. destruct o as [[ok w] r]. destruct ok.
  - intros (s1 & Q & S). rewrite Q. eexists s1, _. cbn. split; [reflexivity|exact S].
  - intros (s1 & e & Q & S). rewrite Q. eexists s1, _. cbn. split; [reflexivity|exact S].
Qed.

Lemma find_close_app l b r : find_close l = Some (b, r) -> l = b ++ r.
Proof.
  revert b r. induction l as [|c l IH]; intros b r H; cbn [find_close] in H; [discriminate|].
  destruct ((c =? ch "*") && match l with d :: _ => d =? ch "/" | [] => false end).
  - destruct l as [|d l]; [discriminate|]. injection H as <- <-. reflexivity.
  - destruct (find_close l) as [[b' r']|]; [|discriminate]. injection H as <- <-.
    simpl. f_equal. auto.
Qed.

(** composing a skipped part with the rest of the scan *)
Lemma scan_ok_skip (m : M scanned) s s1 w cm x e s' :
  step s w (place (pos s) cm) s1 ->
  m s1 = (Ok (lx_tok x, lx_txt x, posafter (pos s1) (lx_gap x), e), s') ->
  step s1 (lx_gap x ++ lx_raw x) (place (pos s1) (lx_cms x)) s' ->
  m s1 = (Ok (lx_tok (skip w cm x), lx_txt (skip w cm x), posafter (pos s) (lx_gap (skip w cm x)), e), s') /\
  step s (lx_gap (skip w cm x) ++ lx_raw (skip w cm x)) (place (pos s) (lx_cms (skip w cm x))) s'.
Proof.
  intros S Q S'. unfold skip; cbn [lx_gap lx_cms lx_tok lx_txt lx_raw lx_rest].
  split.
  - rewrite Q, posafter_app, (st_pos _ _ _ _ S). reflexivity.
  - unfold place at 1. rewrite map_app. fold (place (pos s) cm).
    fold (place (pos s) (map (fun pc => (w ++ fst pc, snd pc)) (lx_cms x))).
    rewrite place_skip, <- (st_pos _ _ _ _ S), <- app_assoc.
    eapply step_trans; eassumption.
Qed.

Lemma step_add_comment s w s1 t :
  step s w [] s1 -> step s w [t] (set_comments (comments s1 ++ [t]) s1).
Proof.
  intros [R W P C M K G]. constructor; cbn [rest raw pos cols mode comments set_comments]; auto.
  rewrite K, app_nil_r. reflexivity.
Qed.

Lemma bind_if {A B} (b : bool) (x y : M A) (f : A -> M B) s :
  bind (if b then x else y) f s = if b then bind x f s else bind y f s.
Proof. destruct b; reflexivity. Qed.

Ltac rw_mode x :=
  match goal with H : step _ _ _ x |- _ => rewrite ?(st_mode _ _ _ _ H) in * end.

Lemma scan_correct : forall n r s,
  rest s = r -> nonul r -> (List.length r < n)%nat -> scan_ok (scan n) (plex n (mode s) r) s.
Proof.
  induction n as [|n IH]; intros r s E N L; [lia|].
  unfold scan_ok. cbn [scan plex].
  destruct r as [|c r].
  - dpeek s1. rewrite bind_gets. cbn [hd0]. change (isSpace 0) with false. cbv beta iota.
    deof s2. exists s2, None. split.
    + unfold ret. do 3 f_equal. cbn. rewrite (st_pos _ _ _ _ S). reflexivity.
    + fuse. assumption.
  - dpeek s1. rewrite bind_gets. cbn [hd0].
    assert (P1 : pos s1 = pos s) by (rewrite (st_pos _ _ _ _ S); reflexivity).
    assert (M1 : mode s1 = mode s) by apply (st_mode _ _ _ _ S).
    destruct (isSpace c) eqn:SP.
    { dread s2. fuse. cbn [app] in *.
      destruct (IH r s2 Er0 N1 ltac:(simpl in L; lia)) as (s3 & e & Q3 & S3).
      rw_mode s2.
      exists s3, e. apply (scan_ok_skip (scan n) s s2 [c] []); assumption. }
    deof s2. 
    assert (P2 : pos s2 = pos s) by (rewrite (st_pos _ _ _ _ S0); exact P1).
    assert (M2 : mode s2 = mode s) by (rewrite (st_mode _ _ _ _ S0); exact M1).
    fuse. unfold identStart.
    destruct (isLetter c || (c =? ch "_")) eqn:LT.
    { unfold scanIdent. rewrite bind_assoc. dread s3. rewrite bind_assoc. rwb (fuel_here_eq s3).
      destruct (span identChar r) as [x r1] eqn:SI.
      destruct (ident_loop_ok r (Datatypes.S (List.length (rest s3))) [c] s3 x r1 Er1 N1 ltac:(rewrite Er1; lia) SI)
        as (s4 & Q4 & S4). fuse.
      rwb Q4. rewrite bind_gets. rw_mode s4.
      exists s4, None. cbn [lx_tok lx_txt lx_gap lx_cms lx_raw app]. unfold identToken. cbn [app] in *.
      split; [|assumption]. rewrite P1.
      destruct (has (mode s) ScanBoolLit && isBoolLit (c :: x)); [reflexivity|].
      destruct (has (mode s) ScanNumberLit && isFloatLitKeyword (c :: x)); [reflexivity|].
      destruct (has (mode s) ScanKeyword && negb (tok_eqb (asKeywordToken (c :: x)) TILLEGAL)); reflexivity. }
    destruct (N.eqb_spec c (ch "/")) as [SL|SL].
    { pose proof (scanComment_step s2 c r Er0 N SL) as (CA & CB & CC).
      assert (Nr : nonul r) by (apply nonul_cons in N; tauto).
      destruct (head_is (fun d => d =? ch "/") r) eqn:H1.
      - destruct (span (fun d => negb (d =? NL)) r) as [b r2] eqn:SB.
        destruct (CA eq_refl b r2 eq_refl) as (s3 & Q3 & S3). clear CA CB CC.
        unfold try. rewrite Q3. rewrite bind_modify, bind_gets.
        pose proof (step_add_comment _ _ _ (mkText (c :: b) (pos s1)) S3) as S4.
        set (s4 := set_comments (comments s3 ++ [mkText (c :: b) (pos s1)]) s3) in *.
        fuse.
        pose proof (span_app _ _ _ _ SB) as EA.
        assert (E4 : rest s4 = match r2 with _ :: r3 => r3 | [] => [] end).
        { eapply rest_step; [eassumption|]. rewrite E, EA. cbn [app]. f_equal.
          destruct r2; rewrite ?app_nil_r, <- ?app_assoc; reflexivity. }
        assert (N4 : nonul (match r2 with _ :: r3 => r3 | [] => [] end)).
        { rewrite EA in Nr. apply nonul_app in Nr. destruct Nr as [_ Nr]. destruct r2; [constructor|].
          apply nonul_cons in Nr. tauto. }
        rw_mode s4.
        destruct (has (mode s) ScanComment).
        + exists s4, None. unfold comment_token. cbn [lx_tok lx_txt lx_gap lx_cms lx_raw app].
          split; [rewrite P1; reflexivity|]. unfold place. cbn [map fst snd posafter fold_left].
          rewrite <- P1. assumption.
        + destruct (IH _ s4 E4 N4) as (s5 & e & Q5 & S5).
          { rewrite EA in L. simpl in L. rewrite app_length in L. destruct r2; simpl in *; lia. }
          
          rw_mode s4. exists s5, e. apply (scan_ok_skip (scan n) s s4); try assumption.
          unfold place. cbn [map fst snd posafter fold_left]. rewrite <- P1. assumption.
      - destruct (head_is (fun d => d =? ch "*") r) eqn:H2.
        + destruct r as [|d r2]; [discriminate H2|]. specialize (CB eq_refl d r2 eq_refl).
          destruct (find_close r2) as [[b r3]|] eqn:FC.
          * destruct CB as (s3 & Q3 & S3).
            unfold try. rewrite Q3. rewrite bind_modify, bind_gets.
            pose proof (step_add_comment _ _ _ (mkText (c :: d :: b) (pos s1)) S3) as S4.
            set (s4 := set_comments (comments s3 ++ [mkText (c :: d :: b) (pos s1)]) s3) in *.
            fuse.
            pose proof (find_close_app _ _ _ FC) as EA.
            assert (E4 : rest s4 = r3).
            { eapply rest_step; [eassumption|]. rewrite E, EA. reflexivity. }
            assert (N4 : nonul r3).
            { rewrite EA in Nr. apply nonul_cons in Nr. destruct Nr as [_ Nr]. apply nonul_app in Nr. tauto. }
            rw_mode s4.
            destruct (has (mode s) ScanComment).
            -- exists s4, None. unfold comment_token. cbn [lx_tok lx_txt lx_gap lx_cms lx_raw app].
               split; [rewrite P1; reflexivity|]. unfold place. cbn [map fst snd posafter fold_left].
               rewrite <- P1. assumption.
            -- destruct (IH _ s4 E4 N4) as (s5 & e & Q5 & S5).
               { rewrite EA in L. simpl in L. rewrite app_length in L. simpl in *; lia. }
               
               rw_mode s4. exists s5, e. apply (scan_ok_skip (scan n) s s4); try assumption.
               unfold place. cbn [map fst snd posafter fold_left]. rewrite <- P1. assumption.
          * destruct CB as (s3 & e & Q3 & S3). unfold try. rewrite Q3.
            exists s3, (Some e). cbn. split; [rewrite P1; reflexivity|]. fuse. assumption.
        + destruct (CC eq_refl eq_refl) as (s3 & e & Q3 & S3). unfold try. rewrite Q3.
          exists s3, (Some e). fuse.
          destruct r as [|d r]; cbn [lx_tok lx_txt lx_gap lx_cms lx_raw app place map posafter fold_left];
            (split; [rewrite P1; reflexivity|assumption]). }
    rewrite bind_gets, M2.
    assert (lift : forall m x, scan_ok m x s2 ->
      exists s' e, m s2 = (Ok (lx_tok x, lx_txt x, posafter (pos s) (lx_gap x), e), s') /\
                   step s (lx_gap x ++ lx_raw x) (place (pos s) (lx_cms x)) s').
    { intros m x (s3 & e & Q3 & S3). exists s3, e. rewrite P2 in Q3, S3. split; [exact Q3|].
      fuse. assumption. }
    destruct (isQuote c && has (mode s) ScanStrLit).
    { replace (pos s1) with (pos s2) by congruence. apply lift. apply lit_token_ok.
      pose proof (scanStrLit_ok s2 c r Er0 N) as X. unfold lit_ok in X. unfold num_ok.
      destruct (cons_out [c] (pstr (Datatypes.S (List.length r)) c r)) as [[ok w] r2].
      destruct ok.
      - destruct X as (s3 & Q3 & S3). exists s3. rwb Q3. split; [reflexivity|exact S3].
      - destruct X as (s3 & e & Q3 & S3). exists s3, e. rwe Q3. split; [reflexivity|exact S3]. }
    destruct ((isDecimalDigit c || (c =? ch ".")) && has (mode s) ScanNumberLit).
    { replace (pos s1) with (pos s2) by congruence.
      pose proof (scanNumberLit_ok s2 c r Er0 N) as X.
      destruct (pnum c r) as [t o]. apply lift. apply lit_token_ok. exact X. }
    dread s3. exists s3, None. cbn [lx_tok lx_txt lx_gap lx_cms lx_raw app place map posafter fold_left].
    split; [rewrite P1; reflexivity|]. fuse. assumption.
Qed.

(** Scan = the pure lexer. *)
Theorem Scan_lex s :
  nonul (rest s) ->
  exists s' e,
    Scan s = (Ok (lx_tok (lex (mode s) (rest s)), lx_txt (lex (mode s) (rest s)),
                  posafter (pos s) (lx_gap (lex (mode s) (rest s))), e), s') /\
    step (set_raw [] s) (lx_gap (lex (mode s) (rest s)) ++ lx_raw (lex (mode s) (rest s)))
         (place (pos s) (lx_cms (lex (mode s) (rest s)))) s'.
Proof.
  intro N. unfold Scan. rewrite bind_modify. rwb (fuel_here_eq (set_raw [] s)).
  apply (scan_correct (Datatypes.S (List.length (rest s))) (rest s) (set_raw [] s) eq_refl N). lia.
Qed.
