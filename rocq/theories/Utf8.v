(** UTF-8: decoding inverts encoding; ill-formed bytes become U+FFFD. *)
From Coq Require Import List NArith ZArith Bool Lia.
From Verif Require Import Base Token LexSpec.
Import ListNotations.
Open Scope N_scope.

Ltac Zify.zify_post_hook ::= Z.to_euclidean_division_equations.

Ltac bdec :=
  cbv zeta; repeat match goal with
   | |- context[?a =? ?b] => destruct (N.eqb_spec a b); try lia
   end; repeat match goal with
   | |- context[?a <? ?b] => destruct (N.ltb_spec a b); try lia
   | |- context[?a <=? ?b] => destruct (N.leb_spec a b); try lia
   end; cbn [andb orb negb].
Lemma isCont_mod x : isCont (0x80 + x mod 64) = true.
Proof. unfold isCont. apply andb_true_iff. rewrite !N.leb_le. pose proof (N.mod_lt x 64). lia. Qed.

Lemma decode_encode r t : valid_rune r -> decode_rune (encode_rune r ++ t) = Some (r, t).
Proof.
  intros H. unfold encode_rune. destruct (N.ltb_spec r 0x80).
  { cbn [app decode_rune]. apply N.ltb_lt in H0. rewrite H0. reflexivity. }
  destruct (N.ltb_spec r 0x800).
  { cbn [app decode_rune]. bdec. all: rewrite ?isCont_mod; f_equal; f_equal; lia. }
  destruct (N.ltb_spec r 0x10000).
  { cbn [app decode_rune]. bdec. all: unfold valid_rune in H; rewrite ?isCont_mod; f_equal; f_equal; lia. }
  cbn [app decode_rune]. unfold valid_rune in H. bdec. all: rewrite ?isCont_mod; cbn [andb]; f_equal; f_equal; lia.
Qed.

(** every decoding step: a well-formed sequence, or one ill-formed byte *)
Lemma decode_cases bs r t : Forall (fun b => b < 256) bs -> decode_rune bs = Some (r, t) ->
  valid_rune r /\ (bs = encode_rune r ++ t \/ exists b, bs = b :: t /\ r = rune_error).
Proof.
  intros B H. destruct bs as [|b0 bs]; [discriminate|]. apply Forall_cons_iff in B. destruct B as [B0 B']. cbn [decode_rune] in H.
  assert (Bad : forall r t, Some (rune_error, bs) = Some (r, t) ->
     valid_rune r /\ (b0 :: bs = encode_rune r ++ t \/ exists b, b0 :: bs = b :: t /\ r = rune_error)).
  { intros r' t' E. injection E as <- <-. split; [right; vm_compute; split; discriminate|]. right. exists b0. auto. }
  destruct (N.ltb_spec b0 0x80).
  { injection H as <- <-. split; [left; lia|]. left. unfold encode_rune. apply N.ltb_lt in H0. rewrite H0. reflexivity. }
  destruct ((0xC2 <=? b0) && (b0 <=? 0xDF)) eqn:C2.
  { apply andb_true_iff in C2. rewrite !N.leb_le in C2. destruct bs as [|b1 bs]; [auto|].
    destruct (isCont b1) eqn:I1; [|auto]. unfold isCont in I1. apply andb_true_iff in I1. rewrite !N.leb_le in I1.
    injection H as <- <-. split; [left; lia|]. left. unfold encode_rune. bdec. cbn [app]. f_equal; [lia|]. f_equal. lia. }
  destruct ((0xE0 <=? b0) && (b0 <=? 0xEF)) eqn:C3.
  { apply andb_true_iff in C3. rewrite !N.leb_le in C3. clear C2. destruct bs as [|b1 [|b2 bs]]; [auto|auto|].
    cbn zeta in H. destruct (_ && _ && _) eqn:I in H; [|auto].
    apply andb_true_iff in I. destruct I as [I I2]. apply andb_true_iff in I. destruct I as [I0 I1].
    unfold isCont in I2. apply andb_true_iff in I2. rewrite !N.leb_le in *.
    destruct (N.eqb_spec b0 0xE0), (N.eqb_spec b0 0xED); try lia; injection H as <- <-;
     (split; [unfold valid_rune; lia|]); left; unfold encode_rune; bdec; cbn [app]; (f_equal; [lia|]); (f_equal; [lia|]); f_equal; lia. }
  destruct ((0xF0 <=? b0) && (b0 <=? 0xF4)) eqn:C4; [|auto].
  apply andb_true_iff in C4. rewrite !N.leb_le in C4. clear C2 C3. destruct bs as [|b1 [|b2 [|b3 bs]]]; [auto|auto|auto|].
  cbn zeta in H. destruct (_ && _ && _ && _) eqn:I in H; [|auto].
  apply andb_true_iff in I. destruct I as [I I3]. apply andb_true_iff in I. destruct I as [I I2]. apply andb_true_iff in I. destruct I as [I0 I1].
  unfold isCont in I2, I3. apply andb_true_iff in I2. apply andb_true_iff in I3. rewrite !N.leb_le in *.
  destruct (N.eqb_spec b0 0xF0), (N.eqb_spec b0 0xF4); try lia; injection H as <- <-;
   (split; [unfold valid_rune; lia|]); left; unfold encode_rune; bdec; cbn [app]; (f_equal; [lia|]); (f_equal; [lia|]); (f_equal; [lia|]); f_equal; lia.
Qed.

(** Specification of decoding, with the number of ill-formed bytes: [n] bytes
    that start no encoding of a Unicode scalar value. *)
Inductive Decodes : list N -> list rune -> nat -> Prop :=
| dec_nil : Decodes [] [] 0
| dec_rune r t rs n : valid_rune r -> Decodes t rs n -> Decodes (encode_rune r ++ t) (r :: rs) n
| dec_bad b t rs n : (forall r t', valid_rune r -> b :: t <> encode_rune r ++ t') ->
    Decodes t rs n -> Decodes (b :: t) (rune_error :: rs) (S n).

Lemma encode_len r : (1 <= List.length (encode_rune r))%nat.
Proof. unfold encode_rune. destruct (_ <? _); [cbn; lia|]. destruct (_ <? _); [cbn; lia|]. destruct (_ <? _); cbn; lia. Qed.
Lemma decode_shorter bs r t : Forall (fun b => b < 256) bs -> decode_rune bs = Some (r, t) ->
  (List.length t < List.length bs)%nat /\ Forall (fun b => b < 256) t.
Proof.
  intros B H. destruct (decode_cases bs r t B H) as (_ & [->|(b & -> & _)]).
  - apply Forall_app in B. rewrite app_length. pose proof (encode_len r). split; [lia|tauto].
  - inversion B; subst. cbn. split; [lia|assumption].
Qed.
Lemma decode_fuel_spec : forall n bs, Forall (fun b => b < 256) bs -> (List.length bs <= n)%nat ->
  exists k, Decodes bs (utf8_decode_fuel n bs) k.
Proof.
  induction n as [|n IH]; intros bs B L.
  { destruct bs; [|cbn in L; lia]. exists O. constructor. }
  cbn [utf8_decode_fuel]. destruct (decode_rune bs) as [[r t]|] eqn:E.
  2:{ destruct bs; [exists O; constructor|].
      exfalso. unfold decode_rune in E.
      repeat match type of E with
      | context [if ?b then _ else _] => destruct b
      | context [match ?l with [] => _ | _ :: _ => _ end] => destruct l
      end; discriminate. }
  destruct (decode_shorter _ _ _ B E) as [S Bt].
  destruct (IH t Bt) as (k & D); [lia|].
  destruct (decode_cases _ _ _ B E) as (V & X).
  assert (dec : (exists r' t', valid_rune r' /\ bs = encode_rune r' ++ t') \/ ~ (exists r' t', valid_rune r' /\ bs = encode_rune r' ++ t')).
  { destruct X as [X|(b & -> & ->)]; [left; eauto|]. right. intros (r' & t' & V' & E').
    rewrite E', (decode_encode r' t' V') in E. injection E as -> ->.
    apply (f_equal (@List.length N)) in E'. rewrite app_length in E'. cbn in E'. lia. }
  destruct dec as [(r' & t' & V' & ->)|N].
  - rewrite (decode_encode r' t' V') in E. injection E as -> ->. exists k. constructor; assumption.
  - destruct X as [X|(b & -> & ->)]; [exfalso; eauto|]. exists (Datatypes.S k). constructor; [|assumption].
    intros r' t' V' E'. eauto.
Qed.
Theorem decode_spec bs : Forall (fun b => b < 256) bs -> exists k, Decodes bs (utf8_decode bs) k.
Proof. intros B. apply decode_fuel_spec; [exact B|lia]. Qed.
Lemma Decodes_det bs rs n : Decodes bs rs n -> forall rs' n', Decodes bs rs' n' -> rs = rs' /\ n = n'.
Proof.
  induction 1 as [|r t rs n V D IH|b t rs n B D IH]; intros rs' n' D'.
  - inversion D' as [| r t rs n V D E|]; subst; [auto|]. pose proof (encode_len r). destruct (encode_rune r); cbn in *; [lia|discriminate].
  - remember (encode_rune r ++ t) as bs eqn:E. destruct D' as [|r' t' rs' n' V' D'|b' t' rs' n' B' D'].
    + pose proof (encode_len r). destruct (encode_rune r); cbn in *; [lia|discriminate].
    + pose proof (decode_encode r t V) as X. rewrite <- E, (decode_encode r' t' V') in X. injection X as -> ->.
      destruct (IH _ _ D') as [-> ->]. auto.
    + exfalso. exact (B' r t V E).
  - remember (b :: t) as bs eqn:E. destruct D' as [|r' t' rs' n' V' D'|b' t' rs' n' B' D'].
    + discriminate.
    + exfalso. exact (B r' t' V' eq_refl).
    + injection E as -> ->. destruct (IH _ _ D') as [-> ->]. auto.
Qed.
Lemma Decodes_valid bs rs n : Decodes bs rs n -> Forall valid_rune rs.
Proof. induction 1; constructor; try assumption. right. vm_compute. split; discriminate. Qed.
Lemma Decodes_bytes bs rs n : Decodes bs rs n -> utf8_bytes rs = (Z.of_nat (List.length bs) + 2 * Z.of_nat n)%Z.
Proof.
  unfold utf8_bytes. induction 1 as [|r t rs n V D IH|b t rs n B D IH]; [reflexivity| |].
  - cbn [flat_map]. rewrite !app_length, !Nat2Z.inj_add, IH. lia.
  - cbn [flat_map]. rewrite !app_length, !Nat2Z.inj_add, IH. cbn [List.length]. change (List.length (encode_rune rune_error)) with 3%nat. lia.
Qed.
Lemma Decodes_encode rs : Forall valid_rune rs -> Decodes (flat_map encode_rune rs) rs 0.
Proof. induction 1; cbn [flat_map]; constructor; assumption. Qed.
Lemma Decodes_zero bs rs : Decodes bs rs 0 -> bs = flat_map encode_rune rs.
Proof. remember O as n eqn:E. induction 1; cbn [flat_map]; [reflexivity|f_equal; auto|discriminate]. Qed.
(** ill-formed bytes before a prefix of the runes *)
Lemma Decodes_split bs a b n : Decodes bs (a ++ b) n ->
  exists ba bb na nb, bs = ba ++ bb /\ n = (na + nb)%nat /\ Decodes bb b nb /\
    utf8_bytes a = (Z.of_nat (List.length ba) + 2 * Z.of_nat na)%Z.
Proof.
  revert bs n. induction a as [|c a IH]; intros bs n D.
  - exists [], bs, O, n. repeat split; assumption.
  - inversion D as [|r t rs k V D' E1 E2 |b' t rs k B D' E1 E2]; subst.
    + destruct (IH _ _ D') as (ba & bb & na & nb & -> & -> & Db & L).
      exists (encode_rune c ++ ba), bb, na, nb. rewrite app_assoc. repeat split; [assumption|].
      unfold utf8_bytes in *. cbn [flat_map]. rewrite !app_length, !Nat2Z.inj_add, L. lia.
    + destruct (IH _ _ D') as (ba & bb & na & nb & -> & -> & Db & L).
      exists (b' :: ba), bb, (Datatypes.S na), nb. repeat split; [assumption|].
      unfold utf8_bytes in *. cbn [flat_map]. rewrite !app_length, !Nat2Z.inj_add, L.
      cbn [List.length]. change (List.length (encode_rune rune_error)) with 3%nat. lia.
Qed.

(** ** Offsets of the scanner against byte indices *)
From Verif Require Import Scanner ScanProps.
Lemma encode_bytes r : valid_rune r -> Forall (fun b => b < 256) (encode_rune r).
Proof.
  intros V. unfold valid_rune in V. unfold encode_rune. destruct (N.ltb_spec r 0x80); [repeat constructor; lia|].
  destruct (N.ltb_spec r 0x800); [repeat constructor; lia|]. destruct (N.ltb_spec r 0x10000); repeat constructor; lia.
Qed.
Lemma zero_encode : encode_rune 0 = [0]. Proof. reflexivity. Qed.
Lemma Decodes_nonul bs rs n : Decodes bs rs n -> ~ In 0 bs -> ~ In 0 rs.
Proof.
  induction 1 as [|r t rs n V D IH|b t rs n B D IH]; intros H.
  - tauto.
  - intros [->|I]; [apply H; rewrite zero_encode; left; reflexivity|]. revert I. apply IH. intros I. apply H. apply in_or_app. auto.
  - intros [E|I]; [discriminate|]. revert I. apply IH. intros I. apply H. right. exact I.
Qed.
Lemma offset_bytes bs filename ops : Forall (fun b => b < 256) bs -> ~ In 0 bs -> spaced ops ->
  let s := srun ops (init_st filename (utf8_decode bs)) in
  exists before after bad, bs = before ++ after /\ rest s = utf8_decode after /\
    Offset (pos s) = (Z.of_nat (List.length before) + 2 * Z.of_nat bad)%Z /\
    ((exists rs, Forall valid_rune rs /\ bs = flat_map encode_rune rs) -> bad = 0%nat).
Proof.
  intros B NZ S s. destruct (decode_spec bs B) as (k & D).
  assert (R : readable (utf8_decode bs)).
  { apply Decodes_nonul in D as Z; [|exact NZ]. apply Decodes_valid in D as V. unfold readable. rewrite Forall_forall in *. intros c I. split; [auto|]. intros ->. auto. }
  destruct (positions_from_text filename _ ops R S) as (w & E & M). fold s in E, M. rewrite E in D.
  destruct (Decodes_split _ _ _ _ D) as (ba & bb & na & nb & -> & -> & Db & L).
  exists ba, bb, na. split; [reflexivity|]. apply Forall_app in B. destruct B as [_ Bb].
  destruct (decode_spec bb Bb) as (k2 & D2). split; [apply (Decodes_det _ _ _ Db _ _ D2)|].
  split. { destruct M as (_ & M & _). cbn in M. rewrite M, L. reflexivity. }
  intros (rs & V & E2). rewrite E2 in D. destruct (Decodes_det _ _ _ D _ _ (Decodes_encode rs V)) as [_ Z]. lia.
Qed.
