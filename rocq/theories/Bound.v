(** No position in an error lies behind the end of the text. *)
From Coq Require Import List NArith ZArith Bool String Ascii Lia Arith.
From Verif Require Import Base Token Scanner Lexer Ast Parser Api Spec LexSpec Lexing LexProofs ScanFacts ScanProps Utf8 Inv.
Import ListNotations.
Open Scope N_scope.

Section Bound.
Variables TT LL : Z.
Definition PB (p : mpos) : Prop := (Offset p <= TT)%Z /\ (Line p <= LL)%Z.
Definition V (c : rune) : Prop := (0 <= rune_len c)%Z.
Definition EB (e : err) : Prop := Forall PB (err_positions e).
Record IB (s : st) : Prop := mkIB {
  ib_rest : Forall V (rest s);
  ib_raw : Forall V (raw s);
  ib_lraw : Forall V (lraw s);
  ib_off : (fst (bal s) <= TT)%Z;
  ib_line : (snd (bal s) <= LL)%Z;
  ib_lpos : PB (lpos s)
}.
Lemma lens_nonneg l : Forall V l -> (0 <= lens l)%Z.
Proof. induction 1 as [|c l H F IH]; cbn; [lia|]. unfold V in H. fold (lens l). lia. Qed.
Lemma newlines_nonneg l : (0 <= newlines l)%Z. Proof. unfold newlines. lia. Qed.
Lemma IB_pos s : IB s -> PB (pos s).
Proof.
  intros [A B C D E F]. pose proof (lens_nonneg _ A). pose proof (newlines_nonneg (rest s)). unfold bal in *. cbn [fst snd] in *.
  split; lia.
Qed.
Lemma newlines_cons' c l : newlines (c :: l) = ((if (c =? NL)%N then 1 else 0) + newlines l)%Z.
Proof. unfold newlines. cbn [count_occ]. destruct (N.eq_dec c NL) as [->|E]; [change (NL =? NL)%N with true; cbv iota; lia|]. apply N.eqb_neq in E. rewrite E. lia. Qed.
Lemma IB_read s : IB s -> IB (snd (read s)).
Proof.
  intros [A B C D E F]. unfold read. destruct (rest s) as [|c r] eqn:R0; [cbn; split; rewrite ?R0; auto|]. inversion A; subst.
  unfold bal in D, E. rewrite R0 in D, E. cbn [fst snd lens fold_right] in D, E. fold (lens r) in D. rewrite newlines_cons' in E.
  unfold V in H1.
  destruct (N.eqb_spec c eof) as [->|N0].
  - cbn [snd]. split; cbn [rest raw lraw lpos set_rest]; auto; unfold bal; cbn [fst snd rest pos set_rest];
      change (eof =? NL) with false in E; cbv iota in E; lia.
  - cbn [snd]. split; cbn [rest raw lraw lpos set_rest set_raw set_pc]; auto.
    + apply Forall_app. split; [exact B|]. constructor; [exact H1|constructor].
    + unfold bal, Advance. destruct (c =? NL); cbn [fst snd rest pos set_rest set_raw set_pc Offset Line]; lia.
    + unfold bal, Advance. destruct (c =? NL); cbn [fst snd rest pos set_rest set_raw set_pc Offset Line]; lia.
Qed.
Lemma IB_unread c s : V c -> IB s -> IB (unread c s).
Proof.
  intros H [A B C D E F]. split; try (rewrite bal_unread; assumption); cbn; auto.
Qed.
Lemma Forall_removelast {A} (P : A -> Prop) l : Forall P l -> Forall P (removelast l).
Proof. induction 1 as [|a l H F IH]; [constructor|]. cbn. destruct l; [constructor|]. constructor; assumption. Qed.
Lemma IB_setraw r s : IB s -> Forall V r -> IB (set_raw r s).
Proof. intros [A B C D E F] H. split; auto. Qed.
Lemma IB_peek s : IB s -> IB (snd (peek s)).
Proof.
  intros H. pose proof (IB_read s H) as K. unfold peek, bind. destruct (read s) as [[c|e| |] t] eqn:Q; cbn [snd] in *; auto.
  destruct (c =? eof) eqn:Ec; cbn; [exact K|].
  assert (Hc : V c).
  { unfold read in Q. destruct (rest s) as [|c0 r] eqn:R0; [injection Q as <- <-; discriminate|].
    destruct (c0 =? eof); injection Q as <- <-; [discriminate|]. destruct H as [A _ _ _ _ _]. rewrite R0 in A. inversion A. assumption. }
  apply IB_unread; [exact Hc|]. apply IB_setraw; [exact K|]. apply Forall_removelast. apply K.
Qed.
Lemma IB_unscan s : IB s -> IB (UnScan s).
Proof.
  intros H. unfold UnScan. assert (F : Forall V (rev (raw s))) by (apply Forall_rev, H). revert s H F.
  intros s H. generalize (rev (raw s)). intros l. revert s H. induction l as [|c l IH]; intros s H F; [exact H|].
  cbn [fold_left]. inversion F; subst. apply IH; [apply IB_unread; assumption|assumption].
Qed.
Theorem proto_bound perm bic n s : IB s -> forall e t, ParseProto perm bic n s = (Err e, t) -> EB e.
Proof.
  intros H e t Q.
  assert (X : T IB EB (ParseProto perm bic n)).
  { apply (t_ParseProto IB EB PB V).
    - exact IB_read.
    - exact IB_peek.
    - exact IB_unscan.
    - exact IB_pos.
    - intros s0 K. apply K.
    - intros s0 K. apply K.
    - intros t0 x p e0 s0 [A B C D E F] P _. split; auto.
    - intros t0 p s0 [A B C D E F] P. split; auto.
    - intros r s0. apply IB_setraw.
    - intros l p s0 [A B C D E F] P. split; auto.
    - intros m s0 [A B C D E F]. split; auto.
    - intros c s0 [A B C D E F]. split; auto.
    - intros p x r P. repeat constructor; apply P.
    - intros p x r P. repeat constructor; apply P.
    - intros p x r t0 P. repeat constructor; apply P.
    - intros a b A B. apply Forall_app. split; assumption. }
  specialize (X s H). rewrite Q in X. apply X.
Qed.
End Bound.

Lemma rune_len_valid c : valid_rune c -> (0 <= rune_len c)%Z.
Proof.
  unfold valid_rune, rune_len. intros H. destruct (N.ltb_spec c 0x80); [lia|]. destruct (N.ltb_spec c 0x800); [lia|].
  destruct (N.leb_spec 0xD800 c); destruct (N.leb_spec c 0xDFFF); cbn [andb]; destruct (N.ltb_spec c 0x10000); destruct (N.leb_spec c 0x10FFFF); lia.
Qed.
Lemma lens_bytes l : Forall valid_rune l -> lens l = utf8_bytes l.
Proof.
  intros F. pose proof (posafter_moved (mkPos [] 0 1 1) l F) as M. pose proof (posafter_offset_lens (mkPos [] 0 1 1) l) as E.
  unfold moved in M. cbn [Offset] in *. lia.
Qed.
Theorem error_positions opts input e p : Forall valid_rune input -> Parse opts input = Err e -> In p (err_positions e) ->
  (Offset p <= utf8_bytes input)%Z /\ (Line p <= 1 + newlines input)%Z.
Proof.
  intros F Q Ip. unfold Parse, parse_fuel in Q.
  assert (H : forall fn, IB (utf8_bytes input) (1 + newlines input) (init_st fn input)).
  { intros fn. split; cbn [rest raw lraw lpos init_st]; auto.
    - revert F. apply Forall_impl. exact rune_len_valid.
    - unfold bal. cbn [fst snd rest pos init_st Offset]. rewrite (lens_bytes _ F). lia.
    - unfold bal. cbn [fst snd rest pos init_st Line]. lia.
    - split; cbn [zero_pos Offset Line]; [unfold utf8_bytes; lia|]. pose proof (newlines_nonneg input). lia. }
  destruct (ParseProto _ _ _ _) as [r t] eqn:E. cbn [fst] in Q. subst r.
  pose proof (proto_bound _ _ _ _ _ _ (H _) _ _ E) as B. exact (proj1 (Forall_forall _ _) B p Ip).
Qed.
(** the same for bytes *)
Theorem error_positions_bytes opts rs e p : Forall valid_rune rs -> ParseBytes opts (flat_map encode_rune rs) = Err e -> In p (err_positions e) ->
  (Offset p <= Z.of_nat (List.length (flat_map encode_rune rs)))%Z.
Proof.
  intros F Q Ip. unfold ParseBytes in Q.
  assert (B : Forall (fun b => b < 256) (flat_map encode_rune rs)).
  { apply Forall_flat_map. revert F. apply Forall_impl. intros c H. apply encode_bytes. exact H. }
  destruct (decode_spec _ B) as (k & D). destruct (Decodes_det _ _ _ D _ 0%nat (Decodes_encode _ F)) as [E _]. rewrite E in Q.
  exact (proj1 (error_positions _ _ _ _ F Q Ip)).
Qed.

Lemma position_case : exists e p, Parse [] (lit "message M { int32 a = }") = Err e /\ In p (err_positions e) /\ Offset p = 22%Z /\
  utf8_bytes (lit "message M { int32 a = }") = 23%Z.
Proof.
  destruct (Parse [] (lit "message M { int32 a = }")) as [|e| |] eqn:E; try (vm_compute in E; discriminate).
  exists e. exists (hd zero_pos (err_positions e)). split; [reflexivity|]. vm_compute in E. injection E as <-. vm_compute. auto.
Qed.
