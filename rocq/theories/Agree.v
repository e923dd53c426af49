(** Constants in both modes: what [collapse] does to the constants of the language. *)
From Coq Require Import List NArith ZArith Bool String Ascii Lia.
From Verif Require Import Base Token Scanner Lexer Lexing ScanRefine Ast Parser LexFacts LexSpec LexProofs ScanFacts LexerFacts ScanProps Cursor Refine Lock BareSpec AgreeSpec.
Import ListNotations.
Open Scope N_scope.
Open Scope monad_scope.

Lemma collapse_head c l : is_quote c = false -> collapse (c :: l) = c :: l.
Proof. intros H. unfold collapse. destruct (rev (c :: l)) as [|q1 [|q2 [|b r]]]; try reflexivity. rewrite H. reflexivity. Qed.
Lemma body_tail q b : str_body q b -> (exists b0, b = b0 ++ [backslash; q]) \/ (forall b0, b <> b0 ++ [q]).
Proof.
  induction 1 as [|c b Q _ _ _ _ [(b0 & ->)|IH]|c b _ _ _ [(b0 & ->)|IH]].
  - right. intros [|? ?]; discriminate.
  - left. exists (c :: b0). reflexivity.
  - right. intros [|d b0] X; injection X as -> X; [congruence|exact (IH _ X)].
  - left. exists (backslash :: c :: b0). reflexivity.
  - destruct b as [|e b].
    + destruct (N.eq_dec c q) as [->|Q]; [left; exists []; reflexivity|]. right. intros [|d [|d2 b0]] X; [discriminate X|injection X as _ X; congruence|]. destruct b0; discriminate X.
    + right. intros [|d [|d2 b0]] X; try discriminate X. injection X as _ _ X. exact (IH _ X).
Qed.
Lemma trim_str x : is_str x -> exists q l, x = q :: l /\ (q = SQ \/ q = DQ) /\ [q] ++ trim q x ++ [q] = collapse x.
Proof.
  intros (q & b & Q & -> & B). exists q, (b ++ [q]). split; [reflexivity|]. split; [exact Q|]. assert (IQ : is_quote q = true) by (destruct Q as [-> | ->]; reflexivity).
  assert (QB : q <> backslash) by (destruct Q as [-> | ->]; discriminate). unfold trim. cbn [app trim_left]. rewrite N.eqb_refl.
  destruct b as [|c b]. { cbn [app trim_left]. rewrite N.eqb_refl. cbn [app trim_left rev]. reflexivity. }
  assert (CQ : c <> q) by (inversion B; congruence). assert (TL : trim_left q ((c :: b) ++ [q]) = (c :: b) ++ [q]) by (cbn [app trim_left]; destruct (N.eqb_spec c q); [contradiction|reflexivity]).
  rewrite TL. clear TL. rewrite rev_app_distr. cbn [rev app trim_left]. rewrite N.eqb_refl. change (rev b ++ [c]) with (rev (c :: b)).
  destruct (body_tail _ _ B) as [(b0 & EB)|NB].
  - change (q :: c :: b ++ [q]) with (q :: (c :: b) ++ [q]). rewrite EB. rewrite rev_app_distr. cbn [rev app trim_left]. rewrite N.eqb_refl. destruct (N.eqb_spec backslash q); [congruence|]. cbn [rev]. rewrite rev_involutive.
    unfold collapse. change (q :: (b0 ++ [backslash; q]) ++ [q]) with ((q :: b0 ++ [backslash; q]) ++ [q]). rewrite rev_app_distr, removelast_last. cbn [rev app]. rewrite rev_app_distr. cbn [rev app]. rewrite IQ, !N.eqb_refl. cbn [andb]. rewrite <- app_assoc. reflexivity.
  - assert (NE : rev (c :: b) <> []) by (cbn [rev]; destruct (rev b); discriminate). destruct (rev (c :: b)) as [|d r] eqn:RB; [congruence|]. assert (EB : c :: b = rev r ++ [d]) by (rewrite <- (rev_involutive (c :: b)), RB; reflexivity).
    assert (DQ1 : d <> q) by (intros ->; exact (NB _ EB)). cbn [trim_left]. destruct (N.eqb_spec d q); [contradiction|]. rewrite <- RB, rev_involutive.
    unfold collapse. change (q :: c :: b ++ [q]) with ([q] ++ (c :: b) ++ [q]). rewrite !rev_app_distr, RB. cbn [rev app]. destruct (r ++ [q]) as [|z y] eqn:RQ; [destruct r; discriminate|]. rewrite IQ, N.eqb_refl. cbn [andb]. destruct (N.eqb_spec d q); [contradiction|]. reflexivity.
Qed.

(** the first rune of the other constants is not a quote *)
Definition plain (x : str) : Prop := exists c l, x = c :: l /\ is_quote c = false.
Lemma plain_collapse x : plain x -> collapse x = x. Proof. intros (c & l & -> & H). apply collapse_head. exact H. Qed.
Lemma plain_app x y : plain x -> plain (x ++ y). Proof. intros (c & l & -> & H). exists c, (l ++ y). auto. Qed.
Lemma plain_ident x : is_ident x -> plain x.
Proof. intros I. destruct (ident_first x I) as (c & l & -> & H). exists c, l. split; [reflexivity|]. unfold is_quote. destruct (N.eqb_spec c DQ) as [->|]; [vm_compute in H; discriminate|]. destruct (N.eqb_spec c SQ) as [->|]; [vm_compute in H; discriminate|]. reflexivity. Qed.
Lemma digit_plain c : digit c -> is_quote c = false.
Proof. intros H. unfold digit in H. cbn in H. unfold is_quote. change DQ with 34. change SQ with 39. destruct (N.eqb_spec c 34), (N.eqb_spec c 39); lia. Qed.
Lemma decimals_plain x : decimals x -> plain x.
Proof. intros [A B]. destruct x as [|c x]; [congruence|]. apply Forall_cons_iff in B. exists c, x. split; [reflexivity|]. apply digit_plain. tauto. Qed.
Lemma plain_decimals_plain x : plain_decimals x -> plain x.
Proof. intros [-> |(c & l & -> & H & _)]; [exists (ch "0"), []; split; reflexivity|]. exists c, l. split; [reflexivity|]. apply digit_plain. unfold digit. lia. Qed.
Lemma int_plain x : is_int x -> plain x.
Proof. intros [(c & l & -> & H & _)|[(l & -> & _)|(e & l & -> & _)]]; [exists c, l; split; [reflexivity|apply digit_plain; unfold digit; lia]|eexists _, _; split; reflexivity..]. Qed.
Lemma float_plain x : is_plain_float x -> plain x.
Proof. destruct 1; try (apply plain_app; apply plain_decimals_plain; assumption); eexists _, _; split; reflexivity. Qed.
Lemma kind_plain m t x : lexed_kind m t x -> In t [TINTLIT; TFLOATLIT; TBOOLLIT; TIDENT] -> plain x.
Proof.
  intros K I. destruct K as [|x H|x H|x H|x H|x H| |c H]; try (cbn in I; intuition discriminate); [apply plain_ident; exact H|apply int_plain; exact H|apply float_plain; exact H|].
  destruct (misc_tokens c) as (A & B & _ & C & D & _). cbn in I. intuition congruence.
Qed.
Lemma kind_str m t x : lexed_kind m t x -> t = TSTRLIT -> is_str x.
Proof.
  intros K I. destruct K as [|x H|x H|x H|x H|x H| |c H]; try discriminate; auto; [|destruct (misc_tokens c) as (_ & _ & A & _); contradiction].
  destruct (identToken_not m x) as (_ & A & _). contradiction.
Qed.
(** the text of the token just read *)
Lemma read_kind m s t : sane s -> read_with m s t -> lexed_kind m (ltok t) (ltext t).
Proof. intros S R. rewrite (rw_tok _ _ _ R), (rw_txt _ _ _ R). apply lex_kind. exact (sn_rest _ S). Qed.
Lemma fi_loop_prefix n : forall acc s r t, fullIdent_loop n acc s = (Ok r, t) -> exists e, r = acc ++ e.
Proof.
  induction n as [|n IH]; intros acc s r t Q; cbn [fullIdent_loop] in Q; [discriminate|]. unfold lex_IsEOF in Q. rewrite bind_gets in Q. destruct (tok_eqb _ TEOF). { injection Q as <- _. exists []. symmetry. apply app_nil_r. }
  rewrite bind_gets in Q. destruct (negb _).
  - unfold bind in Q. destruct (UnNext s) as [[u|e| |] s1]; try discriminate Q. injection Q as <- _. exists []. symmetry. apply app_nil_r.
  - unfold bind at 1 in Q. destruct (Next s) as [[u|e| |] s1]; try discriminate Q. rewrite bind_gets in Q. destruct (negb _); [discriminate Q|]. rewrite bind_gets in Q. unfold bind at 1 in Q. destruct (Next s1) as [[v|e| |] s2]; try discriminate Q.
    destruct (IH _ _ _ _ Q) as (e & ->). rewrite <- app_assoc. eexists. reflexivity.
Qed.
Lemma fullIdent_plain s x p t : sane s -> ReadFullIdent s = (Ok (x, p), t) -> plain x.
Proof.
  intros S Q. unfold ReadFullIdent in Q. destruct (Next_read s S) as (s1 & Q1 & R1). unfold bind at 1 in Q. rewrite Q1 in Q. rewrite bind_gets in Q. destruct (tok_eqb (ltok s1) TIDENT) eqn:T; [|discriminate Q]. cbn [negb] in Q. rewrite !bind_gets in Q.
  apply tokb_eq in T. pose proof (kind_plain _ _ _ (read_kind _ _ _ S R1)) as P. rewrite T in P. specialize (P ltac:(cbn; auto)).
  unfold bind at 1 in Q. destruct (Next s1) as [[u|e| |] s2]; try discriminate Q. unfold fuel_here in Q. rewrite bind_gets in Q. unfold bind at 1 in Q. match type of Q with context [fullIdent_loop ?n ?a ?s] => destruct (fullIdent_loop n a s) as [[r|e| |] s3] eqn:L end; try discriminate Q.
  injection Q as <- _ _. destruct (fi_loop_prefix _ _ _ _ _ L) as (e & ->). apply plain_app. exact P.
Qed.
