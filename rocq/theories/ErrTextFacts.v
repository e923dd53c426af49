(** What the text of an error determines. *)
From Coq Require Import List NArith ZArith Bool String Ascii Lia Arith DecimalString DecimalZ Decimal.
From Verif Require Import Base Token Scanner Ast Parser Api ErrText.
Import ListNotations.
Open Scope N_scope.

(** ** Hexadecimal digits *)
Lemma hexdigit_inj a b : a < 16 -> b < 16 -> hexdigit a = hexdigit b -> a = b.
Proof. unfold hexdigit. intros A B. destruct (N.ltb_spec a 10), (N.ltb_spec b 10); lia. Qed.
Lemma hex_len n c : List.length (hex n c) = n.
Proof. induction n as [|n IH]; cbn [hex List.length]; [reflexivity|]. rewrite IH. reflexivity. Qed.
Lemma hex_inj n : forall c d, hex n c = hex n d -> c mod 16 ^ N.of_nat n = d mod 16 ^ N.of_nat n.
Proof.
  induction n as [|n IH]; intros c d E; cbn [hex] in E; [rewrite !N.mod_1_r; reflexivity|]. injection E as E1 E2. apply IH in E2. apply hexdigit_inj in E1; [|apply N.mod_lt; lia..].
  rewrite Nat2N.inj_succ, N.pow_succ_r'. set (m := 16 ^ N.of_nat n) in *. assert (M : m <> 0) by (apply N.pow_nonzero; lia).
  rewrite (N.mul_comm 16 m), !N.mod_mul_r by lia. rewrite E1, E2. reflexivity.
Qed.
Lemma hex_small n c d : c < 16 ^ N.of_nat n -> d < 16 ^ N.of_nat n -> hex n c = hex n d -> c = d.
Proof. intros C D E. apply hex_inj in E. rewrite !N.mod_small in E by assumption. exact E. Qed.
Lemma hex_app n c d u v : c < 16 ^ N.of_nat n -> d < 16 ^ N.of_nat n -> hex n c ++ u = hex n d ++ v -> c = d /\ u = v.
Proof.
  intros C D E. assert (L : List.length (hex n c) = List.length (hex n d)) by (rewrite !hex_len; reflexivity).
  assert (X : hex n c = hex n d /\ u = v). { revert L E. generalize (hex n c) (hex n d). intros a. induction a as [|x a IH]; intros [|y b] L E; try discriminate; [auto|]. injection E as -> E. injection L as L. destruct (IH _ L E) as [-> ->]. auto. }
  destruct X as [X ->]. split; [|reflexivity]. eapply hex_small; eassumption.
Qed.

Definition ok_rune (c : rune) : Prop := go_rune c = c.
Lemma go_ok c : ok_rune (go_rune c).
Proof. unfold ok_rune, go_rune. destruct ((c <? 0xD800) || ((0xE000 <=? c) && (c <=? 0x10FFFF))) eqn:E; [rewrite E; reflexivity|reflexivity]. Qed.
Lemma ok_bound c : ok_rune c -> c < 0x110000.
Proof. unfold ok_rune, go_rune. destruct (N.ltb_spec c 0xD800), (N.leb_spec 0xE000 c), (N.leb_spec c 0x10FFFF); cbn [orb andb]; lia. Qed.
Lemma ok_small c : c < 0xD800 -> ok_rune c.
Proof. intros H. unfold ok_rune, go_rune. apply N.ltb_lt in H. rewrite H. reflexivity. Qed.

Section Quote.
Variable printable : rune -> bool.
Notation escaped := (escaped printable).
Notation quoted := (quoted printable).
Lemma esc_inj c d u v : ok_rune c -> ok_rune d -> escaped c ++ u = escaped d ++ v -> c = d /\ u = v.
Proof.
  intros C D. apply ok_bound in C. apply ok_bound in D. unfold ErrText.escaped.
  Ltac eat := match goal with |- context[if ?b then _ else _] => let E := fresh "K" in destruct b eqn:E end.
  repeat eat; cbn [app]; intros E; injection E; intros; subst; try discriminate;
  repeat match goal with H : (_ =? _) = true |- _ => apply N.eqb_eq in H | H : (_ || _) = true |- _ => apply orb_true_iff in H | H : (_ || _) = false |- _ => apply orb_false_iff in H; destruct H
    | H : (_ <? _) = true |- _ => apply N.ltb_lt in H | H : (_ =? _) = false |- _ => apply N.eqb_neq in H end.
  all: try (split; [lia|reflexivity]).
  all: try (split; [congruence|reflexivity]).
  - apply (hex_app 2 c d v v); [destruct K8 as [K8|K8]; [apply N.ltb_lt in K8|apply N.eqb_eq in K8]; lia|destruct K18 as [K18|K18]; [apply N.ltb_lt in K18|apply N.eqb_eq in K18]; lia|exact (f_equal (skipn 2) E)].
  - apply (hex_app 4 c d v v); [lia|lia|exact (f_equal (skipn 2) E)].
  - apply (hex_app 8 c d v v); [cbn; lia|cbn; lia|exact (f_equal (skipn 2) E)].
Qed.
Lemma esc_head c : exists a l, escaped c = a :: l /\ a <> DQ.
Proof.
  unfold ErrText.escaped. destruct ((c =? DQ) || (c =? BSL)) eqn:K; [do 2 eexists; split; [reflexivity|discriminate]|]. apply orb_false_iff in K. destruct K as [K _]. apply N.eqb_neq in K.
  repeat eat; do 2 eexists; (split; [reflexivity|]); first [exact K|discriminate].
Qed.
Lemma escs_inj x : forall y u v, Forall ok_rune x -> Forall ok_rune y -> List.concat (map escaped x) ++ DQ :: u = List.concat (map escaped y) ++ DQ :: v -> x = y /\ u = v.
Proof.
  induction x as [|c x IH]; intros [|d y] u v X Y E; cbn [map List.concat app] in E.
  - injection E as ->. auto.
  - exfalso. destruct (esc_head d) as (a & l & Ea & Na). rewrite Ea in E. cbn in E. injection E as E _. congruence.
  - exfalso. destruct (esc_head c) as (a & l & Ea & Na). rewrite Ea in E. cbn in E. injection E as E _. congruence.
  - inversion X; inversion Y; subst. rewrite <- !app_assoc in E. apply esc_inj in E; [|assumption..]. destruct E as [-> E]. destruct (IH _ _ _ H2 H6 E) as [-> ->]. auto.
Qed.
Lemma go_all x : Forall ok_rune (go_string x).
Proof. apply Forall_forall. intros c I. apply in_map_iff in I. destruct I as (d & <- & _). apply go_ok. Qed.
(** a quoted text ends where it says *)
Lemma quoted_inj x y u v : quoted x ++ u = quoted y ++ v -> go_string x = go_string y /\ u = v.
Proof.
  unfold ErrText.quoted. intros E. rewrite <- !app_comm_cons in E. injection E as E. rewrite <- !app_assoc in E. cbn [app] in E. apply escs_inj in E; [exact E|apply go_all..].
Qed.
Lemma go_app a b : go_string (a ++ b) = go_string a ++ go_string b. Proof. apply map_app. Qed.
Lemma go_idem x : go_string (go_string x) = go_string x.
Proof. induction x as [|c x IH]; [reflexivity|]. cbn [go_string map]. f_equal; [apply go_ok|exact IH]. Qed.
Lemma go_id x : Forall ok_rune x -> go_string x = x.
Proof. induction 1 as [|c x H _ IH]; [reflexivity|]. cbn [go_string map]. f_equal; [exact H|exact IH]. Qed.
Lemma ok_hex n c : Forall ok_rune (hex n c).
Proof.
  induction n as [|n IH]; cbn [hex]; constructor; [|exact IH]. apply ok_small. unfold hexdigit. pose proof (N.mod_lt (c / 16 ^ N.of_nat n) 16 ltac:(lia)). destruct (_ <? 10); lia.
Qed.
Lemma ok_escaped c : ok_rune c -> Forall ok_rune (escaped c).
Proof.
  intros H. assert (B : ok_rune BSL) by reflexivity. unfold ErrText.escaped. repeat eat; repeat first [apply ok_hex|apply Forall_nil|apply Forall_cons; [first [exact H|exact B|reflexivity]|]].
Qed.
Lemma ok_quoted x : Forall ok_rune (quoted x).
Proof.
  unfold ErrText.quoted. constructor; [reflexivity|]. apply Forall_app. split; [|constructor; [reflexivity|constructor]].
  pose proof (go_all x) as F. induction F as [|c l H F IH]; [constructor|]. cbn [map List.concat]. apply Forall_app. split; [apply ok_escaped; exact H|exact IH].
Qed.
End Quote.

(** ** Numbers *)
Definition digit_like (c : rune) : Prop := (48 <= c <= 57) \/ c = 45.
Lemma dec_chars z : Forall digit_like (dec z).
Proof.
  unfold dec. assert (U : forall u, Forall digit_like (lit (NilEmpty.string_of_uint u))).
  { induction u; cbn; constructor; try assumption; left; unfold N_of_ascii; cbn; lia. }
  assert (Z0 : forall u, Forall digit_like (lit (NilZero.string_of_uint u))).
  { intros u. destruct u; try exact (U _). cbn. constructor; [left; cbn; lia|constructor]. }
  destruct (Z.to_int z); cbn [NilZero.string_of_int]; [apply Z0|]. cbn [lit]. constructor; [right; reflexivity|apply Z0].
Qed.
Lemma lit_inj a b : lit a = lit b -> a = b.
Proof.
  revert b. induction a as [|x a IH]; intros [|y b] E; cbn [lit] in E; try discriminate; [reflexivity|]. injection E as E1 E2.
  rewrite (IH _ E2). f_equal. rewrite <- (ascii_N_embedding x), <- (ascii_N_embedding y), E1. reflexivity.
Qed.
Lemma dec_inj a b : dec a = dec b -> a = b.
Proof.
  intros E. apply lit_inj in E. apply DecimalZ.to_int_inj.
  assert (N : forall z, Z.to_int z <> Decimal.Pos Nil /\ Z.to_int z <> Decimal.Neg Nil).
  { intros z. split; intros X; pose proof (DecimalZ.of_to z) as Y; rewrite X in Y; cbn in Y; subst z; discriminate X. }
  pose proof (NilZero.isi (Z.to_int a) (proj1 (N a)) (proj2 (N a))) as A. pose proof (NilZero.isi (Z.to_int b) (proj1 (N b)) (proj2 (N b))) as B.
  rewrite E, B in A. injection A as A. symmetry. exact A.
Qed.
Lemma split_at (k : rune) x y a b : ~ In k a -> ~ In k b -> x ++ k :: a = y ++ k :: b -> x = y /\ a = b.
Proof.
  intros A B. revert y. induction x as [|c x IH]; intros [|d y] E; cbn [app] in E.
  - injection E as ->. auto.
  - exfalso. injection E as <- E. apply A. rewrite E. apply in_or_app. right. left. reflexivity.
  - exfalso. injection E as -> E. apply B. rewrite <- E. apply in_or_app. right. left. reflexivity.
  - injection E as -> E. destruct (IH _ E) as [-> ->]. auto.
Qed.
Lemma split_first (k : rune) a b x y : ~ In k a -> ~ In k b -> a ++ k :: x = b ++ k :: y -> a = b /\ x = y.
Proof.
  revert b. induction a as [|c a IH]; intros [|d b] A B E; cbn [app] in E.
  - injection E as ->. auto.
  - exfalso. injection E as -> _. apply B. left. reflexivity.
  - exfalso. injection E as <- _. apply A. left. reflexivity.
  - injection E as -> E. destruct (IH b) as [-> ->]; auto; intros I; [apply A|apply B]; right; exact I.
Qed.
Lemma dec_no k z : k = ch ":" \/ k = ch "," -> ~ In k (dec z).
Proof. intros H I. pose proof (proj1 (Forall_forall _ _) (dec_chars z) _ I) as D. unfold digit_like in D. destruct H as [-> | ->]; cbn in D; lia. Qed.
Lemma ok_dec z : Forall ok_rune (dec z).
Proof. eapply Forall_impl; [|apply dec_chars]. intros c [H|H]; apply ok_small; lia. Qed.
Lemma token_num_inj a b : token_num a = token_num b -> a = b.
Proof. destruct a, b; intros E; first [reflexivity|discriminate E]. Qed.

(** ** The place shown by a position *)
Lemma pos_text_inj p q : go_string (pos_text p) = go_string (pos_text q) -> go_string (shown_name p) = go_string (shown_name q) /\ Line p = Line q /\ Column p = Column q.
Proof.
  unfold pos_text. rewrite !go_app. rewrite !(go_id (dec _)) by apply ok_dec. change (go_string (lit ":")) with [ch ":"].
  replace (go_string (shown_name p) ++ [ch ":"] ++ dec (Line p) ++ [ch ":"] ++ dec (Column p)) with ((go_string (shown_name p) ++ [ch ":"] ++ dec (Line p)) ++ ch ":" :: dec (Column p)) by (rewrite <- !app_assoc; reflexivity).
  replace (go_string (shown_name q) ++ [ch ":"] ++ dec (Line q) ++ [ch ":"] ++ dec (Column q)) with ((go_string (shown_name q) ++ [ch ":"] ++ dec (Line q)) ++ ch ":" :: dec (Column q)) by (rewrite <- !app_assoc; reflexivity).
  intros E. apply split_at in E; [|apply dec_no; auto..]. destruct E as [E C]. cbn [app] in E. apply split_at in E; [|apply dec_no; auto..]. destruct E as [E L].
  apply dec_inj in C. apply dec_inj in L. auto.
Qed.

(** ** The text of an error *)
Fixpoint first_error (e : err) : err := match e with EPair a _ => first_error a | _ => e end.
Section Message.
Variable printable : rune -> bool.
Lemma text_first e m : Text printable e m -> exists r, m = lit "found " ++ quoted printable (found_text printable (first_error e)) ++ r.
Proof.
  induction 1 as [p x c w|p x t w|p x t k w|a b x y HA IHA HB IHB]; [unfold leaf_text; eexists; reflexivity..|].
  destruct IHA as (r & ->). cbn [first_error]. eexists. rewrite <- !app_assoc. reflexivity.
Qed.
Theorem text_found e1 e2 m : Text printable e1 m -> Text printable e2 m -> go_string (found_text printable (first_error e1)) = go_string (found_text printable (first_error e2)).
Proof.
  intros H1 H2. destruct (text_first _ _ H1) as (r1 & ->). destruct (text_first _ _ H2) as (r2 & E). apply (f_equal (skipn 6)) in E. cbn [lit app skipn] in E.
  apply quoted_inj in E. apply E.
Qed.
Theorem found_place p1 x1 t1 k1 p2 x2 t2 k2 : go_string (found_text printable (EParse p1 x1 t1 k1)) = go_string (found_text printable (EParse p2 x2 t2 k2)) ->
  go_string t1 = go_string t2 /\ k1 = k2 /\ Line p1 = Line p2 /\ Column p1 = Column p2 /\ go_string (shown_name p1) = go_string (shown_name p2).
Proof.
  cbn [found_text]. rewrite !go_app. rewrite !(go_id (quoted printable _)) by apply ok_quoted. intros E. apply quoted_inj in E. destruct E as [T E].
  apply (f_equal (skipn 7)) in E. cbn [lit go_string map app skipn] in E. rewrite !(go_id (dec _)) in E by apply ok_dec.
  apply split_first in E; [|apply dec_no; auto..]. destruct E as [K E]. apply dec_inj, token_num_inj in K.
  injection E as E. apply app_inj_tail in E. destruct E as [E _]. apply pos_text_inj in E. tauto.
Qed.
Theorem text_place e1 e2 m p1 x1 t1 k1 p2 x2 t2 k2 : Text printable e1 m -> Text printable e2 m ->
  first_error e1 = EParse p1 x1 t1 k1 -> first_error e2 = EParse p2 x2 t2 k2 ->
  go_string t1 = go_string t2 /\ k1 = k2 /\ Line p1 = Line p2 /\ Column p1 = Column p2 /\ go_string (shown_name p1) = go_string (shown_name p2).
Proof. intros H1 H2 E1 E2. pose proof (text_found _ _ _ H1 H2) as F. rewrite E1, E2 in F. exact (found_place _ _ _ _ _ _ _ _ F). Qed.
End Message.
