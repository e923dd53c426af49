(** The slices behave like values (C52). *)
From Coq Require Import List NArith Bool Arith Lia.
From Verif Require Import Base Slices.
Import ListNotations.
Local Open Scope nat_scope.

Lemma nth_set_same {A} n (x d : A) l : n < List.length l -> nth n (set_nth n x l) d = x.
Proof. revert n. induction l as [|y l IH]; intros [|n] H; cbn in *; try lia; [reflexivity|]. apply IH. lia. Qed.
Lemma nth_set_other {A} n m (x d : A) l : n <> m -> nth m (set_nth n x l) d = nth m l d.
Proof. revert n m. induction l as [|y l IH]; intros [|n] [|m] H; cbn; try reflexivity; try lia. apply IH. lia. Qed.
Lemma set_length {A} n (x : A) l : List.length (set_nth n x l) = List.length l.
Proof. revert n. induction l as [|y l IH]; intros [|n]; cbn; auto. Qed.
Lemma firstn_set {A} n (x : A) l : n < List.length l -> firstn (S n) (set_nth n x l) = firstn n l ++ [x].
Proof. revert n. induction l as [|y l IH]; intros [|n] H; cbn in H |- *; try lia; [destruct l; reflexivity|]. cbn in IH. f_equal. apply IH. lia. Qed.

Definition good (h : heap) (s : slice) : Prop := arr s < List.length h /\ scap s = List.length (array h (arr s)) /\ slen s <= scap s.
Lemma array_app h x a : a < List.length h -> array (h ++ [x]) a = array h a.
Proof. intros H. unfold array. apply app_nth1. exact H. Qed.
Lemma good_app h x s : good h s -> good (h ++ [x]) s.
Proof. intros (A & B & C). split; [rewrite app_length; cbn; lia|]. rewrite array_app by exact A. split; assumption. Qed.
Lemma contents_app h x s : arr s < List.length h -> contents (h ++ [x]) s = contents h s.
Proof. intros H. unfold contents. rewrite array_app by exact H. reflexivity. Qed.
Lemma contents_len h s : good h s -> List.length (contents h s) = slen s.
Proof. intros (A & B & C). unfold contents. rewrite firstn_length. lia. Qed.

Section Grow.
Variable grow : nat -> nat.
Hypothesis G : forall n, n < grow n.
(** a change of the heap that writes only into the array [a] and into new ones *)
Definition keeps (a : nat) (h h' : heap) : Prop :=
  List.length h <= List.length h' /\ forall b, b < List.length h -> b <> a -> array h' b = array h b.
Definition keeps_len (h h' : heap) : Prop := forall b, b < List.length h -> List.length (array h' b) = List.length (array h b).
Lemma rop_step o h s : good h s -> let '(h', s') := do_rop grow o (h, s) in
  good h' s' /\ contents h' s' = v_rop o (contents h s) /\ keeps (arr s) h h' /\ keeps_len h h' /\ (arr s' = arr s \/ List.length h <= arr s').
Proof.
  intros GD. pose proof (contents_len _ _ GD) as CL. destruct GD as (A & B & C). destruct o as [r|]; cbn [do_rop push pop fst snd v_rop].
  - destruct (Nat.ltb_spec (slen s) (scap s)) as [L|L].
    + repeat split; cbn [arr slen scap]; rewrite ?set_length; auto; try lia.
      * unfold array at 1. rewrite nth_set_same by exact A. rewrite set_length. exact B.
      * unfold contents at 1. cbn [arr slen]. unfold array at 1. rewrite nth_set_same by exact A. rewrite firstn_set by lia. reflexivity.
      * intros b HB NE. unfold array. apply nth_set_other. auto.
      * intros b HB. destruct (Nat.eq_dec b (arr s)) as [->|NE]; unfold array; [rewrite nth_set_same by exact A; apply set_length|rewrite nth_set_other by auto; reflexivity].
    + pose proof (G (slen s)). assert (E : array (h ++ [contents h s ++ [r] ++ repeat 0%N (grow (slen s) - S (slen s))]) (List.length h) = contents h s ++ [r] ++ repeat 0%N (grow (slen s) - S (slen s))).
      { unfold array. rewrite app_nth2 by lia. rewrite Nat.sub_diag. reflexivity. }
      repeat split; cbn [arr slen scap]; rewrite ?app_length; cbn [List.length]; try lia.
      * rewrite E, !app_length, repeat_length, CL. cbn [List.length]. lia.
      * unfold contents at 1. cbn [arr slen]. rewrite E. rewrite app_assoc. rewrite firstn_app. rewrite !app_length, CL. cbn [List.length]. replace (S (slen s) - (slen s + 1)) with 0 by lia.
        rewrite firstn_O, app_nil_r. apply firstn_all2. rewrite app_length, CL. cbn. lia.
      * intros b HB NE. apply array_app. exact HB.
      * intros b HB. rewrite array_app by exact HB. reflexivity.
  - repeat split; cbn [arr slen scap]; auto; try lia. unfold contents. cbn [arr slen]. destruct (slen s) as [|n] eqn:E; [reflexivity|].
    cbn [Nat.pred]. symmetry. apply removelast_firstn. lia.
Qed.
Lemma rops_steps ops : forall h s, good h s -> let '(h', s') := do_rops grow ops (h, s) in
  good h' s' /\ contents h' s' = fold_left (fun x o => v_rop o x) ops (contents h s) /\ keeps (arr s) h h' /\ keeps_len h h' /\ (arr s' = arr s \/ List.length h <= arr s').
Proof.
  induction ops as [|o ops IH]; intros h s GD; cbn [do_rops fold_left].
  - repeat split; auto; apply GD.
  - pose proof (rop_step o h s GD) as ST. destruct (do_rop grow o (h, s)) as [h1 s1]. destruct ST as (G1 & C1 & K1 & L1 & A1).
    specialize (IH h1 s1 G1). destruct (do_rops grow ops (h1, s1)) as [h2 s2]. destruct IH as (G2 & C2 & K2 & L2 & A2). rewrite <- C1.
    destruct K1 as [K1 K1']. destruct K2 as [K2 K2']. repeat split; auto; try apply G2; try lia.
    + intros b HB NE. rewrite K2'; [apply K1'; assumption|lia|]. destruct A1 as [-> |A1]; [exact NE|lia].
    + intros b HB. rewrite L2 by lia. apply L1. exact HB.
Qed.

(** [src]: the text the scanner writes into; [up i]: text [i] is used up *)
Definition related (src : option nat) (up : nat -> Prop) (s : lexer_slices) (v : lexer_values) : Prop :=
  good (ls_heap s) (ls_cur s) /\ contents (ls_heap s) (ls_cur s) = lv_cur v /\
  List.length (ls_given s) = List.length (lv_given v) /\
  (forall i, i < List.length (ls_given s) -> let r := nth i (ls_given s) (mkSlice 0 0 0) in
     good (ls_heap s) r /\ (arr r = arr (ls_cur s) -> src = Some i) /\ (up i \/ contents (ls_heap s) r = nth i (lv_given v) [])) /\
  (forall i j, i < List.length (ls_given s) -> j < List.length (ls_given s) -> arr (nth i (ls_given s) (mkSlice 0 0 0)) = arr (nth j (ls_given s) (mkSlice 0 0 0)) -> i = j).
Lemma next_related src up ops s v : related src up s v -> let '(o, s') := step grow (CNext ops) s in let '(o', v') := v_step (CNext ops) v in
  o = o' /\ related src (fun i => up i \/ src = Some i) s' v'.
Proof.
  intros (GC & CC & LL & GV & DI). cbn [step v_step].
  assert (GC0 : good (ls_heap s) (clear (ls_cur s))) by (destruct GC as (A & B & C); repeat split; cbn; auto; lia).
  pose proof (rops_steps ops (ls_heap s) (clear (ls_cur s)) GC0) as ST. destruct (do_rops grow ops (ls_heap s, clear (ls_cur s))) as [h cur]. cbn [copy].
  destruct ST as (G1 & C1 & (K1 & K2) & KL & A1). cbn [clear arr] in *. split; [reflexivity|].
  assert (CN : contents h cur = v_rops ops) by exact C1.
  pose proof G1 as (G1a & G1b & G1c).
  unfold related; cbn [ls_heap ls_cur ls_given lv_cur lv_given]; cbv zeta. repeat split.
  - rewrite app_length. cbn. lia.
  - rewrite array_app by exact G1a. exact G1b.
  - exact G1c.
  - rewrite contents_app by exact G1a. exact CN.
  - rewrite !app_length, LL. reflexivity.
  - destruct (Nat.eq_dec i (List.length (ls_given s))) as [->|NE].
    + rewrite app_nth2, Nat.sub_diag by lia. cbn. rewrite app_length. cbn. lia.
    + rewrite app_length in H. cbn in H. rewrite app_nth1 by lia. destruct (GV i ltac:(lia)) as ((X & _) & _). rewrite app_length. cbn. lia.
  - destruct (Nat.eq_dec i (List.length (ls_given s))) as [->|NE].
    + rewrite app_nth2, Nat.sub_diag by lia. cbn [nth scap arr]. unfold array. rewrite app_nth2, Nat.sub_diag by lia. cbn [nth]. symmetry. apply contents_len. exact G1.
    + rewrite app_length in H. cbn in H. rewrite app_nth1 by lia. destruct (GV i ltac:(lia)) as ((X & Y & _) & _). rewrite array_app by lia. rewrite KL by exact X. exact Y.
  - destruct (Nat.eq_dec i (List.length (ls_given s))) as [->|NE].
    + rewrite app_nth2, Nat.sub_diag by lia. cbn. lia.
    + rewrite app_length in H. cbn in H. rewrite app_nth1 by lia. destruct (GV i ltac:(lia)) as ((_ & _ & Z) & _). exact Z.
  - intros E. destruct (Nat.eq_dec i (List.length (ls_given s))) as [->|NE].
    + rewrite app_nth2, Nat.sub_diag in E by lia. cbn in E. lia.
    + rewrite app_length in H. cbn in H. rewrite app_nth1 in E by lia. destruct (GV i ltac:(lia)) as ((X & _) & Y & _). destruct A1 as [A1|A1]; [apply Y; congruence|lia].
  - destruct (Nat.eq_dec i (List.length (ls_given s))) as [->|NE].
    + right. rewrite app_nth2, Nat.sub_diag by lia. rewrite LL, app_nth2, Nat.sub_diag by lia. cbn [nth]. unfold contents. cbn [arr slen]. unfold array. rewrite app_nth2, Nat.sub_diag by lia. cbn [nth].
      rewrite <- CN. apply firstn_all2. rewrite contents_len by exact G1. lia.
    + rewrite app_length in H. cbn in H. rewrite !app_nth1 by lia. destruct (GV i ltac:(lia)) as ((X & X2 & X3) & Y & Z).
      destruct (Nat.eq_dec (arr (nth i (ls_given s) (mkSlice 0 0 0))) (arr (ls_cur s))) as [E|E]; [left; right; apply Y; exact E|].
      destruct Z as [Z|Z]; [left; left; exact Z|right]. rewrite contents_app by lia. unfold contents in *. rewrite K2 by assumption. exact Z.
  - intros i j HI HJ E. rewrite app_length in HI, HJ. cbn in HI, HJ.
    destruct (Nat.eq_dec i (List.length (ls_given s))) as [->|NI], (Nat.eq_dec j (List.length (ls_given s))) as [->|NJ]; [reflexivity|exfalso|exfalso|].
    + rewrite app_nth2, Nat.sub_diag in E by lia. rewrite app_nth1 in E by lia. cbn in E. destruct (GV j ltac:(lia)) as ((X & _) & _). lia.
    + rewrite (app_nth2 _ _ _ (n := List.length (ls_given s))), Nat.sub_diag in E by lia. rewrite app_nth1 in E by lia. cbn in E. destruct (GV i ltac:(lia)) as ((X & _) & _). lia.
    + rewrite !app_nth1 in E by lia. apply DI; [lia|lia|exact E].
Qed.
Lemma related_weaker src (up up' : nat -> Prop) s v : (forall i, up i -> up' i) -> related src up s v -> related src up' s v.
Proof.
  intros H (A & B & C & D & E). split; [exact A|]. split; [exact B|]. split; [exact C|]. split; [|exact E].
  intros i HI. destruct (D i HI) as (X & Y & [Z|Z]); (split; [exact X|]; split; [exact Y|]); auto.
Qed.
Lemma unnextto_related src up i s v : related src up s v -> i < List.length (ls_given s) -> ~ up i ->
  fst (step grow (CUnNextTo i) s) = fst (v_step (CUnNextTo i) v) /\ related (Some i) up (snd (step grow (CUnNextTo i) s)) (snd (v_step (CUnNextTo i) v)).
Proof.
  intros (GC & CC & LL & GV & DI) HI NU. cbn [step v_step fst snd]. destruct (GV i HI) as (X & Y & [Z|Z]); [contradiction|]. split; [f_equal; exact Z|].
  unfold related; cbn [ls_heap ls_cur ls_given lv_cur lv_given]; cbv zeta. split; [exact X|]. split; [exact Z|]. split; [exact LL|]. split; [|exact DI].
  intros j HJ. destruct (GV j HJ) as (X' & _ & Z'). split; [exact X'|]. split; [|exact Z']. intros E. f_equal. apply DI; auto.
Qed.
Lemma nexts_app a b : nexts (a ++ b) = nexts a + nexts b.
Proof. unfold nexts. rewrite filter_app, app_length. reflexivity. Qed.
(** the source, as the past calls [l] have it *)
Definition source (l : list call) (src : option nat) : Prop := forall i, src = Some i -> exists l1 l2, l = l1 ++ CUnNextTo i :: l2 /\ Forall (fun c => c = CUnNext \/ exists ops, c = CNext ops) l2.
Lemma split_next l2 ops : Forall (fun c => c = CUnNext \/ exists ops, c = CNext ops) l2 -> exists a ops' b, l2 ++ [CNext ops] = a ++ CNext ops' :: b /\ Forall (eq CUnNext) a.
Proof.
  induction 1 as [|c l2 H F IH]; [exists [], ops, []; split; [reflexivity|constructor]|]. destruct H as [->|(ops' & ->)].
  - destruct IH as (a & ops' & b & E & FA). exists (CUnNext :: a), ops', b. split; [cbn; rewrite E; reflexivity|constructor; [reflexivity|exact FA]].
  - exists [], ops', (l2 ++ [CNext ops]). split; [reflexivity|constructor].
Qed.
Lemma run_same l : forall past src s v, fresh (past ++ l) -> related src (fun i => used_up i past) s v -> source past src -> List.length (ls_given s) = nexts past ->
  run grow l s = v_run l v.
Proof.
  induction l as [|c l IH]; intros past src s v FR R SO N; [reflexivity|]. cbn [run v_run].
  assert (EP : (past ++ [c]) ++ l = past ++ c :: l) by (rewrite <- app_assoc; reflexivity).
  destruct c as [ops| |i].
  - pose proof (next_related src _ ops s v R) as ST. destruct (step grow (CNext ops) s) as [o s'] eqn:E1, (v_step (CNext ops) v) as [o' v'] eqn:E2. destruct ST as [-> ST]. f_equal.
    apply (IH (past ++ [CNext ops]) src).
    + rewrite EP. exact FR.
    + refine (related_weaker _ _ _ _ _ _ ST). intros i [(l1 & l2 & ops' & l3 & -> & F)|H].
      * exists l1, l2, ops', (l3 ++ [CNext ops]). split; [rewrite <- !app_assoc; cbn; rewrite <- app_assoc; reflexivity|exact F].
      * destruct (SO i H) as (l1 & l2 & -> & F). destruct (split_next l2 ops F) as (a & ops' & b & E & FA). exists l1, a, ops', b. split; [|exact FA]. rewrite <- app_assoc. cbn. rewrite E. reflexivity.
    + intros i H. destruct (SO i H) as (l1 & l2 & -> & F). exists l1, (l2 ++ [CNext ops]). split; [rewrite <- app_assoc; reflexivity|]. apply Forall_app. split; [exact F|]. constructor; [right; exists ops; reflexivity|constructor].
    + rewrite nexts_app. cbn [step] in E1. destruct (do_rops grow ops (ls_heap s, clear (ls_cur s))) as [h cur]. cbn [copy] in E1. injection E1 as <- <-. cbn [ls_given]. rewrite app_length, N. reflexivity.
  - cbn [step v_step]. pose proof R as (GC & CC & _). rewrite CC. f_equal. apply (IH (past ++ [CUnNext]) src).
    + rewrite EP. exact FR.
    + refine (related_weaker _ _ _ _ _ _ R). intros i (l1 & l2 & ops' & l3 & -> & F). exists l1, l2, ops', (l3 ++ [CUnNext]). split; [rewrite <- !app_assoc; cbn; rewrite <- app_assoc; reflexivity|exact F].
    + intros i H. destruct (SO i H) as (l1 & l2 & -> & F). exists l1, (l2 ++ [CUnNext]). split; [rewrite <- app_assoc; reflexivity|]. apply Forall_app. split; [exact F|]. constructor; [left; reflexivity|constructor].
    + rewrite nexts_app. change (nexts [CUnNext]) with 0. lia.
  - destruct (FR past i l eq_refl) as [HI NU]. rewrite <- N in HI. pose proof (unnextto_related src _ i s v R HI NU) as [E ST].
    destruct (step grow (CUnNextTo i) s) as [o s'] eqn:E1, (v_step (CUnNextTo i) v) as [o' v'] eqn:E2. cbn [fst snd] in *. subst o'. f_equal.
    apply (IH (past ++ [CUnNextTo i]) (Some i)).
    + rewrite EP. exact FR.
    + refine (related_weaker _ _ _ _ _ _ ST). intros j (l1 & l2 & ops' & l3 & -> & F). exists l1, l2, ops', (l3 ++ [CUnNextTo i]). split; [rewrite <- !app_assoc; cbn; rewrite <- app_assoc; reflexivity|exact F].
    + intros j H. injection H as <-. exists past, []. split; [reflexivity|constructor].
    + rewrite nexts_app. cbn [step] in E1. injection E1 as <- <-. cbn [ls_given]. change (nexts [CUnNextTo i]) with 0. lia.
Qed.
Lemma start_related up : related None up start (mkLV [] []).
Proof. split; [repeat split; cbn; lia|]. split; [reflexivity|]. split; [reflexivity|]. split; intros i; cbn; intros; lia. Qed.
End Grow.
Theorem slices_values grow l : (forall n, n < grow n) -> fresh l -> run grow l start = v_run l (mkLV [] []).
Proof.
  intros G FR. apply (run_same grow G l [] None start (mkLV [] [])); [exact FR|apply start_related|intros i H; discriminate|reflexivity].
Qed.

(** ** The library's own use is fresh *)
Lemma no_to_in reads i : Forall (fun c => forall i, c <> CUnNextTo i) reads -> ~ In (CUnNextTo i) reads.
Proof. intros F H. rewrite Forall_forall in F. exact (F _ H i eq_refl). Qed.
Lemma nexts_tos is : nexts (map CUnNextTo is) = 0. Proof. induction is as [|i is IH]; [reflexivity|exact IH]. Qed.
Definition old (n : nat) (past : list call) : Prop := nexts past = n /\ forall i, In (CUnNextTo i) past -> i < n.
Lemma split_in {A} (x : A) a b l1 l2 : a ++ b = l1 ++ x :: l2 -> (exists m, a = l1 ++ x :: m /\ l2 = m ++ b) \/ (exists m, l1 = a ++ m /\ b = m ++ x :: l2).
Proof.
  revert l1. induction a as [|y a IH]; intros l1 E; [right; exists l1; split; [reflexivity|exact E]|]. destruct l1 as [|z l1].
  - cbn in E. injection E as -> E. left. exists a. split; [reflexivity|auto].
  - cbn in E. injection E as -> E. destruct (IH _ E) as [(m & -> & ->)|(m & -> & ->)]; [left; exists m; split; reflexivity|right; exists m; split; reflexivity].
Qed.
Lemma library_fresh n l : library n l -> forall past, old n past -> forall l1 i l2, l = l1 ++ CUnNextTo i :: l2 -> i < nexts (past ++ l1) /\ ~ used_up i (past ++ l1).
Proof.
  induction 1 as [n|n reads is l FR FI L IH]; intros past (N & O) l1 i l2 E; [destruct l1; discriminate|].
  destruct (split_in _ _ _ _ _ E) as [(m & -> & _)|(m1 & -> & E1)]; [exfalso; apply (no_to_in _ i FR); apply in_or_app; right; left; reflexivity|].
  destruct (split_in _ _ _ _ _ E1) as [(m & E2 & _)|(m2 & -> & E2)].
  - assert (HI : In i is) by (assert (X : In (CUnNextTo i) (map CUnNextTo is)) by (rewrite E2; apply in_or_app; right; left; reflexivity); apply in_map_iff in X; destruct X as (j & X & Y); inversion X; subst; exact Y).
    rewrite Forall_forall in FI. specialize (FI _ HI). rewrite !nexts_app, N. split; [lia|].
    assert (ZM : exists js, m1 = map CUnNextTo js).
    { clear - E2. revert is E2. induction m1 as [|c m1 IHm]; intros is E2; [exists []; reflexivity|]. destruct is as [|j is]; [discriminate|]. cbn in E2. injection E2 as <- E2. destruct (IHm _ E2) as (js & ->). exists (j :: js). reflexivity. }
    destruct ZM as (js & ->). intros (a & b & ops & d & EU & FB).
    (* the text is not among the earlier ones, so it was passed in this block; no Next follows *)
    rewrite app_assoc in EU. destruct (split_in _ _ _ _ _ EU) as [(m' & EA & _)|(m' & -> & EB)].
    + assert (X : In (CUnNextTo i) (past ++ reads)) by (rewrite EA; apply in_or_app; right; left; reflexivity). apply in_app_or in X. destruct X as [X|X]; [apply O in X; lia|exact (no_to_in _ _ FR X)].
    + assert (X : In (CNext ops) (map CUnNextTo js)) by (rewrite EB; apply in_or_app; right; right; apply in_or_app; right; left; reflexivity). apply in_map_iff in X. destruct X as (j & X & _). discriminate.
  - rewrite (app_assoc past), (app_assoc (past ++ reads)). apply (IH ((past ++ reads) ++ map CUnNextTo is)) with (l2 := l2); [|exact E2].
    split; [rewrite !nexts_app, N, nexts_tos; lia|]. intros j HJ. apply in_app_or in HJ. destruct HJ as [HJ|HJ].
    + apply in_app_or in HJ. destruct HJ as [HJ|HJ]; [apply O in HJ; lia|exfalso; exact (no_to_in _ _ FR HJ)].
    + apply in_map_iff in HJ. destruct HJ as (k & X & Y). inversion X; subst. rewrite Forall_forall in FI. specialize (FI _ Y). lia.
Qed.
Theorem library_values grow l : (forall n, n < grow n) -> library 0 l -> run grow l start = v_run l (mkLV [] []).
Proof.
  intros G L. apply slices_values; [exact G|]. intros l1 i l2 E. refine (library_fresh 0 l L [] _ l1 i l2 E). split; [reflexivity|intros j []].
Qed.
