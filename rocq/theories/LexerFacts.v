(** The lexer on top of Scan: Next, UnNext, Peek, PeekN, ConsumeToken,
    ReadFullIdent, ReadMessageType. *)
From Coq Require Import List NArith ZArith Bool String Ascii Lia.
From Verif Require Import Base Token Scanner Lexer Lexing ScanRefine LexFacts LexSpec LexProofs ScanFacts.
Import ListNotations.
Open Scope N_scope.

Definition lexs (s : st) : lexed := lex (mode s) (rest s).
Definition lx_all (x : lexed) : list rune := lx_gap x ++ lx_raw x.

Record nexted (s : st) (s1 : st) : Prop := mkNexted {
  nx_rest : rest s1 = lx_rest (lexs s);
  nx_raw : raw s1 = lx_all (lexs s);
  nx_pos : pos s1 = posafter (pos s) (lx_all (lexs s));
  nx_cols : cols_step (pos s) (lx_all (lexs s)) (cols s) (cols s1);
  nx_mode : mode s1 = mode s;
  nx_cms : comments s1 = comments s ++ place (pos s) (lx_cms (lexs s));
  nx_tok : ltok s1 = lx_tok (lexs s);
  nx_txt : ltext s1 = lx_txt (lexs s);
  nx_lraw : lraw s1 = lx_all (lexs s);
  nx_lpos : lpos s1 = posafter (pos s) (lx_gap (lexs s));
  nx_err : (exists e, scanErr s1 = Some e) <-> (exists e, scanErr s = Some e) \/ is_illegal (lexs s)
}.
Lemma rest_split s : rest s = lx_all (lexs s) ++ lx_rest (lexs s).
Proof. unfold lx_all. rewrite <- app_assoc. apply lex_app. Qed.
Lemma nexted_split s s1 : nexted s s1 -> rest s = lx_all (lexs s) ++ rest s1.
Proof. intros H. rewrite (nx_rest _ _ H). apply rest_split. Qed.
Lemma nexted_nonul s s1 : nexted s s1 -> nonul (rest s) -> nonul (rest s1).
Proof. intros H N. rewrite (nexted_split _ _ H) in N. apply nonul_app in N. tauto. Qed.

Lemma illegal_dec x : {is_illegal x} + {~ is_illegal x}.
Proof.
  unfold is_illegal. destruct (token_eq_dec (lx_tok x) TILLEGAL); [|right; tauto].
  destruct (lx_txt x); [left; auto|right]. intros [_ H]. discriminate.
Qed.
Lemma Next_spec s : nonul (rest s) -> exists s1, Next s = (Ok tt, s1) /\ nexted s s1.
Proof.
  intros N. destruct (Scan_spec s N) as (s' & e & Q & S & R & E). fold (lexs s) in *.
  unfold Next. rewrite (bind_eq _ _ _ _ _ Q). eexists. split; [reflexivity|].
  destruct S as [R1 W P C M K G]. cbn in *.
  constructor; cbn; try assumption; try reflexivity.
  destruct G as (_ & _ & _ & _ & G). rewrite G. destruct e as [er|].
  - split; [|eauto]. intros _. right. destruct (illegal_dec (lexs s)); [assumption|]. exfalso. destruct E as [_ E]. specialize (E n). discriminate.
  - destruct E as [E _]. specialize (E eq_refl). tauto.
Qed.

(** un-reading the text [w] that led from [p] to the current position *)
Lemma UnNext_spec s p w : raw s = w -> pos s = posafter p w ->
  (forall a b, w = a ++ NL :: b -> col_get (cols s) (Line (posafter p a)) = Column (posafter p a)) ->
  UnNext s = (Ok tt, set_tokpos TILLEGAL p (set_pc (p, cols s) (set_rest (w ++ rest s) s))).
Proof.
  intros R P C. unfold UnNext, modify, UnScan. rewrite R. rewrite (unread_all w s p P C). reflexivity.
Qed.
Record unnexted (s s1 s2 : st) : Prop := mkUnnexted {
  un_rest : rest s2 = rest s;
  un_pos : pos s2 = pos s;
  un_cols : cols s2 = cols s1;
  un_mode : mode s2 = mode s1;
  un_cms : comments s2 = comments s1;
  un_tok : ltok s2 = TILLEGAL;
  un_txt : ltext s2 = ltext s1;
  un_raw : raw s2 = raw s1;
  un_lraw : lraw s2 = lraw s1;
  un_lpos : lpos s2 = pos s;
  un_err : scanErr s2 = scanErr s1
}.
Lemma UnNext_nexted s s1 : nexted s s1 -> exists s2, UnNext s1 = (Ok tt, s2) /\ unnexted s s1 s2.
Proof.
  intros H. rewrite (UnNext_spec s1 (pos s) (lx_all (lexs s)) (nx_raw _ _ H) (nx_pos _ _ H) (proj2 (nx_cols _ _ H))).
  eexists. split; [reflexivity|]. constructor; cbn; try reflexivity. symmetry. apply nexted_split. exact H.
Qed.

(** ** Peek *)
Lemma Peek_spec s : nonul (rest s) -> exists s1 s2,
  Next s = (Ok tt, s1) /\ nexted s s1 /\ unnexted s s1 s2 /\ Peek s = (Ok (ltok s1), s2).
Proof.
  intros N. destruct (Next_spec s N) as (s1 & Q & H). destruct (UnNext_nexted s s1 H) as (s2 & Q2 & U).
  exists s1, s2. repeat split; try apply U; try apply H; try assumption.
  unfold Peek. rwb Q. rewrite bind_gets. rwb Q2. reflexivity.
Qed.

(** ** PeekN *)
(** texts [l] (last one first) read from position [p] *)
Inductive trail (p : mpos) (cl : colmap) : list (list rune) -> mpos -> Prop :=
| trail_nil : trail p cl [] p
| trail_cons w l q : trail p cl l q ->
    (forall a b, w = a ++ NL :: b -> col_get cl (Line (posafter q a)) = Column (posafter q a)) ->
    trail p cl (w :: l) (posafter q w).
Lemma trail_line p cl l q : trail p cl l q -> (Line p <= Line q)%Z.
Proof. induction 1; [lia|]. pose proof (posafter_line q w). lia. Qed.
Lemma trail_step p cl l q : trail p cl l q -> forall w cl', cols_step q w cl cl' -> trail p cl' (w :: l) (posafter q w).
Proof.
  intros T w cl' [C1 C2]. apply trail_cons; [|exact C2].
  clear C2. induction T as [|w' l q T IH H]; [constructor|].
  apply trail_cons.
  - apply IH. intros k Hk. apply C1. pose proof (posafter_line q w'). lia.
  - intros a b E. rewrite C1; [apply (H a b E)|].
    subst w'. rewrite posafter_app. pose proof (posafter_line (padv (posafter q a) NL) b).
    cbn [posafter fold_left]. change (fold_left padv b (padv (posafter q a) NL)) with (posafter (padv (posafter q a) NL) b).
    unfold padv in H0 at 1. cbn in H0. unfold padv. cbn. fold (posafter q a) in *.
    unfold padv in H0. cbn in H0. unfold posafter in *. lia.
Qed.
Lemma unnext_all_spec l : forall s p, trail p (cols s) l (pos s) ->
  exists s2, unnext_all l s = (Ok tt, s2) /\ rest s2 = List.concat (rev l) ++ rest s /\ pos s2 = p /\
    mode s2 = mode s /\ comments s2 = comments s /\ cols s2 = cols s /\
    (l <> [] -> ltok s2 = TILLEGAL /\ lpos s2 = p).
Proof.
  induction l as [|w l IH]; intros s p T; cbn [unnext_all].
  - inversion T; subst. exists s. repeat split; congruence.
  - inversion T as [|w' l' q T' C]; subst. unfold UnNextTo.
    assert (E : bind (modify (set_raw w)) (fun _ => UnNext) s = (Ok tt, set_tokpos TILLEGAL q (set_pc (q, cols s) (set_rest (w ++ rest s) (set_raw w s))))).
    { rewrite bind_modify. rewrite (UnNext_spec (set_raw w s) q w); [reflexivity|reflexivity|cbn; congruence|exact C]. }
    rwb E. destruct (IH (set_tokpos TILLEGAL q (set_pc (q, cols s) (set_rest (w ++ rest s) (set_raw w s)))) p T') as (s2 & Q & R & P & M & K & CC & L). rewrite Q. exists s2. cbn in *.
    split; [reflexivity|]. rewrite R. rewrite concat_app, <- app_assoc. cbn. rewrite app_nil_r.
    split; [reflexivity|]. repeat (split; [assumption|]). intros _. destruct l; [|apply L; discriminate].
    cbn in Q. unfold ret in Q. injection Q as <-. cbn in *. split; [reflexivity|]. inversion T'. reflexivity.
Qed.
Lemma nexts_raw_spec n : forall s0 s l, nonul (rest s) -> trail (pos s0) (cols s) l (pos s) ->
  rest s0 = List.concat (rev l) ++ rest s -> mode s = mode s0 ->
  exists s1 l1, nexts_raw n l s = (Ok l1, s1) /\ NextN n s = (Ok tt, s1) /\
    trail (pos s0) (cols s1) l1 (pos s1) /\ rest s0 = List.concat (rev l1) ++ rest s1 /\ mode s1 = mode s0 /\ List.length l1 = (n + List.length l)%nat.
Proof.
  induction n as [|n IH]; intros s0 s l N T R M; cbn [nexts_raw NextN].
  - exists s, l. repeat split; assumption.
  - destruct (Next_spec s N) as (s1 & Q & H). rwb Q. rewrite bind_gets. rwb Q.
    destruct (IH s0 s1 (lraw s1 :: l)) as (s2 & l2 & Q2 & Q3 & T2 & R2 & M2 & L2).
    + eapply nexted_nonul; eassumption.
    + rewrite (nx_lraw _ _ H), (nx_pos _ _ H). eapply trail_step; [exact T|]. apply (nx_cols _ _ H).
    + cbn [rev]. rewrite concat_app, <- app_assoc. cbn. rewrite app_nil_r, R, (nx_lraw _ _ H). f_equal. apply nexted_split. exact H.
    + rewrite (nx_mode _ _ H). exact M.
    + exists s2, l2. repeat split; try assumption. rewrite L2. cbn. lia.
Qed.
Lemma PeekN_spec n s : nonul (rest s) -> exists s1 s2,
  NextN n s = (Ok tt, s1) /\ PeekN n s = (Ok (ltok s1), s2) /\ rest s2 = rest s /\ pos s2 = pos s /\ mode s2 = mode s
  /\ comments s2 = comments s1.
Proof.
  intros N. destruct (nexts_raw_spec n s s [] N) as (s1 & l & Q & Q2 & T & R & M & _); try reflexivity.
  { constructor. }
  destruct (unnext_all_spec l s1 (pos s) T) as (s2 & Q3 & R3 & P3 & M3 & K3 & _).
  exists s1, s2. split; [exact Q2|]. split.
  - unfold PeekN. rwb Q. rewrite bind_gets. rwb Q3. reflexivity.
  - repeat split; congruence.
Qed.

(** ** ConsumeToken *)
Lemma ConsumeToken_spec t s : nonul (rest s) -> exists s1 s2,
  Next s = (Ok tt, s1) /\ nexted s s1 /\ ConsumeToken t s = (Ok tt, s2) /\
  (ltok s1 = t /\ s2 = s1 \/ ltok s1 <> t /\ unnexted s s1 s2).
Proof.
  intros N. destruct (Next_spec s N) as (s1 & Q & H). destruct (UnNext_nexted s s1 H) as (s2 & Q2 & U).
  unfold ConsumeToken. rwb Q. rewrite bind_gets. unfold tok_eqb. destruct (token_eq_dec (ltok s1) t) as [E|E].
  - exists s1, s1. repeat split; try apply H; auto.
  - exists s1, s2. repeat split; try apply H; auto.
Qed.
