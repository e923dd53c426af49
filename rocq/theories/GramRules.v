(** Rules for running the pure parser on a layout. *)
From Coq Require Import List NArith ZArith Bool String Ascii Lia Sorted.
From Verif Require Import Base Token Scanner Lexing ScanRefine LexFacts LexSpec LexProofs ScanFacts ScanProps Ast Parser Cursor Pure
  Refine Grammar GramLex.
Import ListNotations.
Open Scope N_scope.
Open Scope pure_scope.

Notation len k := (List.length (cr k)).

(** [q] succeeds at [k] with a result that satisfies [Q] *)
Definition CP {A} (q : PM A) (k : cur) (Q : A -> cur -> Prop) : Prop :=
  match q k with POk a k' => Q a k' | _ => False end.
Lemma CP_ret {A} (a : A) k (Q : A -> cur -> Prop) : Q a k -> CP (pret a) k Q.
Proof. exact (fun H => H). Qed.
Lemma CP_bind {A B} (q : PM A) (f : A -> PM B) k Q : CP q k (fun a k' => CP (f a) k' Q) -> CP (pbind q f) k Q.
Proof. unfold CP, pbind. destruct (q k); auto. Qed.
Lemma CP_weak {A} (q : PM A) k (Q Q' : A -> cur -> Prop) : CP q k Q -> (forall a k', Q a k' -> Q' a k') -> CP q k Q'.
Proof. unfold CP. destruct (q k); auto. Qed.
Lemma CP_fuel k (Q : nat -> cur -> Prop) : Q (S (len k)) k -> CP pfuel k Q.
Proof. exact (fun H => H). Qed.
Lemma CP_last k (Q : mpos -> cur -> Prop) : Q (lp k) k -> CP plast k Q.
Proof. exact (fun H => H). Qed.
Lemma CP_back t k (Q : unit -> cur -> Prop) : Q tt (kb t) -> CP (pback t) k Q.
Proof. exact (fun H => H). Qed.
Lemma CP_run {A} (q : PM A) k Q : CP q k Q -> exists a k', q k = POk a k' /\ Q a k'.
Proof. unfold CP. destruct (q k); try tauto. eauto. Qed.

(** ** Items *)
Lemma coms_app a b : coms (a ++ b) = coms a ++ coms b. Proof. apply map_app. Qed.
Lemma last_tok_app a b : last_tok (a ++ b) = match last_tok b with Some y => Some y | None => last_tok a end.
Proof.
  induction a as [|[x p|x p] a IH]; cbn [app last_tok]; [destruct (last_tok b); reflexivity| |exact IH].
  rewrite IH. destruct (last_tok b); [reflexivity|]. reflexivity.
Qed.
Lemma last_tok_T a ts x p : T ts x p -> last_tok (a ++ ts) = Some (x, p).
Proof. intros (cs & ->). rewrite app_assoc, last_tok_app. reflexivity. Qed.
Lemma last_tok_T0 ts x p : T ts x p -> last_tok ts = Some (x, p).
Proof. apply (last_tok_T []). Qed.
Lemma last_tok_coms cs : last_tok (coms cs) = None.
Proof. induction cs; cbn; auto. Qed.
Lemma next_tok_coms cs ts : next_tok (coms cs ++ ts) = next_tok ts.
Proof. induction cs; cbn; auto. Qed.
Lemma next_tok_T ts x p rest : T ts x p -> next_tok (ts ++ rest) = Some x.
Proof. intros (cs & ->). rewrite <- app_assoc, next_tok_coms. reflexivity. Qed.
Lemma next_tok_T0 ts x p : T ts x p -> next_tok ts = Some x.
Proof. intros (cs & ->). rewrite next_tok_coms. reflexivity. Qed.
Lemma first_tok_coms cs ts : first_tok (coms cs ++ ts) = first_tok ts.
Proof. induction cs; cbn; auto. Qed.
Lemma first_next ts : next_tok ts = option_map fst (first_tok ts).
Proof. induction ts as [|[]]; cbn; auto. Qed.
Lemma first_tok_split ts x p : first_tok ts = Some (x, p) -> exists cs its, ts = coms cs ++ Tok x p :: its.
Proof.
  induction ts as [|[y q|y q] ts IH]; cbn; intros H; [discriminate| |].
  - injection H as -> ->. exists [], ts. reflexivity.
  - destruct (IH H) as (cs & its & ->). exists ((y, q) :: cs), its. reflexivity.
Qed.
Lemma next_tok_split ts x : next_tok ts = Some x -> exists cs p its, ts = coms cs ++ Tok x p :: its.
Proof.
  rewrite first_next. destruct (first_tok ts) as [[y p]|] eqn:E; [|discriminate]. intros H. injection H as ->.
  apply first_tok_split in E. destruct E as (cs & its & ->). eauto.
Qed.
Lemma next_tok_app a b x : next_tok a = Some x -> next_tok (a ++ b) = Some x.
Proof. intros H. apply next_tok_split in H. destruct H as (cs & p & its & ->). rewrite <- app_assoc, next_tok_coms. reflexivity. Qed.
Lemma no_com_T ts x p : T ts x p -> no_com ts -> ts = [Tok x p].
Proof. intros ([|c cs] & ->); cbn; [reflexivity|tauto]. Qed.
Lemma no_com_app a b : a <> [] -> no_com (a ++ b) -> no_com a.
Proof. destruct a; cbn; tauto. Qed.

(** ** Tokens that may follow a name or a constant *)
Definition follows : list string := [";"; ","; "]"; "}"; ")"; "="; ">"; "{"; "["; ":"]%string.
Definition Follow (ts : list item) : Prop := exists y, next_tok ts = Some y /\ (is_ident y \/ words follows y).
Lemma Follow_K ts s rest : K ts s -> In s follows -> Follow (ts ++ rest).
Proof. intros (p & H) I. exists (lit s). split; [eapply next_tok_T; eassumption|right; apply in_map; exact I]. Qed.
Lemma Follow_T ts x p rest : T ts x p -> words follows x -> Follow (ts ++ rest).
Proof. intros H I. exists x. split; [eapply next_tok_T; eassumption|auto]. Qed.
Lemma Follow_ident ts x p rest : T ts x p -> is_ident x -> Follow (ts ++ rest).
Proof. intros H I. exists x. split; [eapply next_tok_T; eassumption|auto]. Qed.
Lemma Follow_next ts x rest : next_tok ts = Some x -> words follows x \/ is_ident x -> Follow (ts ++ rest).
Proof. intros H I. exists x. split; [apply next_tok_app; assumption|tauto]. Qed.
Definition folk (t : token) : bool :=
  match t with TDOT | TEOF | TSTRLIT | TINTLIT | TILLEGAL | TCOMMENT | TQUOTE | TMINUS | TBOM => false | _ => true end.

(** ** Deciding [hit] *)
Definition hitb (m : smode) (x : str) : option token :=
  if identb x then Some (identToken m x)
  else match x with
       | [c] => if existsb (N.eqb c) puncts &&
                   (negb ((c =? DQ) || (c =? SQ)) || negb (has m ScanStrLit)) &&
                   (negb (c =? ch ".") || negb (has m ScanNumberLit))
                then Some (asMiscToken c) else None
       | _ => None
       end.
Lemma hitb_ok m x t : hitb m x = Some t -> hit m x t.
Proof.
  unfold hitb. destruct (identb x) eqn:E.
  - intros H. injection H as <-. apply hit_ident. apply identb_iff. exact E.
  - destruct x as [|c [|]]; try discriminate. destruct (_ && _ && _) eqn:H; [|discriminate]. intros K. injection K as <-.
    rewrite !andb_true_iff in H. destruct H as [[H1 H2] H3]. apply existsb_exists in H1. destruct H1 as (d & I & D). apply N.eqb_eq in D. subst d.
    apply hit_punct; [exact I| |].
    + intros K. destruct (has m ScanStrLit); [|reflexivity]. rewrite orb_false_r in H2. apply negb_true_iff, orb_false_iff in H2.
      destruct H2 as [A B]. apply N.eqb_neq in A, B. tauto.
    + intros ->. destruct (has m ScanNumberLit); [|reflexivity]. discriminate.
Qed.
Lemma words_cases l x : words l x -> exists s, In s l /\ x = lit s.
Proof. unfold words. rewrite in_map_iff. intros (s & <- & H). eauto. Qed.
Lemma follows_hit m y : words follows y -> hitb m y <> None /\ exists t, hitb m y = Some t /\ folk t = true.
Proof.
  intros H. apply words_cases in H. destruct H as (s & I & ->). cbn in I.
  repeat (destruct I as [<-|I]; [unfold hitb; cbn; split; [discriminate|eexists; split; reflexivity]|]). destruct I.
Qed.
Lemma ident_folk m x : folk (identToken m x) = true.
Proof.
  destruct (identToken_not m x) as (A & B & C & D & E). unfold identToken in *.
  destruct (_ && _); [reflexivity|]. destruct (_ && _); [reflexivity|]. destruct (_ && negb _) eqn:Q; [|reflexivity].
  destruct (proj1 (keyword_spec x (asKeywordToken x) C) eq_refl) as (n & _ & I). unfold keywords in I. cbn [In] in I.
  repeat (destruct I as [I|I]; [injection I as _ <-; reflexivity|]). destruct I.
Qed.
Lemma Follow_hit ts m : Follow ts -> exists cs x p its t, ts = coms cs ++ Tok x p :: its /\ hit m x t /\ folk t = true /\ (is_ident x \/ words follows x).
Proof.
  intros (y & H & C). apply next_tok_split in H. destruct H as (cs & p & its & ->). destruct C as [C|C].
  - exists cs, y, p, its, (identToken m y). split; [reflexivity|]. split; [apply hit_ident; exact C|]. split; [apply ident_folk|auto].
  - destruct (follows_hit m y C) as (_ & t & H & F). exists cs, y, p, its, t. split; [reflexivity|]. split; [apply hitb_ok; exact H|auto].
Qed.

(** ** Recorded comments *)
Fixpoint citems (ts : list item) : list (str * mpos) :=
  match ts with
  | [] => []
  | Tok _ _ :: ts => citems ts
  | Com x p :: ts => (x, p) :: citems ts
  end.
Lemma citems_app a b : citems (a ++ b) = citems a ++ citems b.
Proof. induction a as [|[] a IH]; cbn [app citems]; rewrite ?IH; reflexivity. Qed.
Lemma citems_coms cs : citems (coms cs) = cs.
Proof. induction cs as [|[] cs IH]; [reflexivity|]. change (coms ((s, m) :: cs)) with (Com s m :: coms cs). cbn [citems]. rewrite IH. reflexivity. Qed.
Lemma citems_nodes ts : comments_in ts = nodes (citems ts).
Proof. induction ts as [|[] ts IH]; cbn; rewrite ?IH; reflexivity. Qed.
Lemma unique_app acc a b : unique_comments acc (a ++ b) = unique_comments (unique_comments acc a) b.
Proof. revert acc. induction a as [|c a IH]; intros acc; cbn [app unique_comments]; [reflexivity|]. destruct (existsb _ _); apply IH. Qed.
Definition cbefore (a b : str * mpos) : Prop := (Offset (snd a) < Offset (snd b))%Z.
Lemma citems_in ts c : In c (citems ts) -> In (Com (fst c) (snd c)) ts.
Proof. induction ts as [|[x p|x p] ts IH]; cbn; [tauto| |]; [auto|]. intros [<-|H]; [left; reflexivity|auto]. Qed.
Lemma citems_sorted ts : StronglySorted before ts -> StronglySorted cbefore (citems ts).
Proof.
  induction 1 as [|[x p|x p] ts S IH F]; cbn [citems]; [constructor|exact IH|]. constructor; [exact IH|].
  apply Forall_forall. intros c H. apply citems_in in H. rewrite Forall_forall in F. specialize (F _ H). exact F.
Qed.
Lemma sorted_app_lt {A} (R : A -> A -> Prop) a b : StronglySorted R (a ++ b) -> forall x y, In x a -> In y b -> R x y.
Proof.
  induction a as [|c a IH]; cbn [app]; intros H x y I J; [destruct I|]. inversion H as [|? ? H1 H2]; subst. destruct I as [<-|I].
  - rewrite Forall_forall in H2. apply H2. apply in_or_app. auto.
  - apply IH; assumption.
Qed.
(** recording again what is known, then more *)
Lemma record_more C i cs j n : StronglySorted cbefore C -> C = i ++ cs ++ j -> (List.length i <= n)%nat ->
  unique_comments (texts (firstn n C)) (texts cs) = texts (firstn (max n (List.length i + List.length cs)) C).
Proof.
  intros S. revert i n. induction cs as [|c cs IH]; intros i n E L; cbn [texts map unique_comments].
  - cbn [List.length]. rewrite Nat.add_0_r, Nat.max_l by exact L. reflexivity.
  - assert (E' : C = (i ++ [c]) ++ cs ++ j) by (rewrite <- app_assoc; exact E). cbn [List.length].
    destruct (Nat.eq_dec n (List.length i)) as [->|NE].
    + assert (X : existsb (fun uc => same_comment (mkText (fst c) (snd c)) uc) (texts (firstn (List.length i) C)) = false).
      { destruct (existsb _ _) eqn:X; [|reflexivity]. apply existsb_exists in X. destruct X as (t & I & X).
        rewrite E, firstn_app, Nat.sub_diag, firstn_all in I. cbn [firstn] in I. rewrite app_nil_r in I.
        unfold texts in I. apply in_map_iff in I. destruct I as (d & <- & I). unfold same_comment in X. apply andb_true_iff in X. destruct X as [X _].
        cbn [TPos] in X. apply Z.eqb_eq in X. rewrite E in S. pose proof (sorted_app_lt _ _ _ S d c I (or_introl eq_refl)) as O.
        unfold cbefore in O. lia. }
      rewrite X. fold (texts cs).
      assert (F : texts (firstn (List.length i) C) ++ [mkText (fst c) (snd c)] = texts (firstn (Datatypes.S (List.length i)) C)).
      { assert (FA : forall (a b : list (str * mpos)), firstn (List.length a) (a ++ b) = a).
        { intros a b. rewrite firstn_app, Nat.sub_diag, firstn_all. cbn [firstn]. apply app_nil_r. }
        replace (Datatypes.S (List.length i)) with (List.length (i ++ [c])) by (rewrite app_length; cbn; lia).
        rewrite E' at 2. rewrite FA, E, FA. unfold texts. rewrite map_app. reflexivity. }
      rewrite F, (IH (i ++ [c])); [|exact E'|rewrite app_length; cbn; lia]. rewrite app_length. cbn [List.length].
      f_equal. f_equal. lia.
    + assert (X : existsb (fun uc => same_comment (mkText (fst c) (snd c)) uc) (texts (firstn n C)) = true).
      { apply existsb_exists. exists (mkText (fst c) (snd c)). split.
        - unfold texts. apply in_map_iff. exists c. split; [reflexivity|]. rewrite E, firstn_app. apply in_or_app. right.
          destruct (n - List.length i)%nat eqn:D; [lia|]. cbn [firstn app]. left. reflexivity.
        - unfold same_comment. rewrite Z.eqb_refl. apply str_eqb_eq. reflexivity. }
      rewrite X. fold (texts cs). rewrite (IH (i ++ [c])); [|exact E'|rewrite app_length; cbn; lia]. rewrite app_length. cbn [List.length].
      f_equal. f_equal. lia.
Qed.

Section Rules.
Variable p0 : mpos.
(** the items of the whole text *)
Variable all : list item.
Hypothesis SA : StronglySorted before all.
Notation posat := (posat p0).
Notation ptok := (ptok p0).
Notation ppeek := (ppeek p0).
Notation pexpect := (pexpect p0).
Notation lexc := (lexc p0).

(** the first comments of the text are recorded, at least those in front of the items *)
Definition Rec (l : list text) (its : list item) : Prop :=
  exists done n, all = done ++ its /\ unique_comments [] l = texts (firstn n (citems all)) /\ (List.length (citems done) <= n)%nat.
Lemma Rec_more l ts its cs : Rec l (ts ++ its) -> citems ts = cs -> Rec (l ++ texts cs) its /\ Rec (l ++ texts cs) (ts ++ its).
Proof.
  intros (d & n & E & U & L) C. assert (X : Rec (l ++ texts cs) its).
  { exists (d ++ ts), (max n (List.length (citems d) + List.length cs)). split; [rewrite <- app_assoc; exact E|]. split.
    - rewrite unique_app, U. apply (record_more _ (citems d) cs (citems its)); [apply citems_sorted; exact SA| |exact L].
      rewrite E at 1. rewrite !citems_app, C. reflexivity.
    - rewrite citems_app, app_length, C. lia. }
  split; [exact X|]. destruct X as (d' & n' & E' & U' & L'). exists d, n'. split; [exact E|]. split; [exact U'|].
  assert (d' = d ++ ts) as -> by (rewrite E, app_assoc in E'; apply app_inv_tail in E'; congruence).
  rewrite citems_app, app_length in L'. lia.
Qed.
Lemma Rec_ahead l ts its : Rec l its -> (exists d, all = d ++ ts ++ its) -> Rec l (ts ++ its).
Proof.
  intros (d' & n' & E' & U' & L') (d & E). exists d, n'. split; [exact E|]. split; [exact U'|].
  assert (d' = d ++ ts) as -> by (rewrite E, app_assoc in E'; apply app_inv_tail in E'; congruence).
  rewrite citems_app, app_length in L'. lia.
Qed.

(** the text at [k] is laid out as the items *)
Definition At (k : cur) (its : list item) : Prop :=
  (exists p' sp, Lay true (posat (cc k)) (cr k) its p' sp /\ Spaces sp) /\ Rec (cm k) its.
(** un-reading leads back to [k] *)
Definition bk (b k : cur) (its : list item) : Prop := (cc b = cc k /\ cr b = cr k /\ lp b = posat (cc k)) /\ At b its.
Lemma At_bk b k its : bk b k its -> At b its. Proof. intros (_ & H). exact H. Qed.
Lemma bk_len b k its : bk b k its -> len b = len k. Proof. intros ((_ & -> & _) & _). reflexivity. Qed.
Lemma bk_lp b k its : bk b k its -> lp b = posat (cc k). Proof. intros ((_ & _ & H) & _). exact H. Qed.
Lemma bk_trans a b c its : bk a b its -> bk b c its -> bk a c its.
Proof. intros ((A & B & C) & D) ((A' & B' & C') & D'). unfold bk. rewrite A, B, C, A', B'. auto. Qed.
(** looking ahead: the comments seen stay recorded *)
Lemma At_ahead b k' ts rest p : At b (ts ++ rest) -> At k' rest -> At (mkCur (cc b) (cr b) (cm k') p) (ts ++ rest).
Proof.
  intros (L & d & n & E & _) (_ & R). split; [exact L|]. cbn [cm]. apply Rec_ahead; [exact R|eauto].
Qed.
Lemma bk_ahead b k k' ts rest : bk b k (ts ++ rest) -> At k' rest -> bk (mkCur (cc b) (cr b) (cm k') (lp b)) k (ts ++ rest).
Proof. intros (E & A) A'. split; [exact E|]. apply At_ahead; assumption. Qed.
(** the line where the text consumed ends *)
Definition endl (k : cur) : Z := Line (posat (cc k)).
Lemma bk_endl b k its : bk b k its -> endl b = endl k. Proof. intros ((E & _) & _). unfold endl. rewrite E. reflexivity. Qed.
Lemma bk_line b k its : bk b k its -> Line (lp b) = endl k. Proof. intros ((_ & _ & ->) & _). reflexivity. Qed.
Lemma posat_app c z : posat (c ++ z) = posafter (posat c) z.
Proof. unfold Cursor.posat. apply posafter_app. Qed.

Record read (k k' : cur) (x : str) (p : mpos) (rest : list item) : Prop := {
  rd_at : At k' rest;
  rd_lp : lp k' = p;
  rd_len : (len k' < len k)%nat;
  rd_end : posat (cc k') = posafter p x }.

Lemma tok_hit m k cs x p its t : has m ScanComment = false -> At k (coms cs ++ Tok x p :: its) -> hit m x t ->
  exists b w g k', lexc m k = (mkTi t x p b w g, k') /\ bk b k (coms cs ++ Tok x p :: its) /\ read k k' x p its.
Proof.
  intros M ((p' & sp & L & S) & R) H. pose proof L as LL0. apply lay_coms in L. destruct L as (g & gcs & r1 & E & G & P & -> & TA & L).
  unfold Cursor.lexc. rewrite E, (lex_gap m g gcs) by assumption. rewrite (token_hit m x r1 t TA H).
  cbn [skip lx_tok lx_txt lx_gap lx_cms lx_raw lx_rest map]. rewrite !app_nil_r, P, !posat_app.
  destruct (Rec_more _ (coms cs ++ [Tok x (posafter (posat (cc k)) g)]) its cs ltac:(rewrite <- app_assoc; exact R)) as [R1 R2].
  { rewrite citems_app, citems_coms. apply app_nil_r. }
  rewrite <- app_assoc in R2. eexists _, _, _, _. split; [reflexivity|]. split.
  { split; [repeat split; cbn; auto|]. split; [cbn [cc cr]; rewrite <- E; eauto|exact R2]. }
  split; cbn [cc cr lp cm].
  - split; [|exact R1]. exists p', sp. cbn [cc cr]. rewrite posat_app. auto.
  - reflexivity.
  - rewrite E, !app_length. pose proof (token_nonempty _ _ _ TA). destruct x; [congruence|cbn; lia].
  - rewrite !posat_app, posafter_app. reflexivity.
Qed.
Lemma tok_miss m k cs x p its t : has m ScanComment = false -> At k (coms cs ++ Tok x p :: its) -> miss m x t ->
  exists y b w g k', lexc m k = (mkTi t [y] p b w g, k') /\ bk b k (coms cs ++ Tok x p :: its) /\ exists z, x = y :: z.
Proof.
  intros M ((p' & sp & L & S) & R) H. pose proof L as LL0. apply lay_coms in L. destruct L as (g & gcs & r1 & E & G & P & -> & TA & L).
  unfold Cursor.lexc. rewrite E, (lex_gap m g gcs) by assumption. destruct (token_miss m x r1 t TA H) as (c & y & -> & ->).
  cbn [skip lx_tok lx_txt lx_gap lx_cms lx_raw lx_rest map]. rewrite !app_nil_r, P, !posat_app.
  destruct (Rec_more _ (coms cs ++ [Tok (c :: y) (posafter (posat (cc k)) g)]) its cs ltac:(rewrite <- app_assoc; exact R)) as [R1 R2].
  { rewrite citems_app, citems_coms. apply app_nil_r. }
  rewrite <- app_assoc in R2. eexists _, _, _, _, _. split; [reflexivity|]. split; [|eauto].
  split; [repeat split; cbn; auto|]. split; [cbn [cc cr]; rewrite <- E; eauto|exact R2].
Qed.
Lemma tok_end m k cs : has m ScanComment = false -> At k (coms cs) ->
  exists p b w g k', lexc m k = (mkTi TEOF [] p b w g, k') /\ bk b k (coms cs).
Proof.
  intros M ((p' & sp & L & S) & R). pose proof L as LL0. apply lay_end in L; [|exact S]. destruct L as (gcs & G & P).
  unfold Cursor.lexc. rewrite (lex_endgap m _ gcs M G). cbn [skip lx_tok lx_txt lx_gap lx_cms lx_raw lx_rest map]. rewrite P.
  destruct (Rec_more _ (coms cs) [] cs ltac:(rewrite app_nil_r; exact R) (citems_coms cs)) as [_ R2]. rewrite app_nil_r in R2.
  eexists _, _, _, _, _. split; [reflexivity|]. split; [repeat split|]. split; [eauto|exact R2].
Qed.

(** ** Reading a token *)
Lemma CP_tok m k ts x p rest t (Q : ti -> cur -> Prop) : has m ScanComment = false -> At k (ts ++ rest) -> T ts x p -> hit m x t ->
  (forall b w g k', bk b k (ts ++ rest) -> read k k' x p rest -> Q (mkTi t x p b w g) k') -> CP (ptok m) k Q.
Proof.
  intros M A (cs & ->) H F. rewrite <- app_assoc in *. destruct (tok_hit m k cs x p rest t M A H) as (b & w & g & k' & E & B & R).
  unfold CP, Cursor.ptok. rewrite E. apply F; assumption.
Qed.
Lemma CP_expect m k ts x p rest t (Q : ti -> cur -> Prop) : has m ScanComment = false -> At k (ts ++ rest) -> T ts x p -> hit m x t ->
  (forall b w g k', bk b k (ts ++ rest) -> read k k' x p rest -> Q (mkTi t x p b w g) k') -> CP (pexpect m t) k Q.
Proof.
  intros M A X H F. unfold Cursor.pexpect. apply CP_bind. eapply CP_tok; try eassumption. intros b w g k' B R.
  cbn [tk]. unfold tok_eqb. destruct (token_eq_dec t t); [|congruence]. apply CP_ret. apply F; assumption.
Qed.
(** looking at a token that is un-read *)
Lemma CP_see m k ts x p rest t (Q : ti -> cur -> Prop) : has m ScanComment = false -> At k (ts ++ rest) -> T ts x p -> hit m x t \/ miss m x t ->
  (forall y b w g k', bk b k (ts ++ rest) -> Q (mkTi t y p b w g) k') -> CP (ptok m) k Q.
Proof.
  intros M A (cs & ->) H F. rewrite <- app_assoc in *. unfold CP, Cursor.ptok. destruct H as [H|H].
  - destruct (tok_hit m k cs x p rest t M A H) as (b & w & g & k' & E & B & R). rewrite E. apply F. exact B.
  - destruct (tok_miss m k cs x p rest t M A H) as (y & b & w & g & k' & E & B & _). rewrite E. apply F. exact B.
Qed.
Lemma CP_follow m k rest (Q : ti -> cur -> Prop) : has m ScanComment = false -> At k rest -> Follow rest ->
  (forall t x p b w g k', bk b k rest -> folk t = true -> (is_ident x /\ t = identToken m x \/ words follows x) -> Q (mkTi t x p b w g) k') -> CP (ptok m) k Q.
Proof.
  intros M A H F. destruct (Follow_hit rest m H) as (cs & x & p & its & t & -> & HT & FT & C).
  destruct (tok_hit m k cs x p its t M A HT) as (b & w & g & k' & E & B & R). unfold CP, Cursor.ptok. rewrite E. apply F; try assumption.
  destruct C as [C|C]; [left|auto]. split; [exact C|]. inversion HT; subst; try reflexivity; exfalso.
  - eapply int_not_ident; eassumption.
  - tauto.
  - eapply ident_not_str; eassumption.
  - eapply ident_not_punct; eassumption.
Qed.
Lemma CP_eof m k cs (Q : ti -> cur -> Prop) : has m ScanComment = false -> At k (coms cs) ->
  (forall p b w g k', bk b k (coms cs) -> Q (mkTi TEOF [] p b w g) k') -> CP (ptok m) k Q.
Proof.
  intros M A F. destruct (tok_end m k cs M A) as (p & b & w & g & k' & E & B). unfold CP, Cursor.ptok. rewrite E. apply F. exact B.
Qed.

(** ** Reading comments *)
Lemma comment_tok m k c q its : has m ScanComment = true -> At k (Com c q :: its) ->
  exists b w g k', lexc m k = (mkTi TCOMMENT c q b w g, k') /\ bk b k (Com c q :: its) /\ At k' its /\ lp k' = q /\ (len k' < len k)%nat.
Proof.
  intros M ((p' & sp & L & S) & R). pose proof L as LL0.
  assert (X : exists g w r1, cr k = g ++ w ++ r1 /\ lex m (cr k) = mkLexed g [(g, c)] TCOMMENT c w r1 /\
      q = posafter (posat (cc k)) g /\ w <> [] /\ Lay true (posafter (posat (cc k)) (g ++ w)) r1 its p' sp).
  { assert (PS : forall sp0 y z r0, Spaces sp0 -> lex m y = comment_token c z r0 ->
      lex m (sp0 ++ y) = mkLexed sp0 [(sp0, c)] TCOMMENT c z r0).
    { intros sp0 y z r0 SS E. rewrite (lex_gap_in m sp0 []) by (unfold gap_in; rewrite M; auto). rewrite E. unfold skip, comment_token. cbn [app map fst snd lx_gap lx_cms lx_tok lx_txt lx_raw lx_rest]. rewrite !app_nil_r. reflexivity. }
    inversion L as [|?|? sp0 ? r0 ? ? ? Sp0 LC L0|? sp0 ? Sp0 LC|? sp0 ? r0 ? ? ? Sp0 LC L0]; subst.
    - exists sp0, (c ++ [NL]), r0. destruct LC as (b & -> & NB).
      split; [rewrite <- !app_assoc; reflexivity|]. split; [apply PS; [assumption|]; apply lex_c_line; assumption|].
      split; [reflexivity|]. split; [discriminate|assumption].
    - exists sp0, c, []. destruct LC as (b & -> & NB).
      split; [rewrite app_nil_r; reflexivity|]. split; [apply PS; [assumption|]; apply lex_c_end; assumption|].
      split; [reflexivity|]. split; [discriminate|constructor].
    - exists sp0, c, r0. destruct LC as (b & -> & NB).
      split; [reflexivity|]. split; [apply PS; [assumption|]; apply lex_c_block; assumption|].
      split; [reflexivity|]. split; [discriminate|assumption]. }
  destruct X as (g & w & r1 & E & L1 & Q & W & LL). destruct (Rec_more _ [Com c q] its [(c, q)] R eq_refl) as [R1 R2].
  unfold Cursor.lexc. rewrite L1. cbn [lx_tok lx_txt lx_gap lx_cms lx_raw lx_rest place map fst snd]. rewrite !posat_app, <- Q.
  eexists _, _, _, _. split; [reflexivity|]. split; [split; [repeat split|split; [eauto|exact R2]]|]. cbn [cc cr lp cm]. split; [|split; [reflexivity|]].
  - split; [|exact R1]. exists p', sp. cbn [cc cr]. rewrite posat_app. auto.
  - rewrite E, !app_length. destruct w; [congruence|]. cbn. lia.
Qed.
Lemma nocom_tok k its : At k its -> no_com its ->
  exists t x p b w g k', lexc ScanComment k = (mkTi t x p b w g, k') /\ bk b k its /\ t <> TCOMMENT.
Proof.
  intros ((p' & sp & L & S) & R) N. pose proof L as LL0. unfold Cursor.lexc.
  assert (X : lx_tok (lex ScanComment (cr k)) <> TCOMMENT /\ lx_cms (lex ScanComment (cr k)) = []).
  { destruct its as [|[x p|] its]; [| |destruct N].
    - inversion L; subst. clear L. rewrite <- (app_nil_r (cr k)). rewrite (lex_gap_in ScanComment (cr k) []) by (split; [assumption|reflexivity]).
      rewrite lex_nil. split; [discriminate|reflexivity].
    - inversion L; subst. rewrite (lex_gap_in ScanComment sp0 []) by (split; [assumption|reflexivity]).
      match goal with H : token_at _ _ _ |- _ => apply token_not_slash in H; destruct H as (c & y & -> & A & B) end.
      cbn [app skip lx_tok lx_cms]. destruct (lex_not_comment ScanComment c (y ++ r) A B) as [X Y]. split; [exact X|]. rewrite Y. reflexivity. }
  destruct X as [X Y]. rewrite Y. cbn [place map]. rewrite app_nil_r.
  eexists _, _, _, _, _, _, _. split; [reflexivity|]. split; [split; [repeat split|split; eauto]|exact X].
Qed.
Lemma CP_comment k c q its (Q : ti -> cur -> Prop) : At k (Com c q :: its) ->
  (forall b w g k', bk b k (Com c q :: its) -> At k' its -> lp k' = q -> (len k' < len k)%nat -> Q (mkTi TCOMMENT c q b w g) k') -> CP (ptok ScanComment) k Q.
Proof.
  intros A F. destruct (comment_tok ScanComment k c q its eq_refl A) as (b & w & g & k' & E & H). unfold CP, Cursor.ptok. rewrite E. apply F; tauto.
Qed.
Lemma CP_nocom k its (Q : ti -> cur -> Prop) : At k its -> no_com its ->
  (forall t x p b w g k', bk b k its -> t <> TCOMMENT -> Q (mkTi t x p b w g) k') -> CP (ptok ScanComment) k Q.
Proof.
  intros A N F. destruct (nocom_tok k its A N) as (t & x & p & b & w & g & k' & E & H). unfold CP, Cursor.ptok. rewrite E. apply F; tauto.
Qed.

Lemma qcomment_node p l : qcomment p l = node (l, p). Proof. reflexivity. Qed.

Lemma comments_loop n acc k cs its : At k (coms cs ++ its) -> no_com its -> (List.length cs < n)%nat ->
  CP (qComments_loop p0 n acc) k (fun r k' => r = acc ++ nodes cs /\ At k' its /\ lp k' = posat (cc k') /\ (len k' <= len k)%nat /\ (cs = [] -> bk k' k its)).
Proof.
  revert n acc k. induction cs as [|[c q] cs IH]; intros n acc k A N L; (destruct n as [|n]; [cbn in L; lia|]); cbn [qComments_loop].
  - apply CP_bind. eapply CP_nocom; [exact A|exact N|]. intros t x p b w g k' B NT. cbn [tk].
    unfold tok_eqb. destruct (token_eq_dec t TCOMMENT); [congruence|]. apply CP_bind, CP_back. apply CP_ret. cbn [nodes map kb].
    rewrite app_nil_r. split; [reflexivity|]. split; [exact (At_bk _ _ _ B)|]. split; [|rewrite (bk_len _ _ _ B); split; [lia|auto]].
    rewrite (bk_lp _ _ _ B). destruct B as ((-> & _) & _). reflexivity.
  - apply CP_bind. cbn [coms map app fst snd] in A. eapply CP_comment; [exact A|]. intros b w g k' B A' LP LL. cbn [tk tp tx].
    change (tok_eqb TCOMMENT TCOMMENT) with true. cbv iota. eapply CP_weak; [apply IH; [exact A'|exact N|cbn in L; lia]|].
    intros r k2 (-> & A2 & LP2 & L2 & _). split; [|split; [exact A2|]; split; [exact LP2|]; split; [lia|]; intros X; discriminate X].
    rewrite <- app_assoc. reflexivity.
Qed.
Lemma coms_len k cs its : At k (coms cs ++ its) -> (List.length cs <= len k)%nat.
Proof.
  intros ((p' & sp & L & S) & _). revert L. generalize (posat (cc k)) as p. generalize (cr k) as r.
  induction cs as [|[c q] cs IH]; cbn [coms map app fst snd]; intros r p L; [cbn; lia|].
  change (map (fun c => Com (fst c) (snd c)) cs) with (coms cs) in L.
  assert (C : forall c, is_line_comment c \/ is_block_comment c -> (0 < List.length c)%nat).
  { intros d [(b & -> & _)|(b & -> & _)]; cbn; lia. }
  inversion L; subst; rewrite !app_length; match goal with H : is_line_comment ?d |- _ => specialize (C d (or_introl H)) | H : is_block_comment ?d |- _ => specialize (C d (or_intror H)) end.
  - match goal with H : Lay _ _ _ (coms cs ++ its) _ _ |- _ => apply IH in H end. cbn. lia.
  - destruct cs; [cbn; lia|discriminate].
  - match goal with H : Lay _ _ _ (coms cs ++ its) _ _ |- _ => apply IH in H end. cbn. lia.
Qed.
Lemma CP_comments k cs its (Q : list comment -> cur -> Prop) : At k (coms cs ++ its) -> no_com its ->
  (forall k', At k' its -> lp k' = posat (cc k') -> (len k' <= len k)%nat -> (cs = [] -> bk k' k its) -> Q (nodes cs) k') -> CP (qParseComments p0) k Q.
Proof.
  intros A N F. unfold qParseComments. apply CP_bind, CP_fuel. eapply CP_weak; [eapply comments_loop; [exact A|exact N|]|].
  - apply coms_len in A. lia.
  - cbn. intros r k' (-> & H). apply F; tauto.
Qed.
(** the inline comment *)
Lemma CP_inline k l c rest (Q : option comment -> cur -> Prop) : At k (icom c ++ rest) -> Line (lp k) = l -> Inline l c rest ->
  (forall k', At k' rest -> (len k' <= len k)%nat ->
     (match c with Some c => lp k' = snd c | None => bk k' k rest end) -> Q (inode c) k') -> CP (qInline p0) k Q.
Proof.
  intros A LL I F. unfold qInline. apply CP_bind, CP_last. apply CP_bind. destruct c as [[c q]|]; cbn [icom app fst snd] in *.
  - eapply CP_comment; [exact A|]. intros b w g k' B A' LP LE. cbn [tk tp tx].
    change (tok_eqb TCOMMENT TCOMMENT) with true. cbn [Inline] in I. cbn [snd] in I. rewrite LL, I, Z.eqb_refl. cbn [andb].
    apply CP_ret. apply F; [exact A'|lia|exact LP].
  - destruct rest as [|[x p|c q] rest].
    + eapply CP_nocom; [exact A|exact Logic.I|]. intros t x p b w g k' B NT. cbn [tk]. unfold tok_eqb. destruct (token_eq_dec t TCOMMENT); [congruence|].
      cbn [andb]. apply CP_bind, CP_back, CP_ret. apply F; [exact (At_bk _ _ _ B)|cbn; rewrite (bk_len _ _ _ B); lia|exact B].
    + eapply CP_nocom; [exact A|exact Logic.I|]. intros t y p' b w g k' B NT. cbn [tk]. unfold tok_eqb. destruct (token_eq_dec t TCOMMENT); [congruence|].
      cbn [andb]. apply CP_bind, CP_back, CP_ret. apply F; [exact (At_bk _ _ _ B)|cbn; rewrite (bk_len _ _ _ B); lia|exact B].
    + eapply CP_comment; [exact A|]. intros b w g k' B A' LP LE. cbn [tk tp tx]. cbn in I.
      change (tok_eqb TCOMMENT TCOMMENT) with true. rewrite LL. destruct (Z.eqb_spec l (Line q)) as [E|E]; [congruence|].
      cbn [andb]. apply CP_bind, CP_back, CP_ret. apply F; [exact (At_bk _ _ _ B)|cbn; rewrite (bk_len _ _ _ B); lia|exact B].
Qed.
End Rules.
