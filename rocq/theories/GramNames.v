(** Completeness of the pure parser: names, constants and options. *)
From Coq Require Import List NArith ZArith Bool String Ascii Lia Sorted.
From Verif Require Import Base Token Scanner Lexer Lexing ScanRefine LexFacts LexSpec LexProofs ScanFacts ScanProps Ast Parser Cursor Pure
  Refine Grammar GramLex GramRules.
Import ListNotations.
Open Scope N_scope.
Open Scope pure_scope.

(** ** Token kinds *)
Ltac hit := first [apply hitb_ok; lazy; reflexivity | apply hit_ident; assumption | apply hit_int; [assumption|reflexivity] | apply hit_str; [assumption|reflexivity]].
Lemma str_eqb_false x y : x <> y -> str_eqb x y = false.
Proof. intros H. destruct (str_eqb x y) eqn:E; [apply str_eqb_eq in E; congruence|reflexivity]. Qed.
Lemma str_mem_words l x : str_mem x (map lit l) = true <-> words l x.
Proof.
  unfold str_mem, words. rewrite existsb_exists. split.
  - intros (y & I & E). apply str_eqb_eq in E. subst. exact I.
  - intros I. exists x. split; [exact I|apply str_eqb_eq; reflexivity].
Qed.
Lemma str_mem_not l x : ~ words l x -> str_mem x (map lit l) = false.
Proof. intros H. destruct (str_mem x (map lit l)) eqn:E; [apply str_mem_words in E; tauto|reflexivity]. Qed.
Lemma kw_token x : exists t, identToken ScanKeyword x = t /\
  ((t = TIDENT /\ ~ exists n t', x = lit n /\ In (n, t') keywords) \/ exists n, x = lit n /\ In (n, t) keywords).
Proof.
  eexists. split; [reflexivity|]. unfold identToken. cbn [has N.land]. change (has ScanKeyword ScanBoolLit) with false. change (has ScanKeyword ScanNumberLit) with false.
  change (has ScanKeyword ScanKeyword) with true. cbn [andb].
  destruct (tok_eqb (asKeywordToken x) TILLEGAL) eqn:E; cbn [negb].
  - left. split; [reflexivity|]. apply keyword_illegal. unfold tok_eqb in E. destruct (token_eq_dec _ _); [assumption|discriminate].
  - right. apply keyword_spec; [|reflexivity]. unfold tok_eqb in E. destruct (token_eq_dec _ _); [discriminate|assumption].
Qed.
(** a name that is none of the keywords [l] has none of their tokens *)
Lemma kw_name s t x : In (s, t) keywords -> identToken ScanKeyword x = t -> x = lit s.
Proof.
  intros I E. destruct (kw_token x) as (t' & E' & [[-> N]|(n & -> & J)]).
  - rewrite E' in E. subst t. unfold keywords in I. cbn [In] in I. repeat (destruct I as [I|I]; [discriminate|]). destruct I.
  - rewrite E' in E. subst t'. unfold keywords in I, J. cbn [In] in I, J.
    repeat (destruct I as [I|I]; [injection I as <- <-; repeat (destruct J as [J|J]; [first [injection J as <-; reflexivity|discriminate J]|]); destruct J|]). destruct I.
Qed.
Lemma lit_token x : identToken ScanLit x = TIDENT \/ words literals x.
Proof.
  unfold identToken. change (has ScanLit ScanBoolLit) with true. change (has ScanLit ScanNumberLit) with true. change (has ScanLit ScanKeyword) with false.
  cbn [andb]. destruct (isBoolLit x) eqn:B.
  - right. unfold isBoolLit in B. apply orb_true_iff in B. destruct B as [B|B]; apply str_eqb_eq in B; subst; cbn; tauto.
  - destruct (isFloatLitKeyword x) eqn:F; [|left; reflexivity].
    right. unfold isFloatLitKeyword in F. apply orb_true_iff in F. destruct F as [F|F]; apply str_eqb_eq in F; subst; cbn; tauto.
Qed.
(** punctuation is recognised *)
Definition special (t : token) : bool :=
  match t with
  | TSEMICOLON | TCOLON | TEQUALS | TLEFTPAREN | TRIGHTPAREN | TLEFTCURLY | TRIGHTCURLY | TLEFTSQUARE | TRIGHTSQUARE
  | TLESS | TGREATER | TCOMMA | TDOT | TMINUS | TBOM => true
  | _ => false
  end.
Lemma misc_inj c d : asMiscToken c = asMiscToken d -> special (asMiscToken d) = true -> c = d.
Proof.
  unfold asMiscToken. intros E S.
  repeat match goal with
  | H : context [if ?x =? ?y then _ else _] |- _ => destruct (N.eqb_spec x y); try congruence; try discriminate
  end.
Qed.
Lemma seen_special x t c : hit 0 x t \/ (miss 0 x t) -> t = asMiscToken c -> special (asMiscToken c) = true -> t <> TDOT -> x = [c].
Proof.
  intros [H|H] E S ND.
  - destruct H as [x I|x I M|x I NI M|x I M|d I Q D]; try discriminate M.
    + cbn in E. rewrite <- E in S. discriminate.
    + apply misc_inj in E; [|exact S]. congruence.
  - destruct H as [d x I NI M|x I M].
    + apply misc_inj in E; [|exact S]. subst d. exfalso. assert (K : digit c \/ c = ch ".").
      { destruct I as [I|I]; [apply int_head in I; destruct I as (? & ? & I & K); injection I as <- _; auto|].
        destruct (float_head _ I NI) as (? & ? & E' & K). injection E' as <- _. exact K. }
      destruct K as [K| ->]; [|apply ND; reflexivity].
      assert (ASM : forall a, digit a -> asMiscToken a = TILLEGAL).
      { unfold digit. intros a J. unfold asMiscToken. repeat match goal with |- context [if ?x =? ?y then _ else _] => destruct (N.eqb_spec x y); [subst; exfalso; revert J; cbv; intuition discriminate|] end. reflexivity. }
      rewrite (ASM _ K) in S. discriminate.
    + rewrite <- E in S. discriminate.
Qed.

(** one expected token *)
Ltac ex HT := first [apply CP_bind; eapply CP_expect | apply CP_bind; eapply CP_tok | eapply CP_expect | eapply CP_tok];
  [eassumption|reflexivity|eassumption|exact HT|hit|];
  let b := fresh "b" in let w := fresh "w" in let g := fresh "g" in let k := fresh "k" in
  let B := fresh "B" in let A := fresh "A" in let LP := fresh "LP" in let LE := fresh "LE" in let EN := fresh "EN" in
  intros b w g k B [A LP LE EN]; cbn [tk tx tp kb].

Section Names.
Variable p0 : mpos.
Variable all : list item.
Hypothesis SA : StronglySorted before all.
Variable perm : bool.
Notation posat := (posat p0).
Notation ptok := (ptok p0).
Notation ppeek := (ppeek p0).
Notation pexpect := (pexpect p0).
Notation lexc := (lexc p0).
Notation At := (At p0 all).
Notation bk := (bk p0 all).
Notation read := (read p0 all).

Lemma items_split ts : (exists cs, ts = coms cs) \/ exists cs x p its, ts = coms cs ++ Tok x p :: its.
Proof.
  induction ts as [|[x p|x p] ts IH].
  - left. exists []. reflexivity.
  - right. exists [], x, p, ts. reflexivity.
  - destruct IH as [(cs & ->)|(cs & y & q & its & ->)].
    + left. exists ((x, p) :: cs). reflexivity.
    + right. exists ((x, p) :: cs), y, q, its. reflexivity.
Qed.
Lemma token_seen x r : token_at true x r -> exists t, hit 0 x t \/ miss 0 x t.
Proof.
  intros [[H _]|[[H _]|[H|(c & -> & H & _)]]].
  - exists TIDENT. left. apply (hit_ident 0 x H).
  - destruct (identb x) eqn:E.
    + apply identb_iff in E. exists TIDENT. left. apply (hit_ident 0 x E).
    + assert (N : ~ is_ident x) by (rewrite <- identb_iff; congruence).
      assert (X : exists c y, x = c :: y).
      { destruct H as [H|H]; [apply int_head in H; destruct H as (? & ? & -> & _); eauto|]. destruct (float_head x H N) as (? & ? & -> & _). eauto. }
      destruct X as (c & y & ->). exists (asMiscToken c). right. apply miss_num; [exact H|exact N|reflexivity].
  - exists TQUOTE. right. apply miss_str; [exact H|reflexivity].
  - exists (asMiscToken c). left. apply hit_punct; [exact H|reflexivity|reflexivity].
Qed.
(** any token, looked at *)
Lemma CP_any k its (Q : ti -> cur -> Prop) : At k its ->
  (forall t y p b w g k', bk b k its -> (t = TEOF /\ next_tok its = None \/ exists x, next_tok its = Some x /\ (hit 0 x t \/ miss 0 x t)) -> Q (mkTi t y p b w g) k') ->
  CP (ptok 0) k Q.
Proof.
  intros A F. destruct (items_split its) as [(cs & ->)|(cs & x & p & its' & ->)].
  - eapply CP_eof; [exact SA|reflexivity|exact A|]. intros p b w g k' B. apply F; [exact B|]. left. split; [reflexivity|].
    rewrite <- (app_nil_r (coms cs)), next_tok_coms. reflexivity.
  - pose proof A as A0. destruct A as ((p' & sp & L & S) & R). apply lay_coms in L. destruct L as (_ & _ & r1 & _ & _ & _ & _ & TA & _).
    destruct (token_seen x r1 TA) as (t & H).
    eapply (CP_see p0 all SA 0 k (coms cs ++ [Tok x p]) x p its'); [reflexivity|rewrite <- app_assoc; exact A0|exists cs; reflexivity|exact H|].
    intros y b w g k' B. rewrite <- app_assoc in B. apply F; [exact B|]. right. exists x. rewrite next_tok_coms. auto.
Qed.
(** a token other than the punctuation [c] *)
Lemma CP_not c k its (Q : ti -> cur -> Prop) : At k its -> special (asMiscToken c) = true -> c <> ch "." -> next_tok its <> Some [c] ->
  (forall t y p b w g k', bk b k its -> t <> asMiscToken c -> Q (mkTi t y p b w g) k') -> CP (ptok 0) k Q.
Proof.
  intros A S D N F. eapply CP_any; [exact A|]. intros t y p b w g k' B H. apply F; [exact B|]. intros ->.
  destruct H as [[H _]|(x & E & H)]; [rewrite H in S; discriminate|].
  pose proof (seen_special x _ c H eq_refl S) as X. apply N. rewrite E. f_equal. apply X. intros K. apply D.
  apply (misc_inj c (ch ".")); [exact K|reflexivity].
Qed.
Lemma CP_conj {A} (q : PM A) k (P Q : A -> cur -> Prop) : CP q k P -> CP q k Q -> CP q k (fun a k' => P a k' /\ Q a k').
Proof. unfold CP. destruct (q k); tauto. Qed.
Lemma CP_len m k (Q : ti -> cur -> Prop) : CP (ptok m) k Q -> CP (ptok m) k (fun t k' => Q t k' /\ (len k' <= len k)%nat).
Proof.
  intros H. apply CP_conj; [exact H|]. unfold CP, Cursor.ptok, Cursor.lexc. cbn [cr].
  pose proof (f_equal (@List.length rune) (lex_app m (cr k))) as E. unfold lexed_app in E. rewrite !app_length in E. lia.
Qed.

(** ** Names *)
Inductive Tail : list item -> str -> Prop :=
| tail_nil : Tail [] []
| tail_dot td ts x p tl v : K td "." -> T ts x p -> is_ident x -> Tail tl v -> Tail (td ++ ts ++ tl) (lit "." ++ x ++ v).
Lemma FullIdent_tail ts v p : FullIdent ts v p -> exists t1 x tl w, ts = t1 ++ tl /\ v = x ++ w /\ T t1 x p /\ is_ident x /\ Tail tl w.
Proof.
  induction 1 as [ts x p H I|ts x p td ts' v p' H I D F (t1 & y & tl & w & -> & -> & H1 & I1 & TL)].
  - exists ts, x, [], []. rewrite !app_nil_r. repeat split; auto. constructor.
  - exists ts, x, (td ++ t1 ++ tl), (lit "." ++ y ++ w). repeat split; auto. econstructor; eassumption.
Qed.
Lemma folk_dot t : folk t = true -> tok_eqb t TEOF = false /\ tok_eqb t TDOT = false.
Proof. destruct t; try discriminate; split; reflexivity. Qed.
Lemma fi_loop tl v : Tail tl v -> forall k rest acc (Q : str -> cur -> Prop), At k (tl ++ rest) -> Follow rest ->
  (forall k', At k' rest -> (len k' <= len k)%nat -> Q (acc ++ v) k') ->
  CP (ptok 0) k (fun y k' => forall n, (len k' < n)%nat -> CP (qFullIdent_loop p0 n acc y) k' Q).
Proof.
  induction 1 as [|td ts x p tl v (pd & D) H I TL IH]; intros k rest acc Q A F G.
  - eapply CP_follow; [exact SA|reflexivity|exact A|exact F|]. intros t x p b w g k' B FT _ n N. destruct n as [|n]; [lia|].
    cbn [qFullIdent_loop tk]. destruct (folk_dot t FT) as [-> ->]. cbn [negb]. apply CP_bind, CP_back, CP_ret. cbn [kb].
    specialize (G b (At_bk _ _ _ _ _ B)). rewrite app_nil_r in G. apply G. rewrite (bk_len _ _ _ _ _ B). lia.
  - rewrite <- !app_assoc in A. ex D. intros n N. destruct n as [|n]; [lia|]. cbn [qFullIdent_loop tk].
    change (tok_eqb TDOT TEOF) with false. change (tok_eqb TDOT TDOT) with true. cbn [negb].
    ex H. apply CP_bind. eapply CP_weak; [apply CP_len, (IH k1 rest (acc ++ [ch "."] ++ x) Q); [assumption|assumption|]|].
    + intros k2 A2 L2. rewrite <- !app_assoc. apply G; [exact A2|lia].
    + cbn beta. intros y k2 [C L2]. apply C. lia.
Qed.
Lemma C_fullident ts v p k rest (Q : str * mpos -> cur -> Prop) : FullIdent ts v p -> At k (ts ++ rest) -> Follow rest ->
  (forall k', At k' rest -> (len k' < len k)%nat -> Q (v, p) k') -> CP (qReadFullIdent p0) k Q.
Proof.
  intros H A F G. apply FullIdent_tail in H. destruct H as (t1 & x & tl & w & -> & -> & H & I & TL). rewrite <- app_assoc in A.
  unfold qReadFullIdent. ex H. apply CP_bind. eapply CP_weak; [apply (fi_loop tl w TL k0 rest x (fun r k' => CP (pret (r, p)) k' Q)); [assumption|assumption|]|].
  - intros k2 A2 L2. apply CP_ret. apply G; [exact A2|lia].
  - cbn beta. intros y k2 C. apply CP_bind, CP_fuel, CP_bind, C. lia.
Qed.
Lemma mt_loop tl v : Tail tl v -> forall t1 x p k rest acc (Q : str -> cur -> Prop), At k (t1 ++ tl ++ rest) -> T t1 x p -> is_ident x -> Follow rest ->
  (forall k', At k' rest -> (len k' < len k)%nat -> Q (acc ++ x ++ v) k') ->
  CP (ptok 0) k (fun y k' => forall n, (len k' < n)%nat -> CP (qMessageType_loop p0 n acc y) k' Q).
Proof.
  induction 1 as [|td ts x' p' tl v (pd & D) H I TL IH]; intros t1 x p k rest acc Q A HT HI F G.
  - cbn [app] in A. ex HT. intros n N. destruct n as [|n]; [lia|]. cbn [qMessageType_loop tk]. change (identToken 0 x) with TIDENT.
    change (tok_eqb TIDENT TEOF) with false. change (tok_eqb TIDENT TIDENT) with true. cbn [negb]. apply CP_bind.
    eapply CP_follow; [exact SA|reflexivity|eassumption|exact F|]. intros t y q b' w' g' k' B' FT _. cbn [tk].
    destruct (folk_dot t FT) as [_ ->]. cbn [negb tx]. apply CP_bind, CP_back, CP_ret. cbn [kb].
    rewrite app_nil_r in G. apply G; [exact (At_bk _ _ _ _ _ B')|rewrite (bk_len _ _ _ _ _ B'); lia].
  - rewrite <- !app_assoc in A. ex HT. intros n N. destruct n as [|n]; [lia|]. cbn [qMessageType_loop tk]. change (identToken 0 x) with TIDENT.
    change (tok_eqb TIDENT TEOF) with false. change (tok_eqb TIDENT TIDENT) with true. cbn [negb].
    ex D. change (tok_eqb TDOT TDOT) with true. cbn [negb]. apply CP_bind.
    eapply CP_weak; [apply CP_len, (IH ts x' p' k1 rest ((acc ++ x) ++ lit ".") Q); try eassumption|].
    + intros k2 A2 L2. rewrite <- !app_assoc. rewrite <- ?app_assoc in G. apply G; [exact A2|lia].
    + cbn beta. intros y k2 [C L2]. apply C. lia.
Qed.
Lemma C_messagetype ts v p k rest (Q : str * mpos -> cur -> Prop) : MessageType ts v p -> At k (ts ++ rest) -> Follow rest ->
  (forall k', At k' rest -> (len k' < len k)%nat -> Q (v, p) k') -> CP (qReadMessageType p0) k Q.
Proof.
  intros H A F G. unfold qReadMessageType. destruct H as [ts v p H|td p ts v p' D H];
    apply FullIdent_tail in H; destruct H as (t1 & x & tl & w & -> & -> & H & I & TL); rewrite <- ?app_assoc in A.
  - ex H. change (tok_eqb (identToken 0 x) TDOT) with false. apply CP_bind. apply CP_bind, CP_back, CP_ret. cbn [kb]. apply CP_bind.
    eapply CP_weak; [apply (mt_loop tl w TL t1 x p b rest [] (fun r k' => CP (pret (r, p)) k' Q)); [exact (At_bk _ _ _ _ _ B)|eassumption|assumption|assumption|]|].
    + intros k2 A2 L2. apply CP_ret. cbn [app]. rewrite (bk_len _ _ _ _ _ B) in L2. apply G; [exact A2|lia].
    + cbn beta. intros y k2 C. apply CP_bind, CP_fuel, CP_bind, C. lia.
  - ex D. change (tok_eqb TDOT TDOT) with true. cbv iota. apply CP_bind, CP_ret. apply CP_bind.
    eapply CP_weak; [apply (mt_loop tl w TL t1 x p' k0 rest (lit ".") (fun r k' => CP (pret (r, p)) k' Q)); try eassumption|].
    + intros k2 A2 L2. apply CP_ret. apply G; [exact A2|lia].
    + cbn beta. intros y k2 C. apply CP_bind, CP_fuel, CP_bind, C. lia.
Qed.
Lemma FullIdent_first ts v p : FullIdent ts v p -> exists t1 x tl, ts = t1 ++ tl /\ T t1 x p /\ is_ident x.
Proof. intros H. apply FullIdent_tail in H. destruct H as (t1 & x & tl & w & -> & _ & H & I & _). eauto 6. Qed.
Lemma MessageType_first ts v p : MessageType ts v p -> exists t1 x tl, ts = t1 ++ tl /\ T t1 x p /\ (is_ident x \/ x = lit ".").
Proof.
  intros [ts' v' p' H|td p' ts' v' p'' D H].
  - apply FullIdent_first in H. destruct H as (t1 & x & tl & -> & H & I). eauto 7.
  - exists td, (lit "."), ts'. auto.
Qed.
Lemma not_first_T t1 x p tl l : T t1 x p -> not_first (t1 ++ tl) l <-> ~ words l x.
Proof. intros H. unfold not_first. rewrite (next_tok_T _ _ _ _ H). reflexivity. Qed.
Lemma C_type ts v p k rest (Q : str * mpos -> cur -> Prop) : Type_ ts v p -> At k (ts ++ rest) -> Follow rest ->
  (forall k', At k' rest -> (len k' < len k)%nat -> Q (v, p) k') -> CP (qType p0) k Q.
Proof.
  intros H A F G. unfold qType. destruct H as [ts x p H W|ts v p H N].
  - assert (HI : hit 0 x TIDENT).
    { apply words_cases in W. destruct W as (s & W & ->). unfold scalars in W. cbn [In] in W. repeat (destruct W as [<-|W]; [hit|]). destruct W. }
    apply CP_bind. eapply CP_tok; [exact SA|reflexivity|exact A|exact H|exact HI|]. intros b w g k' B R. cbn [tx tp].
    change typeConstants with (map lit scalars). rewrite (proj2 (str_mem_words scalars x) W). apply CP_ret. apply G; apply R.
  - pose proof H as M. apply MessageType_first in H. destruct H as (t1 & x & tl & -> & H & I). rewrite <- app_assoc in A.
    assert (HI : exists t, hit 0 x t) by (destruct I as [I| ->]; [exists TIDENT; apply (hit_ident 0 x I)|exists TDOT; hit]).
    destruct HI as (t & HI). apply CP_bind. eapply CP_tok; [exact SA|reflexivity|exact A|exact H|exact HI|]. intros b w g k' B R. cbn [tx tp].
    change typeConstants with (map lit scalars). rewrite (str_mem_not scalars x) by (eapply not_first_T; eassumption).
    apply CP_bind, CP_back. cbn [kb]. eapply C_messagetype; [exact M|rewrite <- app_assoc; exact (At_bk _ _ _ _ _ B)|exact F|].
    intros k2 A2 L2. rewrite (bk_len _ _ _ _ _ B) in L2. apply G; assumption.
Qed.

(** ** Constants *)
Lemma strip_trim q x : strip q x = trim q x.
Proof. reflexivity. Qed.
Lemma ss_first ts xs p : Strings ts xs p -> exists t1 x tl xs', ts = t1 ++ tl /\ xs = x :: xs' /\ T t1 x p /\ is_str x /\
  ((tl = [] /\ xs' = []) \/ exists p', Strings tl xs' p').
Proof.
  intros [ts' x p' H I|ts' x p' ts2 xs2 p2 H I S].
  - exists ts', x, [], []. rewrite app_nil_r. auto 8.
  - exists ts', x, ts2, xs2. repeat split; auto. right. eauto.
Qed.
Lemma ss_len ts xs p : Strings ts xs p -> forall k rest, At k (ts ++ rest) -> CP (ptok ScanLit) k (fun _ k' => (len k' < len k)%nat).
Proof.
  intros H k rest A. apply ss_first in H. destruct H as (t1 & x & tl & xs' & -> & -> & H & I & TL). rewrite <- app_assoc in A.
  eapply CP_tok; [exact SA|reflexivity|exact A|exact H|hit|]. intros b w g k' B R. apply R.
Qed.
Lemma merge_loop q ts xs p : Strings ts xs p -> forall k rest b (Q : str * ti -> cur -> Prop), At k (ts ++ rest) -> Follow rest ->
  (forall t k' k2, bk (kb t) k2 rest -> (len k2 < len k)%nat -> Q (b ++ flat_map (strip q) xs, t) k') ->
  CP (ptok ScanLit) k (fun y k' => forall n, (S (len k') < n)%nat -> CP (qMerge_loop p0 n q b y) k' Q).
Proof.
  induction 1 as [ts x p H I|ts x p ts' xs p' H I SS IH]; intros k rest b Q A F G; rewrite <- ?app_assoc in A.
  - ex H. intros n N. destruct n as [|n]; [lia|]. cbn [qMerge_loop tk]. change (tok_eqb TSTRLIT TSTRLIT) with true. cbv iota. apply CP_bind.
    eapply CP_follow; [exact SA|reflexivity|eassumption|exact F|]. intros t y q' b' w' g' k' B' FT _. cbn [tx].
    destruct n as [|n]; [lia|]. cbn [qMerge_loop tk]. destruct (tok_eqb t TSTRLIT) eqn:E.
    { unfold tok_eqb in E. destruct (token_eq_dec t TSTRLIT); [subst; discriminate|discriminate]. }
    apply CP_ret. cbn [flat_map] in G. rewrite app_nil_r in G. apply (G _ _ k0); [exact B'|exact LE].
  - ex H. intros n N. destruct n as [|n]; [lia|]. cbn [qMerge_loop tk]. change (tok_eqb TSTRLIT TSTRLIT) with true. cbv iota. apply CP_bind.
    eapply CP_weak; [apply CP_conj; [apply (IH k0 rest (b ++ trim q x) Q); [assumption|assumption|]|apply (ss_len ts' xs p' SS k0 rest); assumption]|].
    + intros t k' k2 B2 L2. rewrite <- app_assoc. apply (G t k' k2); [exact B2|lia].
    + cbn beta. intros y k2 [C L]. apply C. lia.
Qed.
Lemma number_hit x : number x -> exists t, hit ScanLit x t /\ (t = TINTLIT \/ t = TFLOATLIT).
Proof.
  intros [I|I].
  - exists TINTLIT. split; [hit|auto].
  - exists TFLOATLIT. split; [|auto]. destruct (identb x) eqn:EI.
    + apply identb_iff in EI. destruct (float_not_ident x (plain_float x I) EI) as [->| ->]; hit.
    + apply hit_float; [exact I|rewrite <- identb_iff; congruence|reflexivity].
Qed.
Lemma C_constant ts v k rest (Q : str * mpos -> cur -> Prop) : Constant perm ts v -> At k (ts ++ rest) -> Follow rest ->
  (forall k' p, At k' rest -> (len k' < len k)%nat -> Q (v, p) k') -> CP (qReadConstant p0 perm) k Q.
Proof.
  intros H A F G. unfold qReadConstant.
  destruct H as [ts x p E H I|ts xs p E H|ts x p H I|ts x p H W|ts v p H N|ts s p ts' x p' H W H' I].
  - ex H. rewrite E. apply CP_ret. apply G; assumption.
  - pose proof (merge_loop (first_quote xs) ts xs p H k rest [first_quote xs]) as ML.
    apply ss_first in H. destruct H as (t1 & x & tl & xs' & -> & -> & H & I & TL). rewrite <- app_assoc in A.
    assert (FQ : match x with c :: _ => if c =? DQ then DQ else SQ | [] => SQ end = first_quote (x :: xs')).
    { destruct (str_head x I) as (q & b & [->| ->] & -> & _); reflexivity. }
    assert (CL : CP (ptok ScanLit) k (fun y k' => forall n, (S (len k') < n)%nat -> CP (qMerge_loop p0 n (first_quote (x :: xs')) [first_quote (x :: xs')] y) k'
       (fun r k'' => fst r = [first_quote (x :: xs')] ++ flat_map (strip (first_quote (x :: xs'))) (x :: xs') /\ exists k2, bk (kb (snd r)) k2 rest /\ (len k2 < len k)%nat))).
    { apply ML; [rewrite <- app_assoc; exact A|exact F|]. cbn. intros. split; [reflexivity|]. eauto. }
    apply CP_bind. eapply CP_weak; [apply CP_conj; [exact CL|]|].
    { eapply (CP_tok _ _ SA _ _ _ _ _ _ _ (fun y k' => tk y = TSTRLIT /\ tx y = x /\ tp y = p /\ (len k' < len k)%nat)); [reflexivity|exact A|exact H|hit|].
      intros b w g k' B R. repeat split. apply R. }
    cbn beta. intros y k' (C & E1 & E2 & E3 & L). rewrite E1, E. apply CP_bind. unfold qMerge. rewrite E2, FQ. apply CP_bind, CP_fuel, CP_bind.
    eapply CP_weak; [apply C; lia|]. cbn beta. intros [b y'] k'' (E4 & k2 & B2 & L2). cbn [fst snd] in *. apply CP_bind, CP_back, CP_ret, CP_ret.
    subst b. rewrite <- app_assoc. apply (G (kb y')); [exact (At_bk _ _ _ _ _ B2)|rewrite (bk_len _ _ _ _ _ B2); exact L2].
  - destruct (number_hit x I) as (t & HI & [->| ->]); (apply CP_bind; eapply CP_tok; [exact SA|reflexivity|exact A|exact H|exact HI|]);
      intros b w g k' B R; cbn [tk tx tp]; apply CP_ret; apply G; apply R.
  - apply CP_bind. eapply CP_tok with (t := TBOOLLIT); [exact SA|reflexivity|exact A|exact H|destruct W as [<-|[<-|[]]]; hit|].
    intros b w g k' B R. cbn [tk tx tp]. apply CP_ret. apply G; apply R.
  - pose proof H as H0. apply FullIdent_first in H. destruct H as (t1 & x & tl & -> & H & I). rewrite <- app_assoc in A.
    pose proof (hit_ident ScanLit x I) as HI. destruct (lit_token x) as [J|J]; [|exfalso; apply (not_first_T t1 x p tl) in N; tauto].
    rewrite J in HI. apply CP_bind. eapply CP_tok; [exact SA|reflexivity|exact A|exact H|exact HI|]. intros b w g k' B R. cbn [tk].
    apply CP_bind, CP_back. cbn [kb]. eapply C_fullident; [exact H0|rewrite <- app_assoc; exact (At_bk _ _ _ _ _ B)|exact F|].
    intros k2 A2 L2. rewrite (bk_len _ _ _ _ _ B) in L2. apply G; assumption.
  - rewrite <- app_assoc in A. destruct (number_hit x I) as (t & HI & TT).
    assert (HS : exists t', hit ScanLit s t' /\ (t' = TMINUS \/ t' = TILLEGAL)).
    { destruct W as [<-|[<-|[]]]; eexists; (split; [hit|auto]). }
    destruct HS as (t' & HS & TS). apply CP_bind. eapply CP_tok; [exact SA|reflexivity|exact A|exact H|exact HS|]. intros b w g k' B R. cbn [tk tx].
    assert (E : str_eqb s (lit "-") || str_eqb s (lit "+") = true) by (destruct W as [<-|[<-|[]]]; reflexivity).
    destruct R as [A2 LP2 L2 _].
    destruct TS as [->| ->]; rewrite E; (apply CP_bind; eapply CP_tok; [exact SA|reflexivity|exact A2|exact H'|exact HI|]);
      intros b' w' g' k'' B' [A3 LP3 L3 _]; cbn [tk tx tp]; destruct TT as [->| ->]; apply CP_ret; apply G; try assumption; lia.
Qed.

(** ** Option names *)
Lemma not_dot t : folk t = true -> tok_eqb t TDOT = false.
Proof. apply folk_dot. Qed.
Lemma C_paren name t1 v k rest (Q : str -> cur -> Prop) :
  (exists t2 p t3, t1 = t2 ++ t3 /\ FullIdent t2 v p /\ K t3 ")") -> At k (t1 ++ rest) ->
  (forall k', At k' rest -> (len k' < len k)%nat -> Q (name ++ v ++ lit ")") k') -> CP (qParenName p0 perm name) k Q.
Proof.
  intros (t2 & p & t3 & -> & H & (p3 & H3)) A G. rewrite <- app_assoc in A. unfold qParenName. apply CP_bind.
  assert (E : CP (if perm then t <-- ptok 0;; (if tok_eqb (tk t) TDOT then pret (name ++ [ch "."]) else pback t;;; pret name) else pret name) k
     (fun n k' => n = name /\ At k' (t2 ++ t3 ++ rest) /\ len k' = len k)).
  { destruct perm; [|apply CP_ret; auto]. pose proof H as H0. apply FullIdent_first in H0. destruct H0 as (t1 & x & tl & -> & H0 & I).
    rewrite <- app_assoc in A. ex H0. change (tok_eqb (identToken 0 x) TDOT) with false. cbv iota. apply CP_bind, CP_back, CP_ret. cbn [kb].
    split; [reflexivity|]. split; [rewrite <- app_assoc; exact (At_bk _ _ _ _ _ B)|exact (bk_len _ _ _ _ _ B)]. }
  eapply CP_weak; [exact E|]. cbn beta. intros n k1 (-> & A1 & L1). apply CP_bind.
  eapply C_fullident; [exact H|exact A1|eapply Follow_T; [exact H3|cbn; tauto]|]. intros k2 A2 L2.
  ex H3. apply CP_ret. cbn [fst]. apply G; [assumption|lia].
Qed.
Lemma C_paren_dot name t1 t2 v k rest (Q : str -> cur -> Prop) : perm = true -> K t1 "." ->
  (exists t3 p t4, t2 = t3 ++ t4 /\ FullIdent t3 v p /\ K t4 ")") -> At k (t1 ++ t2 ++ rest) ->
  (forall k', At k' rest -> (len k' < len k)%nat -> Q (name ++ lit "." ++ v ++ lit ")") k') -> CP (qParenName p0 perm name) k Q.
Proof.
  intros E (p1 & D) (t3 & p & t4 & -> & H & (p3 & H3)) A G. rewrite <- app_assoc in A. unfold qParenName. apply CP_bind. rewrite E.
  ex D. change (tok_eqb TDOT TDOT) with true. cbv iota. apply CP_ret. apply CP_bind.
  eapply C_fullident; [exact H|eassumption|eapply Follow_T; [exact H3|cbn; tauto]|]. intros k2 A2 L2.
  ex H3. apply CP_ret. cbn [fst]. rewrite <- app_assoc. apply G; [assumption|lia].
Qed.
(** a part of an option name: its first token, then the rest *)
Lemma NamePart_cases ts v : NamePart perm ts v -> exists t1 p, T t1 (match v with c :: _ => if c =? ch "(" then lit "(" else v | [] => v end) p /\
   ((ts = t1 /\ is_ident v /\ T ts v p) \/ T t1 (lit "(") p /\ exists t2 v', ts = t1 ++ t2 /\ v = lit "(" ++ v' ++ lit ")" /\
      ((exists t3 q t4, t2 = t3 ++ t4 /\ FullIdent t3 v' q /\ K t4 ")") \/
       exists td t5 v'', perm = true /\ t2 = td ++ t5 /\ v' = lit "." ++ v'' /\ K td "." /\ exists t3 q t4, t5 = t3 ++ t4 /\ FullIdent t3 v'' q /\ K t4 ")")).
Proof.
  intros [ts' x p H I|t1 t2 v' p t3 (p1 & H1) H2 H3|t1 t2 t3 v' p t4 E (p1 & H1) H2 H3 H4].
  - exists ts', p. split; [|auto]. destruct I as (c & l & -> & H0 & _). assert ((c =? ch "(") = false) as ->; [|exact H].
    apply ident_start_iff in H0. destruct (N.eqb_spec c (ch "(")); [subst; discriminate|reflexivity].
  - exists t1, p1. split; [exact H1|]. right. split; [exact H1|]. exists (t2 ++ t3), v'. split; [reflexivity|]. split; [reflexivity|]. left. eauto 8.
  - exists t1, p1. split; [exact H1|]. right. split; [exact H1|]. exists (t2 ++ t3 ++ t4), (lit "." ++ v'). split; [reflexivity|].
    split; [rewrite <- app_assoc; reflexivity|]. right. exists t2, (t3 ++ t4), v'. eauto 12.
Qed.
Lemma C_namepart f ts v k rest (Q : str -> cur -> Prop) : NamePart perm ts v -> At k (ts ++ rest) ->
  (forall k', At k' rest -> (len k' < len k)%nat -> Q (f ++ v) k') ->
  CP (t <-- ptok 0;; match tk t with TIDENT => pret (f ++ tx t) | TLEFTPAREN => qParenName p0 perm (f ++ tx t) | _ => perr t end) k Q.
Proof.
  intros H A G. apply NamePart_cases in H. destruct H as (t1 & p & H & [(-> & I & H')|(H' & t2 & v' & -> & -> & C)]); clear H.
  - ex H'. apply CP_ret. apply G; assumption.
  - rewrite <- app_assoc in A. ex H'. destruct C as [C|(td & t5 & v'' & E & -> & -> & D & C)].
    + eapply C_paren; [exact C|eassumption|]. intros k' A' L'. rewrite <- app_assoc. apply G; [exact A'|lia].
    + rewrite <- app_assoc in *. eapply C_paren_dot; [exact E|exact D|exact C|eassumption|]. intros k' A' L'.
      rewrite <- !app_assoc. rewrite <- ?app_assoc in G. apply G; [exact A'|lia].
Qed.
Inductive NameTail : list item -> str -> Prop :=
| nt_nil : NameTail [] []
| nt_dot td ts v tl w : K td "." -> NamePart perm ts v -> NameTail tl w -> NameTail (td ++ ts ++ tl) (lit "." ++ v ++ w).
Lemma OptionName_tail ts v : OptionName perm ts v -> exists t1 v1 tl w, ts = t1 ++ tl /\ v = v1 ++ w /\ NamePart perm t1 v1 /\ NameTail tl w.
Proof.
  induction 1 as [ts v H|ts v td ts' v' H D O (t1 & v1 & tl & w & -> & -> & H1 & TL)].
  - exists ts, v, [], []. rewrite !app_nil_r. repeat split; auto. constructor.
  - exists ts, v, (td ++ t1 ++ tl), (lit "." ++ v1 ++ w). repeat split; auto. econstructor; eassumption.
Qed.
Lemma on_loop tl v : NameTail tl v -> forall n k rest name (Q : str -> cur -> Prop), At k (tl ++ rest) -> Follow rest -> (len k < n)%nat ->
  (forall k', At k' rest -> (len k' <= len k)%nat -> Q (name ++ v) k') -> CP (qOptionName_loop p0 perm n name) k Q.
Proof.
  induction 1 as [|td ts v tl w (pd & D) H TL IH]; intros n k rest name Q A F L G; (destruct n as [|n]; [lia|]); cbn [qOptionName_loop].
  - apply CP_bind. eapply CP_follow; [exact SA|reflexivity|exact A|exact F|]. intros t x p b w' g k' B FT _. cbn [tk].
    rewrite (not_dot t FT). cbn [negb]. apply CP_bind, CP_back, CP_ret. cbn [kb].
    rewrite app_nil_r in G. apply G; [exact (At_bk _ _ _ _ _ B)|rewrite (bk_len _ _ _ _ _ B); lia].
  - rewrite <- !app_assoc in A. ex D. change (tok_eqb TDOT TDOT) with true. cbn [negb].
    assert (X : CP (t <-- ptok 0;; match tk t with TIDENT => pret ((name ++ lit ".") ++ tx t) | TLEFTPAREN => qParenName p0 perm ((name ++ lit ".") ++ tx t) | _ => perr t end) k0
      (fun r k1 => CP (qOptionName_loop p0 perm n r) k1 Q)).
    { eapply (C_namepart (name ++ lit ".")); [exact H|eassumption|]. intros k1 A1 L1. eapply IH; [exact A1|exact F|lia|].
      intros k2 A2 L2. rewrite <- !app_assoc. apply G; [exact A2|lia]. }
    revert X. unfold CP, pbind. destruct (ptok 0 k0) as [t k1| | | | | |]; auto. destruct (tk t); auto. destruct (qParenName p0 perm ((name ++ lit ".") ++ tx t) k1); auto.
Qed.
Lemma C_optionname ts v k rest (Q : str -> cur -> Prop) : OptionName perm ts v -> At k (ts ++ rest) -> Follow rest ->
  (forall k', At k' rest -> (len k' < len k)%nat -> Q v k') -> CP (qOptionName p0 perm) k Q.
Proof.
  intros H A F G. apply OptionName_tail in H. destruct H as (t1 & v1 & tl & w & -> & -> & H & TL). rewrite <- app_assoc in A. unfold qOptionName.
  assert (X : CP (t <-- ptok 0;; match tk t with TIDENT => pret ([] ++ tx t) | TLEFTPAREN => qParenName p0 perm ([] ++ tx t) | _ => perr t end) k
     (fun r k1 => CP (n <-- pfuel;; qOptionName_loop p0 perm n r) k1 Q)).
  { eapply (C_namepart []); [exact H|exact A|]. intros k1 A1 L1. apply CP_bind, CP_fuel. eapply on_loop; [exact TL|exact A1|exact F|lia|].
    intros k2 A2 L2. apply G; [exact A2|lia]. }
  revert X. unfold CP, pbind. destruct (ptok 0 k) as [t k1| | | | | |]; auto. destruct (tk t); auto. cbn [app].
  destruct (qParenName p0 perm (tx t) k1); auto.
Qed.
End Names.
