(** Completeness of the pure parser: option values. *)
From Coq Require Import List NArith ZArith Bool String Ascii Lia Sorted.
From Verif Require Import Base Token Scanner Lexer Lexing ScanRefine LexFacts LexSpec LexProofs ScanFacts ScanProps Ast Parser Cursor Pure
  Refine Grammar GramLex GramRules GramNames.
Import ListNotations.
Open Scope N_scope.
Open Scope pure_scope.

Scheme Value_min := Minimality for Value Sort Prop
  with Values_min := Minimality for Values Sort Prop
  with Entries_min := Minimality for Entries Sort Prop
  with Entry_min := Minimality for Entry Sort Prop.
Combined Scheme Value_mutind from Value_min, Values_min, Entries_min, Entry_min.

Section Values.
Variable p0 : mpos.
Variable all : list item.
Hypothesis SA : StronglySorted before all.
Variable perm : bool.
Notation posat := (posat p0).
Notation ptok := (ptok p0).
Notation ppeek := (ppeek p0).
Notation pexpect := (pexpect p0).
Notation lexc := (lexc p0).
Notation At := (At p0 all).
Notation bk := (bk p0 all).
Notation read := (read p0 all).
Notation qOC := (qOptionConstant p0 perm).

Lemma CP_peek m k (Q : ti -> cur -> Prop) : CP (ptok m) k (fun t _ => Q t (kb t)) -> CP (ppeek m) k Q.
Proof. intros H. unfold Cursor.ppeek. apply CP_bind. eapply CP_weak; [exact H|]. cbn beta. intros t k' C. apply CP_bind, CP_back, CP_ret. exact C. Qed.

(** the first token of a constant is no brace or bracket *)
Lemma constant_first ts v : Constant perm ts v -> exists t1 x p tl, ts = t1 ++ tl /\ T t1 x p /\ x <> lit "{" /\ x <> lit "[" /\ x <> lit "]".
Proof.
  assert (ID : forall x, is_ident x -> x <> lit "{" /\ x <> lit "[" /\ x <> lit "]").
  { intros x (c & l & -> & H & _). apply ident_start_iff in H. repeat split; intros E; injection E as -> _; discriminate. }
  assert (ST : forall x, is_str x -> x <> lit "{" /\ x <> lit "[" /\ x <> lit "]").
  { intros x H. destruct (str_head x H) as (q & b & [->| ->] & -> & _); repeat split; discriminate. }
  assert (NU : forall x, number x -> x <> lit "{" /\ x <> lit "[" /\ x <> lit "]").
  { intros x [H|H].
    - repeat split; intros ->; apply int_head in H; destruct H as (c & l & E & D); injection E as <- _; apply digit_iff in D; discriminate.
    - repeat split; intros ->; destruct (float_head _ H) as (c & l & E & D); try (intros (c & l & E & D & _); injection E as <- _; apply ident_start_iff in D; discriminate);
        (injection E as <- _; destruct D as [D|D]; [apply digit_iff in D; discriminate|discriminate]). }
  intros [ts' x p E H I|ts' xs p E H|ts' x p H I|ts' x p H W|ts' v' p H N|ts' s p ts2 x p' H W H' I].
  - exists ts', x, p, []. rewrite app_nil_r. destruct (ST x I). auto.
  - apply ss_first in H. destruct H as (t1 & x & tl & xs' & -> & -> & H & I & _). exists t1, x, p, tl. destruct (ST x I). auto.
  - exists ts', x, p, []. rewrite app_nil_r. destruct (NU x I). auto.
  - exists ts', x, p, []. rewrite app_nil_r. split; [reflexivity|]. split; [exact H|]. destruct W as [<-|[<-|[]]]; repeat split; discriminate.
  - apply FullIdent_first in H. destruct H as (t1 & x & tl & -> & H & I). exists t1, x, p, tl. destruct (ID x I). auto.
  - exists ts', s, p, ts2. split; [reflexivity|]. split; [exact H|]. destruct W as [<-|[<-|[]]]; repeat split; discriminate.
Qed.
Lemma Value_first ts v : Value perm false ts v -> exists t1 x p tl, ts = t1 ++ tl /\ T t1 x p /\ x <> lit "]".
Proof.
  intros [ts' v' H|t1 t2 _ (p & H) _|t1 t2 v' _ (p & H) _|t1 t2 _ (p & H) _|t1 t2 v' t3 x q _ (p & H) _ _ _].
  - apply constant_first in H. destruct H as (t1 & x & p & tl & E & H & _ & _ & N). eauto 8.
  - eexists _, _, _, _. split; [reflexivity|]. split; [exact H|discriminate].
  - eexists _, _, _, _. split; [reflexivity|]. split; [exact H|discriminate].
  - eexists _, _, _, _. split; [reflexivity|]. split; [exact H|discriminate].
  - eexists _, _, _, _. split; [reflexivity|]. split; [exact H|discriminate].
Qed.
Lemma Value_nonempty ts v : Value perm false ts v -> ts <> [].
Proof. intros H. apply Value_first in H. destruct H as (t1 & x & p & tl & -> & (cs & ->) & _). destruct cs; discriminate. Qed.
Lemma Values_first ts v : Values perm false ts v -> exists t1 x p tl, ts = t1 ++ tl /\ T t1 x p /\ x <> lit "]".
Proof. intros [ts' v' H|ts' v' td ts2 v2 H _ _]; apply Value_first in H; [exact H|]. destruct H as (t1 & x & p & tl & -> & H). rewrite <- app_assoc. eauto 6. Qed.
Lemma Entry_first o ts v : Entry perm false o ts v -> exists t1 x p tl, ts = t1 ++ tl /\ T t1 x p /\ is_ident x.
Proof. intros []; eauto 8. Qed.
Lemma Entries_first ts v : Entries perm false ts v -> exists t1 x p tl, ts = t1 ++ tl /\ T t1 x p /\ is_ident x.
Proof.
  intros [o ts' v' t H|o ts' v' t x p t' H|o ts' v' t x p ts2 v2 H|o ts' v' ts2 v2 H]; apply Entry_first in H; destruct H as (t1 & y & q & tl & -> & H & I);
    rewrite <- !app_assoc; eauto 8.
Qed.
Lemma Follow_entries ts v rest : Entries perm false ts v -> Follow (ts ++ rest).
Proof. intros H. apply Entries_first in H. destruct H as (t1 & x & p & tl & -> & H & I). rewrite <- app_assoc. eapply Follow_ident; eassumption. Qed.
Lemma Follow_sep t x p o rest : T t x p -> separator o x -> Follow (t ++ rest).
Proof. intros H [->|[-> _]]; (eapply Follow_T; [exact H|cbn; tauto]). Qed.

Definition PValue (ts : list item) (v : str) : Prop :=
  forall n k rest (Q : str -> cur -> Prop), At k (ts ++ rest) -> Follow rest -> (len k < n)%nat ->
    (forall k', At k' rest -> (len k' < len k)%nat -> Q v k') -> CP (qOC n) k Q.
Definition PValues (ts : list item) (v : str) : Prop := perm = true ->
  forall m n k rest acc (Q : list str -> cur -> Prop), At k (ts ++ rest) -> next_tok rest = Some (lit "]") -> (len k < n)%nat -> (len k < m)%nat ->
    (forall k' vs, vs <> [] -> join (lit ",") vs = v -> At k' rest -> (len k' < len k)%nat -> Q (acc ++ vs) k') ->
    CP (opt <-- qOC m;; qConstants_loop p0 (qOC m) n (acc ++ [opt])) k Q.
Definition PEntries (ts : list item) (v : str) : Prop := perm = true ->
  forall m n k rest r (Q : str -> cur -> Prop), At k (ts ++ rest) -> (len k < n)%nat -> (len k < m)%nat ->
    (forall k', At k' rest -> (len k' < len k)%nat -> Q (r ++ v) k') -> CP (qCloud_loop p0 perm (qOC m) n r) k Q.
Definition PEntry (o : bool) (ts : list item) (v : str) : Prop := perm = true ->
  forall m n k rest r (Q : str -> cur -> Prop), At k (ts ++ rest) -> Follow rest -> (o = true -> next_tok rest <> Some (lit ";")) ->
    (len k < m)%nat ->
    (forall k', At k' rest -> (len k' < len k)%nat ->
       CP (ptok 0) k' (fun t3 k' => CP (match tk t3 with
          | TCOMMA | TSEMICOLON =>
            pk <-- ppeek 0;;
            if tok_eqb (tk pk) TRIGHTCURLY && perm
            then t4 <-- ptok 0;; pret (((r ++ v) ++ tx t3) ++ tx t4)
            else qCloud_loop p0 perm (qOC m) n ((r ++ v) ++ tx t3)
          | TRIGHTCURLY => pret ((r ++ v) ++ tx t3)
          | _ => pback t3;;; qCloud_loop p0 perm (qOC m) n ((r ++ v) ++ [NL])
          end) k' Q)) ->
    CP (qCloud_loop p0 perm (qOC m) (S n) r) k Q.

Lemma join_more v vs : vs <> [] -> join (lit ",") (v :: vs) = v ++ lit "," ++ join (lit ",") vs.
Proof. destruct vs; [congruence|reflexivity]. Qed.

(** looking at the first token of a value *)
Lemma see_value ts v rest k o (Q : ti -> cur -> Prop) : Value perm false ts v -> At k (ts ++ rest) -> opens ts o ->
  (forall t b, bk b k (ts ++ rest) -> tok_eqb (tk t) TLEFTCURLY = o -> kb t = b -> Q t b) -> CP (ppeek 0) k Q.
Proof.
  intros H A O F. apply Value_first in H. destruct H as (t1 & x & p & tl & -> & H & _). unfold opens in O. rewrite (next_tok_T _ _ _ _ H) in O.
  apply CP_peek. destruct o.
  - pose proof (proj1 O eq_refl) as E. injection E as ->. rewrite <- app_assoc in A. ex H. rewrite app_assoc in B. apply F; [exact B|reflexivity|reflexivity].
  - eapply (CP_not p0 all SA (ch "{")); [exact A|reflexivity|discriminate| |].
    + rewrite <- app_assoc, (next_tok_T _ _ _ _ H). intros E. destruct O as [_ O]. discriminate (O E).
    + intros t y q b w g k' B NE. apply F; [exact B| |reflexivity]. cbn [tk]. unfold tok_eqb. destruct (token_eq_dec t TLEFTCURLY); [|reflexivity]. destruct (NE e).
Qed.
Lemma CP_peek2 k t1 x1 p1 ta t2 x2 p2 tb rest (Q : ti -> cur -> Prop) : At k (t1 ++ t2 ++ rest) -> T t1 x1 p1 -> hit 0 x1 ta -> T t2 x2 p2 -> hit 0 x2 tb ->
  (forall t b, tk t = tb -> bk b k (t1 ++ t2 ++ rest) -> Q t b) -> CP (ppeek2 p0) k Q.
Proof.
  intros A H1 I1 H2 I2 F. unfold ppeek2. apply CP_bind. eapply CP_tok; [exact SA|reflexivity|exact A|exact H1|exact I1|].
  intros b w g k1 B [A1 LP1 L1 E1]. apply CP_bind. eapply CP_tok; [exact SA|reflexivity|exact A1|exact H2|exact I2|].
  intros b2 w2 g2 k2 B2 [A2 LP2 L2 E2]. unfold CP. cbn [kb]. apply F; [reflexivity|]. rewrite app_assoc in *. apply bk_ahead; assumption.
Qed.
Lemma next_T ts x : next_tok ts = Some x -> exists t p tl, ts = t ++ tl /\ T t x p.
Proof. intros H. apply next_tok_split in H. destruct H as (cs & p & its & ->). exists (coms cs ++ [Tok x p]), p, its. rewrite <- app_assoc. split; [reflexivity|exists cs; reflexivity]. Qed.
Ltac unE E := rewrite <- ?(f_equal (qCloud_loop p0) E), <- ?(f_equal (qOptionConstant p0) E).
Lemma C_values :
  (forall ts v, Value perm false ts v -> PValue ts v) /\
  (forall ts v, Values perm false ts v -> PValues ts v) /\
  (forall ts v, Entries perm false ts v -> PEntries ts v) /\
  (forall o ts v, Entry perm false o ts v -> PEntry o ts v).
Proof.
  apply (Value_mutind perm false PValue PValues PEntries PEntry).
  - (* constant *)
    intros ts v H n k rest Q A F L G. destruct n as [|n]; [lia|]. cbn [qOptionConstant]. apply CP_bind.
    pose proof H as H0. apply constant_first in H0. destruct H0 as (t1 & x & p & tl & -> & H0 & N1 & N2 & _). pose proof A as A0. rewrite <- app_assoc in A.
    apply CP_peek. eapply CP_any; [exact SA|exact A|]. intros t y q b w g k' B [[-> E]|(z & E & S)].
    { rewrite (next_tok_T _ _ _ _ H0) in E. discriminate. }
    rewrite (next_tok_T _ _ _ _ H0) in E. injection E as <-. cbn [tk kb].
    assert (NC : t <> TLEFTCURLY) by (intros ->; apply N1; eapply (seen_special x _ (ch "{")); [exact S|reflexivity|reflexivity|discriminate]).
    assert (NS : t <> TLEFTSQUARE) by (intros ->; apply N2; eapply (seen_special x _ (ch "[")); [exact S|reflexivity|reflexivity|discriminate]).
    assert (X : CP (c <-- qReadConstant p0 perm;; pret (fst c)) b Q).
    { apply CP_bind. eapply C_constant; [exact SA|exact H|rewrite <- app_assoc; exact (At_bk _ _ _ _ _ B)|exact F|].
      intros k2 q2 A2 L2. apply CP_ret. cbn [fst]. rewrite (bk_len _ _ _ _ _ B) in L2. apply G; assumption. }
    destruct t; try exact X; congruence.
  - (* {} *)
    intros t1 t2 E (p1 & H1) (p2 & H2) n k rest Q A F L G. destruct n as [|n]; [lia|]. cbn [qOptionConstant]. rewrite <- app_assoc in A.
    apply CP_bind, CP_peek. ex H1. rewrite E. cbn [negb]. apply CP_bind. pose proof (At_bk _ _ _ _ _ B) as A2.
    eapply CP_peek2; [exact A2|exact H1|hit|exact H2|hit|]. intros t b2 -> B2. cbv [tok_eqb token_eq_dec token_rec token_rect]. pose proof (At_bk _ _ _ _ _ B2) as A3.
    pose proof (bk_len _ _ _ _ _ B) as L1. pose proof (bk_len _ _ _ _ _ B2) as L2.
    ex H1. ex H2. apply CP_ret. apply G; [assumption|lia].
  - (* {..} *)
    intros t1 ts v E (p1 & H1) HE IH n k rest Q A F L G. destruct n as [|n]; [lia|]. cbn [qOptionConstant]. rewrite <- app_assoc in A.
    apply CP_bind, CP_peek. ex H1. rewrite E. cbn [negb]. apply CP_bind. pose proof (At_bk _ _ _ _ _ B) as A2.
    apply Entries_first in HE. destruct HE as (t2 & x & p & tl & -> & H2 & I). rewrite <- app_assoc in A2.
    eapply CP_peek2; [exact A2|exact H1|hit|exact H2|hit|]. intros t b2 -> B2. change (tok_eqb (identToken 0 x) TRIGHTCURLY) with false. cbv iota.
    pose proof (At_bk _ _ _ _ _ B2) as A3. pose proof (bk_len _ _ _ _ _ B) as L1. pose proof (bk_len _ _ _ _ _ B2) as L2.
    unfold qCloud. ex H1. unE E. eapply IH; [exact E|rewrite <- app_assoc; eassumption|lia|lia|]. intros k' A' L'. apply G; [exact A'|lia].
  - (* [] *)
    intros t1 t2 E (p1 & H1) (p2 & H2) n k rest Q A F L G. destruct n as [|n]; [lia|]. cbn [qOptionConstant]. rewrite <- app_assoc in A.
    apply CP_bind, CP_peek. ex H1. rewrite E. cbn [negb]. pose proof (At_bk _ _ _ _ _ B) as A2. pose proof (bk_len _ _ _ _ _ B) as L1.
    ex H1. apply CP_bind, CP_peek. ex H2. cbv [tok_eqb token_eq_dec token_rec token_rect]. pose proof (At_bk _ _ _ _ _ B1) as A4. pose proof (bk_len _ _ _ _ _ B1) as L2.
    ex H2. apply CP_ret. apply G; [assumption|lia].
  - (* [..] *)
    intros t1 ts v t2 x p E (p1 & H1) HV IH H2 [X|X] n k rest Q A F L G; [discriminate X|]. subst x.
    destruct n as [|n]; [lia|]. cbn [qOptionConstant]. rewrite <- !app_assoc in A.
    apply CP_bind, CP_peek. ex H1. rewrite E. cbn [negb]. pose proof (At_bk _ _ _ _ _ B) as A2. pose proof (bk_len _ _ _ _ _ B) as L1.
    ex H1. apply CP_bind, CP_peek. apply Values_first in HV. destruct HV as (t3 & x & q & tl & -> & H3 & N). rewrite <- app_assoc in *.
    eapply (CP_not p0 all SA (ch "]")); [eassumption|reflexivity|discriminate|rewrite (next_tok_T _ _ _ _ H3); intros X; injection X as X; exact (N X)|].
    intros t y q' b' w' g' k' B' NE. cbn [tk kb]. destruct (tok_eqb t TRIGHTSQUARE) eqn:ET.
    { unfold tok_eqb in ET. destruct (token_eq_dec t TRIGHTSQUARE) as [->|]; [destruct (NE eq_refl)|discriminate]. }
    pose proof (At_bk _ _ _ _ _ B') as A4. pose proof (bk_len _ _ _ _ _ B') as L4. apply CP_bind. unfold qConstants.
    assert (X : CP (opt <-- qOC n;; qConstants_loop p0 (qOC n) n ([] ++ [opt])) b' (fun vs k' => join (lit ",") vs = v /\ At k' (t2 ++ rest) /\ (len k' < len b')%nat)).
    { eapply IH; [exact E|rewrite <- app_assoc; exact A4|apply (next_tok_T _ _ _ _ H2)|lia|lia|]. cbn [app]. auto. }
    cbn [app] in X. rewrite E in X.
    assert (Y : CP (opts <-- (opt <-- qOptionConstant p0 true n;; qConstants_loop p0 (qOptionConstant p0 true n) n [opt]);; pret (join (lit ",") opts)) b'
      (fun c k' => c = v /\ At k' (t2 ++ rest) /\ (len k' < len b')%nat)).
    { apply CP_bind. eapply CP_weak; [exact X|]. cbn beta. intros vs k2 (<- & A5 & L5). apply CP_ret. auto. }
    apply (CP_weak _ _ (fun c k' => c = v /\ At k' (t2 ++ rest) /\ (len k' < len b')%nat)).
    { revert Y. unfold CP, pbind. destruct (qOptionConstant p0 true n b'); auto. }
    intros c k2 (-> & A5 & L5). ex H2. apply CP_ret. apply G; [assumption|lia].
  - (* one value *)
    intros ts v HV IH E m n k rest acc Q A N L M G. apply CP_bind. apply next_T in N. destruct N as (t & p & tl & -> & H).
    eapply IH; [exact A|eapply Follow_T; [exact H|cbn; tauto]|exact M|]. intros k1 A1 L1. destruct n as [|n]; [lia|]. cbn [qConstants_loop].
    ex H. cbv [tok_eqb token_eq_dec token_rec token_rect negb]. apply CP_bind, CP_back, CP_ret. cbn [kb].
    apply G; [discriminate|reflexivity|exact (At_bk _ _ _ _ _ B)|rewrite (bk_len _ _ _ _ _ B); lia].
  - (* more values *)
    intros ts v td ts' v' HV IH (pd & D) HVs IHs E m n k rest acc Q A N L M G. apply CP_bind. rewrite <- !app_assoc in A.
    eapply IH; [exact A|eapply Follow_T; [exact D|cbn; tauto]|exact M|]. intros k1 A1 L1. destruct n as [|n]; [lia|]. cbn [qConstants_loop].
    ex D. cbv [tok_eqb token_eq_dec token_rec token_rect negb]. eapply IHs; [exact E|eassumption|exact N|lia|lia|].
    intros k' vs NV J A' L'. rewrite <- app_assoc. apply G; [discriminate| |exact A'|lia]. cbn [app]. rewrite join_more by exact NV. rewrite J. reflexivity.
  - (* last entry *)
    intros o ts v t HE IH (p & H) E m n k rest r Q A L M G. destruct n as [|n]; [lia|]. rewrite <- app_assoc in A.
    eapply IH; [exact E|exact A|eapply Follow_T; [exact H|cbn; tauto]|rewrite (next_tok_T _ _ _ _ H); discriminate|exact M|].
    intros k1 A1 L1. ex H. apply CP_ret. rewrite <- app_assoc. apply G; [assumption|lia].
  - (* last entry, separator *)
    intros o ts v t x p t' HE IH H SP (p' & H') E m n k rest r Q A L M G. destruct n as [|n]; [lia|]. rewrite <- !app_assoc in A.
    eapply IH; [exact E|exact A|eapply Follow_sep; eassumption| |exact M|].
    { rewrite (next_tok_T _ _ _ _ H). intros ->. destruct SP as [->|[_ SP]]; [discriminate|discriminate SP]. }
    intros k1 A1 L1. assert (HI : exists t0, hit 0 x t0 /\ (t0 = TCOMMA \/ t0 = TSEMICOLON)) by (destruct SP as [->|[-> _]]; eexists; (split; [hit|auto])).
    destruct HI as (t0 & HI & T0). eapply CP_tok; [exact SA|reflexivity|exact A1|exact H|exact HI|]. intros b w g k2 B2 [A2 LP2 L2 E2]. cbn [tk tx].
    assert (X : CP (pk <-- ppeek 0;; if tok_eqb (tk pk) TRIGHTCURLY && perm
            then t4 <-- ptok 0;; pret (((r ++ v) ++ x) ++ tx t4)
            else qCloud_loop p0 perm (qOC m) n ((r ++ v) ++ x)) k2 Q).
    { apply CP_bind, CP_peek. ex H'. rewrite E. cbv [tok_eqb token_eq_dec token_rec token_rect andb]. pose proof (At_bk _ _ _ _ _ B) as A3.
      pose proof (bk_len _ _ _ _ _ B) as L3. ex H'. apply CP_ret. rewrite <- !app_assoc. apply G; [assumption|lia]. }
    destruct T0 as [->| ->]; exact X.
  - (* separator, more *)
    intros o ts v t x p ts' v' HE IH H SP HS IHs E m n k rest r Q A L M G. destruct n as [|n]; [lia|]. rewrite <- !app_assoc in A.
    eapply IH; [exact E|exact A|eapply Follow_sep; eassumption| |exact M|].
    { rewrite (next_tok_T _ _ _ _ H). intros ->. destruct SP as [->|[_ SP]]; [discriminate|discriminate SP]. }
    intros k1 A1 L1. assert (HI : exists t0, hit 0 x t0 /\ (t0 = TCOMMA \/ t0 = TSEMICOLON)) by (destruct SP as [->|[-> _]]; eexists; (split; [hit|auto])).
    destruct HI as (t0 & HI & T0). eapply CP_tok; [exact SA|reflexivity|exact A1|exact H|exact HI|]. intros b w g k2 B2 [A2 LP2 L2 E2]. cbn [tk tx].
    assert (X : CP (pk <-- ppeek 0;; if tok_eqb (tk pk) TRIGHTCURLY && perm
            then t4 <-- ptok 0;; pret (((r ++ v) ++ x) ++ tx t4)
            else qCloud_loop p0 perm (qOC m) n ((r ++ v) ++ x)) k2 Q).
    { apply CP_bind, CP_peek. apply Entries_first in HS. destruct HS as (t2 & y & q & tl & -> & H2 & I). rewrite <- app_assoc in A2. ex H2.
      change (tok_eqb (identToken 0 y) TRIGHTCURLY && perm) with false. cbv iota. pose proof (At_bk _ _ _ _ _ B) as A3.
      pose proof (bk_len _ _ _ _ _ B) as L3. eapply IHs; [exact E|rewrite <- app_assoc; exact A3|lia|lia|]. intros k' A' L'. rewrite <- !app_assoc. apply G; [exact A'|lia]. }
    destruct T0 as [->| ->]; exact X.
  - (* no separator *)
    intros o ts v ts' v' HE IH HS IHs E m n k rest r Q A L M G. destruct n as [|n]; [lia|]. rewrite <- !app_assoc in A.
    apply Entries_first in HS. destruct HS as (t2 & y & q & tl & -> & H2 & I). rewrite <- app_assoc in A.
    eapply IH; [exact E|exact A|eapply Follow_ident; eassumption| |exact M|].
    { rewrite (next_tok_T _ _ _ _ H2). intros _ X. injection X as ->. destruct I as (c & l & X & I & _). injection X as <- _. apply ident_start_iff in I. discriminate. }
    intros k1 A1 L1. ex H2. change (identToken 0 y) with TIDENT. cbv iota. apply CP_bind, CP_back. cbn [kb].
    pose proof (At_bk _ _ _ _ _ B) as A3. pose proof (bk_len _ _ _ _ _ B) as L3. eapply IHs; [exact E|rewrite <- app_assoc; exact A3|lia|lia|].
    intros k' A' L'. rewrite <- !app_assoc. apply G; [exact A'|lia].
  - (* name: value *)
    intros t1 x p t2 t3 v o H1 I (p2 & H2) HV IH O E m n k rest r Q A F NS M G. rewrite <- !app_assoc in A. cbn [qCloud_loop].
    ex H1. ex H2. apply CP_bind. apply CP_bind. eapply see_value; [exact HV|eassumption|exact O|]. intros t b3 B3 ET _. apply CP_ret. rewrite ET, E, andb_true_r.
    pose proof (At_bk _ _ _ _ _ B3) as A3. pose proof (bk_len _ _ _ _ _ B3) as L3. apply CP_bind. unE E.
    eapply IH; [exact A3|exact F|lia|]. intros k4 A4 L4. specialize (G k4 A4 ltac:(lia)). assert (EQ : ((r ++ x) ++ lit ":") ++ v = r ++ x ++ lit ":" ++ v) by (rewrite <- !app_assoc; reflexivity). rewrite EQ. apply CP_bind. destruct o.
    + eapply CP_weak; [apply CP_conj; [exact G|]|].
      { eapply (CP_not p0 all SA (ch ";") k4 rest (fun t _ => tok_eqb (tk t) TSEMICOLON = false)); [exact A4|reflexivity|discriminate|apply NS; reflexivity|].
        intros t' y q b' w' g' k' B' NE. cbn [tk]. unfold tok_eqb. destruct (token_eq_dec t' TSEMICOLON); [destruct (NE e)|reflexivity]. }
      cbn beta. intros t' k' [C NT]. rewrite NT. cbn [andb]. apply CP_bind, CP_ret. rewrite E in C. rewrite ?E. exact C.
    + eapply CP_weak; [exact G|]. cbn beta. intros t' k' C. rewrite andb_false_r. cbn [andb]. apply CP_bind, CP_ret. rewrite E in C. rewrite ?E. exact C.
  - (* name: {..}; *)
    intros t1 x p t2 t3 v t4 H1 I (p2 & H2) HV IH O (p4 & H4) E m n k rest r Q A F NS M G. rewrite <- !app_assoc in A. cbn [qCloud_loop].
    ex H1. ex H2. apply CP_bind. apply CP_bind. eapply see_value; [exact HV|eassumption|exact O|]. intros t b3 B3 ET _. apply CP_ret. rewrite ET, E, andb_true_r.
    pose proof (At_bk _ _ _ _ _ B3) as A3. pose proof (bk_len _ _ _ _ _ B3) as L3. apply CP_bind. unE E.
    eapply IH; [exact A3|eapply Follow_T; [exact H4|cbn; tauto]|lia|]. intros k4 A4 L4. ex H4. cbv [tok_eqb token_eq_dec token_rec token_rect andb].
    apply CP_bind, CP_bind. match goal with AA : At ?kk rest |- _ => specialize (G kk AA ltac:(lia)) end.
    eapply CP_weak; [exact G|]. cbn beta. intros t' k' C. apply CP_ret. assert (EQ : (((r ++ x) ++ lit ":") ++ v) ++ lit ";" = r ++ x ++ lit ":" ++ v ++ lit ";") by (rewrite <- !app_assoc; reflexivity). cbn [tx]. rewrite EQ. rewrite E in C. rewrite ?E. exact C.
  - (* name {..} *)
    intros t1 x p t2 v H1 I HV IH O E m n k rest r Q A F NS M G. rewrite <- !app_assoc in A. cbn [qCloud_loop].
    ex H1. pose proof (proj1 O eq_refl) as N. apply next_T in N. destruct N as (t3 & p3 & tl & -> & H3). rewrite <- app_assoc in A0.
    ex H3. rewrite E at 1. cbn [negb]. apply CP_bind, CP_bind, CP_back, CP_ret. cbn [kb].
    pose proof (At_bk _ _ _ _ _ B0) as A3. pose proof (bk_len _ _ _ _ _ B0) as L3. apply CP_bind.
    eapply IH; [rewrite <- app_assoc; exact A3|exact F|lia|]. intros k4 A4 L4. specialize (G k4 A4 ltac:(lia)). rewrite <- (app_assoc r x v). apply CP_bind.
    eapply CP_weak; [exact G|]. cbn beta. intros t' k' C. rewrite andb_false_r. cbn [andb]. apply CP_bind, CP_ret. rewrite E in C. rewrite ?E. exact C.
Qed.
Lemma C_value ts v k rest (Q : str -> cur -> Prop) : Value perm false ts v -> At k (ts ++ rest) -> Follow rest ->
  (forall k', At k' rest -> (len k' < len k)%nat -> Q v k') -> CP (qConstant p0 perm) k Q.
Proof.
  intros H A F G. unfold qConstant. apply CP_bind, CP_fuel. eapply (proj1 C_values); [exact H|exact A|exact F|lia|exact G].
Qed.
End Values.
