(** What the pure parser had read when a field, an enum field or a group broke off
    at a semicolon. *)
From Coq Require Import List NArith ZArith Bool String Ascii Lia Sorted.
From Verif Require Import Base Token Scanner Lexer Lexing ScanRefine LexFacts LexSpec LexProofs ScanFacts LexerFacts ScanProps Ast Parser
  Cursor Pure Refine Term Term2 Grammar GramLex GramRules GramNames GramValues GramStmts GramParts GramBodies SndLex SndRules SndNames SndStmts.
Import ListNotations.
Open Scope N_scope.
Open Scope pure_scope.

Lemma words_app a b : toks (a ++ b) = toks a ++ toks b.
Proof. induction a as [|[x p|x p] a IH]; cbn [toks app]; [reflexivity| |exact IH]. f_equal. exact IH. Qed.
Lemma words_coms cs : toks (coms cs) = [].
Proof. induction cs; [reflexivity|]. exact IHcs. Qed.
Lemma words_T t x p : T t x p -> toks t = [x].
Proof. intros (cs & ->). rewrite words_app, words_coms. reflexivity. Qed.
Lemma words_K t x : K t x -> toks t = [lit x].
Proof. intros (p & H). exact (words_T _ _ _ H). Qed.
Lemma words_none ts : toks ts = [] -> exists cs, ts = coms cs.
Proof.
  induction ts as [|[x p|x p] ts IH]; intros H; [exists []; reflexivity|discriminate H|]. destruct (IH H) as (cs & ->). exists ((x, p) :: cs). reflexivity.
Qed.
(** a semicolon alone *)
Lemma semi_alone ts t p : no_com (ts ++ t) -> toks ts = [] -> T t (lit ";") p -> ts ++ t = [Tok (lit ";") p].
Proof.
  intros N E (c & ->). destruct (words_none _ E) as (cs & ->). destruct cs; [|destruct N]. destruct c; [reflexivity|destruct N].
Qed.
Lemma not_first_words ts ws t : not_first (ts ++ t) ws -> not_head (toks ts) ws.
Proof.
  induction ts as [|[x p|x p] ts IH]; cbn [toks app]; intros H; [exact I|exact H|apply IH; exact H].
Qed.
Lemma FullIdent_words ts v p : FullIdent ts v p -> NameWords true (toks ts).
Proof.
  induction 1 as [ts x p H I|ts x p td ts' v p' H I D _ IH]; [rewrite (words_T _ _ _ H); constructor; exact I|].
  rewrite !words_app, (words_T _ _ _ H), (words_K _ _ D). exact (nw_dot _ _ _ I IH).
Qed.
Lemma Type_words ts v p : Type_ ts v p -> TypeWords true (toks ts).
Proof.
  intros [t x q H I|t x q H _].
  - rewrite (words_T _ _ _ H). apply tw_name, nw_one. apply identb_iff. unfold words, scalars in I. cbn [map In] in I. repeat (destruct I as [<-|I]; [reflexivity|]). destruct I.
  - destruct H as [t x q H|td t x q q' D H]; [apply tw_name; exact (FullIdent_words _ _ _ H)|]. rewrite words_app. 
    first [rewrite (words_T _ _ _ D)|rewrite (words_K _ _ D)]. apply tw_dot. exact (FullIdent_words _ _ _ H).
Qed.

Section Drop.
Variable p0 : mpos.
Variable src : list rune.
Hypothesis RS : readable src.
Variable perm : bool.
Notation P := (P p0 src).
Notation SD := (SD p0 src).
Notation Snd := (Snd p0 src).
Notation Read := (Read p0 src).
Notation Gd := (Gd p0 src).
Notation Bk := (Bk p0 src).

(** as [SD]; [E]: the words read when a semicolon comes next *)
Definition FD {A} (k0 : cur) (r : pres A) (Q : A -> cur -> Prop) (E : list str -> Prop) : Prop :=
  match r with
  | POk a k' => Q a k'
  | PErr b _ => exists ts, P k0 ts b /\ (lx_tok (lex 0 (cr b)) = TSEMICOLON -> E (toks ts))
  | _ => True
  end.
Lemma FD_bind {A B} k0 (m : PM A) (f : A -> PM B) k Q (E : list str -> Prop) : FD k0 (m k) (fun a k' => FD k0 (f a k') Q E) E -> FD k0 (pbind m f k) Q E.
Proof. unfold pbind. destruct (m k); cbn; auto. Qed.
Lemma FD_ret {A} k0 (a : A) k (Q : A -> cur -> Prop) (E : list str -> Prop) : Q a k -> FD k0 (pret a k) Q E.
Proof. intros H. exact H. Qed.
Lemma FD_back {A} k0 t (f : unit -> PM A) k Q (E : list str -> Prop) : FD k0 (f tt (kb t)) Q E -> FD k0 (pbind (pback t) f k) Q E.
Proof. intros H. exact H. Qed.
Lemma FD_fuel {A} k0 (f : nat -> PM A) k Q (E : list str -> Prop) : FD k0 (f (S (List.length (cr k))) k) Q E -> FD k0 (pbind pfuel f k) Q E.
Proof. intros H. exact H. Qed.
Lemma FD_err {A} k0 ts t k (Q : A -> cur -> Prop) (E : list str -> Prop) : P k0 ts (kb t) -> E (toks ts) -> FD k0 (perr t k) Q E.
Proof. intros H X. exists ts. auto. Qed.
Lemma FD_weak {A} k0 (r : pres A) (Q Q' : A -> cur -> Prop) (E : list str -> Prop) : FD k0 r Q E -> (forall a k', Q a k' -> Q' a k') -> FD k0 r Q' E.
Proof. destruct r; cbn; auto. Qed.
Lemma FD_tok {A} m k0 ts k (f : ti -> PM A) Q (E : list str -> Prop) : has m ScanComment = false -> P k0 ts k ->
  (forall t k', Read m k t k' -> P k0 ts (kb t) -> FD k0 (f t k') Q E) -> FD k0 (pbind (ptok p0 m) f k) Q E.
Proof.
  intros M H F. destruct (tok_read p0 src RS m k M (P_Gd _ _ _ _ _ H)) as (t & k' & X & R). unfold pbind. rewrite X. apply F; [exact R|].
  eapply Bk_P; [exact H|apply R].
Qed.
Lemma FD_expect {A} m T0 k0 ts k (f : ti -> PM A) Q (E : list str -> Prop) : has m ScanComment = false -> T0 <> TEOF -> T0 <> TILLEGAL -> P k0 ts k ->
  E (toks ts) -> (forall t tt k', P k0 (ts ++ tt) k' -> toks tt = [tx t] -> want T0 (tx t) -> FD k0 (f t k') Q E) -> FD k0 (pbind (pexpect p0 m T0) f k) Q E.
Proof.
  intros M N1 N2 H X F. unfold Cursor.pexpect. apply FD_bind. eapply FD_tok; [exact M|exact H|]. intros t k' R PB. destruct (tok_eqb (tk t) T0) eqn:E0; [|eapply FD_err; eassumption].
  apply tokb_eq in E0. destruct (Read_next _ _ _ _ _ _ _ _ _ H R E0 N1 N2) as (u & P1 & P2 & T1 & W & L & N). apply FD_ret. eapply F; [exact P2|exact (words_T _ _ _ T1)|exact W].
Qed.
(** a semicolon that does not come *)
Lemma FD_semi {A} k0 ts k (f : ti -> PM A) (Q : A -> cur -> Prop) (E : list str -> Prop) : P k0 ts k -> (forall t k', FD k0 (f t k') Q E) -> FD k0 (pbind (pexpect p0 0 TSEMICOLON) f k) Q E.
Proof.
  intros H F. unfold Cursor.pexpect. apply FD_bind. eapply FD_tok; [reflexivity|exact H|]. intros t k' R PB. destruct (tok_eqb (tk t) TSEMICOLON) eqn:E0; [apply FD_ret, F|].
  exists ts. split; [exact PB|]. intros X. destruct (Read_tk _ _ _ _ _ _ R) as (Y & _). destruct (rd_back _ _ _ _ _ _ R) as (_ & Z & _). rewrite Z in X. rewrite Y, X in E0. discriminate E0.
Qed.
(** after something that may break off anywhere *)
Lemma FD_any {A B} (q : PM A) R k0 ts k (f : A -> PM B) Q (E : list str -> Prop) : Snd q R -> P k0 ts k -> (forall l, E (toks ts ++ l)) ->
  (forall a tt k', P k0 (ts ++ tt) k' -> FD k0 (f a k') Q E) -> FD k0 (pbind q f k) Q E.
Proof.
  intros S H X F. specialize (S k (P_Gd _ _ _ _ _ H)). unfold pbind. destruct (q k) as [a k'|b ka|? ?| | | |]; try exact Logic.I.
  - destruct S as (tt & P1 & _). eapply F. eapply P_trans; eassumption.
  - destruct S as (tt & P1). exists (ts ++ tt). split; [eapply P_trans; eassumption|]. intros _. rewrite words_app. apply X.
Qed.
Lemma FD_anyt {A} (q : PM A) R k0 ts k (Q : A -> cur -> Prop) (E : list str -> Prop) : Snd q R -> P k0 ts k -> (forall l, E (toks ts ++ l)) ->
  (forall a tt k', P k0 (ts ++ tt) k' -> Q a k') -> FD k0 (q k) Q E.
Proof.
  intros S H X F. specialize (S k (P_Gd _ _ _ _ _ H)). destruct (q k) as [a k'|b ka|? ?| | | |]; try exact Logic.I.
  - destruct S as (tt & P1 & _). eapply F. eapply P_trans; eassumption.
  - destruct S as (tt & P1). exists (ts ++ tt). split; [eapply P_trans; eassumption|]. intros _. rewrite words_app. apply X.
Qed.
Lemma FD_eof {A} m T0 k0 ts k (f : ti -> PM A) Q (E : list str -> Prop) : has m ScanComment = false -> T0 <> TEOF -> P k0 ts k -> cr k = [] -> FD k0 (pbind (pexpect p0 m T0) f k) Q E.
Proof.
  intros M N H Z. unfold Cursor.pexpect. apply FD_bind. eapply FD_tok; [exact M|exact H|]. intros t k' R PB. destruct (tok_eqb (tk t) T0) eqn:E0.
  { apply tokb_eq in E0. rewrite (Read_eof _ _ _ _ _ _ R Z) in E0. congruence. }
  exists ts. split; [exact PB|]. intros X. destruct (rd_back _ _ _ _ _ _ R) as (_ & Y & _). rewrite Y, Z, lex_nil in X. discriminate X.
Qed.

(** ** Fields *)
Lemma F_label {A} k0 ts k (f : mpos * (bool * bool * bool) -> PM A) Q (E : list str -> Prop) : P k0 ts k ->
  (forall a tt k', P k0 (ts ++ tt) k' -> LabelWords (toks tt) -> FD k0 (f a k') Q E) -> FD k0 (pbind (qLabel p0) f k) Q E.
Proof.
  intros H F. unfold qLabel. apply FD_bind. eapply FD_tok; [reflexivity|exact H|]. intros t k1 R PB.
  assert (NONE : FD k0 ((pback t;;; pret (tp t, (false, false, false))) k1) (fun a k' => FD k0 (f a k') Q E) E).
  { apply FD_back, FD_ret. apply (F _ []); [rewrite app_nil_r; exact PB|constructor]. }
  destruct (tk t) eqn:E0; try exact NONE; clear NONE; destruct (Read_next _ _ _ _ _ _ _ _ _ H R E0 ltac:(discriminate) ltac:(discriminate)) as (u & P1 & P2 & T1 & W & L & N);
    apply FD_ret; (eapply F; [exact P2|]); rewrite (words_T _ _ _ T1); cbn [want] in W; rewrite W; apply lw_one; unfold words; cbn [map In]; tauto.
Qed.
Lemma F_mt_loop n : forall acc y k0 ts k k' (Q : str -> cur -> Prop) (E : list str -> Prop), P k0 ts k -> Read 0 k y k' -> (forall l, NameWords false l -> E (toks ts ++ l)) ->
  (forall v tt k2, P k0 (ts ++ tt) k2 -> (NameWords true (toks tt) \/ cr k2 = []) -> Q v k2) -> FD k0 (qMessageType_loop p0 n acc y k') Q E.
Proof.
  induction n as [|n IH]; intros acc y k0 ts k k' Q E H R X F; [exact Logic.I|]. cbn [qMessageType_loop].
  destruct (tok_eqb (tk y) TEOF) eqn:E0.
  { apply tokb_eq in E0. destruct (Read_any _ _ _ _ _ _ _ _ H R) as [(CR & _ & cs & P1)|(? & ? & Y & _)]; [|congruence]. apply FD_ret. eapply F; [exact P1|]. right. exact CR. }
  destruct (tok_eqb (tk y) TIDENT) eqn:E1; cbn [negb].
  2:{ eapply FD_err; [eapply Bk_P; [exact H|apply R]|]. rewrite <- (app_nil_r (toks ts)). apply X. constructor. }
  apply tokb_eq in E1. destruct (Read_next _ _ _ _ _ _ _ _ _ H R E1 ltac:(discriminate) ltac:(discriminate)) as (u & P1 & P2 & T1 & W & L & N). cbn [want] in W.
  eapply FD_tok; [reflexivity|exact P2|]. intros z k2 R2 PB2. destruct (tok_eqb (tk z) TDOT) eqn:E2; cbn [negb].
  - apply tokb_eq in E2. destruct (Read_next _ _ _ _ _ _ _ _ _ P2 R2 E2 ltac:(discriminate) ltac:(discriminate)) as (u2 & P3 & P4 & T2 & W2 & L2 & N2). cbn [want] in W2. rewrite W2 in T2.
    eapply FD_tok; [reflexivity|exact P4|]. intros y2 k3 R3 PB3. eapply IH; [exact P4|exact R3| |].
    + intros l HL. rewrite !words_app, <- !app_assoc, (words_T _ _ _ T1), (words_T _ _ _ T2). apply X. exact (nw_dot _ _ _ W HL).
    + intros v tt k4 P5 D. rewrite <- !app_assoc in P5. eapply F; [exact P5|]. destruct D as [D|D]; [left|right; exact D].
      rewrite !words_app, (words_T _ _ _ T1), (words_T _ _ _ T2). exact (nw_dot _ _ _ W D).
  - apply FD_back, FD_ret. eapply F; [exact PB2|]. left. rewrite (words_T _ _ _ T1). constructor. exact W.
Qed.
Lemma F_type {A} k0 ts k (f : str * mpos -> PM A) Q (E : list str -> Prop) : P k0 ts k -> (forall l, TypeWords false l -> E (toks ts ++ l)) ->
  (forall a tt k', P k0 (ts ++ tt) k' -> TypeWords true (toks tt) \/ cr k' = [] -> FD k0 (f a k') Q E) -> FD k0 (pbind (qType p0) f k) Q E.
Proof.
  intros H X F. unfold qType. apply FD_bind. eapply FD_tok; [reflexivity|exact H|]. intros x k1 R1 PB1. destruct (str_mem (tx x) typeConstants) eqn:E0.
  { apply str_mem_in in E0. assert (NE : tx x <> []) by (intros Y; rewrite Y in E0; cbn in E0; intuition discriminate).
    destruct (Read_text _ _ _ _ _ _ _ _ H R1 NE) as (u & P1 & P2 & T1 & L1). apply FD_ret. eapply F; [exact P2|]. left. exact (Type_words _ _ _ (ty_scalar _ _ _ T1 E0)). }
  apply FD_back. unfold qReadMessageType. eapply FD_tok; [reflexivity|exact PB1|]. intros y k2 R2 PB2. apply FD_bind. destruct (tok_eqb (tk y) TDOT) eqn:E1.
  - apply tokb_eq in E1. destruct (Read_next _ _ _ _ _ _ _ _ _ PB1 R2 E1 ltac:(discriminate) ltac:(discriminate)) as (u2 & P3 & P4 & T2 & W2 & L2 & N2). cbn [want] in W2. rewrite W2 in T2.
    apply FD_ret. eapply FD_tok; [reflexivity|exact P4|]. intros z k3 R3 PB3. apply FD_fuel, FD_bind. eapply F_mt_loop; [exact P4|exact R3| |].
    + intros l HL. rewrite words_app, <- app_assoc, (words_T _ _ _ T2). apply X, tw_dot, HL.
    + intros v tt k4 P5 D. apply FD_ret. rewrite <- app_assoc in P5. eapply F; [exact P5|]. destruct D as [D|D]; [left|right; exact D]. rewrite words_app, (words_T _ _ _ T2). apply tw_dot, D.
  - apply FD_back, FD_ret. eapply FD_tok; [reflexivity|exact PB2|]. intros z k3 R3 PB3. apply FD_fuel, FD_bind. eapply F_mt_loop; [exact PB2|exact R3| |].
    + intros l HL. apply X, tw_name, HL.
    + intros v tt k4 P5 D. apply FD_ret. eapply F; [exact P5|]. destruct D as [D|D]; [left|right; exact D]. apply tw_name, D.
Qed.
Lemma F_options {A} k0 ts k (f : list fieldOption -> PM A) Q (E : list str -> Prop) : P k0 ts k -> (forall l, E (toks ts ++ lit "[" :: l)) ->
  (forall a tt k', P k0 (ts ++ tt) k' -> FD k0 (f a k') Q E) -> FD k0 (pbind (qFieldOptionsOption p0 perm) f k) Q E.
Proof.
  intros H X F. unfold qFieldOptionsOption. apply FD_bind. eapply FD_tok; [reflexivity|exact H|]. intros t k1 R1 PB1. destruct (tok_eqb (tk t) TLEFTSQUARE) eqn:E0.
  2:{ apply FD_back, FD_ret. apply (F _ []). rewrite app_nil_r. exact PB1. }
  apply tokb_eq in E0. destruct (Read_next _ _ _ _ _ _ _ _ _ H R1 E0 ltac:(discriminate) ltac:(discriminate)) as (u & P1 & P2 & T1 & W & L & N). cbn [want] in W. rewrite W in T1.
  assert (X' : forall l, E (toks (ts ++ u) ++ l)) by (intros l; rewrite words_app, <- app_assoc, (words_T _ _ _ T1); apply X).
  apply FD_bind. unfold qFieldOptions. eapply FD_any; [apply (S_fieldOption p0 src RS perm)|exact P2|exact X'|]. intros o u2 k2 P3. apply FD_fuel.
  assert (X2 : forall v l, E (toks ((ts ++ u) ++ v) ++ l)) by (intros v l; rewrite words_app, <- app_assoc; apply X').
  eapply FD_anyt; [apply (S_fieldOptions_loop p0 src RS perm)|exact P3|apply X2|]. intros os u3 k3 P4. cbn beta. rewrite <- app_assoc in P4.
  eapply FD_expect; [reflexivity|discriminate|discriminate|exact P4|rewrite <- (app_nil_r (toks _)); apply X2|]. intros t4 u4 k4 P5 _ _. apply FD_ret. rewrite <- !app_assoc in P5. eapply F. exact P5.
Qed.
Lemma F_evOptions {A} k0 ts k (f : list enumValueOption -> PM A) Q (E : list str -> Prop) : P k0 ts k -> (forall l, E (toks ts ++ lit "[" :: l)) ->
  (forall a tt k', P k0 (ts ++ tt) k' -> FD k0 (f a k') Q E) -> FD k0 (pbind (qEnumValueOptions p0 perm) f k) Q E.
Proof.
  intros H X F. unfold qEnumValueOptions. apply FD_bind. eapply FD_tok; [reflexivity|exact H|]. intros t k1 R1 PB1. destruct (tok_eqb (tk t) TLEFTSQUARE) eqn:E0; cbn [negb].
  2:{ apply FD_back, FD_ret. apply (F _ []). rewrite app_nil_r. exact PB1. }
  apply tokb_eq in E0. destruct (Read_next _ _ _ _ _ _ _ _ _ H R1 E0 ltac:(discriminate) ltac:(discriminate)) as (u & P1 & P2 & T1 & W & L & N). cbn [want] in W. rewrite W in T1.
  assert (X' : forall l, E (toks (ts ++ u) ++ l)) by (intros l; rewrite words_app, <- app_assoc, (words_T _ _ _ T1); apply X).
  eapply FD_any; [apply (S_evOption p0 src RS perm)|exact P2|exact X'|]. intros o u2 k2 P3. apply FD_fuel.
  assert (X2 : forall v l, E (toks ((ts ++ u) ++ v) ++ l)) by (intros v l; rewrite words_app, <- app_assoc; apply X').
  eapply FD_any; [apply (S_evOptions_loop p0 src RS perm)|exact P3|apply X2|]. intros os u3 k3 P4. rewrite <- app_assoc in P4.
  eapply FD_expect; [reflexivity|discriminate|discriminate|exact P4|rewrite <- (app_nil_r (toks _)); apply X2|]. intros t4 u4 k4 P5 _ _. apply FD_ret. rewrite <- !app_assoc in P5. eapply F. exact P5.
Qed.
Lemma F_field k : Gd k -> FD k (qParseField p0 perm k) (fun _ _ => True) CutField.
Proof.
  intros G. unfold qParseField. eapply F_label; [apply P_refl; exact G|]. cbn [app]. intros [p [[rp rq] op]] u k1 P1 LW.
  eapply F_type; [exact P1|intros l TW; apply cf_type; assumption|]. intros ty u2 k2 P2 [TW|Z]; [|eapply FD_eof; [reflexivity|discriminate|exact P2|exact Z]].
  assert (C : forall r, CutTail r -> CutField (toks (u ++ u2) ++ r)). { intros r HR. rewrite words_app, <- app_assoc. apply cf_tail; assumption. }
  eapply FD_expect; [reflexivity|discriminate|discriminate|exact P2|rewrite <- (app_nil_r (toks _)); apply C; constructor|]. intros name u3 k3 P3 E3 W3. cbn [want] in W3.
  eapply FD_expect; [reflexivity|discriminate|discriminate|exact P3|rewrite words_app, E3; apply C; constructor; exact W3|]. intros e u4 k4 P4 E4 W4. cbn [want] in W4. rewrite W4 in E4. rewrite <- app_assoc in P4.
  unfold qFieldNumber. apply FD_bind.
  eapply FD_expect; [reflexivity|discriminate|discriminate|exact P4|rewrite (words_app (u ++ u2)), (words_app u3), E3, E4; apply C; apply ct_equals; exact W3|]. intros n u5 k5 P5 E5 W5. cbn [want] in W5. apply FD_ret. rewrite <- !app_assoc in P5. rewrite (app_assoc u) in P5.
  eapply F_options; [exact P5| |].
  { intros l. rewrite (words_app (u ++ u2)), <- app_assoc, (words_app u3), (words_app u4), E3, E4, E5. apply C. apply ct_options; assumption. }
  intros os u6 k6 P6. eapply FD_semi; [exact P6|]. intros t k7. exact Logic.I.
Qed.
Lemma F_enumField k : Gd k -> FD k (qEnumField p0 perm k) (fun _ _ => True) CutEnumField.
Proof.
  intros G. unfold qEnumField. eapply FD_expect; [reflexivity|discriminate|discriminate|apply P_refl; exact G|constructor|]. cbn [app]. intros name u k1 P1 E1 W1. cbn [want] in W1.
  eapply FD_expect; [reflexivity|discriminate|discriminate|exact P1|rewrite E1; constructor; exact W1|]. intros e u2 k2 P2 E2 W2. cbn [want] in W2. rewrite W2 in E2.
  eapply FD_tok; [reflexivity|exact P2|]. intros t k3 R3 PB3. apply FD_bind. destruct (tok_eqb (tk t) TMINUS) eqn:E0.
  - apply tokb_eq in E0. destruct (Read_next _ _ _ _ _ _ _ _ _ P2 R3 E0 ltac:(discriminate) ltac:(discriminate)) as (u3 & P3 & P4 & T1 & W & L & N). cbn [want] in W. rewrite W in T1. apply words_T in T1. apply FD_ret.
    eapply FD_expect; [reflexivity|discriminate|discriminate|exact P4|rewrite !words_app, E1, E2, T1; apply ce_minus; exact W1|]. intros n u5 k5 P5 E5 W5. cbn [want] in W5.
    eapply F_evOptions; [exact P5|intros l; rewrite !words_app, E1, E2, T1, E5; apply ce_minus_options; assumption|]. intros os u6 k6 P6. eapply FD_semi; [exact P6|]. intros ? ?. exact Logic.I.
  - apply FD_back, FD_ret.
    eapply FD_expect; [reflexivity|discriminate|discriminate|exact PB3|rewrite !words_app, E1, E2; apply ce_equals; exact W1|]. intros n u5 k5 P5 E5 W5. cbn [want] in W5.
    eapply F_evOptions; [exact P5|intros l; rewrite !words_app, E1, E2, E5; apply ce_options; assumption|]. intros os u6 k6 P6. eapply FD_semi; [exact P6|]. intros ? ?. exact Logic.I.
Qed.

(** ** Groups *)
(** the look-ahead found the heading of a group *)
Definition heads (r : list rune) : Prop :=
  lx_tok (lex ScanKeyword r) = TGROUP /\
  let r2 := lx_rest (lex ScanKeyword r) in
  lx_tok (lex 0 r2) = TIDENT /\ isCapitalized (lx_txt (lex 0 r2)) = true /\
  let r3 := lx_rest (lex 0 r2) in
  lx_tok (lex 0 r3) = TEQUALS /\
  let r4 := lx_rest (lex 0 r3) in
  lx_tok (lex ScanNumberLit r4) = TINTLIT /\
  let r5 := lx_rest (lex ScanNumberLit r4) in
  lx_tok (lex 0 r5) = TLEFTCURLY.
Definition isLabel (t : token) : bool := match t with TREPEATED | TREQUIRED | TOPTIONAL => true | _ => false end.
Lemma defer_true t q k b : pdefer t q k = POk true b -> exists k', q k = POk true k'.
Proof. unfold pdefer. destruct (q k); try discriminate. intros H. injection H as -> _. eauto. Qed.
Lemma tail_heads k b : qIsGroup_tail p0 k = POk true b -> heads (cr k).
Proof.
  unfold qIsGroup_tail, heads. intros H. unfold pbind at 1, ptok, lexc in H. apply defer_true in H. destruct H as (b1 & H). cbn [tk] in H.
  destruct (tok_eqb (lx_tok (lex ScanKeyword (cr k))) TGROUP) eqn:E1; cbn [negb] in H; [|discriminate H]. apply tokb_eq in E1. split; [exact E1|]. cbv zeta.
  unfold pbind at 1, ptok, lexc in H. apply defer_true in H. destruct H as (b2 & H). cbn [tk tx cr] in H. set (r2 := lx_rest (lex ScanKeyword (cr k))) in *.
  destruct (tok_eqb (lx_tok (lex 0 r2)) TIDENT) eqn:E2; cbn [negb] in H; [|discriminate H]. apply tokb_eq in E2. split; [exact E2|].
  destruct (isCapitalized (lx_txt (lex 0 r2))) eqn:E3; cbn [negb] in H; [|discriminate H]. split; [reflexivity|].
  unfold pbind at 1, ptok, lexc in H. apply defer_true in H. destruct H as (b3 & H). cbn [tk tx cr] in H. set (r3 := lx_rest (lex 0 r2)) in *.
  destruct (tok_eqb (lx_tok (lex 0 r3)) TEQUALS) eqn:E4; cbn [negb] in H; [|discriminate H]. apply tokb_eq in E4. split; [exact E4|].
  unfold pbind at 1, ptok, lexc in H. apply defer_true in H. destruct H as (b4 & H). cbn [tk tx cr] in H. set (r4 := lx_rest (lex 0 r3)) in *.
  destruct (tok_eqb (lx_tok (lex ScanNumberLit r4)) TINTLIT) eqn:E5; cbn [negb] in H; [|discriminate H]. apply tokb_eq in E5. split; [exact E5|].
  unfold pbind at 1, ptok, lexc in H. apply defer_true in H. destruct H as (b5 & H). cbn [tk tx cr] in H. unfold pret in H. injection H as H _. apply tokb_eq in H. exact H.
Qed.
Lemma group_heads k b : qIsGroup p0 k = POk true b -> heads (if isLabel (lx_tok (lex ScanKeyword (cr k))) then lx_rest (lex ScanKeyword (cr k)) else cr k).
Proof.
  unfold qIsGroup, pbind at 1, ptok, lexc. cbn [tk].
  assert (A : forall t k', pdefer t (qIsGroup_tail p0) k' = POk true b -> heads (cr k')).
  { intros t k' H. apply defer_true in H. destruct H as (b' & H). exact (tail_heads _ _ H). }
  assert (B : forall t k', (pback t;;; qIsGroup_tail p0) k' = POk true b -> heads (cr (kb t))) by (intros t k' H; exact (tail_heads _ _ H)).
  destruct (lx_tok (lex ScanKeyword (cr k))); cbn [isLabel]; intros H; first [exact (A _ _ H)|exact (B _ _ H)].
Qed.
(** a token that is there *)
Lemma FD_sure {A} m T0 k0 ts k (f : ti -> PM A) Q (E : list str -> Prop) : has m ScanComment = false -> T0 <> TEOF -> T0 <> TILLEGAL -> P k0 ts k -> lx_tok (lex m (cr k)) = T0 ->
  (forall t tt k', P k0 (ts ++ tt) k' -> toks tt = [tx t] -> want T0 (tx t) -> cr k' = lx_rest (lex m (cr k)) -> tx t = lx_txt (lex m (cr k)) -> FD k0 (f t k') Q E) ->
  FD k0 (pbind (pexpect p0 m T0) f k) Q E.
Proof.
  intros M N1 N2 H E1 F. unfold Cursor.pexpect. apply FD_bind. eapply FD_tok; [exact M|exact H|]. intros t k' R PB. destruct (Read_tk _ _ _ _ _ _ R) as (Y & Y2 & _). rewrite E1 in Y.
  destruct (Read_next _ _ _ _ _ _ _ _ _ H R Y N1 N2) as (u & P1 & P2 & T1 & W & L & N). rewrite Y. replace (tok_eqb T0 T0) with true by (symmetry; destruct T0; reflexivity).
  apply FD_ret. eapply F; [exact P2|exact (words_T _ _ _ T1)|exact W| |exact Y2]. pose proof (rd_lex _ _ _ _ _ _ R) as LX. unfold lexc in LX. injection LX as _ <-. reflexivity.
Qed.
(** a body in braces *)
Definition Braces (mb : PM body_result) : Prop :=
  (forall k, mb k = PFuel) \/ exists f, (forall k, mb k = (pexpect p0 0 TLEFTCURLY;;; f) k) /\ forall k, Gd k -> SD k (f k) (fun _ _ => True).
Lemma F_group mb k : Braces mb -> Gd k -> heads (if isLabel (lx_tok (lex ScanKeyword (cr k))) then lx_rest (lex ScanKeyword (cr k)) else cr k) ->
  FD k (qParseGroupField p0 mb k) (fun _ _ => True) CutGroup.
Proof.
  intros BR G HD. unfold qParseGroupField.
  assert (GO : forall (sp : mpos) (rp rq op : bool) u k1, P k u k1 -> LabelWords (toks u) -> heads (cr k1) ->
    FD k ((pexpect p0 ScanKeyword TGROUP;;; name <-- pexpect p0 0 TIDENT;; if negb (isCapitalized (tx name)) then perr name else
      pexpect p0 0 TEQUALS;;; fieldNumber <-- qFieldNumber p0;; '(body, ilc, lastPos) <-- mb;; pret (mkGroupField rp rq op (tx name) body fieldNumber [] None ilc (mkMeta sp lastPos))) k1) (fun _ _ => True) CutGroup).
  { intros sp rp rq op u k1 P1 LW (H1 & H2 & HC & H3 & H4 & H5).
    eapply FD_sure; [reflexivity|discriminate|discriminate|exact P1|exact H1|]. intros t2 u2 k2 P2 E2 W2 C2 X2. cbn [want] in W2. rewrite W2 in E2. rewrite <- C2 in *.
    eapply FD_sure; [reflexivity|discriminate|discriminate|exact P2|exact H2|]. intros t3 u3 k3 P3 E3 W3 C3 X3. cbn [want] in W3. rewrite <- C3 in *. rewrite <- X3 in HC. rewrite HC. cbn [negb].
    eapply FD_sure; [reflexivity|discriminate|discriminate|exact P3|exact H3|]. intros t4 u4 k4 P4 E4 W4 C4 X4. cbn [want] in W4. rewrite W4 in E4. rewrite <- C4 in *.
    apply FD_bind. unfold qFieldNumber. eapply FD_sure; [reflexivity|discriminate|discriminate|exact P4|exact H4|]. intros t5 u5 k5 P5 E5 W5 C5 X5. cbn [want] in W5. rewrite <- C5 in *. apply FD_ret.
    apply FD_bind. destruct BR as [BR|(f & BR & BS)]; [rewrite BR; exact Logic.I|]. rewrite BR.
    eapply FD_sure; [reflexivity|discriminate|discriminate|exact P5|exact H5|]. intros t6 u6 k6 P6 E6 W6 C6 X6. cbn [want] in W6. rewrite W6 in E6.
    specialize (BS k6 (P_Gd _ _ _ _ _ P6)). destruct (f k6) as [[[body ilc] q] k7|b ka|? ?| | | |]; try exact Logic.I.
    destruct BS as (ts & P7). eexists. split; [eapply P_trans; [exact P6|exact P7]|]. intros _. rewrite !words_app, E2, E3, E4, E5, E6, <- !app_assoc. cbn [app].
    apply cg_intro; try assumption. unfold isCapitalized in HC. destruct (tx t3) as [|c l]; [discriminate|]. exists c, l. split; [reflexivity|]. apply andb_true_iff in HC. rewrite !N.leb_le in HC. exact HC. }
  unfold qLabel. apply FD_bind. eapply FD_tok; [reflexivity|apply P_refl; exact G|]. cbn [app]. intros t k1 R PB. destruct (Read_tk _ _ _ _ _ _ R) as (Y & _). rewrite <- Y in HD.
  pose proof (rd_lex _ _ _ _ _ _ R) as LX. unfold lexc in LX. assert (CK : cr k1 = lx_rest (lex ScanKeyword (cr k))) by (injection LX as _ <-; reflexivity). destruct (rd_back _ _ _ _ _ _ R) as (_ & CB & _).
  match goal with |- FD _ _ ?Q ?E => assert (NONE : isLabel (tk t) = false -> FD k ((pback t;;; pret (tp t, (false, false, false))) k1) Q E) end.
  { intros IL. rewrite IL in HD. apply FD_back, FD_ret. eapply GO; [exact PB|constructor|rewrite CB; exact HD]. }
  destruct (tk t) eqn:E0; try (apply NONE; reflexivity); clear NONE; cbn [isLabel] in HD;
    destruct (Read_next _ _ _ _ _ _ _ _ _ (P_refl _ _ _ G) R E0 ltac:(discriminate) ltac:(discriminate)) as (u & P1 & P2 & T1 & W & L & N); apply FD_ret;
    (eapply GO; [exact P1| |rewrite CK; exact HD]); rewrite (words_T _ _ _ T1); cbn [want] in W; rewrite W; apply lw_one; unfold words; cbn [map In]; tauto.
Qed.
End Drop.
