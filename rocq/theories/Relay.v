(** A derivation can be moved to another layout of the same tokens (C09). *)
From Coq Require Import List NArith ZArith Bool String Ascii Lia.
From Verif Require Import Base Token Scanner Ast LexSpec Grammar GramValues GramParts BareSpec.
Import ListNotations.
Open Scope N_scope.

Lemma toks_app a b : toks (a ++ b) = toks a ++ toks b.
Proof. induction a as [|[x p|x p] a IH]; cbn [toks app]; [reflexivity| |exact IH]. f_equal. exact IH. Qed.
Lemma toks_coms cs : toks (coms cs) = [].
Proof. induction cs; [reflexivity|]. exact IHcs. Qed.
Lemma toks_icom c : toks (icom c) = [].
Proof. destruct c; reflexivity. Qed.
Lemma next_toks l : next_tok l = hd_error (toks l).
Proof. induction l as [|[x p|x p] l IH]; [reflexivity|reflexivity|exact IH]. Qed.
Lemma last_toks l : option_map fst (last_tok l) = match rev (toks l) with x :: _ => Some x | [] => None end.
Proof.
  induction l as [|[x p|x p] l IH]; [reflexivity| |exact IH]. cbn [last_tok toks rev].
  destruct (last_tok l) as [[y q]|]; cbn [option_map fst] in *.
  - destruct (rev (toks l)); [discriminate|]. cbn. exact IH.
  - destruct (rev (toks l)); [reflexivity|discriminate].
Qed.

(** ends in a token *)
Inductive tight : list item -> Prop := tight_nil : tight [] | tight_tok l x p : tight (l ++ [Tok x p]).
Lemma tight_r l1 l2 : tight (l1 ++ l2) -> tight l2.
Proof.
  intros H. destruct (rev l2) as [|i r] eqn:E; apply (f_equal (@rev _)) in E; rewrite rev_involutive in E; subst l2; [constructor|].
  cbn [rev] in *. rewrite app_assoc in H. inversion H as [X|l x p X]; [symmetry in X; apply app_eq_nil in X; destruct X as [_ X]; discriminate|].
  apply app_inj_tail in X. destruct X as [_ <-]. constructor.
Qed.
Lemma coms_or l : exists cs l', l = coms cs ++ l' /\ no_com l' /\ toks l' = toks l.
Proof.
  induction l as [|[x p|x p] l IH].
  - exists [], []. repeat split.
  - exists [], (Tok x p :: l). repeat split.
  - destruct IH as (cs & l' & -> & N & E). exists ((x, p) :: cs), l'. cbn [coms map fst snd app toks]. repeat split; assumption.
Qed.
Lemma toks_nil l : toks l = [] -> exists cs, l = coms cs.
Proof.
  intros H. destruct (coms_or l) as (cs & l' & -> & N & E). exists cs. destruct l' as [|[x p|x p] l']; [apply app_nil_r| |destruct N].
  cbn [toks] in E. rewrite H in E. discriminate.
Qed.
Lemma tight_toks_nil l : tight l -> toks l = [] -> l = [].
Proof. intros [|l' x p] H; [reflexivity|]. rewrite toks_app in H. apply app_eq_nil in H. destruct H as [_ H]. discriminate. Qed.
Lemma split_toks : forall a b l, toks l = a ++ b -> exists l1 l2, l = l1 ++ l2 /\ toks l1 = a /\ toks l2 = b /\ tight l1.
Proof.
  intros a b l; revert a b. induction l as [|[x p|x p] l IH]; intros a b H; cbn [toks] in H.
  - symmetry in H. apply app_eq_nil in H. destruct H as [-> ->]. exists [], []. repeat split. constructor.
  - destruct a as [|y a].
    + exists [], (Tok x p :: l). cbn [app] in H. subst b. repeat split. constructor.
    + injection H as -> H. destruct (IH _ _ H) as (l1 & l2 & -> & E1 & E2 & T1). exists (Tok y p :: l1), l2. cbn [toks]. rewrite E1.
      repeat split; [exact E2|]. destruct T1 as [|l1 z q]; [apply (tight_tok [])|]. apply (tight_tok (Tok y p :: l1)).
  - destruct a as [|y a].
    + exists [], (Com x p :: l). cbn [app] in H. repeat split; [exact H|]. constructor.
    + destruct (IH _ _ H) as (l1 & l2 & -> & E1 & E2 & T1). exists (Com x p :: l1), l2. repeat split; [exact E1|exact E2|].
      destruct T1 as [|l1 z q]; [discriminate|]. apply (tight_tok (Com x p :: l1)).
Qed.
Lemma split_tight a b l : toks l = a ++ b -> tight l -> exists l1 l2, l = l1 ++ l2 /\ toks l1 = a /\ toks l2 = b /\ tight l1 /\ tight l2.
Proof. intros H TL. destruct (split_toks _ _ _ H) as (l1 & l2 & -> & E1 & E2 & T1). exists l1, l2. repeat split; auto. exact (tight_r _ _ TL). Qed.
Lemma T_toks ts x p : T ts x p -> toks ts = [x].
Proof. intros (cs & ->). rewrite toks_app, toks_coms. reflexivity. Qed.
Lemma T_of l x : toks l = [x] -> tight l -> exists p, T l x p.
Proof.
  intros E H. destruct H as [|l y p]; [discriminate|]. rewrite toks_app in E. cbn [toks] in E. exists p.
  destruct (toks l) as [|z zs] eqn:N; [|destruct zs; discriminate]. injection E as ->. apply toks_nil in N. destruct N as [cs ->]. exists cs. reflexivity.
Qed.
Lemma T_move ts x p ts' : T ts x p -> toks ts' = toks ts -> tight ts' -> exists p', T ts' x p'.
Proof. intros H E H'. apply T_of; [|exact H']. rewrite E. exact (T_toks _ _ _ H). Qed.
Lemma K_move ts x ts' : K ts x -> toks ts' = toks ts -> tight ts' -> K ts' x.
Proof. intros (p & H) E H'. exact (T_move _ _ _ _ H E H'). Qed.
Lemma T_last ts x p l : T ts x p -> last_tok (l ++ ts) = Some (x, p).
Proof.
  intros (cs & ->). rewrite app_assoc. generalize (l ++ coms cs). clear. induction l as [|[y q|y q] l IH]; cbn [app last_tok]; [reflexivity|rewrite IH; reflexivity|exact IH].
Qed.
Lemma not_first_move ts ts' l : toks ts' = toks ts -> not_first ts l -> not_first ts' l.
Proof. unfold not_first. rewrite !next_toks. intros ->. exact (fun H => H). Qed.
Lemma opens_move ts ts' o : toks ts' = toks ts -> opens ts o -> opens ts' o.
Proof. unfold opens. rewrite !next_toks. intros ->. exact (fun H => H). Qed.
Lemma closed_move perm junk ts ts' r r' : toks ts' = toks ts -> toks r' = toks r -> closed perm junk ts r -> closed perm junk ts' r'.
Proof.
  unfold closed. intros E E' [H|[H|H]]; [auto|auto|]. right. right. rewrite next_toks in *. rewrite E'.
  pose proof (last_toks ts) as L. pose proof (last_toks ts') as L'. rewrite E in L'. rewrite <- L in L'.
  destruct (last_tok ts) as [[x p]|], (last_tok ts') as [[x' p']|]; try discriminate; [|exact I]. injection L' as ->. exact H.
Qed.
Lemma inline_of l its : exists il rest, its = icom il ++ rest /\ Inline l il rest /\ toks rest = toks its.
Proof.
  destruct its as [|[x p|x p] its].
  - exists None, []. repeat split.
  - exists None, (Tok x p :: its). repeat split.
  - destruct (Z.eq_dec (Line p) l) as [E|N].
    + exists (Some (x, p)), its. repeat split. exact E.
    + exists None, (Com x p :: its). repeat split. exact N.
Qed.

Ltac untok :=
  repeat match goal with
  | H : toks _ = toks (_ ++ _) |- _ => rewrite toks_app in H
  | H : toks _ = toks (coms _) ++ _ |- _ => rewrite toks_coms in H; cbn [app] in H
  | H : toks _ = toks (icom _) ++ _ |- _ => rewrite toks_icom in H; cbn [app] in H
  end.
(** split off the tokens of one part *)
Ltac part H HT l1 H1 T1 :=
  rewrite ?toks_app in H;
  let l2 := fresh "z" in let E := fresh "E" in let F := fresh "F" in
  destruct (split_tight _ _ _ H HT) as (l1 & l2 & E & H1 & F & T1 & ?);
  clear H HT; rename F into H;
  match goal with X : tight l2 |- _ => rename X into HT end;
  match type of E with ?x = _ => subst x end;
  try rename l2 into l.

Section Move.
Variables perm bic junk : bool.

Lemma FullIdent_move ts v p : FullIdent ts v p -> forall ts', toks ts' = toks ts -> tight ts' -> exists p', FullIdent ts' v p'.
Proof.
  induction 1 as [ts x p H I|ts x p td t2 v p' H I HD H2 IH]; intros ts' E HT.
  - destruct (T_move _ _ _ _ H E HT) as (p' & H'). exists p'. constructor; assumption.
  - part E HT a Ea Ta. part E HT b Eb Tb. destruct (T_move _ _ _ _ H Ea Ta) as (q & Ha). destruct (IH _ E HT) as (q' & H').
    exists q. eapply fi_dot; eauto. eapply K_move; eauto.
Qed.
Lemma MessageType_move ts v p : MessageType ts v p -> forall ts', toks ts' = toks ts -> tight ts' -> exists p', MessageType ts' v p'.
Proof.
  intros [ts0 v0 p0 H|td p0 ts0 v0 p1 HD H] ts' E HT.
  - destruct (FullIdent_move _ _ _ H _ E HT) as (q & H'). exists q. constructor. exact H'.
  - part E HT a Ea Ta. destruct (T_move _ _ _ _ HD Ea Ta) as (q & Ha). destruct (FullIdent_move _ _ _ H _ E HT) as (q' & H'). exists q. econstructor; solve [eauto].
Qed.
Lemma Type_move ts v p : Type_ ts v p -> forall ts', toks ts' = toks ts -> tight ts' -> exists p', Type_ ts' v p'.
Proof.
  intros [ts0 x p0 H W|ts0 v0 p0 H N] ts' E HT.
  - destruct (T_move _ _ _ _ H E HT) as (q & H'). exists q. constructor; assumption.
  - destruct (MessageType_move _ _ _ H _ E HT) as (q & H'). exists q. apply ty_message; [exact H'|]. exact (not_first_move _ _ _ E N).
Qed.
Lemma Strings_move ts v p : Strings ts v p -> forall ts', toks ts' = toks ts -> tight ts' -> exists p', Strings ts' v p'.
Proof.
  induction 1 as [ts x p H I|ts x p t2 v p' H I H2 IH]; intros ts' E HT.
  - destruct (T_move _ _ _ _ H E HT) as (p' & H'). exists p'. constructor; assumption.
  - part E HT a Ea Ta. destruct (T_move _ _ _ _ H Ea Ta) as (q & Ha). destruct (IH _ E HT) as (q' & H'). exists q. econstructor; solve [eauto].
Qed.
Ltac mv :=
  match goal with
  | H : T ?t ?x ?p, E : toks ?l = toks ?t, HT : tight ?l |- _ =>
    let q := fresh "q" in let H' := fresh "M" in destruct (T_move _ _ _ _ H E HT) as (q & H'); clear H
  | H : K ?t ?x, E : toks ?l = toks ?t, HT : tight ?l |- _ =>
    let H' := fresh "M" in pose proof (K_move _ _ _ H E HT) as H'; clear H
  | H : FullIdent ?t ?x ?p, E : toks ?l = toks ?t, HT : tight ?l |- _ =>
    let q := fresh "q" in let H' := fresh "M" in destruct (FullIdent_move _ _ _ H _ E HT) as (q & H'); clear H
  | H : MessageType ?t ?x ?p, E : toks ?l = toks ?t, HT : tight ?l |- _ =>
    let q := fresh "q" in let H' := fresh "M" in destruct (MessageType_move _ _ _ H _ E HT) as (q & H'); clear H
  | H : Type_ ?t ?x ?p, E : toks ?l = toks ?t, HT : tight ?l |- _ =>
    let q := fresh "q" in let H' := fresh "M" in destruct (Type_move _ _ _ H _ E HT) as (q & H'); clear H
  | H : Strings ?t ?x ?p, E : toks ?l = toks ?t, HT : tight ?l |- _ =>
    let q := fresh "q" in let H' := fresh "M" in destruct (Strings_move _ _ _ H _ E HT) as (q & H'); clear H
  | H : forall ts', toks ts' = toks ?t -> tight ts' -> ?G ts', E : toks ?l = toks ?t, HT : tight ?l |- _ =>
    let H' := fresh "M" in pose proof (H _ E HT) as H'; clear H
  | H : not_first ?t ?x, E : toks ?l = toks ?t, HT : tight ?l |- _ =>
    let H' := fresh "M" in pose proof (not_first_move _ _ _ E H) as H'; clear H
  | H : opens ?t ?x, E : toks ?l = toks ?t, HT : tight ?l |- _ =>
    let H' := fresh "M" in pose proof (opens_move _ _ _ E H) as H'; clear H
  end.
Ltac parts :=
  repeat match goal with
  | E : toks ?l = toks (_ ++ _), HT : tight ?l |- _ =>
    let a := fresh "a" in let Ea := fresh "Ea" in let Ta := fresh "Ta" in part E HT a Ea Ta
  | E : toks ?l = toks _ ++ _, HT : tight ?l |- _ =>
    let a := fresh "a" in let Ea := fresh "Ea" in let Ta := fresh "Ta" in part E HT a Ea Ta
  end.
Ltac go := intros; parts; repeat mv.

Lemma Constant_move ts v : Constant perm ts v -> forall ts', toks ts' = toks ts -> tight ts' -> Constant perm ts' v.
Proof. intros [ts0 x p P H I|ts0 xs p P H|ts0 x p H I|ts0 x p H W|ts0 v0 p H N|ts0 s p ts2 x p' H W H' I]; go; econstructor; solve [eauto]. Qed.
Lemma NamePart_move ts v : NamePart perm ts v -> forall ts', toks ts' = toks ts -> tight ts' -> NamePart perm ts' v.
Proof. intros [ts0 x p H I|t1 t2 v0 p t3 H1 H2 H3|t1 t2 t3 v0 p t4 P H1 H2 H3 H4]; go; [eapply np_ident|eapply np_paren|eapply np_dotted]; eauto. Qed.
Lemma OptionName_move ts v : OptionName perm ts v -> forall ts', toks ts' = toks ts -> tight ts' -> OptionName perm ts' v.
Proof.
  induction 1 as [ts v H|ts v td t2 v' H HD H2 IH]; intros; parts.
  - apply on_one. eapply NamePart_move; eauto.
  - apply on_more; [eapply NamePart_move; eauto|eapply K_move; eauto|eauto].
Qed.
Lemma Value_move :
  (forall ts v, Value perm junk ts v -> forall ts', toks ts' = toks ts -> tight ts' -> Value perm junk ts' v) /\
  (forall ts v, Values perm junk ts v -> forall ts', toks ts' = toks ts -> tight ts' -> Values perm junk ts' v) /\
  (forall ts v, Entries perm junk ts v -> forall ts', toks ts' = toks ts -> tight ts' -> Entries perm junk ts' v) /\
  (forall o ts v, Entry perm junk o ts v -> forall ts', toks ts' = toks ts -> tight ts' -> Entry perm junk o ts' v).
Proof.
  apply Value_mutind; try (go; econstructor; solve [eauto]).
  - intros ts v H ts' E HT. apply v_constant. eapply Constant_move; eauto.
Qed.
Definition V_move := proj1 Value_move.

Lemma FieldOption_move ts o : FieldOption perm junk ts o -> forall ts', toks ts' = toks ts -> tight ts' -> FieldOption perm junk ts' o.
Proof. intros [t1 name t2 t3 v H1 H2 H3]; go. constructor; [eapply OptionName_move; eauto|assumption|eapply V_move; eauto]. Qed.
Lemma FieldOptionList_move ts os : FieldOptionList perm junk ts os -> forall ts', toks ts' = toks ts -> tight ts' -> FieldOptionList perm junk ts' os.
Proof.
  induction 1 as [ts o H|ts o td t2 os H HD H2 IH]; intros; parts.
  - apply fol_one. eapply FieldOption_move; eauto.
  - apply fol_more; [eapply FieldOption_move; eauto|eapply K_move; eauto|eauto].
Qed.
Lemma FieldOptions_move ts os : FieldOptions perm junk ts os -> forall ts', toks ts' = toks ts -> tight ts' -> FieldOptions perm junk ts' os.
Proof.
  intros [|t1 t2 os0 t3 H1 H2 H3] ts' E HT.
  - rewrite (tight_toks_nil _ HT E). constructor.
  - go. apply fos_some; [assumption|eapply FieldOptionList_move; eauto|assumption].
Qed.
Lemma Label_move ts rest p a b c : Label ts rest p a b c -> forall ts' rest', toks ts' = toks ts -> tight ts' -> toks rest' = toks rest ->
  exists p', Label ts' rest' p' a b c.
Proof.
  intros [t p0 r H|t p0 r H|t p0 r H|x p0 r F N] ts' r' E HT Er.
  - mv. eexists. apply lb_repeated. eassumption.
  - mv. eexists. apply lb_required. eassumption.
  - mv. eexists. apply lb_optional. eassumption.
  - rewrite (tight_toks_nil _ HT E).
    assert (X : forall l, option_map fst (first_tok l) = hd_error (toks l)) by (clear; intros l; induction l as [|[y q|y q] l IH]; [reflexivity|reflexivity|exact IH]).
    pose proof (X r) as X1. pose proof (X r') as X2. rewrite Er, <- X1, F in X2. destruct (first_tok r') as [[y q]|] eqn:F'; [|discriminate].
    injection X2 as ->. exists q. eapply lb_none; eassumption.
Qed.
Lemma FieldEnd_move ts name num os p : FieldEnd perm junk ts name num os p -> forall ts', toks ts' = toks ts -> tight ts' -> exists p', FieldEnd perm junk ts' name num os p'.
Proof. intros [t1 n p1 t2 t3 nu p3 t4 o t5 p5 H1 I1 H2 H3 I3 H4 H5]; go. eexists. econstructor; eauto. eapply FieldOptions_move; eauto. Qed.
Lemma Close_move ts p : Close perm ts p -> forall ts', toks ts' = toks ts -> tight ts' -> exists p', Close perm ts' p'.
Proof. intros [t p0 H|t p0 t' p' P H H']; go; eexists; [apply close_brace|eapply close_semi]; eauto. Qed.
Lemma Sign_move ts s : Sign ts s -> forall ts', toks ts' = toks ts -> tight ts' -> Sign ts' s.
Proof. intros [|t H] ts' E HT; [rewrite (tight_toks_nil _ HT E); constructor|]. mv. constructor. assumption. Qed.
Lemma Range_move ts r : Range ts r -> forall ts', toks ts' = toks ts -> tight ts' -> Range ts' r.
Proof. intros [t x p H I|t1 x p t2 t3 y p3 H1 I1 H2 H3 I3]; go; [eapply rg_one|eapply rg_to]; eauto. Qed.
Lemma Ranges_move ts r : Ranges ts r -> forall ts', toks ts' = toks ts -> tight ts' -> Ranges ts' r.
Proof.
  induction 1 as [ts r H|ts r td t2 rs H HD H2 IH]; intros; parts.
  - apply rgs_one. eapply Range_move; eauto.
  - apply rgs_more; [eapply Range_move; eauto|eapply K_move; eauto|eauto].
Qed.
Lemma FieldNames_move ts r : FieldNames junk ts r -> forall ts', toks ts' = toks ts -> tight ts' -> FieldNames junk ts' r.
Proof.
  induction 1 as [ts x p H I|ts x p td t2 rs H I HD H2 IH]; go.
  - eapply fns_one; eauto.
  - match goal with Ed : toks ?l = toks td, Td : tight ?l |- _ => rename Ed into Ed, Td into Td end.
    eapply fns_more; eauto. destruct HD as [HD|[J ->]]; [left; eapply K_move; eauto|right]. split; [exact J|]. apply tight_toks_nil; assumption.
Qed.
Lemma Lost_move ts : Lost ts -> forall ts', toks ts' = toks ts -> tight ts' -> Lost ts'.
Proof.
  induction 1 as [|ts rs td H HD|ts t1 x p t2 t3 y p3 H IH H1 I1 H2 H3]; intros ts' E HT.
  - rewrite (tight_toks_nil _ HT E). constructor.
  - go. eapply lost_comma; [eapply Ranges_move; eauto|assumption].
  - go. eapply lost_to; eauto.
Qed.

Definition moves {A} (P : list comment -> option comment -> list item -> A -> Prop) (f : A -> A) : Prop :=
  forall cs il ts x, P cs il ts x -> forall cs' il' ts', toks ts' = toks ts -> tight ts' -> exists x', P cs' il' ts' x' /\ f x' = f x.

Lemma Option_move : moves (Option perm junk) bare_option.
Proof.
  intros cs il ts x [t1 p1 t2 name t3 t4 v t5 p5 H1 H2 H3 H4 H5] cs' il' ts' E HT. go. eexists. split; [|shelve].
  econstructor; eauto; [eapply OptionName_move; eauto|eapply V_move; eauto].
  Unshelve. reflexivity.
Qed.
Lemma Syntax_move : moves (Syntax junk) bare_syntax.
Proof. intros cs il ts x [] cs' il' ts' E HT. go. eexists. split; [econstructor; eauto|reflexivity]. Qed.
Lemma Edition_move : moves (Edition junk) bare_edition.
Proof. intros cs il ts x [] cs' il' ts' E HT. go. eexists. split; [econstructor; eauto|reflexivity]. Qed.
Lemma ImportMod_move ts m : ImportMod junk ts m -> forall ts', toks ts' = toks ts -> tight ts' -> ImportMod junk ts' m.
Proof. intros [| | |] ts' E HT; [rewrite (tight_toks_nil _ HT E); constructor| | |]; mv; [apply imod_public|apply imod_weak|eapply imod_junk]; eauto. Qed.
Lemma Import_move : moves (Import junk) bare_import.
Proof. intros cs il ts x [] cs' il' ts' E HT. go. eexists. split; [econstructor; eauto; eapply ImportMod_move; eauto|reflexivity]. Qed.
Lemma Package_move : moves Package bare_package.
Proof. intros cs il ts x [] cs' il' ts' E HT. go. eexists. split; [econstructor; eauto|reflexivity]. Qed.
Lemma Field_move : moves (Field perm junk) bare_field.
Proof.
  intros cs il ts x [t1 p1 rp rq op t2 ty p2 t3 name num os p3 H1 H2 H3] cs' il' ts' E HT. parts.
  destruct (Label_move _ _ _ _ _ _ H1 _ a0 Ea Ta Ea0) as (q1 & L). destruct (Type_move _ _ _ H2 _ Ea0 Ta0) as (q2 & L2).
  destruct (FieldEnd_move _ _ _ _ _ H3 _ E HT) as (q3 & L3). eexists. split; [econstructor; eauto|reflexivity].
Qed.
Lemma MapField_move : moves (MapField perm junk) bare_mapField.
Proof.
  intros cs il ts x [t1 p1 t2 t3 kt p3 t4 t5 ty p5 t6 t7 name num os p7 H1 H2 H3 I3 H4 H5 H6 H7] cs' il' ts' E HT. go.
  destruct (FieldEnd_move _ _ _ _ _ H7 _ E HT) as (q7 & L7). eexists. split; [econstructor; eauto|reflexivity].
Qed.
Lemma OneofField_move : moves (OneofField perm junk) bare_oneofField.
Proof.
  intros cs il ts x [t1 ty p1 t2 name num os p2 H1 H2] cs' il' ts' E HT. go.
  destruct (FieldEnd_move _ _ _ _ _ H2 _ E HT) as (q7 & L7). eexists. split; [econstructor; eauto|reflexivity].
Qed.
Lemma Reserved_move : moves (Reserved junk) bare_reserved.
Proof.
  intros cs il ts x [t1 p1 t2 rs t3 p3 H1 H2 H3|t1 p1 tj t2 xs t3 p3 H1 HJ H2 H3] cs' il' ts' E HT; go.
  - eexists. split; [eapply reserved_ranges; eauto; eapply Ranges_move; eauto|reflexivity].
  - eexists. split; [eapply reserved_names; eauto; [|eapply FieldNames_move; eauto]|reflexivity].
    destruct HJ as [[J HJ]| ->]; [left; split; [exact J|eapply Lost_move; eauto]|right; apply tight_toks_nil; assumption].
Qed.
Lemma EnumField_move : moves (EnumField perm junk) bare_enumField.
Proof.
  intros cs il ts x [t1 name p1 t2 t3 sg t4 num p4 t5 os t6 p6 H1 I1 H2 H3 H4 I4 H5 H6] cs' il' ts' E HT; go.
  eexists. split; [econstructor; eauto; [eapply Sign_move|eapply FieldOptions_move]; eauto|reflexivity].
Qed.
Lemma DeclField_move ts kv : DeclField ts kv -> forall ts', toks ts' = toks ts -> tight ts' -> DeclField ts' kv.
Proof. intros [] ts' E HT; go; [eapply df_number|eapply df_string|eapply df_bool]; eauto. Qed.
Lemma DeclFields_move f ts kv : DeclFields junk f ts kv -> forall ts', toks ts' = toks ts -> tight ts' -> DeclFields junk f ts' kv.
Proof.
  induction 1 as [f|f sep ts kv t2 kvs HS H H2 IH]; intros ts' E HT.
  - rewrite (tight_toks_nil _ HT E). constructor.
  - parts. apply dfs_cons; [|eapply DeclField_move; eauto|eauto].
    destruct HS as [[HS X]|[-> X]]; [left; split; [eapply K_move; eauto|exact X]|right; split; [apply tight_toks_nil; assumption|exact X]].
Qed.
Lemma Declaration_move : moves (Declaration junk) bare_declaration.
Proof.
  intros cs il ts x [t1 p1 t2 t3 p3 lc t4 kvs t5 p5 H1 H2 H3 H4 H5 H6] cs' il' ts' E HT.
  part E HT a Ea Ta. part E HT b Eb Tb. part E HT c Ec Tc. rewrite toks_icom in E. cbn [app] in E.
  destruct (T_move _ _ _ _ H1 Ea Ta) as (q1 & M1). pose proof (K_move _ _ _ H2 Eb Tb) as M2. destruct (T_move _ _ _ _ H3 Ec Tc) as (q3 & M3).
  destruct (inline_of (Line q3) l) as (il2 & r & -> & I2 & Er). rewrite <- Er in E. apply tight_r in HT. part E HT d Ed Td.
  destruct (T_move _ _ _ _ H6 E HT) as (q6 & M6).
  eexists. split; [econstructor; eauto; eapply DeclFields_move; eauto|reflexivity].
Qed.

(** comments in front of a statement *)
Lemma front l : tight l -> exists cs l', l = coms cs ++ l' /\ no_com l' /\ toks l' = toks l /\ tight l'.
Proof. intros HT. destruct (coms_or l) as (cs & l' & -> & N & E). exists cs, l'. repeat split; auto. exact (tight_r _ _ HT). Qed.
Lemma tight_last l y ys : tight l -> toks l = y :: ys -> exists x q, last_tok l = Some (x, q).
Proof. intros [|l' x p] H; [discriminate|]. exists x, p. apply (T_last [Tok x p] x p). exists []. reflexivity. Qed.
Lemma last_some_tok ts x q : last_tok ts = Some (x, q) -> exists y ys, toks ts = y :: ys.
Proof. intros H. pose proof (last_toks ts) as L. rewrite H in L. destruct (toks ts); [discriminate|]. eauto. Qed.
Lemma inlines_of l its : exists c1 c2 rest, its = icom c1 ++ icom c2 ++ rest /\ Inlines l c1 c2 rest /\ toks rest = toks its.
Proof.
  destruct (inline_of l its) as (c1 & r & -> & I1 & E1). destruct c1 as [c1|].
  - destruct (inline_of (Line (snd c1)) r) as (c2 & r2 & -> & I2 & E2). exists (Some c1), c2, r2. split; [reflexivity|]. split; [split; assumption|]. congruence.
  - exists None, None, r. repeat split; auto.
Qed.
Lemma Inline_app l c a : Inline l c a -> forall b, a <> [] -> Inline l c (a ++ b).
Proof. destruct c; [exact (fun H _ _ => H)|]. destruct a as [|[x p|x p] a]; [|exact (fun H _ _ => H)|exact (fun H _ _ => H)]. intros _ b N. exfalso. apply N. reflexivity. Qed.

Lemma Declarations_move fol ts ds : Declarations junk fol ts ds -> forall F l, F <> [] -> toks l = toks ts ++ F -> tight l ->
  exists ts' fol' ds', l = ts' ++ fol' /\ toks fol' = F /\ tight fol' /\ Declarations junk fol' ts' ds' /\ map bare_declaration ds' = map bare_declaration ds.
Proof.
  induction 1 as [cs ts d t p c1 c2 HD N HT I|cs ts d t p c1 c2 rest ds HD N HT I H IH]; intros F l NF E TL.
  - rewrite !toks_app, toks_coms, !toks_icom, !app_nil_r, <- ?app_assoc in E. cbn [app] in E.
    part E TL a Ea Ta. part E TL b Eb Tb. destruct (front _ Ta) as (cs' & a' & -> & Na & Ea' & Ta').
    destruct (T_move _ _ _ _ HT Eb Tb) as (q & Hb). destruct (inlines_of (Line q) l) as (c1' & c2' & r & -> & II & Er).
    destruct (Declaration_move _ _ _ _ HD (nodes cs') (inode (last_some c1' c2')) a' (eq_trans Ea' Ea) Ta') as (d' & HD' & ED).
    exists (coms cs' ++ a' ++ b ++ icom c1' ++ icom c2'), r, [d']. repeat split.
    + rewrite <- !app_assoc. reflexivity.
    + rewrite Er. exact E.
    + apply tight_r in TL. apply tight_r in TL. exact TL.
    + eapply ds_last; eauto.
    + cbn. rewrite ED. reflexivity.
  - rewrite !toks_app, toks_coms, !toks_icom, <- !app_assoc in E. cbn [app] in E.
    part E TL a Ea Ta. part E TL b Eb Tb. destruct (front _ Ta) as (cs' & a' & -> & Na & Ea' & Ta').
    destruct (T_move _ _ _ _ HT Eb Tb) as (q & Hb). destruct (inlines_of (Line q) l) as (c1' & c2' & r & -> & II & Er).
    destruct (Declaration_move _ _ _ _ HD (nodes cs') (inode (last_some c1' c2')) a' (eq_trans Ea' Ea) Ta') as (d' & HD' & ED).
    apply tight_r in TL. apply tight_r in TL. rewrite <- Er in E. destruct (IH F r NF E TL) as (ts' & fol' & ds' & -> & EF & TF & HR & ER).
    exists (coms cs' ++ a' ++ b ++ icom c1' ++ icom c2' ++ ts'), fol', (d' :: ds'). repeat split.
    + rewrite <- !app_assoc. reflexivity.
    + exact EF.
    + exact TF.
    + eapply ds_more; eauto.
    + cbn. rewrite ED, ER. reflexivity.
Qed.
Lemma Extensions_move : moves (Extensions junk) bare_extensions.
Proof.
  intros cs il ts x [t1 p1 t2 rs t3 p3 H1 H2 H3|t1 p1 t2 rs t3 p3 lc t4 ds t5 p5 H1 H2 H3 I H4 H5] cs' il' ts' E HT.
  - go. eexists. split; [eapply extensions_ranges; eauto; eapply Ranges_move; eauto|reflexivity].
  - part E HT a Ea Ta. part E HT b Eb Tb. part E HT c Ec Tc. rewrite toks_icom in E. cbn [app] in E.
    destruct (T_move _ _ _ _ H1 Ea Ta) as (q1 & M1). destruct (T_move _ _ _ _ H3 Ec Tc) as (q3 & M3).
    destruct (inline_of (Line q3) l) as (il2 & r & -> & I2 & Er). rewrite <- Er in E. apply tight_r in HT.
    assert (NE : toks t5 <> []) by (rewrite (T_toks _ _ _ H5); discriminate).
    destruct (Declarations_move _ _ _ H4 _ _ NE E HT) as (t4' & t5' & ds' & -> & E5 & T5 & H4' & EQ).
    destruct (T_move _ _ _ _ H5 E5 T5) as (q5 & M5).
    eexists. split; [eapply extensions_decls; eauto; eapply Ranges_move; eauto|]. unfold bare_extensions. cbn. rewrite EQ. reflexivity.
Qed.
(** ** Oneof *)
Lemma OneofElems_move :
  (forall ts fs os, OneofElems perm junk ts fs os -> forall ts', toks ts' = toks ts -> tight ts' ->
    exists fs' os', OneofElems perm junk ts' fs' os' /\ map bare_oneofField fs' = map bare_oneofField fs /\ map bare_option os' = map bare_option os) /\
  (forall ts fs os, OneofRest perm junk ts fs os -> forall ts', toks ts' = toks ts -> tight ts' ->
    exists fs' os', OneofRest perm junk ts' fs' os' /\ map bare_oneofField fs' = map bare_oneofField fs /\ map bare_option os' = map bare_option os).
Proof.
  apply Oneof_mutind.
  - intros cs p ts fs os H IH ts' E HT. rewrite toks_app, toks_coms in E. change (toks ts' = [lit ";"] ++ toks ts) in E. part E HT a Ea Ta.
    destruct (T_of _ _ Ea Ta) as (q & cs' & ->). destruct (IH _ E HT) as (fs' & os' & H' & E1 & E2). exists fs', os'.
    rewrite <- app_assoc. split; [apply oe_skip; exact H'|auto].
  - intros cs ts o x q il rest fs os H N L I HR IH ts' E HT. rewrite !toks_app, toks_coms, toks_icom in E. cbn [app] in E. part E HT a Ea Ta.
    destruct (front _ Ta) as (cs' & a' & -> & Na & Ea' & Ta'). destruct (last_some_tok _ _ _ L) as (y & ys & Ey).
    destruct (tight_last a' y ys Ta') as (x' & q' & L'); [rewrite Ea', Ea; exact Ey|].
    destruct (inline_of (Line q') l) as (il' & r & -> & I' & Er). rewrite <- Er in E. apply tight_r in HT. destruct (IH _ E HT) as (fs' & os' & H' & E1 & E2).
    destruct (Option_move _ _ _ _ H (nodes cs') (inode il') a' (eq_trans Ea' Ea) Ta') as (o' & HO & EO).
    exists fs', (o' :: os'). rewrite <- app_assoc. split; [eapply oe_option; eauto|]. cbn. rewrite EO, E2. auto.
  - intros cs ts f x q il rest fs os H N NF L I HR IH ts' E HT. rewrite !toks_app, toks_coms, toks_icom in E. cbn [app] in E. part E HT a Ea Ta.
    destruct (front _ Ta) as (cs' & a' & -> & Na & Ea' & Ta'). destruct (last_some_tok _ _ _ L) as (y & ys & Ey).
    destruct (tight_last a' y ys Ta') as (x' & q' & L'); [rewrite Ea', Ea; exact Ey|].
    destruct (inline_of (Line q') l) as (il' & r & -> & I' & Er). rewrite <- Er in E. apply tight_r in HT. destruct (IH _ E HT) as (fs' & os' & H' & E1 & E2).
    destruct (OneofField_move _ _ _ _ H (nodes cs') (inode il') a' (eq_trans Ea' Ea) Ta') as (o' & HO & EO).
    exists (o' :: fs'), os'. rewrite <- app_assoc. split; [eapply oe_field; eauto; eapply not_first_move; [|exact NF]; rewrite Ea', Ea; reflexivity|]. cbn. rewrite EO, E1. auto.
  - intros ts p H ts' E HT. destruct (Close_move _ _ H _ E HT) as (p' & H'). exists [], []. split; [eapply or_end; exact H'|auto].
  - intros ts fs os H IH ts' E HT. destruct (IH _ E HT) as (fs' & os' & H' & X). exists fs', os'. split; [apply or_more; exact H'|exact X].
Qed.
Lemma Oneof_move : moves (Oneof perm junk) bare_oneof.
Proof.
  intros cs il ts x [t1 p1 t2 name p2 t3 p3 lc t4 fs os y q H1 H2 I2 H3 I H4 L] cs' il' ts' E HT.
  part E HT a Ea Ta. part E HT b Eb Tb. part E HT c Ec Tc. rewrite toks_icom in E. cbn [app] in E.
  destruct (T_move _ _ _ _ H1 Ea Ta) as (q1 & M1). destruct (T_move _ _ _ _ H2 Eb Tb) as (q2 & M2). destruct (T_move _ _ _ _ H3 Ec Tc) as (q3 & M3).
  destruct (inline_of (Line q3) l) as (il2 & r & -> & I3 & Er). rewrite <- Er in E. apply tight_r in HT.
  destruct (proj1 OneofElems_move _ _ _ H4 _ E HT) as (fs' & os' & H' & E1 & E2). destruct (last_some_tok _ _ _ L) as (z & ys & Ey).
  destruct (tight_last r z ys HT) as (x' & q' & L'); [rewrite E; exact Ey|].
  eexists. split; [econstructor; eauto|]. unfold bare_oneof. cbn. rewrite E1, E2. reflexivity.
Qed.
(** ** Bodies *)
Definition movesto (S : list comment -> option comment -> list item -> visitee -> Prop) (ts : list item) : Prop :=
  forall cs il v, S cs il ts v -> forall cs' il' ts', toks ts' = toks ts -> tight ts' -> no_com ts' -> exists v', S cs' il' ts' v' /\ bare v' = bare v /\ (forall c, v' <> VComment c).
Lemma bare_body_cons v l : (forall c, v <> VComment c) -> bare_body (v :: l) = bare v :: bare_body l.
Proof. intros N. destruct v; try reflexivity. exfalso. eapply N. reflexivity. Qed.
Lemma bare_comment v v' : bare v' = bare v -> (forall c, v' <> VComment c) -> forall c, v <> VComment c.
Proof. intros E N c ->. destruct v'; try discriminate E. eapply N. reflexivity. Qed.
Lemma bare_body_app l l' : bare_body (l ++ l') = bare_body l ++ bare_body l'.
Proof. induction l as [|v l IH]; [reflexivity|]. cbn [app bare_body]. rewrite IH. destruct v; reflexivity. Qed.
Lemma bare_trailing tcs : bare_body (trailing bic tcs) = [].
Proof. unfold trailing. destruct bic; [|reflexivity]. induction (nodes tcs); [reflexivity|assumption]. Qed.
Lemma Stmts_move S n : (forall ts, (List.length ts < n)%nat -> movesto S ts) -> forall ts vs tcs, Stmts perm junk S ts vs tcs -> (List.length ts < n)%nat ->
  forall ts', toks ts' = toks ts -> exists vs' tcs', Stmts perm junk S ts' vs' tcs' /\ bare_body vs' = bare_body vs /\ (vs <> [] -> vs' <> []).
Proof.
  intros HS ts vs tcs H. induction H as [cs|cs ts v x q il rest vs tcs H N L I HC HR IH]; intros LE ts' E.
  - rewrite toks_coms in E. apply toks_nil in E. destruct E as [cs' ->]. exists [], cs'. split; [constructor|]. split; [reflexivity|]. intros X. exact X.
  - rewrite !toks_app, toks_coms, toks_icom in E. cbn [app] in E. destruct (split_toks _ _ _ E) as (a & l & -> & Ea & El & Ta).
    destruct (front _ Ta) as (cs' & a' & -> & Na & Ea' & Ta'). destruct (last_some_tok _ _ _ L) as (y & ys & Ey).
    destruct (tight_last a' y ys Ta') as (x' & q' & L'); [rewrite Ea', Ea; exact Ey|].
    destruct (inline_of (Line q') l) as (il' & r & -> & I' & Er). rewrite <- Er in El. rewrite !app_length in LE.
    destruct (IH ltac:(lia) _ El) as (vs' & tcs' & H' & EV & _).
    destruct (HS ts ltac:(lia) _ _ _ H (nodes cs') (inode il') a' (eq_trans Ea' Ea) Ta' Na) as (v' & HV & EQ & NC).
    exists (v' :: vs'), tcs'. rewrite <- app_assoc. split; [|split].
    + econstructor; eauto. eapply closed_move; [| |exact HC]; [rewrite Ea', Ea; reflexivity|exact El].
    + rewrite !bare_body_cons; [congruence|exact (bare_comment _ _ EQ NC)|exact NC].
    + discriminate.
Qed.
Lemma Body_move d S n : (forall ts, (List.length ts < n)%nat -> movesto S ts) -> forall ts vs lc q, Body perm bic junk d S ts vs lc q -> (List.length ts < n)%nat ->
  forall ts', toks ts' = toks ts -> tight ts' -> exists vs' lc' q', Body perm bic junk d S ts' vs' lc' q' /\ bare_body vs' = bare_body vs.
Proof.
  intros HS ts vs lc q [t1 p1 il t2 vs0 tcs t3 q0 H1 I H2 N H3 D|t1 p1 il t2 q0 D H1 I H2] LE ts' E HT; rewrite !app_length in LE.
  - part E HT a Ea Ta. rewrite toks_icom in E. cbn [app] in E. destruct (T_move _ _ _ _ H1 Ea Ta) as (q1 & M1).
    destruct (inline_of (Line q1) l) as (il2 & r & -> & I3 & Er). rewrite <- Er in E. apply tight_r in HT.
    part E HT b Eb Tb. destruct (front _ HT) as (cs & c & -> & Nc & Ec & Tc). rewrite <- Ec in E.
    assert (Eb' : toks (b ++ coms cs) = toks t2) by (rewrite toks_app, toks_coms, app_nil_r; exact Eb).
    destruct (Stmts_move S n HS _ _ _ H2 ltac:(lia) _ Eb') as (vs' & tcs' & H' & EV & NE).
    destruct (Close_move _ _ H3 _ E Tc) as (q3 & M3). rewrite app_assoc in I3 |- *.
    exists (vs' ++ trailing bic tcs'), (inode il2), q3. rewrite <- ?app_assoc. rewrite (app_assoc b). split.
    + eapply body_stmts; eauto. destruct D as [D|D]; [left; exact D|right; exact (NE D)].
    + rewrite !bare_body_app, !bare_trailing, EV. reflexivity.
  - part E HT a Ea Ta. rewrite toks_icom in E. cbn [app] in E. destruct (T_move _ _ _ _ H1 Ea Ta) as (q1 & M1).
    destruct (inline_of (Line q1) l) as (il2 & r & -> & I3 & Er). rewrite <- Er in E. apply tight_r in HT.
    destruct (Close_move _ _ H2 _ E HT) as (q3 & M3). exists [], None, q3. split; [eapply body_empty; eauto|reflexivity].
Qed.
Lemma Empty_move U il ts v : Empty junk U il ts v -> forall il' ts', toks ts' = toks ts -> tight ts' -> no_com ts' -> exists v', Empty junk U il' ts' v' /\ bare v' = bare v.
Proof.
  intros [p|t1 t p J NE HU H] il' ts' E HT N.
  - destruct (T_of _ _ E HT) as (q & cs & ->). destruct cs; [|destruct N]. eexists. split; [apply empty_intro|reflexivity].
  - part E HT a Ea Ta. destruct (T_move _ _ _ _ H E HT) as (q & M). eexists. split; [eapply empty_junk; rewrite ?Ea; eauto|reflexivity].
Qed.

Lemma bare_body_eq : forall l, (fix body (l : list visitee) : list visitee :=
  match l with [] => [] | VComment _ :: l => body l | v :: l => bare v :: body l end) l = bare_body l.
Proof. induction l as [|v l IH]; [reflexivity|]. destruct v; cbn [bare_body]; rewrite <- IH; reflexivity. Qed.
Definition bare_block (x : block) : block := mkBlock (b_name x) (bare_body (b_body x)) [] None None nowhere.
Lemma bare_message x : bare (VMessage x) = VMessage (bare_block x).
Proof. cbn [bare]. rewrite bare_body_eq. reflexivity. Qed.
Lemma bare_enum x : bare (VEnum x) = VEnum (bare_block x).
Proof. cbn [bare]. rewrite bare_body_eq. reflexivity. Qed.
Lemma bare_service x : bare (VService x) = VService (bare_block x).
Proof. cbn [bare]. rewrite bare_body_eq. reflexivity. Qed.
Lemma bare_extend x : bare (VExtend x) = VExtend (bare_block x).
Proof. cbn [bare]. rewrite bare_body_eq. reflexivity. Qed.
Lemma bare_group x : bare (VGroupField x) =
  VGroupField (mkGroupField (g_repeated x) (g_required x) (g_optional x) (g_name x) (bare_body (g_body x)) (g_number x) [] None None nowhere).
Proof. cbn [bare]. rewrite bare_body_eq. reflexivity. Qed.

Ltac nc := intros ? ?; discriminate.
Lemma EnumStmt_move ts : movesto (EnumStmt perm junk) ts.
Proof.
  intros cs il v [t o H|t r H|t f H N|t v0 H] cs' il' ts' E HT NC.
  - destruct (Option_move _ _ _ _ H cs' il' _ E HT) as (o' & H' & EQ). exists (VOption o'). split; [apply es_option; exact H'|]. split; [cbn; congruence|nc].
  - destruct (Reserved_move _ _ _ _ H cs' il' _ E HT) as (o' & H' & EQ). exists (VReserved o'). split; [apply es_reserved; exact H'|]. split; [cbn; congruence|nc].
  - destruct (EnumField_move _ _ _ _ H cs' il' _ E HT) as (o' & H' & EQ). exists (VEnumField o').
    split; [apply es_field; [exact H'|exact (not_first_move _ _ _ E N)]|]. split; [cbn; congruence|nc].
  - destruct (Empty_move _ _ _ _ H il' _ E HT NC) as (v' & H' & EQ). exists v'. split; [apply es_empty; exact H'|]. split; [exact EQ|]. destruct H'; nc.
Qed.
Lemma Enum_move : moves (Enum perm bic junk) bare_block.
Proof.
  intros cs il ts x [t1 p1 t2 name p2 t3 vs lc q H1 H2 I2 H3] cs' il' ts' E HT. go.
  destruct (Body_move false (EnumStmt perm junk) _ (fun t _ => EnumStmt_move t) _ _ _ _ H3 (Nat.lt_succ_diag_r _) _ E HT) as (vs' & lc' & q' & H' & EQ).
  eexists. split; [econstructor; eauto|]. unfold bare_block. cbn. rewrite EQ. reflexivity.
Qed.
Lemma ExtendStmt_move ts : movesto (ExtendStmt perm junk) ts.
Proof.
  intros cs il v [t f H|t v0 H] cs' il' ts' E HT NC.
  - destruct (Field_move _ _ _ _ H cs' il' _ E HT) as (o' & H' & EQ). exists (VField o'). split; [apply xs_field; exact H'|]. split; [cbn; congruence|nc].
  - destruct (Empty_move _ _ _ _ H il' _ E HT NC) as (v' & H' & EQ). exists v'. split; [apply xs_empty; exact H'|]. split; [exact EQ|]. destruct H'; nc.
Qed.
Lemma Extend_move : moves (Extend perm bic junk) bare_block.
Proof.
  intros cs il ts x [t1 p1 t2 name p2 t3 vs lc q H1 H2 H3] cs' il' ts' E HT. go.
  destruct (Body_move true (ExtendStmt perm junk) _ (fun t _ => ExtendStmt_move t) _ _ _ _ H3 (Nat.lt_succ_diag_r _) _ E HT) as (vs' & lc' & q' & H' & EQ).
  eexists. split; [econstructor; eauto|]. unfold bare_block. cbn. rewrite EQ. reflexivity.
Qed.
Lemma T_length ts x p : T ts x p -> (0 < List.length ts)%nat.
Proof. intros (cs & ->). rewrite app_length. cbn. lia. Qed.
Lemma MessageStmt_move : forall n ts, (List.length ts < n)%nat -> movesto (MessageStmt perm bic junk) ts.
Proof.
  induction n as [|n IH]; intros ts LE; [lia|].
  intros cs il v H; revert LE; destruct H as [t e H|t1 p1 t2 name p2 t3 vs lc q H1 H2 I2 H3|t o H|t o H|t o H|t o H|t o H|t o H|t o H N|t1 p1 rp rq op t2 t3 name p3 t4 t5 num p5 t6 vs lc q H1 H2 H3 I3 C3 H4 H5 I5 H6|t v0 H];
    intros LE cs' il' ts' E HT NC.
  - destruct (Enum_move _ _ _ _ H cs' il' _ E HT) as (o' & H' & EQ). exists (VEnum o'). split; [apply ms_enum; exact H'|]. rewrite !bare_enum. split; [congruence|nc].
  - rewrite !app_length in LE. pose proof (T_length _ _ _ H1). go.
    destruct (Body_move true _ n IH _ _ _ _ H3 ltac:(lia) _ E HT) as (vs' & lc' & q' & H' & EQ).
    eexists. split; [eapply ms_message; eauto|]. rewrite !bare_message. unfold bare_block. cbn. rewrite EQ. split; [reflexivity|nc].
  - destruct (Option_move _ _ _ _ H cs' il' _ E HT) as (o' & H' & EQ). exists (VOption o'). split; [apply ms_option; exact H'|]. split; [cbn; congruence|nc].
  - destruct (Oneof_move _ _ _ _ H cs' il' _ E HT) as (o' & H' & EQ). exists (VOneof o'). split; [apply ms_oneof; exact H'|]. split; [cbn; congruence|nc].
  - destruct (MapField_move _ _ _ _ H cs' il' _ E HT) as (o' & H' & EQ). exists (VMapField o'). split; [apply ms_map; exact H'|]. split; [cbn; congruence|nc].
  - destruct (Extend_move _ _ _ _ H cs' il' _ E HT) as (o' & H' & EQ). exists (VExtend o'). split; [apply ms_extend; exact H'|]. rewrite !bare_extend. split; [congruence|nc].
  - destruct (Reserved_move _ _ _ _ H cs' il' _ E HT) as (o' & H' & EQ). exists (VReserved o'). split; [apply ms_reserved; exact H'|]. split; [cbn; congruence|nc].
  - destruct (Extensions_move _ _ _ _ H cs' il' _ E HT) as (o' & H' & EQ). exists (VExtensions o'). split; [apply ms_extensions; exact H'|]. split; [cbn; congruence|nc].
  - destruct (Field_move _ _ _ _ H cs' il' _ E HT) as (o' & H' & EQ). exists (VField o'). split; [apply ms_field; [exact H'|exact (not_first_move _ _ _ E N)]|]. split; [cbn; congruence|nc].
  - assert (L2 : (0 < List.length t2)%nat) by (destruct H2 as (? & H2); exact (T_length _ _ _ H2)). rewrite !app_length in LE.
    part E HT a Ea Ta. part E HT b Eb Tb. destruct (Label_move _ _ _ _ _ _ H1 _ b Ea Ta Eb) as (q1 & M1). pose proof (K_move _ _ _ H2 Eb Tb) as M2. go.
    destruct (Body_move true _ n IH _ _ _ _ H6 ltac:(lia) _ E HT) as (vs' & lc' & q' & H' & EQ).
    eexists. split; [eapply ms_group; eauto|]. rewrite !bare_group. cbn. rewrite EQ. split; [reflexivity|nc].
  - destruct (Empty_move _ _ _ _ H il' _ E HT NC) as (v' & H' & EQ). exists v'. split; [apply ms_empty; exact H'|]. split; [exact EQ|]. destruct H'; nc.
Qed.
Lemma Message_move : moves (Message perm bic junk) bare_block.
Proof.
  intros cs il ts x [t1 p1 t2 name p2 t3 vs lc q H1 H2 I2 H3] cs' il' ts' E HT. go.
  destruct (Body_move true _ _ (MessageStmt_move _) _ _ _ _ H3 (Nat.lt_succ_diag_r _) _ E HT) as (vs' & lc' & q' & H' & EQ).
  eexists. split; [econstructor; eauto|]. unfold bare_block. cbn. rewrite EQ. reflexivity.
Qed.
(** ** Services *)
Lemma Stream_move ts rest b : Stream ts rest b -> forall ts' rest', toks ts' = toks ts -> tight ts' -> toks rest' = toks rest -> Stream ts' rest' b.
Proof. intros [t r H|r N] ts' r' E HT Er; [mv; constructor; assumption|]. rewrite (tight_toks_nil _ HT E). constructor. exact (not_first_move _ _ _ Er N). Qed.
Lemma RPCParam_move ts x : RPCParam ts x -> forall ts', toks ts' = toks ts -> tight ts' -> exists x', RPCParam ts' x' /\ bare_param x' = bare_param x.
Proof.
  intros [t1 p1 t2 st t3 v p3 t4 p4 H1 H2 H3 H4] ts' E HT. part E HT a Ea Ta. part E HT b Eb Tb. part E HT c Ec Tc.
  pose proof (Stream_move _ _ _ H2 _ _ Eb Tb Ec) as M2. go. eexists. split; [econstructor; eauto|reflexivity].
Qed.
Lemma RPCBody_move ts os : RPCBody perm junk ts os -> forall ts', toks ts' = toks ts -> tight ts' -> exists os', RPCBody perm junk ts' os' /\ map bare_option os' = map bare_option os.
Proof.
  induction 1 as [|ts o t2 os H H2 IH|ts t2 os H H2 IH]; intros ts' E HT.
  - rewrite (tight_toks_nil _ HT E). exists []. split; [constructor|reflexivity].
  - part E HT a Ea Ta. destruct (Option_move _ _ _ _ H [] None _ Ea Ta) as (o' & H' & EQ). destruct (IH _ E HT) as (os' & HR & ER).
    exists (o' :: os'). split; [constructor; assumption|cbn; congruence].
  - part E HT a Ea Ta. destruct (IH _ E HT) as (os' & HR & ER). exists os'. split; [constructor; [eapply K_move; eauto|assumption]|exact ER].
Qed.
Lemma RPC_move : moves (RPC perm junk) bare_rpc.
Proof.
  intros cs il ts x [cs1 p1 t2 name p2 t3 rq t4 t5 rs t6 t7 os lc q H2 I2 H3 H4 H5 H6] cs' il' ts' E HT.
  rewrite !toks_app, toks_coms in E. cbn [app] in E. change (toks ts' = [lit "rpc"] ++ toks t2 ++ toks t3 ++ toks t4 ++ toks t5 ++ toks t6 ++ toks t7) in E.
  part E HT a Ea Ta. part E HT b Eb Tb. part E HT c Ec Tc. part E HT d Ed Td. part E HT e Ee Te.
  destruct (T_of _ _ Ea Ta) as (q1 & cs1' & ->). destruct (T_move _ _ _ _ H2 Eb Tb) as (q2 & M2). pose proof (K_move _ _ _ H4 Ed Td) as M4.
  destruct (RPCParam_move _ _ H3 _ Ec Tc) as (rq' & M3 & E3). destruct (RPCParam_move _ _ H5 _ Ee Te) as (rs' & M5 & E5).
  destruct H6 as [t6 p6 H6|t6 p6 il6 ts6 os t7 q6 H6 I6 H7 H8].
  - cbn [toks] in E. rewrite app_nil_r in E. destruct (T_move _ _ _ _ H6 E HT) as (q6 & M6). rewrite <- (app_nil_r l).
    eexists. split; [eapply rpc_intro; eauto; eapply re_semi; eauto|]. unfold bare_rpc. cbn. congruence.
  - part E HT f Ef Tf. rewrite toks_icom in E. cbn [app] in E. destruct (T_move _ _ _ _ H6 Ef Tf) as (q7 & M6).
    destruct (inline_of (Line q7) l) as (il2 & r & -> & I3 & Er). rewrite <- Er in E. apply tight_r in HT. part E HT g Eg Tg.
    destruct (RPCBody_move _ _ H7 _ Eg Tg) as (os' & M7 & E7). destruct (Close_move _ _ H8 _ E HT) as (q8 & M8).
    eexists. split; [eapply rpc_intro; eauto; eapply re_block; eauto|]. unfold bare_rpc. cbn. congruence.
Qed.
Lemma ServiceStmt_move ts : movesto (ServiceStmt perm junk) ts.
Proof.
  intros cs il v [t o H|t r H|p] cs' il' ts' E HT NC.
  - destruct (Option_move _ _ _ _ H cs' il' _ E HT) as (o' & H' & EQ). exists (VOption o'). split; [apply ss_option; exact H'|]. split; [cbn; congruence|nc].
  - destruct (RPC_move _ _ _ _ H cs' il' _ E HT) as (o' & H' & EQ). exists (VRPC o'). split; [apply ss_rpc; exact H'|]. split; [cbn; congruence|nc].
  - destruct (T_of _ _ E HT) as (q & c & ->). destruct c; [|destruct NC]. eexists. split; [apply ss_empty|]. split; [reflexivity|nc].
Qed.
Lemma Service_move : moves (Service perm bic junk) bare_block.
Proof.
  intros cs il ts x [t1 p1 t2 name p2 t3 vs lc q H1 H2 I2 H3] cs' il' ts' E HT. go.
  destruct (Body_move false (ServiceStmt perm junk) _ (fun t _ => ServiceStmt_move t) _ _ _ _ H3 (Nat.lt_succ_diag_r _) _ E HT) as (vs' & lc' & q' & H' & EQ).
  eexists. split; [econstructor; eauto|]. unfold bare_block. cbn. rewrite EQ. reflexivity.
Qed.
(** ** Files *)
Lemma FileStmt_move ts : movesto (FileStmt perm bic junk) ts.
Proof.
  intros cs il v [t o H|t o H|t o H|t o H|t o H|t o H|t o H] cs' il' ts' E HT NC.
  - destruct (Import_move _ _ _ _ H cs' il' _ E HT) as (o' & H' & EQ). exists (VImport o'). split; [apply fs_import; exact H'|]. split; [cbn; congruence|nc].
  - destruct (Package_move _ _ _ _ H cs' il' _ E HT) as (o' & H' & EQ). exists (VPackage o'). split; [apply fs_package; exact H'|]. split; [cbn; congruence|nc].
  - destruct (Option_move _ _ _ _ H cs' il' _ E HT) as (o' & H' & EQ). exists (VOption o'). split; [apply fs_option; exact H'|]. split; [cbn; congruence|nc].
  - destruct (Message_move _ _ _ _ H cs' il' _ E HT) as (o' & H' & EQ). exists (VMessage o'). split; [apply fs_message; exact H'|]. rewrite !bare_message. split; [congruence|nc].
  - destruct (Enum_move _ _ _ _ H cs' il' _ E HT) as (o' & H' & EQ). exists (VEnum o'). split; [apply fs_enum; exact H'|]. rewrite !bare_enum. split; [congruence|nc].
  - destruct (Service_move _ _ _ _ H cs' il' _ E HT) as (o' & H' & EQ). exists (VService o'). split; [apply fs_service; exact H'|]. rewrite !bare_service. split; [congruence|nc].
  - destruct (Extend_move _ _ _ _ H cs' il' _ E HT) as (o' & H' & EQ). exists (VExtend o'). split; [apply fs_extend; exact H'|]. rewrite !bare_extend. split; [congruence|nc].
Qed.
(** either the statements move, or a comment stands behind a semicolon on its line *)
Definition stop (ts' : list item) (P : list item -> list visitee -> Prop) : Prop :=
  exists its p x q R ws, ts' = its ++ Tok (lit ";") p :: Com x q :: R /\ Line q = Line p /\ P (its ++ [Tok (lit ";") p]) (ws ++ [VEmpty (mkEmpty None); VNil]).
Lemma FileStmts_move ts vs tcs : FileStmts perm bic junk ts vs tcs -> forall ts', toks ts' = toks ts ->
  (exists vs' tcs', FileStmts perm bic junk ts' vs' tcs' /\ bare_body vs' = bare_body vs) \/
  (In VNil vs /\ stop ts' (fun l ws => FileStmts perm bic junk l ws [])).
Proof.
  induction 1 as [cs|cs ts v x q il rest vs tcs H N L I HC HR IH|cs p rest vs tcs NC HR IH]; intros ts' E.
  - rewrite toks_coms in E. apply toks_nil in E. destruct E as [cs' ->]. left. exists [], cs'. split; [constructor|reflexivity].
  - rewrite !toks_app, toks_coms, toks_icom in E. cbn [app] in E. destruct (split_toks _ _ _ E) as (a & l & -> & Ea & El & Ta).
    destruct (front _ Ta) as (cs' & a' & -> & Na & Ea' & Ta'). destruct (last_some_tok _ _ _ L) as (y & ys & Ey).
    destruct (tight_last a' y ys Ta') as (x' & q' & L'); [rewrite Ea', Ea; exact Ey|].
    destruct (inline_of (Line q') l) as (il' & r & -> & I' & Er). rewrite <- Er in El.
    destruct (FileStmt_move ts _ _ _ H (nodes cs') (inode il') a' (eq_trans Ea' Ea) Ta' Na) as (v' & HV & EQ & NC).
    assert (CM : forall r', toks r' = toks rest -> closed perm junk a' r') by (intros r' ER; eapply closed_move; [| |exact HC]; [rewrite Ea', Ea; reflexivity|exact ER]).
    destruct (IH _ El) as [(vs' & tcs' & H' & EV)|(IN & its & p & x0 & q0 & R & ws & -> & LQ & HS)].
    + left. exists (v' :: vs'), tcs'. rewrite <- app_assoc. split.
      * econstructor; eauto.
      * rewrite !bare_body_cons; [congruence|exact (bare_comment _ _ EQ NC)|exact NC].
    + right. split; [right; exact IN|]. exists (coms cs' ++ a' ++ icom il' ++ its), p, x0, q0, R, (v' :: ws). rewrite <- !app_assoc. split; [reflexivity|]. split; [exact LQ|].
      cbn [app]. eapply fss_cons; eauto.
      * destruct il'; [exact I'|]. destruct its as [|[]]; [exact Logic.I|exact Logic.I|exact I'].
      * destruct (CM _ El) as [J|[P|C2]]; [left; exact J|right; left; exact P|]. right. right.
        rewrite next_toks in *. rewrite toks_app in *. destruct (last_tok a') as [[z qz]|]; [|exact Logic.I]. destruct (toks its); exact C2.
  - change (toks ts' = toks (coms cs ++ [Tok (lit ";") p] ++ rest)) in E. rewrite !toks_app, toks_coms in E. cbn [app toks] in E. change (toks ts' = [lit ";"] ++ toks rest) in E.
    destruct (split_toks _ _ _ E) as (a & l & -> & Ea & El & Ta). destruct (T_of _ _ Ea Ta) as (q & cs' & ->). rewrite <- app_assoc. cbn [app].
    destruct l as [|[x q'|x q'] l].
    + destruct (IH _ El) as [(vs' & tcs' & H' & EV)|(IN & its & p' & x0 & q0 & R & ws & X & _)]; [|destruct its; discriminate].
      left. eexists _, tcs'. split; [apply fss_empty; [exact Logic.I|exact H']|]. cbn. rewrite EV. reflexivity.
    + destruct (IH _ El) as [(vs' & tcs' & H' & EV)|(IN & its & p' & x0 & q0 & R & ws & X & LQ & HS)].
      * left. eexists _, tcs'. split; [apply fss_empty; [exact Logic.I|exact H']|]. cbn. rewrite EV. reflexivity.
      * right. split; [right; left; reflexivity|]. exists (coms cs' ++ Tok (lit ";") q :: its), p', x0, q0, R, (VEmpty (mkEmpty None) :: VNil :: ws).
        rewrite X, <- !app_assoc. split; [reflexivity|]. split; [exact LQ|]. cbn [app]. apply fss_empty; [|exact HS]. destruct its as [|i its]; [exact Logic.I|]. injection X as <- _. exact Logic.I.
    + destruct (Z.eq_dec (Line q') (Line q)) as [EL|NL].
      * right. split; [right; left; reflexivity|]. exists (coms cs'), q, x, q', l, []. split; [reflexivity|]. split; [exact EL|]. cbn [app]. apply fss_empty; [exact Logic.I|]. apply (fss_nil _ _ _ []).
      * destruct (IH _ El) as [(vs' & tcs' & H' & EV)|(IN & its & p' & x0 & q0 & R & ws & X & LQ & HS)].
        -- left. eexists _, tcs'. split; [apply fss_empty; [exact NL|exact H']|]. cbn. rewrite EV. reflexivity.
        -- right. split; [right; left; reflexivity|]. exists (coms cs' ++ Tok (lit ";") q :: its), p', x0, q0, R, (VEmpty (mkEmpty None) :: VNil :: ws).
           rewrite X, <- !app_assoc. split; [reflexivity|]. split; [exact LQ|]. cbn [app]. apply fss_empty; [|exact HS]. destruct its as [|i its]; [exact Logic.I|]. injection X as <- _. exact NL.
Qed.

Lemma Bom_move ts : Bom ts -> forall ts', toks ts' = toks ts -> tight ts' -> Bom ts'.
Proof.
  intros [|cs p] ts' E HT; [rewrite (tight_toks_nil _ HT E); constructor|]. rewrite toks_app, toks_coms in E. destruct (T_of _ _ E HT) as (q & cs' & ->). constructor.
Qed.
(** a header statement and its inline comment *)
Lemma SyntaxPart_move cs ts sy rest : SyntaxPart junk cs ts sy rest -> forall cs' l R, toks l = toks ts ++ R -> R = toks rest ->
  exists ts' rest' sy', l = ts' ++ rest' /\ toks rest' = R /\ SyntaxPart junk cs' ts' sy' rest' /\ option_map bare_syntax sy' = option_map bare_syntax sy.
Proof.
  intros [r N|t s x q il r H L I] cs' l R E ER.
  - exists [], l, None. split; [reflexivity|]. split; [exact E|]. split; [|reflexivity]. constructor. exact (not_first_move _ _ _ (eq_trans E ER) N).
  - rewrite toks_app, toks_icom, app_nil_r in E. destruct (split_toks _ _ _ E) as (a & l' & -> & Ea & El & Ta).
    destruct (last_some_tok _ _ _ L) as (y & ys & Ey). destruct (tight_last a y ys Ta) as (x' & q' & L'); [rewrite Ea; exact Ey|].
    destruct (inline_of (Line q') l') as (il' & r' & -> & I' & Er). destruct (Syntax_move _ _ _ _ H cs' (inode il') a Ea Ta) as (s' & H' & EQ).
    exists (a ++ icom il'), r', (Some s'). rewrite <- app_assoc. split; [reflexivity|]. split; [rewrite Er; exact El|]. split; [econstructor; eauto|]. cbn. congruence.
Qed.
Lemma EditionPart_move cs ts sy rest : EditionPart junk cs ts sy rest -> forall cs' l R, toks l = toks ts ++ R -> R = toks rest ->
  exists ts' rest' sy', l = ts' ++ rest' /\ toks rest' = R /\ EditionPart junk cs' ts' sy' rest' /\ option_map bare_edition sy' = option_map bare_edition sy.
Proof.
  intros [r N|t s x q il r H L I] cs' l R E ER.
  - exists [], l, None. split; [reflexivity|]. split; [exact E|]. split; [|reflexivity]. constructor. exact (not_first_move _ _ _ (eq_trans E ER) N).
  - rewrite toks_app, toks_icom, app_nil_r in E. destruct (split_toks _ _ _ E) as (a & l' & -> & Ea & El & Ta).
    destruct (last_some_tok _ _ _ L) as (y & ys & Ey). destruct (tight_last a y ys Ta) as (x' & q' & L'); [rewrite Ea; exact Ey|].
    destruct (inline_of (Line q') l') as (il' & r' & -> & I' & Er). destruct (Edition_move _ _ _ _ H cs' (inode il') a Ea Ta) as (s' & H' & EQ).
    exists (a ++ icom il'), r', (Some s'). rewrite <- app_assoc. split; [reflexivity|]. split; [rewrite Er; exact El|]. split; [econstructor; eauto|]. cbn. congruence.
Qed.
(** the header parts with another rest that begins alike *)
Definition alike (a b : list item) : Prop := hd_error (toks a) = hd_error (toks b) /\ (forall l, no_com_on l a -> no_com_on l b).
Lemma SyntaxPart_rest cs ts sy r r' : alike r r' -> SyntaxPart junk cs ts sy r -> SyntaxPart junk cs ts sy r'.
Proof.
  intros [A B] H0. destruct H0 as [r N|t s x q il r H L I].
  - constructor. unfold not_first in *. rewrite next_toks in *. rewrite <- A. exact N.
  - econstructor; eauto. destruct il; [exact I|]. exact (B _ I).
Qed.
Lemma EditionPart_rest cs ts sy r r' : alike r r' -> EditionPart junk cs ts sy r -> EditionPart junk cs ts sy r'.
Proof.
  intros [A B] H0. destruct H0 as [r N|t s x q il r H L I].
  - constructor. unfold not_first in *. rewrite next_toks in *. rewrite <- A. exact N.
  - econstructor; eauto. destruct il; [exact I|]. exact (B _ I).
Qed.
Lemma alike_app a r r' : alike r r' -> alike (a ++ r) (a ++ r').
Proof.
  intros [A B]. split; [rewrite !toks_app; destruct (toks a); [exact A|reflexivity]|]. intros l. destruct a as [|[]]; [exact (B l)|exact (fun H => H)|exact (fun H => H)].
Qed.
Lemma alike_stop its p x q R : alike (its ++ Tok (lit ";") p :: Com x q :: R) (its ++ [Tok (lit ";") p]).
Proof. apply alike_app. split; [reflexivity|exact (fun _ H => H)]. Qed.

Lemma File_move fn its pr : File perm bic junk fn its pr -> forall its', toks its' = toks its ->
  (exists pr', File perm bic junk fn its' pr' /\ bare_proto pr' = bare_proto pr) \/
  (In VNil (p_body pr) /\ exists its0 p x q R ws pr', its' = its0 ++ Tok (lit ";") p :: Com x q :: R /\ Line q = Line p /\
    File perm bic junk fn (its0 ++ [Tok (lit ";") p]) pr' /\ p_body pr' = ws ++ [VEmpty (mkEmpty None); VNil]).
Proof.
  intros [tb cs ts sy te ed rest vs tcs HB N HS HE HR] its' E. rewrite !toks_app, toks_coms in E. cbn [app] in E.
  destruct (split_toks _ _ _ E) as (b & l & -> & Eb & El & Tb). destruct (coms_or l) as (cs' & l' & -> & N' & E'). rewrite <- E' in El.
  destruct (SyntaxPart_move _ _ _ _ HS (nodes cs') l' (toks te ++ toks rest) El (eq_sym (toks_app _ _))) as (ts' & r1 & sy' & -> & E1 & HS' & QS).
  destruct (EditionPart_move _ _ _ _ HE (nodes cs') r1 (toks rest) E1 eq_refl) as (te' & r2 & ed' & -> & E2 & HE' & QE).
  destruct (FileStmts_move _ _ _ HR _ E2) as [(vs' & tcs' & HR' & EV)|(IN & its0 & p & x & q & R & ws & -> & LQ & HR')].
  - left. eexists. split; [eapply file_intro; eauto; exact (Bom_move _ HB _ Eb Tb)|]. unfold bare_proto. cbn.
    rewrite !bare_body_app, !bare_trailing, EV, QS, QE. reflexivity.
  - right. split; [cbn; apply in_or_app; left; exact IN|]. exists (b ++ coms cs' ++ ts' ++ te' ++ its0), p, x, q, R, ws.
    eexists. split; [rewrite <- !app_assoc; reflexivity|]. split; [exact LQ|]. split.
    + rewrite <- !app_assoc. eapply file_intro; [exact (Bom_move _ HB _ Eb Tb)| | | |exact HR'].
      * destruct ts' as [|[]]; [|exact I|exact N']. destruct te' as [|[]]; [|exact I|exact N']. destruct its0 as [|[]]; [exact I|exact I|exact N'].
      * eapply SyntaxPart_rest; [|exact HS']. apply alike_app, alike_stop.
      * eapply EditionPart_rest; [|exact HE']. apply alike_stop.
    + cbn [p_body]. unfold trailing. destruct bic; cbn [nodes map]; rewrite app_nil_r; reflexivity.
Qed.
End Move.
