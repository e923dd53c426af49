(** The exported Parse methods read one statement each. *)
From Coq Require Import List NArith ZArith Bool String Ascii Lia Sorted.
From Verif Require Import Base Token Scanner Lexer Lexing ScanRefine LexFacts LexSpec LexProofs ScanFacts LexerFacts ScanProps Ast Parser Api
  Cursor Pure Refine RefineParser RefineFile Term Term2 Grammar GramLex GramRules GramNames GramValues GramStmts GramParts GramBodies GramMsg GramFile
  SndLex SndRules SndNames SndStmts SndParts SndBodies SndFile GroupSpec MethodSpec.
Import ListNotations.
Open Scope N_scope.

Section M.
Variables (perm bic : bool) (n : nat) (fn : str) (input : list rune).
Hypothesis RD : readable input.
Hypothesis LN : (List.length input < n)%nat.
Notation p0 := (pos0 fn).
Notation full := (mkF true input).
Lemma input_nonul : nonul input.
Proof. unfold nonul. eapply Forall_impl; [|exact RD]. cbn beta. tauto. Qed.

(** each method has a pure counterpart *)
Definition Pure_of {A B} (m : M A) (q : PM A) (wrap : B -> A) (G : bool -> list item -> B -> Prop) (fits : list item -> list item -> Prop) : Prop :=
  Refine.R full p0 (Refine.At full p0) m q /\
  (forall all, StronglySorted before all -> forall k ts x fol, G false ts x -> fits ts fol -> GramRules.At p0 all k (ts ++ fol) -> (len k <= List.length input)%nat ->
     CP q k (fun a k' => a = wrap x /\ GramRules.At p0 all k' fol /\ (len k' <= len k)%nat)) /\
  Snd p0 input q (fun k tt a k' => (exists x, a = wrap x /\ G true tt x) \/ (tt = [] /\ forall x, a <> wrap x)) /\
  (forall k, (len k <= List.length input)%nat -> Term2.good false k -> q k <> PBad).

Lemma Snd_weak {A} (q : PM A) (R R' : cur -> list item -> A -> cur -> Prop) : Snd p0 input q R -> (forall k tt a k', q k = POk a k' -> R k tt a k' -> R' k tt a k') -> Snd p0 input q R'.
Proof.
  intros H F k G. specialize (H k G). unfold SD in *. destruct (q k) eqn:E; auto. destruct H as (tt & P & H). exists tt. auto.
Qed.
Lemma ok_bad {A} any s k (r : pres A) : Term.OK false any s k r -> r <> PBad.
Proof. intros H ->. discriminate H. Qed.
Lemma mbody_ok : forall k, (len k < n)%nat -> Term2.good false k -> Term.OK false true true k (qMessageBody p0 perm bic n k).
Proof. apply t_messageBody. Qed.

Lemma pbind_ok {A C} (q : PM A) (f : A -> PM C) k c k' : pbind q f k = POk c k' -> exists a k1, f a k1 = POk c k'.
Proof. unfold pbind. destruct (q k) as [a k1|? ?|? ?| | | |]; try discriminate. intros H. exists a, k1. exact H. Qed.
Lemma group_bare mb k g k' : qParseGroupField p0 mb k = POk g k' -> g_comments g = [] /\ g_inline g = None.
Proof.
  unfold qParseGroupField. intros H.
  repeat match type of H with
  | pbind _ _ _ = _ => apply pbind_ok in H; destruct H as (? & ? & H)
  | (match ?x with _ => _ end) _ = _ => destruct x
  | match ?x with _ => _ end = _ => destruct x
  | perr _ _ = _ => discriminate H
  end.
  cbn [pret] in H. injection H as <- _. split; reflexivity.
Qed.

Ltac cgo L := let all := fresh "all" in let SA := fresh "SA" in intros all SA k ts x fol H F H0 LL; cbn beta in H;
  eapply L; [exact SA|exact H|exact H0|intros k' (A1 & A2 & _); split; [reflexivity|]; split; [exact A1|lia]].
Ltac cgo2 L := let all := fresh "all" in let SA := fresh "SA" in intros all SA k ts x fol H F H0 LL; cbn beta in H;
  eapply L; [exact SA|exact H|exact H0|exact F|intros k' (A1 & A2 & _); split; [reflexivity|]; split; [exact A1|lia]].
Ltac sgo L := eapply Snd_weak; [eapply L; exact RD|]; cbn beta; intros k tt a k' _ (H & _); left; exists a; split; [reflexivity|exact H].
Ltac tgo L := intros k LL GG; eapply ok_bad; eapply (L p0 false).

Lemma reads_pure A B (m : M A) (wrap : B -> A) G fits : reads perm bic n A B m wrap G fits -> exists q, Pure_of m q wrap G fits.
Proof.
  intros H. destruct H; unfold Pure_of.
  - eexists. split; [apply r_syntax|]. split; [cgo C_syntax|]. split; [|tgo t_syntax].
    eapply Snd_weak; [apply S_syntax; exact RD|]. cbn beta. intros k tt [a|] k' _ H; [left; exists a; tauto|right; split; [tauto|discriminate]].
  - eexists. split; [apply r_edition|]. split; [cgo C_edition|]. split; [|tgo t_edition].
    eapply Snd_weak; [apply S_edition; exact RD|]. cbn beta. intros k tt [a|] k' _ H; [left; exists a; tauto|right; split; [tauto|discriminate]].
  - eexists. split; [apply r_import|]. split; [cgo C_import|]. split; [sgo S_import|tgo t_import].
  - eexists. split; [apply r_package|]. split; [cgo C_package|]. split; [sgo S_package|tgo t_package].
  - eexists. split; [apply r_option|]. split; [cgo C_option|]. split; [sgo S_option|tgo t_option].
  - eexists. split; [apply r_field|]. split; [cgo C_field|]. split; [sgo S_field|tgo t_field].
  - eexists. split; [apply r_mapField|]. split; [cgo C_mapfield|]. split; [sgo S_mapField|tgo t_mapField].
  - eexists. split; [apply r_reserved|]. split; [cgo C_reserved|]. split; [sgo S_reserved|tgo t_reserved].
  - eexists. split; [apply r_declaration|]. split; [cgo C_declaration|]. split; [sgo S_declaration|tgo t_declaration].
  - eexists. split; [apply r_extensions|]. split; [cgo C_extensions|]. split; [sgo S_extensions|tgo t_extensions].
  - eexists. split; [apply r_oneof|]. split; [cgo2 C_oneof|]. split; [sgo S_oneof|tgo t_oneof].
  - eexists. split; [apply r_enum|]. split; [cgo2 C_enum|]. split; [sgo S_enum|tgo t_enum].
  - eexists. split; [apply r_extend|]. split; [cgo2 C_extend|]. split; [sgo S_extend|tgo t_extend].
  - eexists. split; [apply r_service|]. split; [cgo2 C_service|]. split; [sgo S_service|tgo t_service].
  - exists (qParseMessage p0 perm bic n). split; [apply r_message|]. split; [|split; [sgo S_message|tgo t_parseMessage; [lia|exact GG]]].
    intros all SA k ts x fol H F H0 LL. unfold qParseMessage. eapply C_message; [exact SA|exact H| |exact H0|exact F|intros k' (A1 & A2 & _); split; [reflexivity|]; split; [exact A1|lia]].
    intros k1 ts1 vs lc q R Q HB A CL L X. eapply C_mbody; [exact SA|exact HB|exact A|exact CL|lia|exact X].
  - exists (qParseGroupField p0 (qMessageBody p0 perm bic n)). split; [apply r_groupField, r_messageBody|]. split; [|split].
    + intros all SA k ts x fol H F H0 LL. eapply C_group; [exact SA|exact H| |exact H0|exact F|intros k' (A1 & A2 & _); split; [reflexivity|]; split; [exact A1|lia]].
      intros k1 ts1 vs lc q R Q HB A CL L X. eapply C_mbody; [exact SA|exact HB|exact A|exact CL|lia|exact X].
    + eapply Snd_weak; [apply S_group; [exact RD|apply S_messageBody; exact RD]|]. cbn beta. intros k tt a k' E (H & _). left. exists a. split; [reflexivity|]. apply H. apply group_bare in E. destruct a; cbn in *. destruct E as [-> ->]. reflexivity.
    + intros k LL GG. eapply ok_bad. eapply (t_groupField p0 false n); [apply mbody_ok|lia|exact GG].
  - eexists. split; [apply r_comments|]. split; [|split; [|tgo t_comments]].
    + intros all SA k ts x fol H F H0 LL. cbn beta in H. subst ts. eapply CP_comments; [exact SA|exact H0|exact F|]. intros k' A1 _ A2 _. auto.
    + intros k G. pose proof (P_refl _ _ _ G) as PR. rewrite <- pbind_ret. eapply (SD_comments _ _ RD); [exact PR|]. intros cs k1 P1 _ _. apply SD_ret. cbn [app] in P1. exists (coms cs). split; [exact P1|]. left. exists cs. auto.
  Unshelve. all: exact true.
Qed.

(** ** Completeness *)
Lemma stands_at s its : Stands perm bic n fn input s its -> exists all k, StronglySorted before all /\ Refine.At full p0 k s /\ GramRules.At p0 all k its /\ (len k <= List.length input)%nat.
Proof.
  induction 1 as [its (p' & sp & LY & SP)|A B m wrap G fits s ts x fol s' HS (all & k & SA & AT & AG & LK) H HG HF E].
  - assert (V : Forall valid_rune input). { eapply Forall_impl; [|exact RD]. cbn beta. tauto. }
    exists its, (start input). split; [exact (lay_sorted _ _ _ _ _ _ LY V)|]. split; [apply At_init, input_nonul|]. split; [|cbn; lia].
    split; [exists p', sp; cbn [cc cr start]; auto|]. exists [], O. split; [reflexivity|]. split; [reflexivity|cbn; lia].
  - destruct (reads_pure _ _ _ _ _ _ H) as (q & HR & HC & _ & _). specialize (HC all SA k ts x fol HG HF AG LK). apply CP_run in HC. destruct HC as (a & k' & EQ & -> & A1 & A2).
    pose proof (R_elim _ _ _ _ _ HR k s AT) as O. rewrite EQ in O. destruct O as (s1 & O & A3). rewrite E in O. injection O as <-.
    exists all, k'. repeat split; try assumption; try apply A1; try apply A3. lia.
Qed.
Lemma method_complete A B (m : M A) (wrap : B -> A) G fits s ts x fol : Stands perm bic n fn input s (ts ++ fol) -> reads perm bic n A B m wrap G fits -> G false ts x -> fits ts fol ->
  exists s', m s = (Ok (wrap x), s') /\ Layout true (pos s') (rest s') fol.
Proof.
  intros HS H HG HF. destruct (stands_at _ _ HS) as (all & k & SA & AT & AG & LK).
  destruct (reads_pure _ _ _ _ _ _ H) as (q & HR & HC & _ & _). specialize (HC all SA k ts x fol HG HF AG LK). apply CP_run in HC. destruct HC as (a & k' & EQ & -> & A1 & A2).
  pose proof (R_elim _ _ _ _ _ HR k s AT) as O. rewrite EQ in O. destruct O as (s1 & O & A3). exists s1. split; [exact O|].
  destruct A1 as ((p' & sp & L & S) & _). exists p', sp. rewrite (at_rest _ _ _ _ A3), (at_pos _ _ _ _ A3). auto.
Qed.

(** ** Soundness *)
Hypothesis NG : settled input.
Lemma method_step A B (m : M A) (wrap : B -> A) G fits k s a s' : Refine.At full p0 k s -> Gd p0 input k -> reads perm bic n A B m wrap G fits -> m s = (Ok a, s') ->
  exists k' tt, Refine.At full p0 k' s' /\ P p0 input k tt k' /\ ((exists x, a = wrap x /\ G true tt x) \/ (tt = [] /\ forall x, a <> wrap x)).
Proof.
  intros AT GD H E. destruct (reads_pure _ _ _ _ _ _ H) as (q & HR & _ & HS & HB).
  pose proof (R_elim _ _ _ _ _ HR k s AT) as O. specialize (HS k GD). destruct GD as (GS & _).
  assert (SX : suffix (cr k) input) by (exists (cc k); symmetry; exact GS).
  assert (LK : (len k <= List.length input)%nat). { pose proof (f_equal (@List.length _) GS) as X. rewrite app_length in X. lia. }
  specialize (HB k LK (or_intror (tame_suffix _ _ SX (conj input_nonul NG)))).
  destruct (q k) as [b k'|kb ka|k' w| | | |]; cbn [out] in O; try (destruct O as (? & O); rewrite E in O; discriminate O); try (destruct O as (? & ? & O & _); rewrite E in O; discriminate O).
  - destruct O as (s1 & O & A1). rewrite E in O. injection O as <- <-. destruct HS as (tt & P1 & D). exists k', tt. auto.
  - destruct HB. reflexivity.
Qed.
Lemma gone_at s : Gone perm bic n fn input s -> exists k, Refine.At full p0 k s /\ Gd p0 input k.
Proof.
  induction 1 as [|A B m wrap G fits s a s' HS (k & AT & GD) H E].
  - exists (start input). split; [apply At_init, input_nonul|]. split; [reflexivity|]. exists []. split; [constructor|]. split; [constructor|]. exists O. split; [apply le_n|reflexivity].
  - destruct (method_step _ _ _ _ _ _ _ _ _ _ AT GD H E) as (k' & tt & A1 & P1 & _). exists k'. split; [exact A1|apply P1].
Qed.
Lemma nodes_inj : forall a b, nodes a = nodes b -> a = b.
Proof.
  induction a as [|[c p] a IH]; intros [|[d q] b] E; try discriminate E; [reflexivity|]. cbn [nodes map] in E. injection E as E1 E2 _ E3. cbn [fst snd] in *. subst. f_equal. apply IH, E3.
Qed.
Lemma wrap_inj A B (m : M A) (wrap : B -> A) G fits : reads perm bic n A B m wrap G fits -> forall x y, wrap x = wrap y -> x = y.
Proof. intros H. destruct H; intros x y E; first [exact E|injection E as E; exact E|apply nodes_inj; exact E]. Qed.
Lemma method_sound A B (m : M A) (wrap : B -> A) G fits s x s' : Gone perm bic n fn input s -> reads perm bic n A B m wrap G fits -> m s = (Ok (wrap x), s') ->
  exists ts p sp, G true ts x /\ Lay false (pos s) (rest s) ts p (sp ++ rest s') /\ Spaces sp /\ pos s' = posafter p sp.
Proof.
  intros HS H E. pose proof (wrap_inj _ _ _ _ _ _ H x) as INJ. destruct (gone_at _ HS) as (k & AT & GD). destruct (method_step _ _ _ _ _ _ _ _ _ _ AT GD H E) as (k' & tt & A1 & P1 & D).
  destruct D as [(y & EY & D)|(_ & D)]; [|destruct (D x eq_refl)]. apply INJ in EY. subst y. destruct P1 as (_ & (w & sp & p & W1 & W2 & SP & LY) & _).
  exists tt, p, sp. rewrite (at_rest _ _ _ _ A1), (at_pos _ _ _ _ A1), (at_rest _ _ _ _ AT), (at_pos _ _ _ _ AT). split; [exact D|]. split; [exact LY|]. split; [exact SP|].
  symmetry. eapply Seg_pos; eassumption.
Qed.
(** no header: nothing is read *)
Lemma no_syntax s s' : Gone perm bic n fn input s -> ParseSyntax s = (Ok None, s') -> rest s' = rest s /\ pos s' = pos s.
Proof.
  intros HS E. destruct (gone_at _ HS) as (k & AT & GD). pose proof (R_elim _ _ _ _ _ (r_syntax full p0) k s AT) as O. pose proof (S_syntax p0 input RD k GD) as S. rewrite E in O.
  destruct (qParseSyntax p0 k) as [b k'|kb ka|k' w| | | |] eqn:Q; cbn [out] in O; try (destruct O as (? & O); discriminate O); try (destruct O as (? & ? & O & _); discriminate O).
  - destruct O as (s1 & O & A1). injection O as <- <-. destruct S as (tt & _ & _ & (B1 & B2 & _) & _).
    rewrite (at_rest _ _ _ _ A1), (at_pos _ _ _ _ A1), (at_rest _ _ _ _ AT), (at_pos _ _ _ _ AT), B1, B2. auto.
  - destruct (ok_bad true false k _ (t_syntax p0 false true k) Q).
Qed.
Lemma no_edition s s' : Gone perm bic n fn input s -> ParseEdition s = (Ok None, s') -> rest s' = rest s /\ pos s' = pos s.
Proof.
  intros HS E. destruct (gone_at _ HS) as (k & AT & GD). pose proof (R_elim _ _ _ _ _ (r_edition full p0) k s AT) as O. pose proof (S_edition p0 input RD k GD) as S. rewrite E in O.
  destruct (qParseEdition p0 k) as [b k'|kb ka|k' w| | | |] eqn:Q; cbn [out] in O; try (destruct O as (? & O); discriminate O); try (destruct O as (? & ? & O & _); discriminate O).
  - destruct O as (s1 & O & A1). injection O as <- <-. destruct S as (tt & _ & _ & (B1 & B2 & _) & _).
    rewrite (at_rest _ _ _ _ A1), (at_pos _ _ _ _ A1), (at_rest _ _ _ _ AT), (at_pos _ _ _ _ AT), B1, B2. auto.
  - destruct (ok_bad true false k _ (t_edition p0 false true k) Q).
Qed.
Lemma no_header s s' : Gone perm bic n fn input s -> ParseSyntax s = (Ok None, s') \/ ParseEdition s = (Ok None, s') -> rest s' = rest s /\ pos s' = pos s.
Proof. intros HS [E|E]; [eapply no_syntax|eapply no_edition]; eassumption. Qed.
End M.
