(** Completeness of the pure parser: statements. *)
From Coq Require Import List NArith ZArith Bool String Ascii Lia Sorted.
From Verif Require Import Base Token Scanner Lexer Lexing ScanRefine LexFacts LexSpec LexProofs ScanFacts ScanProps Ast Parser Cursor Pure
  Refine Grammar GramLex GramRules GramNames GramValues.
Import ListNotations.
Open Scope N_scope.
Open Scope pure_scope.

Ltac tk := repeat match goal with |- context [tok_eqb ?a ?b] =>
    let r := eval lazy in (tok_eqb a b) in match r with true => change (tok_eqb a b) with true | false => change (tok_eqb a b) with false end
  end; cbn [negb andb orb].

Section Stmts.
Variable p0 : mpos.
Variable all : list item.
Hypothesis SA : StronglySorted before all.
Variables perm bic : bool.
Notation posat := (posat p0).
Notation ptok := (ptok p0).
Notation ppeek := (ppeek p0).
Notation pexpect := (pexpect p0).
Notation lexc := (lexc p0).
Notation At := (At p0 all).
Notation bk := (bk p0 all).
Notation read := (read p0 all).

(** the statement [ts] is read, the cursor is on the line of its last token *)
Definition ends (ts : list item) (k' : cur) : Prop := exists x q, last_tok ts = Some (x, q) /\ Line (lp k') = Line q.
Definition after (k : cur) (ts rest : list item) (k' : cur) : Prop := At k' rest /\ (len k' < len k)%nat /\ ends ts k'.
Lemma after_T k ts a t x p rest k' : ts = a ++ t -> T t x p -> lp k' = p -> At k' rest -> (len k' < len k)%nat -> after k ts rest k'.
Proof. intros -> H L A LE. split; [exact A|]. split; [exact LE|]. exists x, p. rewrite (last_tok_T a t x p H), L. auto. Qed.

(** ** Options *)
Lemma C_option ts o k rest (Q : option_ -> cur -> Prop) : Option perm false [] None ts o -> At k (ts ++ rest) ->
  (forall k', after k ts rest k' -> Q o k') -> CP (qParseOption p0 perm) k Q.
Proof.
  intros H A G. destruct H as [t1 p1 t2 name t3 t4 v t5 p5 H1 H2 (p3 & H3) H4 H5]. rewrite <- !app_assoc in A. unfold qParseOption.
  ex H1. apply CP_bind. eapply C_optionname; [exact SA|exact H2|eassumption|eapply Follow_T; [exact H3|cbn; tauto]|]. intros k1 A1 L1.
  ex H3. apply CP_bind. eapply C_value; [exact SA|exact H4|eassumption|eapply Follow_T; [exact H5|cbn; tauto]|]. intros k3 A3 L3.
  ex H5. apply CP_ret. apply G. eapply (after_T _ _ (t1 ++ t2 ++ t3 ++ t4)); [rewrite <- !app_assoc; reflexivity|exact H5|eassumption|eassumption|lia].
Qed.

Lemma C_fieldoption ts o k rest (Q : fieldOption -> cur -> Prop) : FieldOption perm false ts o -> At k (ts ++ rest) -> Follow rest ->
  (forall k', At k' rest -> (len k' < len k)%nat -> Q (mkFieldOption (fst o) (snd o)) k') -> CP (qFieldOption p0 perm) k Q.
Proof.
  intros [t1 name t2 t3 v H1 (p2 & H2) H3] A F G. rewrite <- !app_assoc in A. unfold qFieldOption.
  apply CP_bind. eapply C_optionname; [exact SA|exact H1|eassumption|eapply Follow_T; [exact H2|cbn; tauto]|]. intros k1 A1 L1.
  ex H2. apply CP_bind. eapply C_value; [exact SA|exact H3|eassumption|exact F|]. intros k3 A3 L3. apply CP_ret. apply G; [exact A3|lia].
Qed.
Lemma C_evoption ts o k rest (Q : enumValueOption -> cur -> Prop) : FieldOption perm false ts o -> At k (ts ++ rest) -> Follow rest ->
  (forall k', At k' rest -> (len k' < len k)%nat -> Q (mkEnumValueOption (fst o) (snd o)) k') -> CP (qEnumValueOption p0 perm) k Q.
Proof.
  intros [t1 name t2 t3 v H1 (p2 & H2) H3] A F G. rewrite <- !app_assoc in A. unfold qEnumValueOption.
  apply CP_bind. eapply C_optionname; [exact SA|exact H1|eassumption|eapply Follow_T; [exact H2|cbn; tauto]|]. intros k1 A1 L1.
  ex H2. apply CP_bind. eapply C_value; [exact SA|exact H3|eassumption|exact F|]. intros k3 A3 L3. apply CP_ret. apply G; [exact A3|lia].
Qed.
Inductive OptTail : list item -> list (str * str) -> Prop :=
| ot_nil : OptTail [] []
| ot_cons td ts o tl os : K td "," -> FieldOption perm false ts o -> OptTail tl os -> OptTail (td ++ ts ++ tl) (o :: os).
Lemma options_tail ts os : FieldOptionList perm false ts os -> exists t1 o tl os', ts = t1 ++ tl /\ os = o :: os' /\ FieldOption perm false t1 o /\ OptTail tl os'.
Proof.
  induction 1 as [ts o H|ts o td ts' os H D _ (t1 & o1 & tl & os' & -> & -> & H1 & TL)].
  - exists ts, o, [], []. rewrite app_nil_r. repeat split; auto. constructor.
  - exists ts, o, (td ++ t1 ++ tl), (o1 :: os'). repeat split; auto. constructor; assumption.
Qed.
Lemma tail_follow tl os t p rest : OptTail tl os -> T t (lit "]") p -> Follow (tl ++ t ++ rest).
Proof.
  intros [|td ts o tl' os' (pd & D) _ _] H; cbn [app]; [eapply Follow_T; [exact H|cbn; tauto]|]. rewrite <- app_assoc. eapply Follow_T; [exact D|cbn; tauto].
Qed.
Lemma fo_loop tl os : OptTail tl os -> forall n k t p rest acc (Q : list fieldOption -> cur -> Prop), At k (tl ++ t ++ rest) -> T t (lit "]") p -> (len k < n)%nat ->
  (forall k', At k' (t ++ rest) -> (len k' <= len k)%nat -> Q (acc ++ fopts os) k') -> CP (qFieldOptions_loop p0 perm n acc) k Q.
Proof.
  induction 1 as [|td ts o tl os (pd & D) H TL IH]; intros n k t p rest acc Q A HT L G; (destruct n as [|n]; [lia|]); cbn [qFieldOptions_loop].
  - cbn [app] in A. ex HT. tk. apply CP_bind, CP_back, CP_ret. cbn [fopts map kb] in *. rewrite app_nil_r in G.
    apply G; [exact (At_bk _ _ _ _ _ B)|rewrite (bk_len _ _ _ _ _ B); lia].
  - rewrite <- !app_assoc in A. ex D. tk. apply CP_bind. eapply C_fieldoption; [exact H|eassumption|eapply tail_follow; eassumption|]. intros k2 A2 L2.
    eapply IH; [exact A2|exact HT|lia|]. intros k3 A3 L3. rewrite <- app_assoc. apply G; [exact A3|lia].
Qed.
Lemma ev_loop tl os : OptTail tl os -> forall n k t p rest acc (Q : list enumValueOption -> cur -> Prop), At k (tl ++ t ++ rest) -> T t (lit "]") p -> (len k < n)%nat ->
  (forall k', At k' (t ++ rest) -> (len k' <= len k)%nat -> Q (acc ++ evopts os) k') -> CP (qEnumValueOptions_loop p0 perm n acc) k Q.
Proof.
  induction 1 as [|td ts o tl os (pd & D) H TL IH]; intros n k t p rest acc Q A HT L G; (destruct n as [|n]; [lia|]); cbn [qEnumValueOptions_loop].
  - cbn [app] in A. ex HT. tk. apply CP_bind, CP_back, CP_ret. cbn [evopts map kb] in *. rewrite app_nil_r in G.
    apply G; [exact (At_bk _ _ _ _ _ B)|rewrite (bk_len _ _ _ _ _ B); lia].
  - rewrite <- !app_assoc in A. ex D. tk. apply CP_bind. eapply C_evoption; [exact H|eassumption|eapply tail_follow; eassumption|]. intros k2 A2 L2.
    eapply IH; [exact A2|exact HT|lia|]. intros k3 A3 L3. rewrite <- app_assoc. apply G; [exact A3|lia].
Qed.
Lemma C_fieldoptions ts os k t p rest (Q : list fieldOption -> cur -> Prop) : FieldOptions perm false ts os -> At k (ts ++ t ++ rest) -> T t (lit ";") p ->
  (forall k', At k' (t ++ rest) -> (len k' <= len k)%nat -> Q (fopts os) k') -> CP (qFieldOptionsOption p0 perm) k Q.
Proof.
  intros H A HT G. unfold qFieldOptionsOption. destruct H as [|t1 ts os t2 (p1 & H1) H (p2 & H2)].
  - cbn [app] in A. ex HT. tk. apply CP_bind, CP_back, CP_ret. apply G; [exact (At_bk _ _ _ _ _ B)|cbn [kb]; rewrite (bk_len _ _ _ _ _ B); lia].
  - rewrite <- !app_assoc in A. ex H1. tk. apply CP_bind. apply options_tail in H. destruct H as (t3 & o & tl & os' & -> & -> & H & TL).
    rewrite <- !app_assoc in *. unfold qFieldOptions. apply CP_bind. eapply C_fieldoption; [exact H|eassumption|eapply tail_follow; eassumption|]. intros k2 A2 L2.
    apply CP_bind, CP_fuel. eapply fo_loop; [exact TL|exact A2|exact H2|lia|]. intros k3 A3 L3. ex H2. apply CP_ret. apply G; [assumption|lia].
Qed.
Lemma C_evoptions ts os k t p rest (Q : list enumValueOption -> cur -> Prop) : FieldOptions perm false ts os -> At k (ts ++ t ++ rest) -> T t (lit ";") p ->
  (forall k', At k' (t ++ rest) -> (len k' <= len k)%nat -> Q (evopts os) k') -> CP (qEnumValueOptions p0 perm) k Q.
Proof.
  intros H A HT G. unfold qEnumValueOptions. destruct H as [|t1 ts os t2 (p1 & H1) H (p2 & H2)].
  - cbn [app] in A. ex HT. tk. apply CP_bind, CP_back, CP_ret. apply G; [exact (At_bk _ _ _ _ _ B)|cbn [kb]; rewrite (bk_len _ _ _ _ _ B); lia].
  - rewrite <- !app_assoc in A. ex H1. tk. apply CP_bind. apply options_tail in H. destruct H as (t3 & o & tl & os' & -> & -> & H & TL).
    rewrite <- !app_assoc in *. eapply C_evoption; [exact H|eassumption|eapply tail_follow; eassumption|]. intros k2 A2 L2.
    apply CP_bind, CP_fuel, CP_bind. eapply ev_loop; [exact TL|exact A2|exact H2|lia|]. intros k3 A3 L3. ex H2. apply CP_ret. apply G; [assumption|lia].
Qed.

(** ** Syntax, edition, import, package *)
Lemma quote_hit q : is_quote q -> hit 0 q TQUOTE.
Proof. intros [->| ->]; hit. Qed.
Lemma hit_words m l t x : words l x -> Forall (fun s => hitb m (lit s) = Some t) l -> hit m x t.
Proof. intros W F. apply words_cases in W. destruct W as (s & I & ->). rewrite Forall_forall in F. apply hitb_ok, F, I. Qed.
Lemma quotes_eq q q' : quotes_match false q q' -> q = q'. Proof. intros [H|H]; [discriminate|exact H]. Qed.
Lemma C_syntax ts s k rest (Q : option syntax -> cur -> Prop) : Syntax false [] None ts s -> At k (ts ++ rest) ->
  (forall k', after k ts rest k' -> Q (Some s) k') -> CP (qParseSyntax p0) k Q.
Proof.
  intros [t1 p1 t2 t3 q p3 t4 v p4 t5 q' p5 t6 p6 H1 (p2 & H2) H3 I3 H4 W H5 I5 M H6] A G. rewrite <- !app_assoc in A. unfold qParseSyntax.
  pose proof (quote_hit _ I3) as HQ3. pose proof (quote_hit _ I5) as HQ5.
  ex H1. tk. ex H2. apply CP_bind; eapply CP_expect; [exact SA|reflexivity|eassumption|exact H3|exact HQ3|]; intros b3 w3 g3 k3 B3 [A3 LP3 L3 E3].
  apply CP_bind; eapply CP_tok; [exact SA|reflexivity|exact A3|exact H4|apply (hit_words 0 _ TIDENT v W); repeat constructor|]; intros b4 w4 g4 k4 B4 [A4 LP4 L4 E4]. cbn [tx tp].
  assert (V : negb (str_eqb v (lit "proto3")) && negb (str_eqb v (lit "proto2")) = false) by (destruct W as [<-|[<-|[]]]; reflexivity). rewrite V.
  apply CP_bind; eapply CP_expect; [exact SA|reflexivity|exact A4|exact H5|exact HQ5|]; intros b5 w5 g5 k5 B5 [A5 LP5 L5 E5]. cbn [tx tp].
  ex H6. apply CP_ret. apply G. eapply (after_T _ _ (t1 ++ t2 ++ t3 ++ t4 ++ t5)); [rewrite <- !app_assoc; reflexivity|exact H6|eassumption|eassumption|lia].
Qed.
Lemma C_edition ts s k rest (Q : option edition -> cur -> Prop) : Edition false [] None ts s -> At k (ts ++ rest) ->
  (forall k', after k ts rest k' -> Q (Some s) k') -> CP (qParseEdition p0) k Q.
Proof.
  intros [t1 p1 t2 t3 q p3 t4 v p4 t5 q' p5 t6 p6 H1 (p2 & H2) H3 I3 H4 W H5 I5 M H6] A G. rewrite <- !app_assoc in A. unfold qParseEdition.
  pose proof (quote_hit _ I3) as HQ3. pose proof (quote_hit _ I5) as HQ5.
  ex H1. tk. ex H2. apply CP_bind; eapply CP_expect; [exact SA|reflexivity|eassumption|exact H3|exact HQ3|]; intros b3 w3 g3 k3 B3 [A3 LP3 L3 E3].
  ex H4. apply CP_bind; eapply CP_expect; [exact SA|reflexivity|eassumption|exact H5|exact HQ5|]; intros b5 w5 g5 k5 B5 [A5 LP5 L5 E5]. cbn [tx tp].
  ex H6. apply CP_ret. apply G. eapply (after_T _ _ (t1 ++ t2 ++ t3 ++ t4 ++ t5)); [rewrite <- !app_assoc; reflexivity|exact H6|eassumption|eassumption|lia].
Qed.
Lemma C_import ts s k rest (Q : import -> cur -> Prop) : Import false [] None ts s -> At k (ts ++ rest) ->
  (forall k', after k ts rest k' -> Q s k') -> CP (qParseImport p0) k Q.
Proof.
  intros [t1 p1 t2 m t3 x p3 t4 p4 H1 H2 H3 I H4] A G. rewrite <- !app_assoc in A. unfold qParseImport.
  ex H1. apply CP_bind. assert (X : CP (ptok (N.lor ScanKeyword ScanStrLit)) k0 (fun mm k1 => CP (match tk mm with
               | TPUBLIC => pret ImportModifierPublic
               | TWEAK => pret ImportModifierWeak
               | TSTRLIT => pback mm;;; pret ImportModifierNone
               | _ => pret ImportModifierNone
               end) k1 (fun m' k2 => m' = m /\ At k2 (t3 ++ t4 ++ rest) /\ (len k2 <= len k0)%nat))).
  { destruct H2 as [|ts' (p2 & H2)|ts' (p2 & H2)|ts' y p2 J _]; [| | |discriminate J].
    - cbn [app] in A0. ex H3. apply CP_bind, CP_back, CP_ret. cbn [kb]. split; [reflexivity|]. split; [exact (At_bk _ _ _ _ _ B0)|rewrite (bk_len _ _ _ _ _ B0); lia].
    - ex H2. apply CP_ret. split; [reflexivity|]. split; [assumption|lia].
    - ex H2. apply CP_ret. split; [reflexivity|]. split; [assumption|lia]. }
  eapply CP_weak; [exact X|]. cbn beta. intros mm k1 C. apply CP_bind. eapply CP_weak; [exact C|]. cbn beta. intros m' k2 (-> & A2 & L2).
  ex H3. ex H4. apply CP_ret. apply G. eapply (after_T _ _ (t1 ++ t2 ++ t3)); [rewrite <- !app_assoc; reflexivity|exact H4|eassumption|eassumption|lia].
Qed.
Lemma C_package ts s k rest (Q : package -> cur -> Prop) : Package [] None ts s -> At k (ts ++ rest) ->
  (forall k', after k ts rest k' -> Q s k') -> CP (qParsePackage p0) k Q.
Proof.
  intros [t1 p1 t2 v p2 t3 p3 H1 H2 H3] A G. rewrite <- !app_assoc in A. unfold qParsePackage.
  ex H1. apply CP_bind. eapply C_fullident; [exact SA|exact H2|eassumption|eapply Follow_T; [exact H3|cbn; tauto]|]. intros k1 A1 L1.
  ex H3. apply CP_ret. apply G. eapply (after_T _ _ (t1 ++ t2)); [rewrite <- !app_assoc; reflexivity|exact H3|eassumption|eassumption|lia].
Qed.

(** ** Fields *)
Lemma C_fieldend {A} (f : ti -> str -> list fieldOption -> ti -> PM A) ts name num os q k rest (Q : A -> cur -> Prop) :
  FieldEnd perm false ts name num os q -> At k (ts ++ rest) ->
  (forall tn e k', tx tn = name -> tp e = q -> At k' rest -> (len k' < len k)%nat -> lp k' = q -> CP (f tn num (fopts os) e) k' Q) ->
  CP (name <-- pexpect 0 TIDENT;; pexpect 0 TEQUALS;;; fieldNumber <-- qFieldNumber p0;; fieldOptions <-- qFieldOptionsOption p0 perm;;
      e <-- pexpect 0 TSEMICOLON;; f name fieldNumber fieldOptions e) k Q.
Proof.
  intros [t1 nm p1 t2 t3 nu p3 t4 o t5 p5 H1 I1 (p2 & H2) H3 I3 H4 H5] At0 G. rewrite <- !app_assoc in At0.
  ex H1. ex H2. apply CP_bind. unfold qFieldNumber. ex H3. apply CP_ret. apply CP_bind.
  eapply C_fieldoptions; [exact H4|eassumption|exact H5|]. intros k4 A4 L4. ex H5. apply G; [reflexivity|reflexivity|assumption|lia|assumption].
Qed.
Lemma fieldend_last ts name num os q a : FieldEnd perm false ts name num os q -> exists x, last_tok (a ++ ts) = Some (x, q).
Proof.
  intros [t1 nm p1 t2 t3 nu p3 t4 o t5 p5 H1 I1 H2 H3 I3 H4 H5]. exists (lit ";").
  rewrite !(app_assoc _ t2), !(app_assoc _ t3), !(app_assoc _ t4), app_assoc. apply (last_tok_T _ _ _ _ H5).
Qed.
Lemma fieldend_follow ts name num os q rest : FieldEnd perm false ts name num os q -> Follow (ts ++ rest).
Proof. intros [t1 nm p1 t2 t3 nu p3 t4 o t5 p5 H1 I1 _ _ _ _ _]. rewrite <- app_assoc. eapply Follow_ident; eassumption. Qed.
Lemma Type_first ts v p : Type_ ts v p -> exists t1 x tl, ts = t1 ++ tl /\ T t1 x p /\ (is_ident x \/ x = lit ".").
Proof.
  intros [ts' x p' H W|ts' v' p' H _]; [|apply MessageType_first in H; exact H].
  exists ts', x, []. rewrite app_nil_r. split; [reflexivity|]. split; [exact H|]. left. apply identb_iff.
  apply words_cases in W. destruct W as (s & W & ->). unfold scalars in W. cbn [In] in W. repeat (destruct W as [<-|W]; [reflexivity|]). destruct W.
Qed.
Definition labels : list string := ["repeated"; "required"; "optional"]%string.
(** the token of a name that is no keyword of the list *)
Lemma tok_not x s t : In (s, t) keywords -> ~ words [s] x -> identToken ScanKeyword x <> t.
Proof. intros I N E. apply N. left. symmetry. eapply kw_name; eassumption. Qed.
Lemma hit_name m x : is_ident x \/ x = lit "." -> has m ScanNumberLit = false -> exists t, hit m x t /\ ((is_ident x /\ t = identToken m x) \/ (x = lit "." /\ t = TDOT)).
Proof.
  intros [I| ->] M; [exists (identToken m x); split; [hit|auto]|]. exists TDOT. split; [|auto]. apply (hit_punct m (ch ".")); [cbn; tauto|intros [H|H]; discriminate H|intros _; exact M].
Qed.
Lemma C_label {A} (f : mpos -> bool -> bool -> bool -> PM A) t1 t2 p1 rp rq op k rest (Q : A -> cur -> Prop) : Label t1 t2 p1 rp rq op ->
  (exists t x p tl, t2 = t ++ tl /\ T t x p /\ (is_ident x \/ x = lit ".")) -> At k (t1 ++ t2 ++ rest) ->
  (forall k', At k' (t2 ++ rest) -> (len k' <= len k)%nat -> CP (f p1 rp rq op) k' Q) ->
  CP ('(startPos, (isRepeated, isRequired, isOptional)) <-- qLabel p0;; f startPos isRepeated isRequired isOptional) k Q.
Proof.
  intros H (t & x & p & tl & E & HT & I) At0 G. apply CP_bind. unfold qLabel. destruct H as [ts q r H|ts q r H|ts q r H|y q r FT N].
  - ex H. apply CP_ret. cbn beta iota. apply G; [assumption|lia].
  - ex H. apply CP_ret. cbn beta iota. apply G; [assumption|lia].
  - ex H. apply CP_ret. cbn beta iota. apply G; [assumption|lia].
  - subst r. rewrite <- app_assoc in *. cbn [app] in At0. assert (x = y /\ p = q) as [<- <-].
    { destruct HT as (cs & ->). rewrite <- app_assoc, first_tok_coms in FT. injection FT as -> ->. auto. }
    destruct (hit_name ScanKeyword x I eq_refl) as (t0 & HI & C). apply CP_bind. eapply CP_tok; [exact SA|reflexivity|exact At0|exact HT|exact HI|].
    intros b w g k' B _. cbn [tk tp].
    assert (X : CP (pback (mkTi t0 x p b w g);;; pret (p, (false, false, false))) k' (fun a k'0 => CP (let '(startPos, (isRepeated, isRequired, isOptional)) := a in f startPos isRepeated isRequired isOptional) k'0 Q)).
    { apply CP_bind, CP_back, CP_ret. cbn [kb]. apply G; [exact (At_bk _ _ _ _ _ B)|rewrite (bk_len _ _ _ _ _ B); lia]. }
    assert (t0 <> TREPEATED /\ t0 <> TREQUIRED /\ t0 <> TOPTIONAL) as (N1 & N2 & N3).
    { destruct C as [[_ ->]|[_ ->]]; [|repeat split; discriminate].
      split; [apply (tok_not x "repeated")|split; [apply (tok_not x "required")|apply (tok_not x "optional")]];
        first [cbn; tauto|intros W; apply N; destruct W as [<-|[]]; cbn; tauto]. }
    destruct t0; first [exact X|congruence].
Qed.
Lemma C_field ts f k rest (Q : field -> cur -> Prop) : Field perm false [] None ts f -> At k (ts ++ rest) ->
  (forall k', after k ts rest k' -> Q f k') -> CP (qParseField p0 perm) k Q.
Proof.
  intros [t1 p1 rp rq op t2 ty p2 t3 name num os p3 H1 H2 H3] A G. rewrite <- !app_assoc in A. unfold qParseField.
  eapply (C_label (fun p a b c => _)); [exact H1| |exact A|].
  { apply Type_first in H2. destruct H2 as (t & x & tl & -> & H2). eauto 8. }
  intros k1 A1 L1. apply CP_bind. eapply C_type; [exact SA|exact H2|exact A1|eapply fieldend_follow; exact H3|]. intros k2 A2 L2.
  eapply (C_fieldend (fun name n o e => _)); [exact H3|exact A2|]. intros tn e k3 <- <- A3 L3 LP. apply CP_ret. cbn [fst]. apply G.
  split; [exact A3|]. split; [lia|]. destruct (fieldend_last _ _ _ _ _ (t1 ++ t2) H3) as (x & E). rewrite <- app_assoc in E. exists x, (tp e). rewrite LP. auto.
Qed.
Lemma C_mapfield ts f k rest (Q : mapField -> cur -> Prop) : MapField perm false [] None ts f -> At k (ts ++ rest) ->
  (forall k', after k ts rest k' -> Q f k') -> CP (qParseMapField p0 perm) k Q.
Proof.
  intros [t1 p1 t2 t3 kt p3 t4 t5 ty p5 t6 t7 name num os p7 H1 (p2 & H2) H3 W (p4 & H4) H5 (p6 & H6) H7] A G. rewrite <- !app_assoc in A. unfold qParseMapField.
  ex H1. ex H2. apply CP_bind. unfold qKeyType. apply CP_bind; eapply CP_tok; [exact SA|reflexivity|eassumption|exact H3|apply (hit_words 0 _ TIDENT kt W); repeat constructor|]; intros b3 w3 g3 k3 B3 [A3 LP3 L3 E3].
  cbn [tx]. change keyTypeConstants with (map lit key_types). rewrite (proj2 (str_mem_words key_types kt) W). apply CP_ret.
  ex H4. apply CP_bind. eapply C_type; [exact SA|exact H5|eassumption|eapply Follow_T; [exact H6|cbn; tauto]|]. intros k5 A5 L5.
  ex H6. eapply (C_fieldend (fun name n o e => _)); [exact H7|eassumption|]. intros tn e k7 <- <- A7 L7 LP7. apply CP_ret. cbn [fst]. apply G.
  split; [exact A7|]. split; [lia|]. destruct (fieldend_last _ _ _ _ _ (t1 ++ t2 ++ t3 ++ t4 ++ t5 ++ t6) H7) as (x & E). rewrite <- !app_assoc in E. exists x, (tp e). rewrite LP7. auto.
Qed.
Lemma C_oneoffield ts f k rest (Q : oneofField -> cur -> Prop) : OneofField perm false [] None ts f -> At k (ts ++ rest) ->
  (forall k', after k ts rest k' -> Q f k') -> CP (qOneofField p0 perm) k Q.
Proof.
  intros [t1 ty p1 t2 name num os p2 H1 H2] A G. rewrite <- !app_assoc in A. unfold qOneofField.
  apply CP_bind. eapply C_type; [exact SA|exact H1|eassumption|eapply fieldend_follow; exact H2|]. intros k1 A1 L1.
  eapply (C_fieldend (fun name n o e => _)); [exact H2|exact A1|]. intros tn e k3 <- <- A3 L3 LP. apply CP_ret. cbn [fst snd]. apply G.
  split; [exact A3|]. split; [lia|]. destruct (fieldend_last _ _ _ _ _ t1 H2) as (x & E). exists x, (tp e). rewrite LP. auto.
Qed.
End Stmts.
