(** Completeness of the pure parser: block ends, oneof, reserved and extensions. *)
From Coq Require Import List NArith ZArith Bool String Ascii Lia Sorted.
From Verif Require Import Base Token Scanner Lexer Lexing ScanRefine LexFacts LexSpec LexProofs ScanFacts ScanProps Ast Parser Cursor Pure
  Refine Grammar GramLex GramRules GramNames GramValues GramStmts.
Import ListNotations.
Open Scope N_scope.
Open Scope pure_scope.

Scheme OneofElems_min := Minimality for OneofElems Sort Prop
  with OneofRest_min := Minimality for OneofRest Sort Prop.
Combined Scheme Oneof_mutind from OneofElems_min, OneofRest_min.

(** [q] fails with the token un-read; [q] fails *)
Definition CB {A} (q : PM A) (k : cur) (P : cur -> Prop) : Prop := match q k with PBal b _ => P b | _ => False end.
Definition CE {A} (q : PM A) (k : cur) (P : cur -> Prop) : Prop := match q k with PErr b _ => P b | _ => False end.
Lemma CB_bind {A B} (q : PM A) (f : A -> PM B) k P : CP q k (fun a k' => CB (f a) k' P) -> CB (pbind q f) k P.
Proof. unfold CP, CB, pbind. destruct (q k); tauto. Qed.
Lemma CB_bind0 {A B} (q : PM A) (f : A -> PM B) k P : CB q k P -> CB (pbind q f) k P.
Proof. unfold CB, pbind. destruct (q k); tauto. Qed.
Lemma CE_bind {A B} (q : PM A) (f : A -> PM B) k P : CP q k (fun a k' => CE (f a) k' P) -> CE (pbind q f) k P.
Proof. unfold CP, CE, pbind. destruct (q k); tauto. Qed.
Lemma CE_bind0 {A B} (q : PM A) (f : A -> PM B) k P : CE q k P -> CE (pbind q f) k P.
Proof. unfold CE, pbind. destruct (q k); tauto. Qed.
Lemma CP_try {A B} (q : PM A) (f : option A -> PM B) k Q : CP q k (fun a k' => CP (f (Some a)) k' Q) -> CP (ptry q f) k Q.
Proof. unfold CP, ptry. destruct (q k); tauto. Qed.
Lemma CP_try_bal {A B} (q : PM A) (f : option A -> PM B) k Q : CB q k (fun b => CP (f None) b Q) -> CP (ptry q f) k Q.
Proof. unfold CP, CB, ptry. destruct (q k); tauto. Qed.

Lemma CP_assoc {A B C} (q : PM A) (f : A -> PM B) (h : B -> PM C) k Q : CP (pbind (pbind q f) h) k Q -> CP (pbind q (fun a => pbind (f a) h)) k Q.
Proof. unfold CP, pbind. destruct (q k); auto. Qed.

Section Parts.
Variable p0 : mpos.
Variable all : list item.
Hypothesis SA : StronglySorted before all.
Variables perm : bool.
Notation posat := (posat p0).
Notation ptok := (ptok p0).
Notation ppeek := (ppeek p0).
Notation pexpect := (pexpect p0).
Notation lexc := (lexc p0).
Notation At := (At p0 all).
Notation bk := (bk p0 all).
Notation read := (read p0 all).
Notation after := (after p0 all).

(** ** Block ends *)
Lemma line_brace p : Line (posafter p (lit "}")) = Line p.
Proof. destruct p. reflexivity. Qed.
Lemma C_close ts q k rest (Q : mpos -> cur -> Prop) : Close perm ts q -> closed perm false ts rest -> At k (ts ++ rest) ->
  (forall k', At k' rest -> (len k' < len k)%nat -> Line (lp k') = Line q -> Q q k') ->
  CP (ptok 0) k (fun t k1 => tk t = TRIGHTCURLY /\ CP (qBlockEnd p0 perm) k1 Q).
Proof.
  intros H C A G. destruct H as [ts p H|ts p ts' p' E H H'].
  - ex H. split; [reflexivity|]. unfold qBlockEnd. apply CP_bind, CP_last. destruct C as [C|C]; [discriminate C|].
    destruct (Bool.bool_dec perm false) as [E|E].
    + rewrite E. apply CP_ret. rewrite LP. apply G; [assumption|lia|congruence].
    + destruct C as [C|C]; [congruence|]. rewrite (last_tok_T0 _ _ _ H) in C. apply not_false_is_true in E. rewrite E. apply CP_bind.
      eapply (CP_not p0 all SA (ch ";")); [eassumption|reflexivity|discriminate|apply C; reflexivity|].
      intros t y q b' w' g' k' B' NE. cbn [tk]. unfold tok_eqb. destruct (token_eq_dec t TSEMICOLON) as [->|]; [destruct (NE eq_refl)|].
      apply CP_bind, CP_back, CP_ret. cbn [kb]. rewrite LP. apply G; [exact (At_bk _ _ _ _ _ B')|rewrite (bk_len _ _ _ _ _ B'); lia|].
      rewrite (bk_lp _ _ _ _ _ B'), EN. apply line_brace.
  - rewrite <- app_assoc in A. ex H. split; [reflexivity|]. unfold qBlockEnd. apply CP_bind, CP_last. rewrite E. ex H'. tk. apply CP_ret.
    apply G; [assumption|lia|congruence].
Qed.
Lemma close_last ts q : Close perm ts q -> exists x, last_tok ts = Some (x, q).
Proof. intros [ts' p H|ts' p ts2 p' E H H']; [exists (lit "}"); apply (last_tok_T0 _ _ _ H)|exists (lit ";"); apply (last_tok_T _ _ _ _ H')]. Qed.
Lemma close_first ts q : Close perm ts q -> exists t p tl, ts = t ++ tl /\ T t (lit "}") p.
Proof. intros [ts' p H|ts' p ts2 p' E H H']; [exists ts', p, []; rewrite app_nil_r; auto|eauto]. Qed.
Lemma close_next ts q rest : Close perm ts q -> next_tok (ts ++ rest) = Some (lit "}").
Proof. intros H. apply close_first in H. destruct H as (t & p & tl & -> & H). rewrite <- app_assoc. apply (next_tok_T _ _ _ _ H). Qed.
Lemma closed_app a ts rest : last_tok ts <> None -> closed perm false (a ++ ts) rest -> closed perm false ts rest.
Proof. intros N. unfold closed. rewrite last_tok_app. destruct (last_tok ts); [tauto|congruence]. Qed.

(** ** Inline comments of statements *)
Lemma Inline_app l c rest more : rest <> [] \/ no_com more -> Inline l c rest -> Inline l c (rest ++ more).
Proof.
  destruct c; cbn; [tauto|]. destruct rest as [|[] rest]; cbn; [|tauto|tauto]. intros [H|H]; [congruence|]. destruct more as [|[] more]; cbn in *; tauto.
Qed.
Lemma no_com_more ts more : ts <> [] -> no_com ts -> no_com (ts ++ more).
Proof. destruct ts; [congruence|]. cbn. tauto. Qed.
Lemma C_maybe {A} set (x x' : A) k il rest l (Q : A -> cur -> Prop) : At k (icom il ++ rest) -> Line (lp k) = l -> Inline l il rest ->
  (match inode il with Some c => set c x = Some x' | None => x = x' end) -> (forall k', At k' rest -> (len k' <= len k)%nat -> Q x' k') -> CP (qMaybeInline p0 set x) k Q.
Proof.
  intros A0 L I E G. unfold qMaybeInline. apply CP_bind. eapply CP_inline; [exact SA|exact A0|exact L|exact I|]. intros k' A' L' _.
  destruct (inode il) as [c|]; [rewrite E|subst x']; apply CP_ret; apply G; assumption.
Qed.

(** ** Oneof *)
Lemma option_relabel cs il ts o : Option perm false cs il ts o -> exists o0, Option perm false [] None ts o0 /\
  match il with Some c => set_op_inline c (set_op_comments cs o0) = o | None => set_op_comments cs o0 = o end.
Proof. intros [t1 p1 t2 name t3 t4 v t5 p5 H1 H2 H3 H4 H5]. eexists. split; [econstructor; eassumption|]. destruct il; reflexivity. Qed.
Lemma oneoffield_relabel cs il ts o : OneofField perm false cs il ts o -> exists o0, OneofField perm false [] None ts o0 /\
  match il with Some c => set_oof_inline c (set_oof_comments cs o0) = o | None => set_oof_comments cs o0 = o end.
Proof. intros [t1 ty p1 t2 name num os p2 H1 H2]. eexists. split; [econstructor; eassumption|]. destruct il; reflexivity. Qed.
Lemma option_first cs il ts o : Option perm false cs il ts o -> exists t1 p1 tl, ts = t1 ++ tl /\ T t1 (lit "option") p1.
Proof. intros []. eauto. Qed.
Lemma T_nonempty t x p tl : T t x p -> t ++ tl <> [].
Proof. intros (cs & ->). destruct cs; discriminate. Qed.
Lemma ident_not_semi x : is_ident x \/ x = lit "." -> x <> lit ";".
Proof. intros [(c & l & -> & H & _)| ->] E; [injection E as -> _; apply ident_start_iff in H; discriminate|discriminate]. Qed.

Definition oneof_done (k : cur) (rest : list item) (q : mpos) (k1 : cur) : Prop :=
  CP (qBlockEnd p0 perm) k1 (fun q' k' => q' = q /\ At k' rest /\ (len k' < len k)%nat /\ Line (lp k') = Line q).
Definition PElems (ts : list item) (fs : list oneofField) (os : list option_) : Prop :=
  ts <> [] /\ exists x q, last_tok ts = Some (x, q) /\ forall n k rest facc oacc (Q : list oneofField * list option_ -> cur -> Prop), At k (ts ++ rest) -> closed perm false ts rest -> (len k < n)%nat ->
    (forall k1, oneof_done k rest q k1 -> Q (facc ++ fs, oacc ++ os) k1) -> CP (qOneof_loop p0 perm n facc oacc) k Q.
Definition PRest (ts : list item) (fs : list oneofField) (os : list option_) : Prop :=
  ts <> [] /\ exists x q, last_tok ts = Some (x, q) /\ forall n k rest facc oacc (Q : list oneofField * list option_ -> cur -> Prop), At k (ts ++ rest) -> closed perm false ts rest -> (len k < n)%nat ->
    (forall k1, oneof_done k rest q k1 -> Q (facc ++ fs, oacc ++ os) k1) ->
    CP (t <-- ptok 0;; if tok_eqb (tk t) TRIGHTCURLY then pret (facc, oacc) else pback t;;; qOneof_loop p0 perm n facc oacc) k Q.
Lemma done_mono k k' rest q k1 : (len k' <= len k)%nat -> oneof_done k' rest q k1 -> oneof_done k rest q k1.
Proof. intros L H. unfold oneof_done in *. eapply CP_weak; [exact H|]. cbn beta. intros q' k2 (E & A & L2 & LL). split; [exact E|]. split; [exact A|]. split; [lia|exact LL]. Qed.
Lemma elems_first ts fs os : OneofElems perm false ts fs os -> next_tok ts <> Some (lit "}") /\ next_tok ts <> None.
Proof.
  intros [cs p ts' fs' os' _|cs ts' o x q il rest fs' os' H _ _ _ _|cs ts' f x q il rest fs' os' H _ _ _ _ _]; rewrite next_tok_coms.
  - split; discriminate.
  - apply option_first in H. destruct H as (t1 & p1 & tl & -> & H). rewrite <- app_assoc, (next_tok_T _ _ _ _ H). split; discriminate.
  - destruct H as [t1 ty p1 t2 name num os2 p2 H _]. apply Type_first in H. destruct H as (t & y & tl & -> & H & I). rewrite <- !app_assoc, (next_tok_T _ _ _ _ H).
    split; [|discriminate]. intros X. injection X as ->. destruct I as [(c & l & E & H0 & _)|E]; [injection E as <- _; apply ident_start_iff in H0; discriminate|discriminate].
Qed.
Lemma C_oneof_elems :
  (forall ts fs os, OneofElems perm false ts fs os -> PElems ts fs os) /\ (forall ts fs os, OneofRest perm false ts fs os -> PRest ts fs os).
Proof.
  apply (Oneof_mutind perm false PElems PRest).
  - intros cs p ts fs os H (NE & x & q & LT & IH). split; [destruct cs; discriminate|]. exists x, q. split.
    { rewrite last_tok_app. cbn [last_tok]. rewrite LT. reflexivity. }
    intros n k rest facc oacc Q A C L G. destruct n as [|n]; [lia|]. cbn [qOneof_loop]. rewrite <- app_assoc in A. cbn [app] in A.
    apply CP_bind. eapply CP_comments; [exact SA|exact A|exact I|]. intros k1 A1 _ L1 _.
    assert (HT : T [Tok (lit ";") p] (lit ";") p) by (exists []; reflexivity). change (Tok (lit ";") p :: ts ++ rest) with ([Tok (lit ";") p] ++ ts ++ rest) in A1.
    ex HT. tk. eapply IH; [eassumption| |lia|].
    { apply (closed_app (coms cs ++ [Tok (lit ";") p])); [congruence|]. rewrite <- app_assoc. exact C. }
    intros k2 D. apply G. eapply done_mono; [|exact D]. lia.
  - intros cs ts o x q il rest fs os HO NC LT IN HR (NE & x' & q' & LT' & IH). split.
    { destruct rest; [congruence|]. destruct cs; [|discriminate]. destruct ts; [|discriminate]. destruct il; discriminate. }
    exists x', q'. split; [rewrite !last_tok_app, LT'; reflexivity|].
    intros n k rest' facc oacc Q A C L G. destruct n as [|n]; [lia|]. cbn [qOneof_loop]. rewrite <- !app_assoc in A.
    apply CP_bind. apply option_relabel in HO. destruct HO as (o0 & HO & E). pose proof HO as HO2. apply option_first in HO2. destruct HO2 as (t1 & p1 & tl & -> & H1).
    eapply CP_comments; [exact SA|exact A|apply no_com_more; [eapply T_nonempty; exact H1|exact NC]|]. intros k1 A1 _ L1 _. rewrite <- app_assoc in A1.
    ex H1. tk. apply CP_bind, CP_back. cbn [kb]. pose proof (At_bk _ _ _ _ _ B) as AB2. pose proof (bk_len _ _ _ _ _ B) as LB2.
    apply CP_bind, CP_peek. ex H1. tk. pose proof (At_bk _ _ _ _ _ B0) as AB3. pose proof (bk_len _ _ _ _ _ B0) as LB3.
    apply CP_bind, CP_bind. eapply C_option; [exact SA|exact HO|rewrite <- app_assoc; exact AB3|]. intros k4 (AB4 & LB4 & x4 & q4 & E4 & LL4).
    rewrite LT in E4. injection E4 as <- <-. apply CP_bind. eapply C_maybe; [exact AB4|exact LL4|apply Inline_app; [left; exact NE|exact IN]| |].
    { instantiate (1 := o). destruct (inode il); [unfold total_set; rewrite E; reflexivity|exact E]. }
    intros k5 AB5 LB5. apply CP_ret. cbn beta iota. eapply IH; [exact AB5| |lia|].
    { apply (closed_app (coms cs ++ (t1 ++ tl) ++ icom il)); [congruence|]. rewrite <- !app_assoc. rewrite <- app_assoc in C. exact C. }
    intros k6 D. rewrite <- app_assoc. apply G. eapply done_mono; [|exact D]. lia.
  - intros cs ts f x q il rest fs os HO NC NF LT IN HR (NE & x' & q' & LT' & IH). split.
    { destruct rest; [congruence|]. destruct cs; [|discriminate]. destruct ts; [|discriminate]. destruct il; discriminate. }
    exists x', q'. split; [rewrite !last_tok_app, LT'; reflexivity|].
    intros n k rest' facc oacc Q A C L G. destruct n as [|n]; [lia|]. cbn [qOneof_loop]. rewrite <- !app_assoc in A.
    apply CP_bind. apply oneoffield_relabel in HO. destruct HO as (o0 & HO & E).
    assert (HO2 : exists t y p tl, ts = t ++ tl /\ T t y p /\ (is_ident y \/ y = lit ".")).
    { destruct HO as [t1 ty p1 t2 name num os' p2 H1 _]. apply Type_first in H1. destruct H1 as (t & y & tl & -> & H1 & I). rewrite <- app_assoc. eauto 8. }
    destruct HO2 as (t1 & y & p1 & tl & -> & H1 & I).
    eapply CP_comments; [exact SA|exact A|apply no_com_more; [eapply T_nonempty; exact H1|exact NC]|]. intros k1 A1 _ L1 _. rewrite <- app_assoc in A1.
    destruct (hit_name 0 y I eq_refl) as (t0 & HI & CI). apply CP_bind. eapply CP_tok; [exact SA|reflexivity|exact A1|exact H1|exact HI|].
    intros b w g k2 B _. cbn [tk]. assert (tok_eqb t0 TSEMICOLON = false) as -> by (destruct CI as [[_ ->]|[_ ->]]; reflexivity).
    apply CP_bind, CP_back. cbn [kb]. pose proof (At_bk _ _ _ _ _ B) as A2. pose proof (bk_len _ _ _ _ _ B) as L2.
    destruct (hit_name ScanKeyword y I eq_refl) as (t2 & HK & CK). apply CP_bind, CP_peek. eapply CP_tok; [exact SA|reflexivity|exact A2|exact H1|exact HK|].
    intros b' w' g' k3 B' _. cbn [tk kb]. assert (tok_eqb t2 TOPTION = false) as ->.
    { unfold tok_eqb. destruct (token_eq_dec t2 TOPTION) as [->|]; [|reflexivity]. exfalso. destruct CK as [[_ CK]|[_ CK]]; [|discriminate CK].
      symmetry in CK. revert CK. apply (tok_not y "option"); [cbn; tauto|]. apply (not_first_T _ _ _ tl _ H1). exact NF. }
    pose proof (At_bk _ _ _ _ _ B') as A3. pose proof (bk_len _ _ _ _ _ B') as L3.
    apply CP_bind, CP_bind. eapply C_oneoffield; [exact SA|exact HO|rewrite <- app_assoc; exact A3|]. intros k4 (A4 & L4 & x4 & q4 & E4 & LL4).
    rewrite LT in E4. injection E4 as <- <-. apply CP_bind. eapply C_maybe; [exact A4|exact LL4|apply Inline_app; [left; exact NE|exact IN]| |].
    { instantiate (1 := f). destruct (inode il); [unfold total_set; rewrite E; reflexivity|exact E]. }
    intros k5 A5 L5. apply CP_ret. cbn beta iota. eapply IH; [exact A5| |lia|].
    { apply (closed_app (coms cs ++ (t1 ++ tl) ++ icom il)); [congruence|]. rewrite <- !app_assoc. rewrite <- app_assoc in C. exact C. }
    intros k6 D. rewrite <- app_assoc. apply G. eapply done_mono; [|exact D]. lia.
  - intros ts p H. destruct (close_last _ _ H) as (x & LT). split; [intros ->; discriminate LT|]. exists x, p. split; [exact LT|].
    intros n k rest facc oacc Q A C L G. apply CP_bind. eapply CP_weak; [eapply (C_close ts p k rest (fun q' k' => q' = p /\ At k' rest /\ (len k' < len k)%nat /\ Line (lp k') = Line p)); [exact H|exact C|exact A|]|].
    { auto. }
    cbn beta. intros t k1 [-> D]. tk. apply CP_ret. rewrite !app_nil_r in G. apply G. exact D.
  - intros ts fs os H (NE & x & q & LT & IH). split; [exact NE|]. exists x, q. split; [exact LT|]. intros n k rest facc oacc Q A C L G.
    apply CP_bind. destruct (elems_first _ _ _ H) as [N1 N2]. eapply (CP_not p0 all SA (ch "}")); [exact A|reflexivity|discriminate| |].
    { destruct (next_tok ts) as [y|] eqn:E; [|congruence]. rewrite (next_tok_app _ rest _ E). exact N1. }
    intros t y p b w g k' B NT. cbn [tk]. unfold tok_eqb. destruct (token_eq_dec t TRIGHTCURLY) as [->|]; [destruct (NT eq_refl)|].
    apply CP_bind, CP_back. cbn [kb]. pose proof (bk_len _ _ _ _ _ B) as L1. eapply IH; [exact (At_bk _ _ _ _ _ B)|exact C|lia|].
    intros k1 D. apply G. eapply done_mono; [|exact D]. lia.
Qed.
Lemma C_oneof ts o k rest (Q : oneof -> cur -> Prop) : Oneof perm false [] None ts o -> At k (ts ++ rest) -> closed perm false ts rest ->
  (forall k', after k ts rest k' -> Q o k') -> CP (qParseOneof p0 perm) k Q.
Proof.
  intros [t1 p1 t2 name p2 t3 p3 lc t4 fs os x q H1 H2 I2 H3 IN H4 LT] A C G. rewrite <- !app_assoc in A. unfold qParseOneof.
  ex H1. ex H2. ex H3. destruct (proj1 C_oneof_elems _ _ _ H4) as (NE & x' & q' & LT' & IH). rewrite LT in LT'. injection LT' as <- <-.
  apply CP_bind. eapply CP_inline; [exact SA|eassumption|reflexivity|rewrite LP1; apply Inline_app; [left; exact NE|exact IN]|]. intros k4 A4 L4 _.
  apply CP_bind, CP_fuel, CP_bind. eapply IH; [exact A4| |lia|].
  { apply (closed_app (t1 ++ t2 ++ t3 ++ icom lc)); [congruence|]. rewrite <- !app_assoc. exact C. }
  intros k5 D. cbn [app]. apply CP_bind. eapply CP_weak; [exact D|]. cbn beta. intros q' k6 (-> & A6 & L6 & LL6). apply CP_ret. apply G.
  split; [exact A6|]. split; [lia|]. exists x, q. split; [|exact LL6]. rewrite !last_tok_app, LT. reflexivity.
Qed.

(** ** Ranges and names *)
Definition rfollow (ts : list item) : Prop := exists y, next_tok ts = Some y /\ words [","; ";"; "["]%string y.
Lemma C_range ts r k rest (Q : range -> cur -> Prop) : Range ts r -> At k (ts ++ rest) -> rfollow rest ->
  (forall k', At k' rest -> (len k' < len k)%nat -> Q r k') -> CP (qRange p0) k Q.
Proof.
  intros H A (y & N & W) G. unfold qRange. destruct H as [ts x p H I|t1 x p t2 t3 y' p3 H I (p2 & H2) H3 Y].
  - ex H. tk. apply next_T in N. destruct N as (t & q & tl & -> & HT). apply words_cases in W. destruct W as (s & W & ->). cbn [In] in W.
    repeat (destruct W as [<-|W]; [ex HT; cbn [tx]; match goal with |- context [str_eqb ?a ?b] => change (str_eqb a b) with false end; cbn [negb];
      apply CP_bind, CP_back, CP_ret; apply G; [exact (At_bk _ _ _ _ _ B0)|cbn [kb]; rewrite (bk_len _ _ _ _ _ B0); lia]|]). destruct W.
  - rewrite <- !app_assoc in A. ex H. tk. ex H2. change (str_eqb (lit "to") (lit "to")) with true. cbn [negb].
    destruct Y as [Y| ->].
    + ex H3. tk. apply CP_ret. apply G; [assumption|lia].
    + ex H3. tk. change (str_eqb (lit "max") (lit "max")) with true. apply CP_ret. apply G; [assumption|lia].
Qed.
Inductive RTail : list item -> list range -> Prop :=
| rt_nil : RTail [] []
| rt_cons td ts o tl os : K td "," -> Range ts o -> RTail tl os -> RTail (td ++ ts ++ tl) (o :: os).
Lemma ranges_tail ts os : Ranges ts os -> exists t1 o tl os', ts = t1 ++ tl /\ os = o :: os' /\ Range t1 o /\ RTail tl os'.
Proof.
  induction 1 as [ts o H|ts o td ts' os H D _ (t1 & o1 & tl & os' & -> & -> & H1 & TL)].
  - exists ts, o, [], []. rewrite app_nil_r. repeat split; auto. constructor.
  - exists ts, o, (td ++ t1 ++ tl), (o1 :: os'). repeat split; auto. constructor; assumption.
Qed.
Definition rend (ts : list item) : Prop := exists y, next_tok ts = Some y /\ words [";"; "["]%string y.
Lemma rt_follow tl os rest : RTail tl os -> rend rest -> rfollow (tl ++ rest).
Proof.
  intros [|td ts o tl' os' (pd & D) _ _] (y & N & W); [exists y; split; [exact N|cbn in *; tauto]|]. rewrite <- app_assoc. exists (lit ","). split; [apply (next_tok_T _ _ _ _ D)|cbn; tauto].
Qed.
Lemma r_loop tl os : RTail tl os -> forall n k rest acc (Q : list range -> cur -> Prop), At k (tl ++ rest) -> rend rest -> (len k < n)%nat ->
  (forall k', At k' rest -> (len k' <= len k)%nat -> Q (acc ++ os) k') -> CP (qRanges_loop p0 n acc) k Q.
Proof.
  induction 1 as [|td ts o tl os (pd & D) H TL IH]; intros n k rest acc Q A HT L G; (destruct n as [|n]; [lia|]); cbn [qRanges_loop].
  - cbn [app] in A. rewrite app_nil_r in G. destruct HT as (y & N & W). apply next_T in N. destruct N as (t & q & tl & -> & HT). apply words_cases in W. destruct W as (s & W & ->). cbn [In] in W.
    repeat (destruct W as [<-|W]; [ex HT; tk; apply CP_bind, CP_back, CP_ret; apply G; [exact (At_bk _ _ _ _ _ B)|cbn [kb]; rewrite (bk_len _ _ _ _ _ B); lia]|]). destruct W.
  - rewrite <- !app_assoc in A. ex D. tk. apply CP_bind. eapply C_range; [exact H|eassumption|eapply rt_follow; eassumption|]. intros k2 A2 L2.
    eapply IH; [exact A2|exact HT|lia|]. intros k3 A3 L3. rewrite <- app_assoc. apply G; [exact A3|lia].
Qed.
Lemma C_ranges ts rs k rest (Q : list range -> cur -> Prop) : Ranges ts rs -> At k (ts ++ rest) -> rend rest ->
  (forall k', At k' rest -> (len k' < len k)%nat -> Q rs k') -> CP (qRanges p0) k Q.
Proof.
  intros H A F G. apply ranges_tail in H. destruct H as (t1 & o & tl & os' & -> & -> & H & TL). rewrite <- app_assoc in A. unfold qRanges.
  apply CP_bind. eapply C_range; [exact H|exact A|eapply rt_follow; eassumption|]. intros k1 A1 L1. apply CP_bind, CP_fuel.
  eapply r_loop; [exact TL|exact A1|exact F|lia|]. intros k2 A2 L2. apply G; [exact A2|lia].
Qed.
Lemma C_fieldname ts x p k rest (Q : str -> cur -> Prop) : T ts x p -> is_str x \/ is_ident x -> At k (ts ++ rest) ->
  (forall k', At k' rest -> (len k' < len k)%nat -> Q x k') -> CP (qFieldName p0) k Q.
Proof.
  intros H I A G. unfold qFieldName. destruct I as [I|I].
  - ex H. tk. apply CP_ret. apply G; assumption.
  - apply CP_bind. eapply CP_tok; [exact SA|reflexivity|exact A|exact H|apply (hit_ident ScanStrLit x I)|]. intros b w g k' B _. cbn [tk].
    change (tok_eqb (identToken ScanStrLit x) TSTRLIT) with false. cbv iota. apply CP_bind, CP_back. cbn [kb].
    pose proof (At_bk _ _ _ _ _ B) as A2. pose proof (bk_len _ _ _ _ _ B) as L2. ex H. change (tok_eqb (identToken 0 x) TIDENT) with true. cbn [negb].
    apply CP_ret. apply G; [assumption|lia].
Qed.
Lemma names_first ts xs : FieldNames false ts xs -> exists t x p tl, ts = t ++ tl /\ T t x p /\ (is_str x \/ is_ident x).
Proof. intros [ts' x p H I|ts' x p td ts2 xs' H I _ _]; [exists ts', x, p, []; rewrite app_nil_r; auto|eauto 8]. Qed.
Lemma n_loop ts xs : FieldNames false ts xs -> forall (n : cur -> nat) k t p rest acc (Q : list str -> cur -> Prop), At k (ts ++ t ++ rest) -> T t (lit ";") p -> (forall k', len k' < len k -> len k' < n k')%nat ->
  (forall k', At k' (t ++ rest) -> (len k' < len k)%nat -> Q (acc ++ xs) k') -> CP (x <-- qFieldName p0;; (fun k' => qFieldNames_loop p0 (n k') (acc ++ [x]) k')) k Q.
Proof.
  induction 1 as [ts x p H I|ts x p td ts' xs H I D HF IH]; intros n k t q rest acc Q A HT L G.
  - apply CP_bind. eapply C_fieldname; [exact H|exact I|exact A|]. intros k1 A1 L1. specialize (L k1 L1). change (fun k' => qFieldNames_loop p0 (n k') (acc ++ [x]) k') with (n0 <-- (fun k' => POk (n k') k');; qFieldNames_loop p0 n0 (acc ++ [x])). apply CP_bind. red. destruct (n k1) as [|m]; [lia|]. cbn [qFieldNames_loop].
    ex HT. tk. apply CP_bind, CP_back. cbn [kb]. pose proof (At_bk _ _ _ _ _ B) as AB2. pose proof (bk_len _ _ _ _ _ B) as LB2.
    apply CP_try_bal. unfold qFieldName. apply CB_bind. ex HT. tk. apply CB_bind, CP_back. cbn [kb]. pose proof (At_bk _ _ _ _ _ B0) as AB3. pose proof (bk_len _ _ _ _ _ B0) as LB3.
    apply CB_bind. ex HT. tk. unfold CB, pbal. cbn [kb]. apply CP_ret. apply G; [exact (At_bk _ _ _ _ _ B1)|rewrite (bk_len _ _ _ _ _ B1); lia].
  - destruct D as [(pd & D)|[D _]]; [|discriminate D]. rewrite <- !app_assoc in A. apply CP_bind. eapply C_fieldname; [exact H|exact I|exact A|]. intros k1 A1 L1. specialize (L k1 L1). change (fun k' => qFieldNames_loop p0 (n k') (acc ++ [x]) k') with (n0 <-- (fun k' => POk (n k') k');; qFieldNames_loop p0 n0 (acc ++ [x])). apply CP_bind. red. destruct (n k1) as [|m]; [lia|]. cbn [qFieldNames_loop].
    ex D. tk. eapply (IH (fun _ => m)); [eassumption|exact HT|intros; lia|]. intros k' A' L'. rewrite <- app_assoc. apply G; [exact A'|lia].
Qed.
Lemma C_reserved ts r k rest (Q : reserved -> cur -> Prop) : Reserved false [] None ts r -> At k (ts ++ rest) ->
  (forall k', after k ts rest k' -> Q r k') -> CP (qParseReserved p0) k Q.
Proof.
  intros H A G. unfold qParseReserved. destruct H as [t1 p1 t2 rs t3 p3 H1 H2 H3|t1 p1 tj t2 xs t3 p3 H1 [[J _]|J] H2 H3]; [|discriminate J|].
  - rewrite <- !app_assoc in A. ex H1. apply CP_bind, CP_try. eapply C_ranges; [exact H2|eassumption| |].
    { exists (lit ";"). split; [apply (next_tok_T _ _ _ _ H3)|cbn; tauto]. }
    intros k1 A1 L1. apply CP_ret. cbn beta iota. ex H3. apply CP_ret. apply G.
    eapply (after_T _ _ _ _ (t1 ++ t2)); [rewrite <- !app_assoc; reflexivity|exact H3|eassumption|eassumption|lia].
  - subst tj. cbn [app] in *. rewrite <- !app_assoc in A. ex H1. apply CP_bind, CP_try_bal.
    pose proof H2 as HN. apply names_first in HN. destruct HN as (t & x & p & tl & -> & HT & I). rewrite <- app_assoc in *.
    assert (X : exists t0, (hit ScanNumberLit x t0 \/ miss ScanNumberLit x t0) /\ tok_eqb t0 TINTLIT = false).
    { destruct I as [I|I]; [exists TQUOTE; split; [right; apply miss_str; [exact I|reflexivity]|reflexivity]|].
      exists (identToken ScanNumberLit x). split; [left; hit|]. unfold identToken. cbn. destruct (isFloatLitKeyword x); reflexivity. }
    destruct X as (t0 & X & N0). unfold qRanges. apply CB_bind0. unfold qRange. apply CB_bind. eapply CP_see; [exact SA|reflexivity|eassumption|exact HT|exact X|].
    intros y b2 w2 g2 k2 B2. cbn [tk]. rewrite N0. cbn [negb]. unfold CB, pbal. cbn [kb].
    pose proof (At_bk _ _ _ _ _ B2) as AB2. pose proof (bk_len _ _ _ _ _ B2) as LB2. apply CP_bind. unfold qFieldNames.
    refine (n_loop _ _ H2 (fun k' => S (len k')) b2 t3 p3 rest [] _ _ H3 _ _); [rewrite <- app_assoc; exact AB2|intros; lia|].
    intros k4 A4 L4. cbn [app]. apply CP_ret. cbn beta iota. ex H3. apply CP_ret. apply G.
    eapply (after_T _ _ _ _ (t1 ++ t ++ tl)); [rewrite <- !app_assoc; reflexivity|exact H3|eassumption|eassumption|lia].
Qed.

(** ** Declarations *)
Definition dv_of (kvs : list (string * str)) : decl_vars :=
  mkDecl (last_value "number" kvs) (last_value "full_name" kvs) (last_value "type" kvs) (is_true_ (last_value "repeated" kvs)) (is_true_ (last_value "reserved" kvs)).
Definition dset (kv : string * str) (v : decl_vars) : decl_vars :=
  let x := snd kv in
  if String.eqb (fst kv) "number" then mkDecl x (dv_fullName v) (dv_type v) (dv_repeated v) (dv_reserved v)
  else if String.eqb (fst kv) "full_name" then mkDecl (dv_number v) x (dv_type v) (dv_repeated v) (dv_reserved v)
  else if String.eqb (fst kv) "type" then mkDecl (dv_number v) (dv_fullName v) x (dv_repeated v) (dv_reserved v)
  else if String.eqb (fst kv) "repeated" then mkDecl (dv_number v) (dv_fullName v) (dv_type v) (is_true_ x) (dv_reserved v)
  else if String.eqb (fst kv) "reserved" then mkDecl (dv_number v) (dv_fullName v) (dv_type v) (dv_repeated v) (is_true_ x)
  else v.
Lemma last_value_snoc key kvs k v : last_value key (kvs ++ [(k, v)]) = if String.eqb k key then v else last_value key kvs.
Proof.
  induction kvs as [|[k' v'] kvs IH]; cbn [app last_value existsb negb]; [rewrite andb_true_r; reflexivity|].
  rewrite IH, existsb_app. cbn [existsb fst]. rewrite orb_false_r. destruct (String.eqb k key); [rewrite orb_true_r, andb_false_r; reflexivity|].
  rewrite orb_false_r. reflexivity.
Qed.
Lemma dv_snoc kvs kv : In (fst kv) ["number"; "full_name"; "type"; "repeated"; "reserved"]%string -> dv_of (kvs ++ [kv]) = dset kv (dv_of kvs).
Proof.
  destruct kv as [k v]. cbn [fst]. intros H. unfold dv_of. rewrite !last_value_snoc. cbn [In] in H.
  repeat (destruct H as [<-|H]; [reflexivity|]). destruct H.
Qed.
Lemma str_eqb_true x : str_eqb x (lit "true") = is_true_ x.
Proof. unfold is_true_. destruct (list_eq_dec N.eq_dec x (lit "true")) as [->|N]; [reflexivity|apply str_eqb_false; exact N]. Qed.
Lemma decl_key ts kv : DeclField ts kv -> In (fst kv) ["number"; "full_name"; "type"; "repeated"; "reserved"]%string.
Proof. intros [?|key ? ? ? ? ? I|key ? ? ? ? ? I]; cbn [fst In] in *; tauto. Qed.
Lemma decl_first ts kv : DeclField ts kv -> exists t p tl, ts = t ++ tl /\ T t (lit (fst kv)) p.
Proof. intros [t1 t2 t3 x p (q & H)|key t1 t2 t3 x p _ (q & H)|key t1 t2 t3 x p _ (q & H)]; cbn [fst]; eauto. Qed.
Lemma C_declfield ts kv k rest v (Q : decl_vars -> cur -> Prop) : DeclField ts kv -> At k (ts ++ rest) ->
  (forall k', At k' rest -> (len k' < len k)%nat -> Q (dset kv v) k') ->
  CP (t2 <-- ptok ScanKeyword;;
      match tk t2 with
      | TNUMBER => pexpect 0 TCOLON;;; x <-- pexpect ScanNumberLit TINTLIT;; pret (mkDecl (tx x) (dv_fullName v) (dv_type v) (dv_repeated v) (dv_reserved v))
      | TFULLNAME => pexpect 0 TCOLON;;; x <-- pexpect ScanStrLit TSTRLIT;; pret (mkDecl (dv_number v) (tx x) (dv_type v) (dv_repeated v) (dv_reserved v))
      | TTYPE => pexpect 0 TCOLON;;; x <-- pexpect ScanStrLit TSTRLIT;; pret (mkDecl (dv_number v) (dv_fullName v) (tx x) (dv_repeated v) (dv_reserved v))
      | TREPEATED => pexpect 0 TCOLON;;; x <-- pexpect 0 TIDENT;; pret (mkDecl (dv_number v) (dv_fullName v) (dv_type v) (str_eqb (tx x) (lit "true")) (dv_reserved v))
      | TRESERVED => pexpect 0 TCOLON;;; x <-- pexpect 0 TIDENT;; pret (mkDecl (dv_number v) (dv_fullName v) (dv_type v) (dv_repeated v) (str_eqb (tx x) (lit "true")))
      | _ => perr t2
      end) k Q.
Proof.
  intros H A G. destruct H as [t1 t2 t3 x p (p1 & H1) (p2 & H2) H3 I|key t1 t2 t3 x p IK (p1 & H1) (p2 & H2) H3 I|key t1 t2 t3 x p IK (p1 & H1) (p2 & H2) H3 I];
    rewrite <- !app_assoc in A.
  - ex H1. ex H2. ex H3. apply CP_ret. apply G; [assumption|lia].
  - cbn [In] in IK. destruct IK as [<-|[<-|[]]]; ex H1; ex H2; ex H3; apply CP_ret; apply G; (assumption || lia).
  - cbn [In] in IK. destruct IK as [<-|[<-|[]]]; ex H1; ex H2; ex H3; apply CP_ret; rewrite str_eqb_true; apply G; (assumption || lia).
Qed.
Lemma decl_loop first ts kvs : DeclFields false first ts kvs -> forall n k t p rest acc (Q : decl_vars -> cur -> Prop), At k (ts ++ t ++ rest) -> T t (lit "}") p ->
  (len k < n)%nat -> (forall k', At k' rest -> (len k' < len k)%nat -> lp k' = p -> Q (dv_of (acc ++ kvs)) k') -> CP (qDeclaration_loop p0 n (dv_of acc)) k Q.
Proof.
  induction 1 as [first|first sep ts kv ts' kvs D H HF IH]; intros n k t p rest acc Q A HT L G; (destruct n as [|n]; [lia|]); cbn [qDeclaration_loop].
  - rewrite app_nil_r in G. cbn [app] in A. ex HT. tk. apply CP_ret. apply G; assumption.
  - rewrite <- !app_assoc in A. pose proof (decl_first _ _ H) as (u & pu & tl & EU & HU). pose proof (decl_key _ _ H) as KU.
    assert (FIN : forall k', At k' (ts ++ ts' ++ t ++ rest) -> (len k' <= len k)%nat -> (len k' < S n)%nat ->
      CP (t2 <-- ptok ScanKeyword;; v' <-- match tk t2 with
      | TNUMBER => pexpect 0 TCOLON;;; x <-- pexpect ScanNumberLit TINTLIT;; pret (mkDecl (tx x) (dv_fullName (dv_of acc)) (dv_type (dv_of acc)) (dv_repeated (dv_of acc)) (dv_reserved (dv_of acc)))
      | TFULLNAME => pexpect 0 TCOLON;;; x <-- pexpect ScanStrLit TSTRLIT;; pret (mkDecl (dv_number (dv_of acc)) (tx x) (dv_type (dv_of acc)) (dv_repeated (dv_of acc)) (dv_reserved (dv_of acc)))
      | TTYPE => pexpect 0 TCOLON;;; x <-- pexpect ScanStrLit TSTRLIT;; pret (mkDecl (dv_number (dv_of acc)) (dv_fullName (dv_of acc)) (tx x) (dv_repeated (dv_of acc)) (dv_reserved (dv_of acc)))
      | TREPEATED => pexpect 0 TCOLON;;; x <-- pexpect 0 TIDENT;; pret (mkDecl (dv_number (dv_of acc)) (dv_fullName (dv_of acc)) (dv_type (dv_of acc)) (str_eqb (tx x) (lit "true")) (dv_reserved (dv_of acc)))
      | TRESERVED => pexpect 0 TCOLON;;; x <-- pexpect 0 TIDENT;; pret (mkDecl (dv_number (dv_of acc)) (dv_fullName (dv_of acc)) (dv_type (dv_of acc)) (dv_repeated (dv_of acc)) (str_eqb (tx x) (lit "true")))
      | _ => perr t2
      end;; qDeclaration_loop p0 n v') k' Q).
    { intros k' A' L' LN. set (v := dv_of acc).
      refine (CP_assoc (Cursor.ptok p0 ScanKeyword) _ (fun v' => qDeclaration_loop p0 n v') k' Q _).
      apply CP_bind. eapply C_declfield; [exact H|exact A'|]. intros k2 A2 L2. unfold v. rewrite <- dv_snoc by exact KU.
      eapply IH; [exact A2|exact HT|lia|]. intros k3 A3 L3 LP3. rewrite <- app_assoc. apply G; [exact A3|lia|exact LP3]. }
    destruct D as [[(ps & D) _]|[-> _]].
    + ex D. tk. apply CP_bind, CP_ret. apply FIN; [assumption|lia|lia].
    + cbn [app] in A. rewrite EU, <- app_assoc in A. apply CP_bind.
      eapply CP_tok; [exact SA|reflexivity|exact A|exact HU| |].
      { apply hit_ident, identb_iff. cbn [In] in KU. repeat (destruct KU as [<-|KU]; [reflexivity|]). destruct KU. }
      intros b w g k2 B [A2 LP2 LE2 EN2]. cbn [tk tx tp kb]. change (identToken 0 (lit (fst kv))) with TIDENT. tk. apply CP_bind, CP_back. cbn [kb].
      pose proof (bk_len _ _ _ _ _ B). apply FIN; [rewrite EU, <- app_assoc; exact (At_bk _ _ _ _ _ B)|lia|lia].
Qed.
Lemma C_declaration ts d k rest (Q : declaration -> cur -> Prop) : Declaration false [] None ts d -> At k (ts ++ rest) ->
  (forall k', after k ts rest k' -> Q d k') -> CP (qParseDeclaration p0) k Q.
Proof.
  intros [t1 p1 t2 t3 p3 lc t4 kvs t5 p5 H1 (p2 & H2) H3 IN H4 H5] A G. rewrite <- !app_assoc in A. unfold qParseDeclaration. ex H1. ex H2. ex H3.
  assert (NE : t4 ++ t5 <> []). { destruct H5 as (cs & ->). destruct t4, cs; discriminate. }
  apply CP_bind. eapply CP_inline; [exact SA|eassumption|reflexivity|rewrite LP1, app_assoc; apply Inline_app; [left; exact NE|exact IN]|]. intros k4 A4 L4 _.
  apply CP_bind, CP_fuel, CP_bind. change (mkDecl [] [] [] false false) with (dv_of []). eapply decl_loop; [exact H4|exact A4|exact H5|lia|].
  intros k5 A5 L5 LP5. cbn [app]. apply CP_bind, CP_last, CP_ret. rewrite LP5. cbn [dv_of dv_number dv_fullName dv_type dv_repeated dv_reserved]. apply G.
  eapply (after_T _ _ _ _ (t1 ++ t2 ++ t3 ++ icom lc ++ t4)); [rewrite <- !app_assoc; reflexivity|exact H5|exact LP5|exact A5|lia].
Qed.
Lemma declaration_relabel cs il ts d : Declaration false cs il ts d -> exists d0, Declaration false [] None ts d0 /\ d = assignInlineComments (set_d_comments cs d0) [il].
Proof. intros [t1 p1 t2 t3 p3 lc t4 kvs t5 p5 H1 H2 H3 IN H4 H5]. eexists. split; [econstructor; eassumption|]. destruct il; reflexivity. Qed.
Lemma assign2 d a b : assignInlineComments d [a; b] = assignInlineComments d [last_some a b].
Proof. destruct a, b; reflexivity. Qed.
Lemma inode_last a b : inode (last_some a b) = last_some (inode a) (inode b).
Proof. destruct a, b; reflexivity. Qed.
(** the two inline comments behind a declaration *)
Lemma C_inlines {A} k c1 c2 rest l (f : option comment -> option comment -> PM A) Q : At k (icom c1 ++ icom c2 ++ rest) -> Line (lp k) = l -> Line (posat (cc k)) = l -> Inlines l c1 c2 rest ->
  (forall k', At k' rest -> (len k' <= len k)%nat -> CP (f (inode c1) (inode c2)) k' Q) -> CP (a <-- qInline p0;; b <-- qInline p0;; f a b) k Q.
Proof.
  intros A0 L LE [I1 I2] G. apply CP_bind. eapply CP_inline; [exact SA|exact A0|exact L|exact I1|]. intros k1 A1 L1 E1. apply CP_bind. destruct c1 as [c1|].
  - eapply CP_inline; [exact SA|exact A1|reflexivity|rewrite E1; exact I2|]. intros k2 A2 L2 _. apply G; [exact A2|lia].
  - subst c2. eapply (CP_inline _ _ SA _ l None); [exact A1|rewrite <- LE; apply (bk_line _ _ _ _ _ E1)|exact I1|]. intros k2 A2 L2 _. apply G; [exact A2|lia].
Qed.
Lemma decls_loop fol ts ds : Declarations false fol ts ds -> fol <> [] -> forall n k rest acc (Q : list declaration -> cur -> Prop), At k (ts ++ fol ++ rest) -> (len k < n)%nat ->
  (forall k', At k' (fol ++ rest) -> (len k' < len k)%nat -> Q (acc ++ ds) k') -> CP (qDeclarations_loop p0 n acc) k Q.
Proof.
  assert (INL : forall l c1 c2 r m, r <> [] -> Inlines l c1 c2 r -> Inlines l c1 c2 (r ++ m)).
  { intros l c1 c2 r m NE [I1 I2]. split; [rewrite app_assoc; apply Inline_app; [left; destruct c2; [discriminate|exact NE]|exact I1]|].
    destruct c1; [apply Inline_app; auto|exact I2]. }
  induction 1 as [cs ts d t p c1 c2 H NC HT I|cs ts d t p c1 c2 ts' ds H NC HT I HD IH]; intros NE n k rest acc Q A L G; (destruct n as [|n]; [lia|]); cbn [qDeclarations_loop];
    apply declaration_relabel in H; destruct H as (d0 & H & ->); rewrite <- !app_assoc in A.
  - apply CP_bind. pose proof H as H0. destruct H0 as [t1 p1 t2 t3 p3 lc t4 kvs t5 p5 H1 _ _ _ _ _].
    eapply CP_comments; [exact SA|exact A|apply no_com_more; [eapply T_nonempty; exact H1|exact NC]|]. intros k1 A1 _ L1 _. clear H1.
    apply CP_bind. eapply C_declaration; [exact H|exact A1|]. intros k2 (A2 & L2 & _). ex HT. tk.
    eapply C_inlines; [eassumption|rewrite LP; reflexivity|rewrite EN; destruct p; reflexivity|apply INL; [exact NE|exact I]|]. intros k4 A4 L4. apply CP_ret.
    rewrite assign2, <- inode_last. apply G; [exact A4|lia].
  - apply CP_bind. pose proof H as H0. destruct H0 as [t1 p1 t2 t3 p3 lc t4 kvs t5 p5 H1 _ _ _ _ _].
    eapply CP_comments; [exact SA|exact A|apply no_com_more; [eapply T_nonempty; exact H1|exact NC]|]. intros k1 A1 _ L1 _. clear H1.
    apply CP_bind. eapply C_declaration; [exact H|exact A1|]. intros k2 (A2 & L2 & _). ex HT. tk.
    eapply C_inlines; [eassumption|rewrite LP; reflexivity|rewrite EN; destruct p; reflexivity|rewrite app_assoc; apply INL; [|exact I]|].
    { destruct ts'; [exact NE|discriminate]. }
    intros k4 A4 L4. eapply IH; [exact NE|exact A4|lia|]. intros k5 A5 L5. rewrite assign2, <- inode_last, <- app_assoc. apply G; [exact A5|lia].
Qed.
Lemma C_extensions ts x k rest (Q : extensions -> cur -> Prop) : Extensions false [] None ts x -> At k (ts ++ rest) ->
  (forall k', after k ts rest k' -> Q x k') -> CP (qParseExtensions p0) k Q.
Proof.
  intros H A G. unfold qParseExtensions. destruct H as [t1 p1 t2 rs t3 p3 H1 H2 H3|t1 p1 t2 rs t3 p3 lc t4 ds t5 p5 H1 H2 H3 IN HD H5]; rewrite <- !app_assoc in A; ex H1; apply CP_bind.
  - eapply C_ranges; [exact H2|eassumption| |].
    { exists (lit ";"). split; [apply (next_tok_T _ _ _ _ H3)|cbn; tauto]. }
    intros k1 A1 L1. apply CP_bind. unfold qDeclarations. ex H3. tk. apply CP_bind, CP_back, CP_ret. cbn [kb]. cbn beta iota.
    pose proof (At_bk _ _ _ _ _ B0) as AB. pose proof (bk_len _ _ _ _ _ B0). ex H3. apply CP_ret. apply G.
    eapply (after_T _ _ _ _ (t1 ++ t2)); [rewrite <- !app_assoc; reflexivity|exact H3|eassumption|eassumption|lia].
  - eapply C_ranges; [exact H2|eassumption| |].
    { exists (lit "["). split; [apply (next_tok_T _ _ _ _ H3)|cbn; tauto]. }
    intros k1 A1 L1. apply CP_bind. unfold qDeclarations. ex H3. tk. assert (NE : t5 <> []). { destruct H5 as (cs & ->). destruct cs; discriminate. }
    apply CP_bind. eapply CP_inline; [exact SA|eassumption|reflexivity|rewrite LP0, app_assoc; apply Inline_app; [left; destruct t4; [exact NE|discriminate]|exact IN]|].
    intros k4 A4 L4 _. apply CP_bind, CP_fuel, CP_bind. eapply decls_loop; [exact HD|exact NE|exact A4|lia|]. intros k5 A5 L5. apply CP_ret. cbn beta iota. cbn [app].
    ex H5. apply CP_ret. apply G.
    eapply (after_T _ _ _ _ (t1 ++ t2 ++ t3 ++ icom lc ++ t4)); [rewrite <- !app_assoc; reflexivity|exact H5|eassumption|eassumption|lia].
Qed.
End Parts.
