(** What the pure parser accepts as oneofs, reserved and extensions statements. *)
From Coq Require Import List NArith ZArith Bool String Ascii Lia Sorted.
From Verif Require Import Base Token Scanner Lexer Lexing ScanRefine LexFacts LexSpec LexProofs ScanFacts LexerFacts ScanProps Ast Parser
  Cursor Pure Refine Term Term2 Grammar GramLex GramRules GramNames GramValues GramStmts GramParts GramBodies SndLex SndRules SndNames SndStmts.
Import ListNotations.
Open Scope N_scope.
Open Scope pure_scope.

Lemma Inline_part l c a b : Inline l c (a ++ b) -> Inline l c a.
Proof. destruct c as [c|]; cbn; [auto|]. destruct a as [|[] a]; cbn; auto. Qed.

Section Parts.
Variable p0 : mpos.
Variable src : list rune.
Hypothesis RS : readable src.
Variable perm : bool.
Notation P := (P p0 src).
Notation SD := (SD p0 src).
Notation Snd := (Snd p0 src).
Notation Read := (Read p0 src).
Notation Gd := (Gd p0 src).
Notation Bk := (Bk p0 src).

Lemma SD_maybe {A B} set (x : A) (f : A -> PM B) k0 ts k Q : P k0 ts k -> (forall c, set c x <> None) ->
  (forall c x' k', P k0 (ts ++ icom c) k' -> P k (icom c) k' -> inl p0 (Line (lp k)) c k' -> match inode c with Some c => set c x = Some x' | None => x' = x end -> SD k0 (f x' k') Q) ->
  SD k0 (pbind (qMaybeInline p0 set x) f k) Q.
Proof.
  intros H NS F. apply SD_bind. unfold qMaybeInline. pose proof (P_refl _ _ _ (P_Gd _ _ _ _ _ H)) as PR.
  assert (X : SD k (qInline p0 k) (fun c' k' => exists c, c' = inode c /\ P k0 (ts ++ icom c) k' /\ P k (icom c) k' /\ inl p0 (Line (lp k)) c k')).
  { eapply (SD_inline1 _ _ RS); [exact PR|]. intros c k' P1 I1 _. exists c. split; [reflexivity|]. split; [eapply P_trans; [exact H|exact P1]|]. split; [exact P1|exact I1]. }
  apply SD_bind. apply (SD_from _ _ k0 ts k _ _ H). eapply SD_weak; [exact X|]. clear X. intros c' k' (c & -> & P1 & P2 & I1). cbn beta.
  destruct c as [c|]; cbn [inode option_map].
  - destruct (set (node c) x) as [x'|] eqn:E; [|destruct (NS _ E)].
    specialize (F (Some c) x' k' P1 P2 I1 E). cbn. unfold pret, SndRules.SD in *. exact F.
  - specialize (F None x k' P1 P2 I1 eq_refl). exact F.
Qed.

(** ** Block ends *)
Lemma SD_close k0 ts k t k1 (Q : mpos -> cur -> Prop) : P k0 ts k -> Read 0 k t k1 -> tk t = TRIGHTCURLY ->
  (forall tb tc q k', P k tb k1 -> T tb (lit "}") (tp t) -> P k1 tc k' -> P k0 (ts ++ tb ++ tc) k' -> Close perm (tb ++ tc) q -> Line (lp k') = Line q -> Q q k') ->
  SD k0 (qBlockEnd p0 perm k1) Q.
Proof.
  intros H R E F. destruct (Read_next _ _ _ _ _ _ _ _ _ H R E ltac:(discriminate) ltac:(discriminate)) as (u & P1 & P2 & T1 & W & L & N). cbn [want] in W.
  assert (LN : Line (posat p0 (cc k1)) = Line (tp t)).
  { eapply (Read_line _ _ 0); [exact R|reflexivity|rewrite E; discriminate|]. rewrite W. intros X. cbn in X. destruct X as [X|[]]. discriminate X. }
  rewrite W in T1. unfold qBlockEnd. apply SD_last. rewrite L.
  assert (ONE : forall k', P k1 [] k' -> Line (lp k') = Line (tp t) -> Q (tp t) k').
  { intros k' P3 L3. eapply (F u []); [exact P1|exact T1|exact P3|rewrite app_nil_r; rewrite <- (app_nil_r (ts ++ u)); eapply P_trans; eassumption| |exact L3].
    rewrite app_nil_r. apply close_brace. exact T1. }
  destruct perm eqn:PE.
  - stok t2 k2 R2 PB2. destruct (tok_eqb (tk t2) TSEMICOLON) eqn:E2.
    + stake R2 E2 u2 P3 P4 T2 W2 L2 N2. apply SD_ret. rewrite <- app_assoc in P4. eapply (F u u2); [exact P1|exact T1|exact P3|exact P4| |rewrite L2; reflexivity].
      eapply close_semi; [reflexivity|exact T1|exact T2].
    + apply SD_back, SD_ret. pose proof (rd_back _ _ _ _ _ _ R2) as (_ & _ & B3 & B4). apply ONE; [exact B4|]. rewrite B3. exact LN.
  - apply SD_ret. apply ONE; [eapply P_refl, P_Gd; exact P1|rewrite L; reflexivity].
Qed.
Lemma Close_last' ts q : Close perm ts q -> exists x, last_tok ts = Some (x, q).
Proof. apply close_last. Qed.

(** ** Oneof *)
Lemma relabel_option cs il ts o o' : Option perm true [] None ts o ->
  match il with Some c => total_set set_op_inline c (set_op_comments cs o) = Some o' | None => o' = set_op_comments cs o end -> Option perm true cs il ts o'.
Proof. intros [t1 p1 t2 name t3 t4 v t5 p5 H1 H2 H3 H4 H5] E. destruct il; [injection E as <-|subst o']; econstructor; eassumption. Qed.
Lemma relabel_oof cs il ts o o' : OneofField perm true [] None ts o ->
  match il with Some c => total_set set_oof_inline c (set_oof_comments cs o) = Some o' | None => o' = set_oof_comments cs o end -> OneofField perm true cs il ts o'.
Proof. intros [t1 ty p1 t2 name num os p2 H1 H2] E. destruct il; [injection E as <-|subst o']; econstructor; eassumption. Qed.

(** elements read up to the closing brace; [tc]: what belongs to the block behind it *)
Definition Behind (G : list item -> list oneofField -> list option_ -> Prop) (k : cur) (fields : list oneofField) (options : list option_)
  (a : list oneofField * list option_) (k' : cur) : Prop :=
  exists fs os te kb t, a = (fields ++ fs, options ++ os) /\ P k te kb /\ Read 0 kb t k' /\ tk t = TRIGHTCURLY /\
    forall tb tc q k'', P kb tb k' -> T tb (lit "}") (tp t) -> P k' tc k'' -> Close perm (tb ++ tc) q -> G (te ++ tb ++ tc) fs os.
Lemma S_oneof_tail n fields options :
  (forall fields options, Snd (qOneof_loop p0 perm n fields options) (fun k tt a k' => Behind (OneofElems perm true) k fields options a k')) ->
  Snd (t <-- ptok p0 0;; if tok_eqb (tk t) TRIGHTCURLY then pret (fields, options) else pback t;;; qOneof_loop p0 perm n fields options)
    (fun k tt a k' => Behind (OneofRest perm true) k fields options a k').
Proof.
  intros IH k G. pose proof (P_refl _ _ _ G) as PR. stok t k1 R1 PB1. destruct (tok_eqb (tk t) TRIGHTCURLY) eqn:E.
  - pose proof E as E'. apply tokb_eq in E'. stake R1 E u P1 P2 T1 W L N. apply SD_ret. sfin. exists [], [], [], k, t. rewrite !app_nil_r. split; [reflexivity|].
    split; [exact PR|]. split; [exact R1|]. split; [exact E'|]. intros tb tc q k'' _ _ PP CL. cbn [app]. eapply or_end. exact CL.
  - apply SD_back. stail IH a u k2 P1 P2 D. destruct D as (fs & os & te & kb' & tr & -> & Pte & RD & TR & F). sfin. exists fs, os, te, kb', tr. split; [reflexivity|].
    split; [change te with ([] ++ te); eapply P_trans; [exact PB1|exact Pte]|]. split; [exact RD|]. split; [exact TR|]. intros tb tc q k'' PB TB PP CL. apply or_more. eapply F; eassumption.
Qed.
Lemma S_oneof_loop n : forall fields options, Snd (qOneof_loop p0 perm n fields options) (fun k tt a k' => Behind (OneofElems perm true) k fields options a k').
Proof.
  induction n as [|n IH]; intros fields options k G; [exact Logic.I|]. cbn [qOneof_loop]. pose proof (P_refl _ _ _ G) as PR.
  eapply (SD_comments _ _ RS); [exact PR|]. intros cs k1 P1 C1 L1. cbn [app] in P1. stok t k2 R2 PB2. destruct (tok_eqb (tk t) TSEMICOLON) eqn:E.
  - stake R2 E u P2 P3 T2 W2 L2 N2. pose proof (Clear_P _ _ _ _ _ C1 P2) as NC. destruct T2 as (cs' & ->). destruct cs' as [|c cs']; [|destruct NC]. cbn [coms map app] in *.
    stail IH a u2 k3 P4 P5 D. destruct D as (fs & os & te & kb' & tr & -> & Pte & RD & TR & F). sfin.
    exists fs, os, (coms cs ++ Tok (lit ";") (tp t) :: te), kb', tr. split; [reflexivity|].
    split; [change (Tok (lit ";") (tp t) :: te) with ([Tok (lit ";") (tp t)] ++ te); rewrite app_assoc; eapply P_trans; [exact P3|exact Pte]|]. split; [exact RD|]. split; [exact TR|].
    intros tb tc q k'' PB TB PP CL. rewrite <- app_assoc. cbn [app]. apply oe_skip. eapply F; eassumption.
  - apply SD_back. pose proof (rd_back _ _ _ _ _ _ R2) as B2. pose proof (Clear_bk _ _ _ _ C1 B2) as C2. speek t3 k3 R3 B3 PB3. pose proof (Clear_bk _ _ _ _ C2 B3) as C3.
    assert (STEP : forall u x q k4 il k5 fields' options' fs1 os1, P (kb t3) u k4 -> P k4 (icom il) k5 -> no_com u -> last_tok u = Some (x, q) -> inl p0 (Line q) il k5 ->
      fields' = fields ++ fs1 -> options' = options ++ os1 ->
      (forall rest fs os, Inline (Line q) il rest -> OneofRest perm true rest fs os -> OneofElems perm true (coms cs ++ u ++ icom il ++ rest) (fs1 ++ fs) (os1 ++ os)) ->
      SD k ((t <-- ptok p0 0;; if tok_eqb (tk t) TRIGHTCURLY then pret (fields', options') else pback t;;; qOneof_loop p0 perm n fields' options') k5)
       (fun a k' => exists tt, P k tt k' /\ Behind (OneofElems perm true) k fields options a k')).
    { intros u x q k4 il k5 fields' options' fs1 os1 P4 P5 NC LT IL -> -> F1.
      assert (P6 : P k (coms cs ++ u ++ icom il) k5) by (eapply P_trans; [exact PB3|eapply P_trans; eassumption]).
      stail S_oneof_tail a u2 k6 P7 P8 D; [exact IH|]. destruct D as (fs & os & te & kb' & tr & -> & Pte & RD & TR & F). eexists. split; [exact P8|].
      exists (fs1 ++ fs), (os1 ++ os), (coms cs ++ u ++ icom il ++ te), kb', tr. split; [rewrite !app_assoc; reflexivity|].
      split; [pose proof (P_trans _ _ _ _ _ _ _ P6 Pte) as X; rewrite <- !app_assoc in X; exact X|]. split; [exact RD|]. split; [exact TR|].
      intros tb tc q' k'' PB TB PP CL. rewrite <- !app_assoc. apply F1; [|eapply F; eassumption]. eapply inl_Inline; [exact IL|]. eapply P_trans; [exact Pte|]. eapply P_trans; [exact PB|exact PP]. }
    destruct (Read_tk _ _ _ _ _ _ R3) as (X3 & _).
    apply SD_bind. destruct (tok_eqb (tk t3) TOPTION) eqn:E3.
    + scall (S_option p0 src RS perm) o u k4 P4 P5 D4. destruct D4 as [D4 (x & q & LT & LL)]. eapply SD_maybe; [exact P5|discriminate|]. intros c o' k5 P6 P7 IL SE. apply SD_ret.
      eapply (STEP u x q k4 c k5 _ _ [] [o']); [exact P4|exact P7|eapply Clear_P; eassumption|exact LT|rewrite <- LL; exact IL|rewrite app_nil_r; reflexivity|reflexivity|].
      intros rest fs os I1 O1. cbn [app]. eapply oe_option; [eapply relabel_option; [exact D4|exact SE]|eapply Clear_P; eassumption|exact LT|exact I1|exact O1].
    + scall (S_oneofField p0 src RS perm) o u k4 P4 P5 D4. destruct D4 as [D4 (x & q & LT & LL)]. eapply SD_maybe; [exact P5|discriminate|]. intros c o' k5 P6 P7 IL SE. apply SD_ret.
      eapply (STEP u x q k4 c k5 _ _ [o'] []); [exact P4|exact P7|eapply Clear_P; eassumption|exact LT|rewrite <- LL; exact IL|reflexivity|rewrite app_nil_r; reflexivity|].
      intros rest fs os I1 O1. cbn [app]. eapply oe_field; [eapply relabel_oof; [exact D4|exact SE]|eapply Clear_P; eassumption| |exact LT|exact I1|exact O1].
      eapply not_first_kw; [exact P4| |]; [intros w [<-|[]]; cbn; tauto|]. intros w tk' [<-|[]] J Y. destruct B3 as (_ & B3 & _). rewrite B3, <- X3 in Y. rewrite Y in E3.
      unfold keywords in J. cbn [In] in J. repeat (destruct J as [J|J]; [first [discriminate J|injection J as <-; discriminate E3]|]). destruct J.
Qed.
Lemma S_oneof : Snd (qParseOneof p0 perm) (fun k tt o k' => Oneof perm true [] None tt o /\ ends tt k').
Proof.
  intros k G. unfold qParseOneof. pose proof (P_refl _ _ _ G) as PR. sexp t u k1 P1 T1 W1 L1 N1. sexp name u2 k2 P2 T2 W2 L2 N2. sexp t3 u3 k3 P3 T3 W3 L3 N3.
  eapply (SD_inline _ _ RS); [exact P3|]. intros lc k4 P4 IL _. apply SD_fuel. scall S_oneof_loop a u5 k5 P5 P6 D. destruct D as (fs & os & te & kb' & tr & -> & Pte & RD & TR & F).
  cbn [app]. apply SD_bind. eapply SD_close; [eapply P_trans; [exact P4|exact Pte]|exact RD|exact TR|].
  intros tb tc q k' PB' TB' PC PK CL LQ. apply SD_ret. destruct (close_last _ _ _ CL) as (x & LT). sfin.
  assert (LT' : forall a, last_tok (a ++ tb ++ tc) = Some (x, q)) by (intros a; rewrite last_tok_cat by (rewrite LT; discriminate); exact LT).
  split.
  - eapply oneof_intro; [exact T1|exact T2|exact W2|exact T3| |eapply F; eassumption|apply LT'].
    rewrite <- L3. eapply inl_Inline; [exact IL|]. eapply P_trans; [exact Pte|]. eapply P_trans; [exact PB'|exact PC].
  - exists x, q. rewrite !app_assoc. rewrite <- (app_assoc _ tb tc). split; [apply LT'|exact LQ].
Qed.

(** ** Ranges *)
Lemma Range_cases k : Gd k ->
  match qRange p0 k with
  | POk r k' => exists ts, P k ts k' /\ Range ts r
  | PErr kb ka => (exists ts, P k ts kb) /\ ((exists t1 x p t2 t3 y p3, P k (t1 ++ t2 ++ t3) ka /\ T t1 x p /\ is_int x /\ K t2 "to" /\ T t3 y p3) \/ cr ka = [])
  | PBal k' _ => P k [] k'
  | PPanic => False
  | _ => True
  end.
Proof.
  intros G. unfold qRange. pose proof (P_refl _ _ _ G) as PR. destruct (tok_read p0 src RS ScanNumberLit k eq_refl G) as (t & k1 & E & R). unfold pbind at 1. rewrite E. clear E.
  destruct (tok_eqb (tk t) TINTLIT) eqn:E; cbn [negb].
  2:{ cbn. apply (rd_back _ _ _ _ _ _ R). }
  apply tokb_eq in E. destruct (Read_next _ _ _ _ _ _ _ _ _ PR R E ltac:(discriminate) ltac:(discriminate)) as (u & P1 & _ & T1 & W1 & L1 & N1). cbn [want] in W1.
  destruct (tok_read p0 src RS 0 k1 eq_refl (P_Gd _ _ _ _ _ P1)) as (t2 & k2 & E2 & R2). unfold pbind at 1. rewrite E2. clear E2.
  destruct (str_eqb (tx t2) (lit "to")) eqn:E2; cbn [negb].
  2:{ cbn. exists u. split; [eapply Bk_P; [exact P1|apply R2]|]. econstructor; eassumption. }
  apply str_eqb_eq in E2. assert (X2 : tx t2 <> []) by (rewrite E2; discriminate).
  destruct (Read_text _ _ _ _ _ _ _ _ P1 R2 X2) as (u2 & P2 & P3 & T2 & L2). rewrite E2 in T2.
  destruct (tok_read p0 src RS ScanNumberLit k2 eq_refl (P_Gd _ _ _ _ _ P3)) as (t3 & k3 & E3 & R3). unfold pbind at 1. rewrite E3. clear E3.
  destruct (tok_eqb (tk t3) TINTLIT) eqn:E3; cbn [orb].
  - apply tokb_eq in E3. destruct (Read_next _ _ _ _ _ _ _ _ _ P3 R3 E3 ltac:(discriminate) ltac:(discriminate)) as (u3 & P4 & P5 & T3 & W3 & L3 & N3). cbn [want] in W3.
    cbn. rewrite <- app_assoc in P5. eexists. split; [exact P5|]. eapply rg_to; [exact T1|exact W1|eapply K_of; exact T2|exact T3|left; exact W3].
  - destruct (str_eqb (tx t3) (lit "max")) eqn:E4.
    + apply str_eqb_eq in E4. assert (X3 : tx t3 <> []) by (rewrite E4; discriminate). destruct (Read_text _ _ _ _ _ _ _ _ P3 R3 X3) as (u3 & P4 & P5 & T3 & L3).
      cbn. rewrite <- app_assoc in P5. eexists. split; [exact P5|]. eapply rg_to; [exact T1|exact W1|eapply K_of; exact T2|exact T3|right; exact E4].
    + cbn. split; [eexists; eapply Bk_P; [exact P3|apply R3]|]. destruct (Read_any _ _ _ _ _ _ _ _ P3 R3) as [(X & _)|(u3 & y & _ & P4 & P5 & T3 & L3)]; [right; exact X|left].
      rewrite <- app_assoc in P5. exists u, (tx t), (tp t), u2, u3, y, (tp t3). split; [exact P5|]. split; [exact T1|]. split; [exact W1|]. split; [eapply K_of; exact T2|exact T3].
Qed.
Lemma ranges_snoc ts rs td ts' r : Ranges ts rs -> K td "," -> Range ts' r -> Ranges (ts ++ td ++ ts') (rs ++ [r]).
Proof.
  intros H D R. induction H as [ts r0 H|ts r0 td0 ts0 rs H D0 H0 IH]; cbn [app]; [apply rgs_more; [exact H|exact D|apply rgs_one; exact R]|].
  rewrite <- !app_assoc. apply rgs_more; [exact H|exact D0|exact IH].
Qed.
Definition LostAt (k0 k : cur) : Prop := (exists ts, P k0 ts k /\ Lost ts) \/ cr k = [].
Definition RG (k0 : cur) (r : pres (list range)) : Prop :=
  match r with
  | POk rs k' => exists ts, P k0 ts k' /\ Ranges ts rs
  | PErr kb ka => (exists ts, P k0 ts kb) /\ LostAt k0 ka
  | PBal k' _ => LostAt k0 k'
  | PPanic => False
  | _ => True
  end.
Lemma ranges_loop k0 n : forall rs ts k, P k0 ts k -> Ranges ts rs -> RG k0 (qRanges_loop p0 n rs k).
Proof.
  induction n as [|n IH]; intros rs ts k H D; [exact Logic.I|]. cbn [qRanges_loop].
  destruct (tok_read p0 src RS 0 k eq_refl (P_Gd _ _ _ _ _ H)) as (t & k1 & E & R). unfold pbind at 1. rewrite E. clear E. destruct (tok_eqb (tk t) TCOMMA) eqn:E; cbn [negb].
  2:{ cbn. exists ts. split; [eapply Bk_P; [exact H|apply R]|exact D]. }
  apply tokb_eq in E. destruct (Read_next _ _ _ _ _ _ _ _ _ H R E ltac:(discriminate) ltac:(discriminate)) as (u & P1 & P2 & T1 & W1 & L1 & N1). cbn [want] in W1. rewrite W1 in T1. apply K_of in T1.
  pose proof (Range_cases k1 (P_Gd _ _ _ _ _ P2)) as RC. unfold pbind. destruct (qRange p0 k1) as [r k2|kb ka|k2 w| | | |]; try exact Logic.I; try contradiction.
  - destruct RC as (u2 & P3 & R2). eapply IH; [eapply P_trans; [exact P2|exact P3]|]. rewrite <- app_assoc. apply ranges_snoc; assumption.
  - destruct RC as [(u2 & P3) RC]. cbn. split; [eexists; eapply P_trans; [exact P2|exact P3]|]. destruct RC as [(t1 & x & p & t2 & t3 & y & p3 & P4 & Q1 & Q2 & Q3 & Q4)|RC]; [left|right; exact RC].
    eexists. split; [eapply P_trans; [exact P2|exact P4]|]. eapply lost_to; [eapply lost_comma; eassumption|eassumption..].
  - cbn. left. exists (ts ++ u). split; [rewrite <- (app_nil_r (ts ++ u)); eapply P_trans; [exact P2|exact RC]|eapply lost_comma; eassumption].
Qed.
Lemma ranges_cases k : Gd k -> RG k (qRanges p0 k).
Proof.
  intros G. unfold qRanges. pose proof (Range_cases k G) as RC. unfold pbind at 1. destruct (qRange p0 k) as [r k2|kb ka|k2 w| | | |]; try exact Logic.I; try contradiction.
  - destruct RC as (u2 & P3 & R2). unfold pbind, pfuel. eapply ranges_loop; [exact P3|apply rgs_one; exact R2].
  - destruct RC as [RC1 RC]. split; [exact RC1|]. destruct RC as [(t1 & x & p & t2 & t3 & y & p3 & P4 & Q1 & Q2 & Q3 & Q4)|RC]; [left|right; exact RC].
    eexists. split; [exact P4|]. change (t1 ++ t2 ++ t3) with ([] ++ t1 ++ t2 ++ t3). eapply lost_to; [constructor|eassumption..].
  - left. exists []. split; [exact RC|constructor].
Qed.
Lemma S_ranges : Snd (qRanges p0) (fun k tt rs k' => Ranges tt rs).
Proof. intros k G. pose proof (ranges_cases k G) as RC. destruct (qRanges p0 k); try exact Logic.I; try contradiction; [exact RC|apply RC]. Qed.

(** ** Reserved *)
Lemma FieldName_cases k : Gd k ->
  match qFieldName p0 k with
  | POk x k' => exists ts p, P k ts k' /\ T ts x p /\ (is_str x \/ is_ident x)
  | PErr kb ka => False
  | PBal k' _ => P k [] k'
  | PPanic => False
  | _ => True
  end.
Proof.
  intros G. unfold qFieldName. pose proof (P_refl _ _ _ G) as PR. destruct (tok_read p0 src RS ScanStrLit k eq_refl G) as (t & k1 & E & R). unfold pbind at 1. rewrite E. clear E.
  destruct (tok_eqb (tk t) TSTRLIT) eqn:E.
  - apply tokb_eq in E. destruct (Read_next _ _ _ _ _ _ _ _ _ PR R E ltac:(discriminate) ltac:(discriminate)) as (u & P1 & _ & T1 & W1 & L1 & N1). cbn [want] in W1.
    cbn. exists u, (tp t). auto.
  - pose proof (rd_back _ _ _ _ _ _ R) as (_ & _ & _ & B). unfold pbind at 1. cbn [pback].
    destruct (tok_read p0 src RS 0 (kb t) eq_refl (P_Gd _ _ _ _ _ B)) as (t2 & k2 & E2 & R2). unfold pbind at 1. rewrite E2. clear E2.
    destruct (tok_eqb (tk t2) TIDENT) eqn:E2; cbn [negb].
    + apply tokb_eq in E2. destruct (Read_next _ _ _ _ _ _ _ _ _ B R2 E2 ltac:(discriminate) ltac:(discriminate)) as (u & _ & P1 & T1 & W1 & L1 & N1). cbn [want] in W1.
      cbn. cbn [app] in P1. exists u, (tp t2). auto.
    + cbn. change (@nil item) with (@nil item ++ @nil item). eapply P_trans; [exact B|]. apply (rd_back _ _ _ _ _ _ R2).
Qed.
Lemma FieldName_eof k : cr k = [] -> exists k' w, qFieldName p0 k = PBal k' w.
Proof.
  intros E. unfold qFieldName. unfold pbind at 1. unfold Cursor.ptok at 1, Cursor.lexc at 1. rewrite E, lex_nil. cbn [lx_tok tk tok_eqb]. unfold pbind at 1. cbn [pback kb].
  unfold pbind, Cursor.ptok, Cursor.lexc. cbn [cr]. rewrite lex_nil. cbn. eexists _, _. reflexivity.
Qed.
Lemma S_fieldName : Snd (qFieldName p0) (fun k tt x k' => exists p, T tt x p /\ (is_str x \/ is_ident x)).
Proof.
  intros k G. pose proof (FieldName_cases k G) as F. destruct (qFieldName p0 k); try exact Logic.I; try contradiction. destruct F as (ts & p & P1 & T1 & O). exists ts. eauto.
Qed.
Lemma names_snoc ts xs td ts' x p : FieldNames true ts xs -> K td "," \/ td = [] -> T ts' x p -> (is_str x \/ is_ident x) -> FieldNames true (ts ++ td ++ ts') (xs ++ [x]).
Proof.
  intros H D T1 O. induction H as [ts y q H HO|ts y q td0 ts0 xs H HO D0 H0 IH]; cbn [app].
  - eapply fns_more; [exact H|exact HO|destruct D; auto|eapply fns_one; eassumption].
  - rewrite <- !app_assoc. eapply fns_more; [exact H|exact HO|exact D0|exact IH].
Qed.
Lemma names_loop k0 ts0 n : forall xs ts k, P k0 (ts0 ++ ts) k -> FieldNames true ts xs ->
  SD k0 (qFieldNames_loop p0 n xs k) (fun xs' k' => exists ts', P k0 (ts0 ++ ts') k' /\ FieldNames true ts' xs').
Proof.
  induction n as [|n IH]; intros xs ts k H D; [exact Logic.I|]. cbn [qFieldNames_loop]. stok t k1 R PB. destruct (tok_eqb (tk t) TCOMMA) eqn:E.
  - stake R E u P1 P2 T1 W1 L1 N1. apply K_of in T1. scall S_fieldName x u2 k2 P3 P4 X. destruct X as (p & T2 & O). rewrite <- !app_assoc in P4.
    eapply IH; [exact P4|]. eapply names_snoc; [exact D|left; exact T1|exact T2|exact O].
  - apply SD_back. pose proof (FieldName_cases (kb t) (P_Gd _ _ _ _ _ PB)) as F. unfold ptry. destruct (qFieldName p0 (kb t)) as [x k2|? ?|k2 w| | | |]; try exact Logic.I; try contradiction.
    + destruct F as (u & p & P1 & T1 & O). eapply (IH _ (ts ++ [] ++ u)); [cbn [app]; rewrite app_assoc; eapply P_trans; [exact PB|exact P1]|].
      eapply names_snoc; [exact D|right; reflexivity|exact T1|exact O].
    + apply SD_ret. exists ts. split; [|exact D]. rewrite <- (app_nil_r (ts0 ++ ts)). eapply P_trans; [exact PB|exact F].
Qed.
Lemma SD_names k0 ts0 k : P k0 ts0 k -> SD k0 (qFieldNames p0 k) (fun xs' k' => exists ts', P k0 (ts0 ++ ts') k' /\ FieldNames true ts' xs').
Proof.
  intros H. unfold qFieldNames. scall S_fieldName x u2 k2 P3 P4 X. destruct X as (p & T2 & O). apply SD_fuel. eapply names_loop; [exact P4|]. eapply fns_one; eassumption.
Qed.
Lemma S_reserved : Snd (qParseReserved p0) (fun k tt r k' => Reserved true [] None tt r /\ ends tt k').
Proof.
  intros k G. unfold qParseReserved. pose proof (P_refl _ _ _ G) as PR. sexp t u k1 P1 T1 W1 L1 N1.
  apply SD_bind. unfold ptry. pose proof (ranges_cases k1 (P_Gd _ _ _ _ _ P1)) as RC.
  assert (NM : forall k2 l, P k (u ++ l) k2 -> Lost l ->
    SD k ((names <-- qFieldNames p0;; pret ([], names)) k2) (fun a k' => SD k ((let '(ranges, fieldNames) := a in
      e <-- pexpect p0 0 TSEMICOLON;; pret (mkReserved ranges fieldNames [] None (mkMeta (tp t) (tp e)))) k')
      (fun a k' => exists tt, P k tt k' /\ Reserved true [] None tt a /\ ends tt k'))).
  { intros k2 l P2 LL. apply SD_bind. eapply SD_weak; [eapply SD_names; exact P2|]. intros xs k3 (ts' & P3 & FN). apply SD_ret. sexp e u3 k4 P4 T4 W4 L4 N4. apply SD_ret.
    sfin. split; [|sends]. eapply reserved_names; [exact T1|left; split; [reflexivity|exact LL]|exact FN|exact T4]. }
  destruct (qRanges p0 k1) as [rs k2|kb ka|k2 w| | | |]; try exact Logic.I; try contradiction.
  - destruct RC as (u2 & P2 & R2). apply SD_ret. assert (P3 : P k (u ++ u2) k2) by (eapply P_trans; [exact P1|exact P2]).
    sexp e u3 k4 P4 T4 W4 L4 N4. apply SD_ret. sfin. split; [|sends]. econstructor; eassumption.
  - destruct RC as [_ [(l & P2 & LL)|RC]]; [eapply NM; [eapply P_trans; [exact P1|exact P2]|exact LL]|].
    destruct (FieldName_eof ka RC) as (k' & w & E). unfold qFieldNames. unfold pbind at 1 2. rewrite E. exact Logic.I.
  - destruct RC as [(l & P2 & LL)|RC]; [eapply NM; [eapply P_trans; [exact P1|exact P2]|exact LL]|].
    destruct (FieldName_eof k2 RC) as (k' & w' & E). unfold qFieldNames. unfold pbind at 1 2. rewrite E. exact Logic.I.
Qed.

(** ** Extensions *)
Lemma decls_snoc f ts kvs sep ts' kv : DeclFields true f ts kvs -> K sep "," \/ sep = [] -> DeclField ts' kv -> DeclFields true f (ts ++ sep ++ ts') (kvs ++ [kv]).
Proof.
  intros H D F. induction H as [f|f sep0 ts0 kv0 ts1 kvs D0 H0 H1 IH]; cbn [app].
  - rewrite <- (app_nil_r (sep ++ ts')), <- app_assoc. apply dfs_cons; [destruct D; [left|right]; auto|exact F|constructor].
  - rewrite <- !app_assoc. apply dfs_cons; [exact D0|exact H0|exact IH].
Qed.
Lemma decl_loop k0 ts0 n : forall kvs ts k, P k0 (ts0 ++ ts) k -> DeclFields true true ts kvs ->
  SD k0 (qDeclaration_loop p0 n (dv_of kvs) k) (fun v k' => exists kvs' ts' u kb p, v = dv_of kvs' /\ P k0 (ts0 ++ ts' ++ u) k' /\ P kb u k' /\ DeclFields true true ts' kvs' /\ T u (lit "}") p /\ lp k' = p).
Proof.
  induction n as [|n IH]; intros kvs ts k H D; [exact Logic.I|]. cbn [qDeclaration_loop]. stok t k1 R PB. destruct (tok_eqb (tk t) TRIGHTCURLY) eqn:E.
  - stake R E u P1 P2 T1 W1 L1 N1. apply SD_ret. exists kvs, ts, u, k, (tp t). rewrite <- app_assoc in P2. repeat (split; [first [reflexivity|assumption]|]). exact L1.
  - assert (STEP : forall sep k2, P k0 (ts0 ++ ts ++ sep) k2 -> K sep "," \/ sep = [] ->
      SD k0 ((t2 <-- ptok p0 ScanKeyword;;
        v' <-- match tk t2 with
             | TNUMBER => pexpect p0 0 TCOLON;;; x <-- pexpect p0 ScanNumberLit TINTLIT;; pret (mkDecl (tx x) (dv_fullName (dv_of kvs)) (dv_type (dv_of kvs)) (dv_repeated (dv_of kvs)) (dv_reserved (dv_of kvs)))
             | TFULLNAME => pexpect p0 0 TCOLON;;; x <-- pexpect p0 ScanStrLit TSTRLIT;; pret (mkDecl (dv_number (dv_of kvs)) (tx x) (dv_type (dv_of kvs)) (dv_repeated (dv_of kvs)) (dv_reserved (dv_of kvs)))
             | TTYPE => pexpect p0 0 TCOLON;;; x <-- pexpect p0 ScanStrLit TSTRLIT;; pret (mkDecl (dv_number (dv_of kvs)) (dv_fullName (dv_of kvs)) (tx x) (dv_repeated (dv_of kvs)) (dv_reserved (dv_of kvs)))
             | TREPEATED => pexpect p0 0 TCOLON;;; x <-- pexpect p0 0 TIDENT;; pret (mkDecl (dv_number (dv_of kvs)) (dv_fullName (dv_of kvs)) (dv_type (dv_of kvs)) (str_eqb (tx x) (lit "true")) (dv_reserved (dv_of kvs)))
             | TRESERVED => pexpect p0 0 TCOLON;;; x <-- pexpect p0 0 TIDENT;; pret (mkDecl (dv_number (dv_of kvs)) (dv_fullName (dv_of kvs)) (dv_type (dv_of kvs)) (dv_repeated (dv_of kvs)) (str_eqb (tx x) (lit "true")))
             | _ => perr t2
             end;; qDeclaration_loop p0 n v') k2) (fun v k' => exists kvs' ts' u kb p, v = dv_of kvs' /\ P k0 (ts0 ++ ts' ++ u) k' /\ P kb u k' /\ DeclFields true true ts' kvs' /\ T u (lit "}") p /\ lp k' = p)).
    { intros sep k2 P2 SP. stok t2 k3 R3 PB3.
      assert (FIN : forall u kv k4, P k0 (ts0 ++ ts ++ sep ++ u) k4 -> DeclField u kv ->
        SD k0 (qDeclaration_loop p0 n (dset kv (dv_of kvs)) k4) (fun v k' => exists kvs' ts' u kb p, v = dv_of kvs' /\ P k0 (ts0 ++ ts' ++ u) k' /\ P kb u k' /\ DeclFields true true ts' kvs' /\ T u (lit "}") p /\ lp k' = p)).
      { intros u kv k4 P4 DF. rewrite <- dv_snoc; [eapply IH; [exact P4|]; apply decls_snoc; assumption|]. destruct DF as [?|key ? ? ? ? ? I|key ? ? ? ? ? I]; cbn [fst In] in *; tauto. }
      destruct (tk t2) eqn:E2; try (apply SD_bind; eapply SD_err; exact PB3).
      - stake R3 E2 u P3 P4 T2 W2 L2 N2. rewrite <- !app_assoc in P4. apply SD_bind. sexp c u2 k4 P5 T5 W5 L5 N5. sexp x u3 k5 P6 T6 W6 L6 N6. apply SD_ret. rewrite <- ?app_assoc in P6.
        rewrite str_eqb_true. eapply (FIN (u ++ u2 ++ u3) ("repeated"%string, tx x)); [exact P6|]. eapply df_bool; [cbn; tauto|eapply K_of; exact T2|eapply K_of; exact T5|exact T6|exact W6].
      - stake R3 E2 u P3 P4 T2 W2 L2 N2. rewrite <- !app_assoc in P4. apply SD_bind. sexp c u2 k4 P5 T5 W5 L5 N5. sexp x u3 k5 P6 T6 W6 L6 N6. apply SD_ret. rewrite <- ?app_assoc in P6.
        rewrite str_eqb_true. eapply (FIN (u ++ u2 ++ u3) ("reserved"%string, tx x)); [exact P6|]. eapply df_bool; [cbn; tauto|eapply K_of; exact T2|eapply K_of; exact T5|exact T6|exact W6].
      - stake R3 E2 u P3 P4 T2 W2 L2 N2. rewrite <- !app_assoc in P4. apply SD_bind. sexp c u2 k4 P5 T5 W5 L5 N5. sexp x u3 k5 P6 T6 W6 L6 N6. apply SD_ret. rewrite <- ?app_assoc in P6.
        eapply (FIN (u ++ u2 ++ u3) ("number"%string, tx x)); [exact P6|]. eapply df_number; [eapply K_of; exact T2|eapply K_of; exact T5|exact T6|exact W6].
      - stake R3 E2 u P3 P4 T2 W2 L2 N2. rewrite <- !app_assoc in P4. apply SD_bind. sexp c u2 k4 P5 T5 W5 L5 N5. sexp x u3 k5 P6 T6 W6 L6 N6. apply SD_ret. rewrite <- ?app_assoc in P6.
        eapply (FIN (u ++ u2 ++ u3) ("full_name"%string, tx x)); [exact P6|]. eapply df_string; [cbn; tauto|eapply K_of; exact T2|eapply K_of; exact T5|exact T6|exact W6].
      - stake R3 E2 u P3 P4 T2 W2 L2 N2. rewrite <- !app_assoc in P4. apply SD_bind. sexp c u2 k4 P5 T5 W5 L5 N5. sexp x u3 k5 P6 T6 W6 L6 N6. apply SD_ret. rewrite <- ?app_assoc in P6.
        eapply (FIN (u ++ u2 ++ u3) ("type"%string, tx x)); [exact P6|]. eapply df_string; [cbn; tauto|eapply K_of; exact T2|eapply K_of; exact T5|exact T6|exact W6]. }
    destruct (tok_eqb (tk t) TCOMMA) eqn:E1; cbn [negb].
    + stake R E1 u P1 P2 T1 W1 L1 N1. apply SD_bind, SD_ret. eapply STEP; [rewrite <- app_assoc in P2; exact P2|left; eapply K_of; exact T1].
    + apply SD_back. eapply (STEP []); [rewrite app_nil_r; exact PB|right; reflexivity].
Qed.
Lemma S_declaration : Snd (qParseDeclaration p0) (fun k tt d k' => Declaration true [] None tt d /\ ends tt k').
Proof.
  intros k G. unfold qParseDeclaration. pose proof (P_refl _ _ _ G) as PR. sexp t u k1 P1 T1 W1 L1 N1. sexp e u2 k2 P2 T2 W2 L2 N2. sexp t3 u3 k3 P3 T3 W3 L3 N3.
  eapply (SD_inline _ _ RS); [exact P3|]. intros lc k4 P4 IL _. apply SD_fuel. change (mkDecl [] [] [] false false) with (dv_of []). apply SD_bind.
  pose proof (P_refl _ _ _ (P_Gd _ _ _ _ _ P4)) as PR4.
  eapply SD_from; [exact P4|]. eapply SD_weak; [eapply (decl_loop _ []); [exact PR4|constructor]|].
  intros v k5 (kvs & ts & u5 & kb' & p & -> & P5 & _ & DF & T5 & L5). cbn [app] in P5. apply SD_last, SD_ret.
  assert (P6 : P k (u ++ u2 ++ u3 ++ icom lc ++ ts ++ u5) k5) by (pose proof (P_trans _ _ _ _ _ _ _ P4 P5) as X; rewrite <- !app_assoc in X; exact X).
  sfin. split; [|sends]. rewrite L5. cbn [dv_of dv_number dv_fullName dv_type dv_repeated dv_reserved].
  eapply declaration_intro; [exact T1|eapply K_of; exact T2|exact T3|rewrite <- L3; eapply inl_Inline; [exact IL|exact P5]|exact DF|exact T5].
Qed.
Lemma relabel_decl cs il ts d : Declaration true [] None ts d -> Declaration true cs il ts (assignInlineComments (set_d_comments cs d) [il]).
Proof. intros [t1 p1 t2 t3 p3 lc t4 kvs t5 p5 H1 H2 H3 IN H4 H5]. destruct il; econstructor; eassumption. Qed.
Lemma SD_inlines {A} k0 ts k t k1 T0 (f : option comment -> option comment -> PM A) Q : Read 0 k t k1 -> tk t = T0 -> (T0 = TRIGHTSQUARE \/ T0 = TCOMMA) -> P k0 ts k1 -> lp k1 = tp t ->
  (forall c1 c2 k', P k1 (icom c1 ++ icom c2) k' -> P k0 (ts ++ icom c1 ++ icom c2) k' -> (forall rest k'', P k' rest k'' -> Inlines (Line (tp t)) c1 c2 rest) -> SD k0 (f (inode c1) (inode c2) k') Q) ->
  SD k0 ((a <-- qInline p0;; b <-- qInline p0;; f a b) k1) Q.
Proof.
  intros R E TT H L F.
  assert (LN : Line (posat p0 (cc k1)) = Line (tp t)).
  { destruct (Read_hit _ _ _ _ _ _ _ R E ltac:(destruct TT; subst T0; congruence) ltac:(destruct TT; subst T0; congruence)) as (u & _ & _ & _ & W).
    eapply (Read_line _ _ 0); [exact R|reflexivity|rewrite E; destruct TT as [->| ->]; discriminate|]. destruct TT as [->| ->]; cbn [want] in W; rewrite W; intros [X|[]]; discriminate X. }
  pose proof (P_refl _ _ _ (P_Gd _ _ _ _ _ H)) as PR.
  apply SD_bind. eapply SD_from; [exact H|]. eapply (SD_inline1 _ _ RS); [exact PR|]. intros c1 k2 P2 I1 B1. cbn [app] in P2. apply SD_bind.
  eapply SD_from; [eapply P_trans; [exact H|exact P2]|].
  pose proof (P_refl _ _ _ (P_Gd _ _ _ _ _ P2)) as PR2. eapply (SD_inline1 _ _ RS); [exact PR2|]. intros c2 k3 P3 I2 B2. cbn [app] in P3.
  apply F; [eapply P_trans; eassumption|eapply P_trans; [exact H|eapply P_trans; eassumption]|]. intros rest k4 P4. rewrite L in I1. split; [eapply inl_Inline; [exact I1|eapply P_trans; eassumption]|].
  destruct c1 as [c1|]; [rewrite <- B1; eapply inl_Inline; [exact I2|exact P4]|].
  destruct c2 as [c2|]; [|reflexivity]. cbn [inl] in I1, I2. destruct B1 as (_ & _ & B1 & _). rewrite B1, LN in I2.
  pose proof (ClearOn_P _ _ _ _ _ _ I1 P3) as X. cbn in X. contradiction.
Qed.
Lemma S_declarations_loop n : forall ds, Snd (qDeclarations_loop p0 n ds) (fun k tt a k' => exists ds', a = ds ++ ds' /\ forall fol k'', P k' fol k'' -> Declarations true fol tt ds').
Proof.
  induction n as [|n IH]; intros ds k G; [exact Logic.I|]. cbn [qDeclarations_loop]. pose proof (P_refl _ _ _ G) as PR.
  eapply (SD_comments _ _ RS); [exact PR|]. intros cs k1 P1 C1 L1. cbn [app] in P1. scall S_declaration d u k2 P2 P3 D. destruct D as [D _]. pose proof (Clear_P _ _ _ _ _ C1 P2) as NC. cbv zeta.
  stok t k3 R3 PB3. destruct (tok_eqb (tk t) TRIGHTSQUARE) eqn:E.
  - stake R3 E u3 P4 P5 T3 W3 L3 N3. eapply (SD_inlines _ _ _ _ _ _ (fun a b => pret (ds ++ [assignInlineComments (set_d_comments (nodes cs) d) [a; b]]))); [exact R3|exact E|left; reflexivity|exact P5|exact L3|]. cbv beta. intros c1 c2 k' P6 P7 I.
    apply SD_ret. rewrite <- !app_assoc in P7. sfin. eexists. split; [reflexivity|]. intros fol k'' P8. rewrite assign2, <- inode_last.
    eapply ds_last; [apply relabel_decl; exact D|exact NC|exact T3|eapply I; exact P8].
  - destruct (tok_eqb (tk t) TCOMMA) eqn:E1; cbn [negb].
    + stake R3 E1 u3 P4 P5 T3 W3 L3 N3. eapply (SD_inlines _ _ _ _ _ _ (fun a b => qDeclarations_loop p0 n (ds ++ [assignInlineComments (set_d_comments (nodes cs) d) [a; b]]))); [exact R3|exact E1|right; reflexivity|exact P5|exact L3|]. cbv beta. intros c1 c2 k' P6 P7 I.
      rewrite <- !app_assoc in P7. stail IH a u4 k4 P8 P9 X. destruct X as (ds' & -> & X). rewrite <- !app_assoc in P9. sfin. eexists. split; [reflexivity|]. intros fol k'' P10. rewrite assign2, <- inode_last.
      cbn [app]. eapply ds_more; [apply relabel_decl; exact D|exact NC|exact T3|eapply I; eapply P_trans; [exact P8|exact P10]|eapply X; exact P10].
    + unfold qInlineErr. destruct (Read_P _ _ _ _ _ _ R3) as (ts3 & P4). apply SD_last. destruct (com_read p0 src RS k3 (P_Gd _ _ _ _ _ P4)) as (t4 & k4 & E4 & B4 & _). unfold pbind. rewrite E4.
      destruct (_ && _); [|exact Logic.I]. eapply SD_err. eapply P_trans; [exact P3|]. eapply P_trans; [exact P4|apply B4].
Qed.
Lemma S_extensions : Snd (qParseExtensions p0) (fun k tt x k' => Extensions true [] None tt x /\ ends tt k').
Proof.
  intros k G. unfold qParseExtensions, qDeclarations. pose proof (P_refl _ _ _ G) as PR. sexp t u k1 P1 T1 W1 L1 N1. scall S_ranges rs u2 k2 P2 P3 D. apply SD_bind.
  stok t3 k3 R3 PB3. destruct (tok_eqb (tk t3) TLEFTSQUARE) eqn:E; cbn [negb].
  - stake R3 E u3 P4 P5 T3 W3 L3 N3. eapply (SD_inline _ _ RS); [exact P5|]. intros lc k4 P6 IL _. apply SD_fuel. scall S_declarations_loop ds u4 k5 P7 P8 X. destruct X as (ds' & -> & X). cbn [app]. apply SD_ret.
    assert (G5 := P_Gd _ _ _ _ _ P8).
    pose proof (P_refl _ _ _ G5) as PR5. eapply SD_from; [exact P8|]. sexp e u5 k6 P9 T9 W9 L9 N9. apply SD_ret.
    assert (P10 : P k (u ++ u2 ++ u3 ++ icom lc ++ u4 ++ u5) k6) by (pose proof (P_trans _ _ _ _ _ _ _ P8 P9) as Y; rewrite <- !app_assoc in Y; exact Y).
    sfin. split; [|sends]. eapply extensions_decls; [exact T1|exact D|exact T3| |eapply X; exact P9|exact T9]. rewrite <- L3. eapply inl_Inline; [exact IL|]. eapply P_trans; eassumption.
  - apply SD_back, SD_ret. sexp e u5 k6 P9 T9 W9 L9 N9. apply SD_ret. sfin. split; [|sends]. econstructor; eassumption.
Qed.
End Parts.
