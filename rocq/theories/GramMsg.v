(** Completeness of the pure parser: messages and groups. *)
From Coq Require Import List NArith ZArith Bool String Ascii Lia Sorted.
From Verif Require Import Base Token Scanner Lexer Lexing ScanRefine LexFacts LexSpec LexProofs ScanFacts ScanProps Ast Parser Cursor Pure
  Refine Grammar GramLex GramRules GramNames GramValues GramStmts GramParts GramBodies.
Import ListNotations.
Open Scope N_scope.
Open Scope pure_scope.

Section Messages.
Variable p0 : mpos.
Variable all : list item.
Hypothesis SA : StronglySorted before all.
Variables perm bic : bool.
Notation posat := (posat p0).
Notation ptok := (ptok p0).
Notation ppeek := (ppeek p0).
Notation pexpect := (pexpect p0).
Notation lexc := (lexc p0).
Notation At := (At p0 all).
Notation bk := (bk p0 all).
Notation read := (read p0 all).
Notation after := (after p0 all).
Notation closed := (closed perm false).

(** ** Looking for a group *)
Lemma CP_defer {A} (q : PM A) k k' ts rest t x p b w g (R : A -> Prop) : bk b k (ts ++ rest) -> CP q k' (fun a k2 => At k2 rest /\ R a) ->
  CP (pdefer (mkTi t x p b w g) q) k' (fun a k3 => bk k3 k (ts ++ rest) /\ R a).
Proof.
  intros B H. unfold CP, pdefer in *. destruct (q k'); auto. destruct H as [A' H]. cbn [kb]. split; [|exact H]. apply bk_ahead; assumption.
Qed.
Lemma bk_at {A} (q : PM A) k its (R : A -> Prop) : CP q k (fun a k' => bk k' k its /\ R a) -> CP q k (fun a k' => At k' its /\ R a).
Proof. intros H. eapply CP_weak; [exact H|]. cbn beta. intros a k' [B E]. split; [exact (At_bk _ _ _ _ _ B)|exact E]. Qed.
(** one token of the lookahead *)
Lemma see1 m k ts x p rest t (F : token -> str -> PM bool) (R : bool -> Prop) : has m ScanComment = false -> At k (ts ++ rest) -> T ts x p -> hit m x t ->
  (forall k', At k' rest -> CP (F t x) k' (fun a k2 => At k2 rest /\ R a)) ->
  CP (t <-- ptok m;; pdefer t (F (tk t) (tx t))) k (fun a k3 => bk k3 k (ts ++ rest) /\ R a).
Proof.
  intros M A HT H G. apply CP_bind. eapply CP_tok; [exact SA|exact M|exact A|exact HT|exact H|]. intros b w g k' B [A' _ _ _]. apply CP_defer; [exact B|]. cbn [tk tx]. apply G. exact A'.
Qed.
Definition GF1 : token -> str -> PM bool := fun t _ =>
  if negb (tok_eqb t TGROUP) then pret false else
      t <-- ptok 0;; pdefer t (
        if negb (tok_eqb (tk t) TIDENT) then pret false
        else if negb (isCapitalized (tx t)) then pret false
        else
          t <-- ptok 0;; pdefer t (
            if negb (tok_eqb (tk t) TEQUALS) then pret false
            else
              t <-- ptok ScanNumberLit;; pdefer t (
                if negb (tok_eqb (tk t) TINTLIT) then pret false
                else t <-- ptok 0;; pdefer t (pret (tok_eqb (tk t) TLEFTCURLY))))).
Definition GF2 : token -> str -> PM bool := fun t x =>
        if negb (tok_eqb t TIDENT) then pret false
        else if negb (isCapitalized x) then pret false
        else
          t <-- ptok 0;; pdefer t (
            if negb (tok_eqb (tk t) TEQUALS) then pret false
            else
              t <-- ptok ScanNumberLit;; pdefer t (
                if negb (tok_eqb (tk t) TINTLIT) then pret false
                else t <-- ptok 0;; pdefer t (pret (tok_eqb (tk t) TLEFTCURLY)))).
Definition GF3 : token -> str -> PM bool := fun t x =>
            if negb (tok_eqb t TEQUALS) then pret false
            else
              t <-- ptok ScanNumberLit;; pdefer t (
                if negb (tok_eqb (tk t) TINTLIT) then pret false
                else t <-- ptok 0;; pdefer t (pret (tok_eqb (tk t) TLEFTCURLY))).
Definition GF4 : token -> str -> PM bool := fun t x =>
                if negb (tok_eqb t TINTLIT) then pret false
                else t <-- ptok 0;; pdefer t (pret (tok_eqb (tk t) TLEFTCURLY)).
Definition GF5 : token -> str -> PM bool := fun t x => pret (tok_eqb t TLEFTCURLY).
Definition no (b : bool) : Prop := b = false.
Definition yes (b : bool) : Prop := b = true.
Lemma CP_no k rest : At k rest -> CP (pret false) k (fun a k2 => At k2 rest /\ no a).
Proof. intros A. apply CP_ret. split; [exact A|reflexivity]. Qed.

Lemma tail_name k t x p rest : T t x p -> is_ident x \/ x = lit "." -> x <> lit "group" -> At k (t ++ rest) ->
  CP (qIsGroup_tail p0) k (fun a k3 => bk k3 k (t ++ rest) /\ no a).
Proof.
  intros HT I N A. destruct (hit_name ScanKeyword x I eq_refl) as (t0 & HI & C).
  refine (see1 ScanKeyword k t x p rest t0 GF1 no eq_refl A HT HI _). intros k' A'. unfold GF1. unfold tok_eqb at 1. destruct (token_eq_dec t0 TGROUP) as [->|]; [|apply CP_no; exact A'].
  exfalso. destruct C as [[_ C]|[_ C]]; [|discriminate C]. apply N. eapply kw_name; [|symmetry; exact C]. cbn. tauto.
Qed.
Lemma tail_semi k p rest : At k ([Tok (lit ";") p] ++ rest) -> CP (qIsGroup_tail p0) k (fun a k3 => bk k3 k ([Tok (lit ";") p] ++ rest) /\ no a).
Proof.
  intros A. refine (see1 ScanKeyword k _ _ p rest TSEMICOLON GF1 no eq_refl A (Tsemi p) _ _); [apply semi_hit; reflexivity|]. intros k' A'. apply CP_no. exact A'.
Qed.
Lemma group_type t2 ty p2 t tl p : Type_ t2 ty p2 -> t2 = t ++ tl -> T t (lit "group") p -> tl = [] \/ exists td q tl', tl = td ++ tl' /\ T td (lit ".") q.
Proof.
  assert (TE : forall a x q l b y q' l', T a x q -> T b y q' -> a ++ l = b ++ l' -> a = b /\ x = y /\ l = l').
  { intros a x q l b y q' l' (ca & ->) (cb & ->) E. unfold coms in *. revert cb E. induction ca as [|c ca IH]; intros [|d cb] E; cbn [map app] in *.
    - injection E as -> -> ->. auto.
    - discriminate.
    - discriminate.
    - injection E as E1 E2 E3. destruct (IH cb E3) as (X & Y & Z). rewrite E1, E2, X. auto. }
  intros [ts x q H W|ts v q H N] E HG.
  - rewrite <- (app_nil_r ts) in E. destruct (TE _ _ _ _ _ _ _ _ H HG E) as (_ & -> & _). exfalso. apply words_cases in W. destruct W as (s & W & E').
    cbn [In scalars] in W. repeat (destruct W as [<-|W]; [discriminate E'|]). destruct W.
  - destruct H as [ts v q H|td q ts v q' D H].
    + destruct H as [ts x q H I|ts x q td ts' v q' H I (qd & D) _].
      * rewrite <- (app_nil_r ts) in E. destruct (TE _ _ _ _ _ _ _ _ H HG E) as (_ & _ & <-). auto.
      * destruct (TE _ _ _ _ _ _ _ _ H HG E) as (_ & _ & <-). right. eauto.
    + destruct (TE _ _ _ _ _ _ _ _ D HG E) as (_ & X & _). discriminate X.
Qed.
Lemma tail_field k t2 ty p2 t3 name num os q rest : Type_ t2 ty p2 -> FieldEnd perm false t3 name num os q -> At k (t2 ++ t3 ++ rest) ->
  CP (qIsGroup_tail p0) k (fun a k3 => bk k3 k (t2 ++ t3 ++ rest) /\ no a).
Proof.
  intros H2 H3 A. pose proof (Type_first _ _ _ H2) as (t & x & tl & E & HT & I). destruct (list_eq_dec N.eq_dec x (lit "group")) as [->|N].
  - destruct (group_type _ _ _ _ _ _ H2 E HT) as [->|(td & q' & tl' & -> & D)].
    + rewrite app_nil_r in E. subst t2. refine (see1 ScanKeyword k t _ p2 _ TGROUP GF1 no eq_refl A HT _ _); [apply hitb_ok; lazy; reflexivity|].
      clear I. intros k1 A1. apply bk_at. destruct H3 as [t1 nm p1 t4 t5 nu p5 t6 o t7 p7 H1 I1 (p4 & H4) H5 I5 H6 H7]. rewrite <- !app_assoc in *.
      refine (see1 0 k1 t1 nm p1 _ _ GF2 no eq_refl A1 H1 (hit_ident 0 nm I1) _). intros k2 A2. unfold GF2. change (identToken 0 nm) with TIDENT. tk.
      destruct (isCapitalized nm); cbn [negb]; [|apply CP_no; exact A2]. apply bk_at.
      refine (see1 0 k2 t4 _ p4 _ TEQUALS GF3 no eq_refl A2 H4 _ _); [apply hitb_ok; lazy; reflexivity|]. intros k3 A3. unfold GF3. tk. apply bk_at.
      refine (see1 ScanNumberLit k3 t5 _ p5 _ TINTLIT GF4 no eq_refl A3 H5 (hit_int ScanNumberLit _ I5 eq_refl) _). intros k4 A4. unfold GF4. tk. apply bk_at.
      destruct H6 as [|s1 ts os s2 (ps & S1) _ _].
      * refine (see1 0 k4 t7 _ p7 _ TSEMICOLON GF5 no eq_refl A4 H7 _ _); [apply hitb_ok; lazy; reflexivity|]. intros k5 A5. apply CP_no. exact A5.
      * rewrite <- !app_assoc in *. refine (see1 0 k4 s1 _ ps _ TLEFTSQUARE GF5 no eq_refl A4 S1 _ _); [apply hitb_ok; lazy; reflexivity|]. intros k5 A5. apply CP_no. exact A5.
    + subst t2. rewrite <- !app_assoc in *. refine (see1 ScanKeyword k t _ p2 _ TGROUP GF1 no eq_refl A HT _ _); [apply hitb_ok; lazy; reflexivity|].
      intros k1 A1. apply bk_at. refine (see1 0 k1 td _ q' _ TDOT GF2 no eq_refl A1 D _ _); [apply hitb_ok; lazy; reflexivity|]. intros k2 A2. apply CP_no. exact A2.
  - subst t2. rewrite <- !app_assoc in *. eapply tail_name; eassumption.
Qed.
Lemma tail_group k t2 t3 name p3 t4 t5 num p5 t6 rest : K t2 "group" -> T t3 name p3 -> is_ident name -> capitalized name -> K t4 "=" -> T t5 num p5 -> is_int num ->
  next_tok t6 = Some (lit "{") -> At k (t2 ++ t3 ++ t4 ++ t5 ++ t6 ++ rest) -> CP (qIsGroup_tail p0) k (fun a k3 => bk k3 k (t2 ++ t3 ++ t4 ++ t5 ++ t6 ++ rest) /\ yes a).
Proof.
  intros (p2 & H2) H3 I3 C3 (p4 & H4) H5 I5 H6 A. refine (see1 ScanKeyword k t2 _ p2 _ TGROUP GF1 yes eq_refl A H2 _ _); [apply hitb_ok; lazy; reflexivity|].
  intros k1 A1. apply bk_at. refine (see1 0 k1 t3 name p3 _ _ GF2 yes eq_refl A1 H3 (hit_ident 0 name I3) _). intros k2 A2. unfold GF2. change (identToken 0 name) with TIDENT. tk.
  assert (isCapitalized name = true) as ->. { destruct C3 as (c & l & -> & H). cbn [isCapitalized]. apply andb_true_iff. rewrite !N.leb_le. cbn. exact H. }
  cbn [negb]. apply bk_at. refine (see1 0 k2 t4 _ p4 _ TEQUALS GF3 yes eq_refl A2 H4 _ _); [apply hitb_ok; lazy; reflexivity|]. intros k3 A3. unfold GF3. tk. apply bk_at.
  refine (see1 ScanNumberLit k3 t5 _ p5 _ TINTLIT GF4 yes eq_refl A3 H5 (hit_int ScanNumberLit _ I5 eq_refl) _). intros k4 A4. unfold GF4. tk. apply bk_at.
  apply next_T in H6. destruct H6 as (s & q & tl & -> & HT). rewrite <- app_assoc in *.
  refine (see1 0 k4 s _ q _ TLEFTCURLY GF5 yes eq_refl A4 HT _ _); [apply hitb_ok; lazy; reflexivity|]. intros k5 A5. apply CP_ret. split; [exact A5|reflexivity].
Qed.
(** with a label, or without *)
Lemma C_isgroup t1 t2 p1 rp rq op k rest R : Label t1 t2 p1 rp rq op -> (exists t x p tl, t2 = t ++ tl /\ T t x p /\ (is_ident x \/ x = lit ".")) -> At k (t1 ++ t2 ++ rest) ->
  (forall k', At k' (t2 ++ rest) -> CP (qIsGroup_tail p0) k' (fun a k3 => bk k3 k' (t2 ++ rest) /\ R a)) ->
  CP (qIsGroup p0) k (fun a k3 => bk k3 k (t1 ++ t2 ++ rest) /\ R a).
Proof.
  intros H (t & x & p & tl & E & HT & I) A G. unfold qIsGroup. destruct H as [ts q r H|ts q r H|ts q r H|y q r FT N].
  - ex H. apply CP_defer; [exact B|]. apply bk_at. apply G. assumption.
  - ex H. apply CP_defer; [exact B|]. apply bk_at. apply G. assumption.
  - ex H. apply CP_defer; [exact B|]. apply bk_at. apply G. assumption.
  - subst r. cbn [app] in *. rewrite <- app_assoc in *. assert (x = y /\ p = q) as [<- <-].
    { destruct HT as (cs & ->). rewrite <- app_assoc, first_tok_coms in FT. injection FT as -> ->. auto. }
    destruct (hit_name ScanKeyword x I eq_refl) as (t0 & HI & C). apply CP_bind. eapply CP_tok; [exact SA|reflexivity|exact A|exact HT|exact HI|].
    intros b w g k' B _. cbn [tk].
    assert (X : CP (pback (mkTi t0 x p b w g);;; qIsGroup_tail p0) k' (fun a k3 => bk k3 k (t ++ tl ++ rest) /\ R a)).
    { apply CP_bind, CP_back. cbn [kb]. eapply CP_weak; [apply G; exact (At_bk _ _ _ _ _ B)|]. cbn beta. intros a k3 [B3 Ra]. split; [exact (bk_trans _ _ _ _ _ _ B3 B)|exact Ra]. }
    assert (t0 <> TREPEATED /\ t0 <> TREQUIRED /\ t0 <> TOPTIONAL) as (N1 & N2 & N3).
    { destruct C as [[_ ->]|[_ ->]]; [|repeat split; discriminate].
      split; [apply (tok_not x "repeated")|split; [apply (tok_not x "required")|apply (tok_not x "optional")]];
        first [cbn; tauto|intros W; apply N; destruct W as [<-|[]]; cbn; tauto]. }
    destruct t0; first [exact X|congruence].
Qed.
Lemma isgroup_semi k p rest : At k ([Tok (lit ";") p] ++ rest) -> CP (qIsGroup p0) k (fun a k3 => bk k3 k ([Tok (lit ";") p] ++ rest) /\ no a).
Proof.
  intros A. unfold qIsGroup. pose proof (Tsemi p) as HT. ex HT. apply CP_bind, CP_back. cbn [kb]. eapply CP_weak; [apply tail_semi; exact (At_bk _ _ _ _ _ B)|].
  cbn beta. intros a k3 [B3 Ra]. split; [exact (bk_trans _ _ _ _ _ _ B3 B)|exact Ra].
Qed.

(** ** Statements of messages *)
Definition MBOK (mb : PM body_result) (N : nat) : Prop := forall k ts vs lc q R (Q : body_result -> cur -> Prop),
  Body perm bic false true (MessageStmt perm bic false) ts vs lc q -> At k (ts ++ R) -> closed ts R -> (len k < N)%nat -> (forall k', bend p0 all k R q k' -> Q (vs, lc, q) k') -> CP mb k Q.
Lemma message_starts : Starts (MessageStmt perm bic false).
Proof.
  intros cs il ts v H.
  destruct H as [ts e H|t1 p1 t2 name p2 t3 vs lc q H _ _ _|ts o H|ts o H|ts m H|ts x H|ts r H|ts x H|ts f H _|t1 p1 rp rq op t2 t3 name p3 t4 t5 num p5 t6 vs lc q H H2 _ _ _ _ _ _ _|ts v H].
  - destruct H as [t1 p1 t2 name p2 t3 vs lc q H1 _ _ _]. eapply start_T; [exact H1|discriminate].
  - eapply start_T; [exact H|discriminate].
  - apply option_starts in H. destruct H as (t & p & tl & -> & H). eapply start_T; [exact H|discriminate].
  - destruct H as [t1 p1 t2 name p2 t3 p3 lc t4 fs os x q H1 _ _ _ _ _ _]. eapply start_T; [exact H1|discriminate].
  - destruct H as [t1 p1 t2 t3 kt p3 t4 t5 ty p5 t6 t7 name num os p7 H1 _ _ _ _ _ _ _]. eapply start_T; [exact H1|discriminate].
  - destruct H as [t1 p1 t2 v p2 t3 vs lc q H1 _ _]. eapply start_T; [exact H1|discriminate].
  - apply reserved_starts in H. destruct H as (t & p & tl & -> & H). eapply start_T; [exact H|discriminate].
  - destruct H as [t1 p1 t2 rs t3 p3 H1 _ _|t1 p1 t2 rs t3 p3 lc t4 ds t5 p5 H1 _ _ _ _ _]; eapply start_T; try exact H1; discriminate.
  - apply field_starts in H. destruct H as (t & x & p & tl & -> & H & I). exists x. rewrite (next_tok_T _ _ _ _ H). split; [reflexivity|]. apply name_not_brace. exact I.
  - destruct H as [t1 p1 r H|t1 p1 r H|t1 p1 r H|x p1 r FT N]; try (eapply start_T; [exact H|discriminate]). destruct H2 as (p2 & H2). cbn [app]. eapply start_T; [exact H2|discriminate].
  - apply empty_next in H. destruct H as (p & -> & _). exists (lit ";"). split; [reflexivity|discriminate].
Qed.
Lemma not_message_words x (Q : visitee -> cur -> Prop) mb t cs k : (exists y, (is_ident y /\ t = identToken ScanKeyword y /\ ~ words message_words y) \/ t = TDOT \/ t = TSEMICOLON) -> x = tt ->
  CP (isGroup <-- qIsGroup p0;; if isGroup then precover p0 (qParseGroupField p0 mb) (fun g => with_comments cs (VGroupField g)) else precover p0 (qParseField p0 perm) (fun f => with_comments cs (VField f))) k Q ->
  CP (qMessageStmt p0 perm bic mb t cs) k Q.
Proof.
  intros (y & [(I & -> & N)|H]) _ X.
  - assert (D : forall s t', In (s, t') keywords -> In s message_words -> identToken ScanKeyword y <> t').
    { intros s t' IK IM. apply (tok_not y s t' IK). intros [W|[]]. apply N. rewrite <- W. unfold words. apply in_map. exact IM. }
    pose proof (D "enum" TENUM ltac:(cbn; tauto) ltac:(cbn; tauto))%string as D1. pose proof (D "message" TMESSAGE ltac:(cbn; tauto) ltac:(cbn; tauto))%string as D2.
    pose proof (D "option" TOPTION ltac:(cbn; tauto) ltac:(cbn; tauto))%string as D3. pose proof (D "oneof" TONEOF ltac:(cbn; tauto) ltac:(cbn; tauto))%string as D4.
    pose proof (D "map" TMAP ltac:(cbn; tauto) ltac:(cbn; tauto))%string as D5. pose proof (D "extend" TEXTEND ltac:(cbn; tauto) ltac:(cbn; tauto))%string as D6.
    pose proof (D "reserved" TRESERVED ltac:(cbn; tauto) ltac:(cbn; tauto))%string as D7. pose proof (D "extensions" TEXTENSIONS ltac:(cbn; tauto) ltac:(cbn; tauto))%string as D8.
    unfold qMessageStmt. destruct (identToken ScanKeyword y); first [exact X|congruence].
  - destruct H as [-> | ->]; exact X.
Qed.
Lemma C_group ts g k rest mb (Q : groupField -> cur -> Prop) : MessageStmt perm bic false [] None ts (VGroupField g) -> MBOK mb (len k) -> At k (ts ++ rest) -> closed ts rest ->
  (forall k', after k ts rest k' -> Q g k') -> CP (qParseGroupField p0 mb) k Q.
Proof.
  intros H HB A CL G. inversion H as [| | | | | | | | |t1 p1 rp rq op t2 t3 name p3 t4 t5 num p5 t6 vs lc q H1 (p2 & H2) H3 I3 C3 (p4 & H4) H5 I5 H6 ET EV|? ? H7]; subst; [|apply empty_next in H7; destruct H7 as (? & _ & X); discriminate X].
  rewrite <- !app_assoc in A. unfold qParseGroupField. eapply (C_label p0 all SA (fun p a b c => _)); [exact H1| |exact A|].
  { exists t2, (lit "group"), p2, []. rewrite app_nil_r. split; [reflexivity|]. split; [exact H2|]. left. apply identb_iff. reflexivity. }
  intros k1 A1 L1. ex H2. ex H3.
  assert (isCapitalized name = true) as ->. { destruct C3 as (c & l & -> & HC). cbn [isCapitalized]. apply andb_true_iff. rewrite !N.leb_le. cbn. exact HC. }
  cbn [negb]. ex H4. apply CP_bind. unfold qFieldNumber. ex H5. apply CP_ret. cbn [tx]. apply CP_bind. eapply HB; [exact H6|eassumption| |lia|].
  { destruct (body_last _ _ _ _ _ _ _ _ H6) as (x & E). apply (closed_app perm (t1 ++ t2 ++ t3 ++ t4 ++ t5)); [congruence|]. rewrite <- !app_assoc. exact CL. }
  intros k' (A' & L' & LL'). apply CP_ret. cbn beta iota. apply G. destruct (body_last _ _ _ _ _ _ _ _ H6) as (x & E).
  split; [exact A'|]. split; [lia|]. exists x, q. rewrite !last_tok_app, E. auto.
Qed.
Lemma C_message ts b k rest mb (Q : block -> cur -> Prop) : Message perm bic false [] None ts b -> MBOK mb (len k) -> At k (ts ++ rest) -> closed ts rest ->
  (forall k', after k ts rest k' -> Q b k') -> CP (qParseMessage_ p0 mb) k Q.
Proof.
  intros [t1 p1 t2 name p2 t3 vs lc q H1 H2 I2 HB] HM A CL G. rewrite <- !app_assoc in A. unfold qParseMessage_. ex H1. ex H2. apply CP_bind.
  eapply HM; [exact HB|eassumption| |lia|].
  { destruct (body_last _ _ _ _ _ _ _ _ HB) as (x & E). apply (closed_app perm (t1 ++ t2)); [congruence|]. rewrite <- app_assoc. exact CL. }
  intros k' (A' & L' & LL'). apply CP_ret. cbn beta iota. apply G. eapply block_after; [exact HB|]. split; [exact A'|]. split; [lia|exact LL'].
Qed.
Lemma group_relabel cs il ts g : MessageStmt perm bic false cs il ts (VGroupField g) -> exists g0, MessageStmt perm bic false [] None ts (VGroupField g0) /\ fin il (with_comments cs (VGroupField g0)) (VGroupField g).
Proof.
  intros H. inversion H as [| | | | | | | | |t1 p1 rp rq op t2 t3 name p3 t4 t5 num p5 t6 vs lc q H1 H2 H3 I3 C3 H4 H5 I5 H6 ET EV|? ? H7]; subst; [|apply empty_next in H7; destruct H7 as (? & _ & X); discriminate X].
  eexists. split; [eapply ms_group; eassumption|]. destruct il; reflexivity.
Qed.
Ltac kwhit := apply hitb_ok; lazy; reflexivity.
Lemma MBOK_le mb N M : (M <= N)%nat -> MBOK mb N -> MBOK mb M.
Proof. intros L H k ts vs lc q R Q HB A CL LN G. eapply H; try eassumption. lia. Qed.
Lemma MBOK_bk mb N k b its : MBOK mb N -> (len k < N)%nat -> bk b k its -> MBOK mb (len b).
Proof. intros H L B. eapply MBOK_le; [|exact H]. rewrite (bk_len _ _ _ _ _ B). lia. Qed.
Lemma st_message mb N : MBOK mb N -> StOK p0 all perm (MessageStmt perm bic false) (qMessageStmt p0 perm bic mb) N.
Proof.
  intros HM cs il ts v k rest Q H NC A CL LN G.
  destruct H as [ts e H|t1 p1 t2 name p2 t3 vs lc q H1 H2 I2 HB|ts o H|ts o H|ts m H|ts x H|ts r H|ts x H|ts f H NF|t1 p1 rp rq op t2 t3 name p3 t4 t5 num p5 t6 vs lc q H1 H2 H3 I3 C3 H4 H5 I5 H6|ts v H].
  - apply enum_relabel in H. destruct H as (f0 & H & F). pose proof H as H0. destruct H0 as [t1 p1 t2 name p2 t3 vs lc q H1 _ _ _].
    eapply peek_kw; [exact SA|exact H1|exact A|kwhit|discriminate|]. intros k1 B. cbn [qMessageStmt]. apply CP_bind. eapply C_enum; [exact SA|exact H|exact (At_bk _ _ _ _ _ B)|exact CL|].
    intros k2 AF. apply CP_ret. apply G; [eapply after_bk; eassumption|exact F].
  - eapply peek_kw; [exact SA|exact H1|exact A|kwhit|discriminate|]. intros k1 B. cbn [qMessageStmt]. apply CP_bind.
    eapply C_message; [econstructor; eassumption|eapply MBOK_bk; eassumption|exact (At_bk _ _ _ _ _ B)|exact CL|].
    intros k2 AF. apply CP_ret. apply G; [eapply after_bk; eassumption|]. destruct il; reflexivity.
  - apply option_relabel' in H. destruct H as (f0 & H & F). pose proof (option_starts _ _ _ _ _ H) as (t & p & tl & E & HT). subst ts.
    eapply peek_kw; [exact SA|exact HT|exact A|kwhit|discriminate|]. intros k1 B. cbn [qMessageStmt]. apply CP_bind. eapply C_option; [exact SA|exact H|exact (At_bk _ _ _ _ _ B)|].
    intros k2 AF. apply CP_ret. apply G; [eapply after_bk; eassumption|exact F].
  - apply oneof_relabel in H. destruct H as (f0 & H & F). pose proof H as H0. destruct H0 as [t1 p1 t2 name p2 t3 p3 lc t4 fs os x q H1 _ _ _ _ _ _].
    eapply peek_kw; [exact SA|exact H1|exact A|kwhit|discriminate|]. intros k1 B. cbn [qMessageStmt]. apply CP_bind. eapply C_oneof; [exact SA|exact H|exact (At_bk _ _ _ _ _ B)|exact CL|].
    intros k2 AF. apply CP_ret. apply G; [eapply after_bk; eassumption|exact F].
  - apply map_relabel in H. destruct H as (f0 & H & F). pose proof H as H0. destruct H0 as [t1 p1 t2 t3 kt p3 t4 t5 ty p5 t6 t7 name num os p7 H1 _ _ _ _ _ _ _].
    eapply peek_kw; [exact SA|exact H1|exact A|kwhit|discriminate|]. intros k1 B. cbn [qMessageStmt]. apply CP_bind. eapply C_mapfield; [exact SA|exact H|exact (At_bk _ _ _ _ _ B)|].
    intros k2 AF. apply CP_ret. apply G; [eapply after_bk; eassumption|exact F].
  - apply extend_relabel in H. destruct H as (f0 & H & F). pose proof H as H0. destruct H0 as [t1 p1 t2 v p2 t3 vs lc q H1 _ _].
    eapply peek_kw; [exact SA|exact H1|exact A|kwhit|discriminate|]. intros k1 B. cbn [qMessageStmt]. apply CP_bind. eapply C_extend; [exact SA|exact H|exact (At_bk _ _ _ _ _ B)|exact CL|].
    intros k2 AF. apply CP_ret. apply G; [eapply after_bk; eassumption|exact F].
  - apply reserved_relabel in H. destruct H as (f0 & H & F). pose proof (reserved_starts _ _ _ _ H) as (t & p & tl & E & HT). subst ts.
    eapply peek_kw; [exact SA|exact HT|exact A|kwhit|discriminate|]. intros k1 B. cbn [qMessageStmt]. apply CP_bind. eapply C_reserved; [exact SA|exact H|exact (At_bk _ _ _ _ _ B)|].
    intros k2 AF. apply CP_ret. apply G; [eapply after_bk; eassumption|exact F].
  - apply extensions_relabel in H. destruct H as (f0 & H & F).
    assert (exists t p tl, ts = t ++ tl /\ T t (lit "extensions") p) as (t & p & tl & E & HT) by (destruct H; eauto). subst ts.
    eapply peek_kw; [exact SA|exact HT|exact A|kwhit|discriminate|]. intros k1 B. cbn [qMessageStmt]. apply CP_bind. eapply C_extensions; [exact SA|exact H|exact (At_bk _ _ _ _ _ B)|].
    intros k2 AF. apply CP_ret. apply G; [eapply after_bk; eassumption|exact F].
  - apply field_relabel in H. destruct H as (f0 & H & F). pose proof (field_starts _ _ _ _ _ H) as (t & x & p & tl & E & HT & I). subst ts.
    destruct (hit_name ScanKeyword x I eq_refl) as (t0 & HI & C). eapply peek_kw; [exact SA|exact HT|exact A|exact HI| |].
    { destruct C as [[_ ->]|[_ ->]]; [apply ident_tok_brace|discriminate]. }
    intros k1 B. apply (not_first_T _ _ _ tl _ HT) in NF. apply (not_message_words tt); [|reflexivity|].
    { exists x. destruct C as [[I' ->]|[_ ->]]; auto. }
    apply CP_bind. assert (X : CP (qIsGroup p0) k1 (fun a k3 => bk k3 k1 ((t ++ tl) ++ rest) /\ no a)).
    { inversion H as [t1 p1 rp rq op t2 ty p2 t3 name num os p3 H1 H2 H3 ET EF]. rewrite <- ET in B. pose proof (At_bk _ _ _ _ _ B) as AB. rewrite <- !app_assoc in *. eapply C_isgroup; [exact H1| |exact AB|].
      { apply Type_first in H2. destruct H2 as (t' & x' & tl' & -> & H2). eauto 8. }
      intros k' A'. eapply tail_field; eassumption. }
    eapply CP_weak; [exact X|]. cbn beta. intros a k2 [B2 ->]. apply CP_recover. eapply C_field; [exact SA|exact H|exact (At_bk _ _ _ _ _ B2)|]. intros k3 AF.
    apply G; [|exact F]. eapply after_bk; [exact B|]. eapply after_bk; [exact B2|exact AF].
  - pose proof (ms_group perm bic false (nodes cs) (inode il) _ _ _ _ _ _ _ _ _ _ _ _ _ _ _ _ _ H1 H2 H3 I3 C3 H4 H5 I5 H6) as H. apply group_relabel in H. destruct H as (g0 & H & F).
    assert (X0 : exists t x p tl, t1 ++ t2 ++ t3 ++ t4 ++ t5 ++ t6 = t ++ tl /\ T t x p /\ is_ident x /\ ~ words message_words x).
    { clear - H1 H2. destruct H1 as [t1 p1 r H|t1 p1 r H|t1 p1 r H|x p1 r FT N].
      - exists t1, (lit "repeated"), p1. eexists. split; [reflexivity|]. split; [exact H|]. split; [apply identb_iff; reflexivity|]. cbv. intuition discriminate.
      - exists t1, (lit "required"), p1. eexists. split; [reflexivity|]. split; [exact H|]. split; [apply identb_iff; reflexivity|]. cbv. intuition discriminate.
      - exists t1, (lit "optional"), p1. eexists. split; [reflexivity|]. split; [exact H|]. split; [apply identb_iff; reflexivity|]. cbv. intuition discriminate.
      - destruct H2 as (p2 & H2). exists r, (lit "group"), p2. eexists. split; [reflexivity|]. split; [exact H2|]. split; [apply identb_iff; reflexivity|]. cbv. intuition discriminate. }
    destruct X0 as (t & x & p & tl & E & HT & I & NW). rewrite E in A. eapply peek_kw; [exact SA|exact HT|exact A|apply hit_ident; exact I|apply ident_tok_brace|].
    intros k1 B. apply (not_message_words tt); [exists x; auto|reflexivity|]. rewrite <- E in B. pose proof (At_bk _ _ _ _ _ B) as AB. apply CP_bind.
    assert (X : CP (qIsGroup p0) k1 (fun a k3 => bk k3 k1 ((t1 ++ t2 ++ t3 ++ t4 ++ t5 ++ t6) ++ rest) /\ yes a)).
    { rewrite <- !app_assoc in *. eapply C_isgroup; [exact H1| |exact AB|].
      { destruct H2 as (p2 & H2). exists t2, (lit "group"), p2, []. rewrite app_nil_r. split; [reflexivity|]. split; [exact H2|]. left. apply identb_iff. reflexivity. }
      intros k' A'. eapply tail_group; try eassumption. eapply body_next; exact H6. }
    eapply CP_weak; [exact X|]. cbn beta. intros a k2 [B2 ->]. apply CP_recover. eapply C_group; [exact H| |exact (At_bk _ _ _ _ _ B2)|exact CL|].
    { eapply MBOK_bk; [exact HM|exact LN|]. exact (bk_trans _ _ _ _ _ _ B2 B). }
    intros k3 AF. apply G; [|exact F]. eapply after_bk; [exact B|]. eapply after_bk; [exact B2|exact AF].
  - apply empty_next in H. destruct H as (p & -> & ->). eapply (peek_kw p0 all SA (nodes cs) (qMessageStmt p0 perm bic mb) k [Tok (lit ";") p] _ p []); [apply Tsemi|exact A|kwhit|discriminate|]. intros k1 B.
    cbn [app] in B. apply (not_message_words tt); [exists []; auto|reflexivity|]. apply CP_bind. eapply CP_weak; [apply isgroup_semi; exact (At_bk _ _ _ _ _ B)|]. cbn beta. intros a k2 [B2 ->].
    eapply C_empty; [exact SA|apply CE_field; [exact SA|exact (At_bk _ _ _ _ _ B2)]|]. intros v0 k' AF F. apply G; [|exact F]. eapply after_bk; [exact B|]. eapply after_bk; [exact B2|exact AF].
Qed.
Lemma C_mbody n : MBOK (qMessageBody p0 perm bic n) n.
Proof.
  induction n as [|n IH]; intros k ts vs lc q R Q HB A CL L G; [lia|]. cbn [qMessageBody].
  refine (C_dbody p0 all SA perm bic _ _ _ ts vs lc q k R (fun _ => n) Q (message_loop p0 perm bic (qMessageBody p0 perm bic n)) _ message_starts HB A CL _ G).
  - apply st_message. eapply MBOK_le; [|exact IH]. lia.
  - intros; lia.
Qed.
End Messages.
