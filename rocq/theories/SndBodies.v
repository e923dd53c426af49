(** What the pure parser accepts as bodies, enums, extends and messages. *)
From Coq Require Import List NArith ZArith Bool String Ascii Lia Sorted.
From Verif Require Import Base Token Scanner Lexer Lexing ScanRefine LexFacts LexSpec LexProofs ScanFacts LexerFacts ScanProps Ast Parser
  Cursor Pure Refine Term Term2 Grammar GramLex GramRules GramNames GramValues GramStmts GramParts GramBodies SndLex SndRules SndNames SndStmts SndParts SndDrop.
Import ListNotations.
Open Scope N_scope.
Open Scope pure_scope.

(** ** Comments of a node *)
Ltac rlb H F := destruct H; (match type of F with fin ?il _ _ => destruct il end; [injection F as <-|cbn in F; subst]; eexists; (split; [reflexivity|econstructor; eassumption])).
Section Relabel.
Variables perm bic : bool.
Lemma rl_enumfield cs il ts o v : EnumField perm true [] None ts o -> fin il (with_comments cs (VEnumField o)) v -> exists o', v = VEnumField o' /\ EnumField perm true cs il ts o'.
Proof. intros H F. rlb H F. Qed.
Lemma rl_option cs il ts o v : Option perm true [] None ts o -> fin il (with_comments cs (VOption o)) v -> exists o', v = VOption o' /\ Option perm true cs il ts o'.
Proof. intros H F. rlb H F. Qed.
Lemma rl_reserved cs il ts o v : Reserved true [] None ts o -> fin il (with_comments cs (VReserved o)) v -> exists o', v = VReserved o' /\ Reserved true cs il ts o'.
Proof. intros H F. rlb H F. Qed.
Lemma rl_extensions cs il ts o v : Extensions true [] None ts o -> fin il (with_comments cs (VExtensions o)) v -> exists o', v = VExtensions o' /\ Extensions true cs il ts o'.
Proof. intros H F. rlb H F. Qed.
Lemma rl_oneof cs il ts o v : Oneof perm true [] None ts o -> fin il (with_comments cs (VOneof o)) v -> exists o', v = VOneof o' /\ Oneof perm true cs il ts o'.
Proof. intros H F. rlb H F. Qed.
Lemma rl_field cs il ts o v : Field perm true [] None ts o -> fin il (with_comments cs (VField o)) v -> exists o', v = VField o' /\ Field perm true cs il ts o'.
Proof. intros H F. rlb H F. Qed.
Lemma rl_map cs il ts o v : MapField perm true [] None ts o -> fin il (with_comments cs (VMapField o)) v -> exists o', v = VMapField o' /\ MapField perm true cs il ts o'.
Proof. intros H F. rlb H F. Qed.
Lemma rl_enum cs il ts o v : Enum perm bic true [] None ts o -> fin il (with_comments cs (VEnum o)) v -> exists o', v = VEnum o' /\ Enum perm bic true cs il ts o'.
Proof. intros H F. rlb H F. Qed.
Lemma rl_extend cs il ts o v : Extend perm bic true [] None ts o -> fin il (with_comments cs (VExtend o)) v -> exists o', v = VExtend o' /\ Extend perm bic true cs il ts o'.
Proof. intros H F. rlb H F. Qed.
Lemma rl_message cs il ts o v : Message perm bic true [] None ts o -> fin il (with_comments cs (VMessage o)) v -> exists o', v = VMessage o' /\ Message perm bic true cs il ts o'.
Proof. intros H F. rlb H F. Qed.
Lemma rl_service cs il ts o v : Service perm bic true [] None ts o -> fin il (with_comments cs (VService o)) v -> exists o', v = VService o' /\ Service perm bic true cs il ts o'.
Proof. intros H F. rlb H F. Qed.
Lemma rl_rpc cs il ts o v : RPC perm true [] None ts o -> fin il (with_comments cs (VRPC o)) v -> exists o', v = VRPC o' /\ RPC perm true cs il ts o'.
Proof. intros H F. rlb H F. Qed.
Lemma rl_import cs il ts o v : Import true [] None ts o -> fin il (with_comments cs (VImport o)) v -> exists o', v = VImport o' /\ Import true cs il ts o'.
Proof. intros H F. rlb H F. Qed.
Lemma rl_package cs il ts o v : Package [] None ts o -> fin il (with_comments cs (VPackage o)) v -> exists o', v = VPackage o' /\ Package cs il ts o'.
Proof. intros H F. rlb H F. Qed.
Lemma rl_empty il v : fin il (VEmpty (mkEmpty None)) v -> v = VEmpty (mkEmpty il).
Proof. intros F. destruct il; [injection F as <-|cbn in F; subst]; reflexivity. Qed.
End Relabel.

(** statements are never nil *)
Lemma pbind_ok {A B} (m : PM A) (f : A -> PM B) k b k' : pbind m f k = POk b k' -> exists a k1, m k = POk a k1 /\ f a k1 = POk b k'.
Proof. unfold pbind. destruct (m k); try discriminate. eauto. Qed.
Lemma precover_ok {A} p0 (q : PM A) ok k v k' : precover p0 q ok k = POk v k' -> (exists a, v = ok a) \/ v = VEmpty (mkEmpty None).
Proof.
  unfold precover. destruct (q k) as [a k1|kb ka|k1 w| | | |]; try discriminate; [intros H; injection H as <- <-; eauto| |destruct (fatal _ _); discriminate].
  intros H. apply pbind_ok in H. destruct H as (t & k1 & _ & H). destruct (tok_eqb _ _); [|discriminate]. injection H as <- <-. auto.
Qed.
Definition NotNil (st : token -> list comment -> PM visitee) : Prop := forall t cs k v k', st t cs k = POk v k' -> forall c, set_inline c v <> None.
Ltac notnil := intros t cs k v k' H c; repeat match goal with
  | H : pbind _ _ _ = POk _ _ |- _ => apply pbind_ok in H; destruct H as (? & ? & _ & H)
  | H : precover _ _ _ _ = POk _ _ |- _ => apply precover_ok in H; destruct H as [[? H]|H]; subst
  | H : pret _ _ = POk _ _ |- _ => injection H as <- <-
  | H : match ?x with _ => _ end _ = POk _ _ |- _ => destruct x
  end; discriminate.
Lemma nn_enum p0 perm : NotNil (stEnum p0 perm). Proof. unfold NotNil, stEnum. notnil. Qed.
Lemma nn_extend p0 perm : NotNil (stExtend p0 perm). Proof. unfold NotNil, stExtend. notnil. Qed.
Lemma nn_service p0 perm : NotNil (stService p0 perm). Proof. unfold NotNil, stService. notnil. Qed.
Lemma nn_message p0 perm bic mb : NotNil (qMessageStmt p0 perm bic mb). Proof. unfold NotNil, qMessageStmt. notnil. Qed.

Section Bodies.
Variable p0 : mpos.
Variable src : list rune.
Hypothesis RS : readable src.
Variables perm bic : bool.
Notation P := (P p0 src).
Notation SD := (SD p0 src).
Notation Snd := (Snd p0 src).
Notation Read := (Read p0 src).
Notation Gd := (Gd p0 src).
Notation Bk := (Bk p0 src).

(** a statement read by [st] *)
Definition StS (SS : list comment -> option comment -> list item -> visitee -> Prop) (st : token -> list comment -> PM visitee) : Prop :=
  forall comments k, Gd k -> SD k (st (lx_tok (lex ScanKeyword (cr k))) comments k)
    (fun v k' => exists tt, P k tt k' /\ (Clear k -> forall il v', fin il v v' -> SS comments il tt v') /\ ends tt k').
Lemma SD_recover {A} (q : PM A) R (ok : A -> visitee) U k : Snd q R -> FD p0 src k (q k) (fun _ _ => True) U -> Gd k ->
  SD k (precover p0 q ok k) (fun v k' => exists tt, P k tt k' /\ ((exists a, v = ok a /\ R k tt a k') \/
    (v = VEmpty (mkEmpty None) /\ ends tt k' /\ exists ts t p, tt = ts ++ t /\ U (toks ts) /\ T t (lit ";") p))).
Proof.
  intros S F G. specialize (S k G). unfold precover. destruct (q k) as [a k'|b ka|k' w| | | |]; try exact Logic.I.
  - destruct S as (tt & P1 & R1). exists tt. split; [exact P1|]. left. eauto.
  - destruct F as (ts & P1 & CU). stok t k1 R1 PB1. destruct (tok_eqb (tk t) TSEMICOLON) eqn:E; [|exact Logic.I].
    stake R1 E u P2 P3 T1 W1 L1 N1. apply SD_ret. sfin. right. split; [reflexivity|]. split; [sends|]. exists ts, u, (tp t). split; [reflexivity|]. split; [|exact T1].
    apply CU. destruct (Read_tk _ _ _ _ _ _ R1) as (X & _). congruence.
  - destruct (fatal _ _); exact Logic.I.
  - destruct S.
Qed.
(** a semicolon or a statement that broke off *)
Lemma cut_empty (U : list str -> Prop) il k ts t p k' : Clear k -> P k (ts ++ t) k' -> (toks ts <> [] -> U (toks ts)) -> T t (lit ";") p -> Empty true U il (ts ++ t) (VEmpty (mkEmpty il)).
Proof.
  intros C H HU HT. destruct (toks ts) as [|x l] eqn:E.
  - rewrite (semi_alone _ _ _ (Clear_P _ _ _ _ _ C H) E HT). apply empty_intro.
  - apply empty_junk with (p := p); [reflexivity|rewrite E; discriminate|rewrite E; apply HU; discriminate|exact HT].
Qed.

Lemma trailing_eq tcs : body_comments bic (nodes tcs) = trailing bic tcs.
Proof. reflexivity. Qed.
Lemma SD_bodyend ilc stmts comments k0 ts k : P k0 ts k -> lx_tok (lex ScanKeyword (cr k)) = TRIGHTCURLY ->
  SD k0 (qBodyEnd p0 perm bic ilc stmts comments k) (fun a k' => exists t2 q, a = (stmts ++ body_comments bic comments, ilc, q) /\ P k t2 k' /\ P k0 (ts ++ t2) k' /\ Close perm t2 q /\ Line (lp k') = Line q).
Proof.
  intros H E. unfold qBodyEnd. stok t k1 R PB.
  assert (E0 : tk t = TRIGHTCURLY).
  { destruct (Read_tk _ _ _ _ _ _ R) as (-> & _). destruct (lex_kw0 (cr k)) as (_ & _ & _ & _ & _ & [X|[_ X]]); [congruence|].
    rewrite E in X. cbn in X. repeat (destruct X as [X|X]; [discriminate X|]). destruct X. }
  apply SD_bind. eapply SD_close; [exact RS|exact H|exact R|exact E0|]. intros tb tc q k' P1 T1 P2 P3 CL LL. apply SD_ret. exists (tb ++ tc), q. split; [reflexivity|].
  split; [eapply P_trans; eassumption|]. auto.
Qed.
Lemma no_brace {A} (t : token) (a b : A) : t <> TRIGHTCURLY -> match t with TRIGHTCURLY => a | _ => b end = b.
Proof. destruct t; congruence. Qed.
Lemma SD_eq {A} k0 (r : pres A) Q : SD k0 r Q -> SD k0 r (fun a k' => Q a k' /\ r = POk a k').
Proof. destruct r; cbn; auto. Qed.
Lemma S_loop SS st (loop : option comment -> nat -> list visitee -> PM body_result) ilc : IsLoop p0 perm bic st loop -> (forall acc k, loop ilc 0%nat acc k = PFuel) -> NotNil st -> StS SS st ->
  forall n acc, Snd (loop ilc n acc) (fun k tt a k' => exists vs tcs ts t2 q, a = (acc ++ vs ++ trailing bic tcs, ilc, q) /\ tt = ts ++ t2 /\ Stmts perm true SS ts vs tcs /\ no_com t2 /\
    Close perm t2 q /\ Line (lp k') = Line q).
Proof.
  intros HL HZ NN HS. induction n as [|n IH]; intros acc k G; [rewrite HZ; exact Logic.I|]. rewrite HL. unfold gstep. pose proof (P_refl _ _ _ G) as PR.
  eapply (SD_comments _ _ RS); [exact PR|]. intros cs k1 P1 C1 L1. cbn [app] in P1. speek t k2 R2 B2 PB2. pose proof (Clear_bk _ _ _ _ C1 B2) as C2.
  assert (TK : tk t = lx_tok (lex ScanKeyword (cr (kb t)))). { destruct (Read_tk _ _ _ _ _ _ R2) as (-> & _). destruct B2 as (_ & -> & _). reflexivity. }
  destruct (token_eq_dec (tk t) TRIGHTCURLY) as [E|E].
  - rewrite E. eapply SD_weak; [eapply SD_bodyend; [exact PB2|congruence]|]. cbn beta. intros a k3 (t2 & q & -> & P2 & P3 & CL & LL). eexists. split; [exact P3|].
    exists [], cs, (coms cs), t2, q. split; [reflexivity|]. split; [reflexivity|]. split; [apply sts_nil|]. split; [eapply Clear_P; eassumption|]. split; [exact CL|exact LL].
  - rewrite no_brace by exact E. apply SD_bind. eapply SD_from; [exact PB2|]. rewrite TK. eapply SD_weak; [apply SD_eq, HS; eapply P_Gd; exact PB2|]. cbn beta.
    intros v k3 ((tt & P3 & D & x & q & LT & LL) & EV). specialize (D C2). assert (P4 : P k (coms cs ++ tt) k3) by (eapply P_trans; eassumption).
    eapply (SD_maybe _ _ RS); [exact P4|exact (NN _ _ _ _ _ EV)|]. intros c v' k4 P5 P6 IL SE. stail IH a u k5 P7 P8 X. destruct X as (vs & tcs & ts & t2 & q' & -> & -> & ST & NC & CL & LQ).
    eexists. split; [exact P8|]. exists (v' :: vs), tcs, (coms cs ++ tt ++ icom c ++ ts), t2, q'.
    split; [rewrite <- !app_assoc; reflexivity|]. split; [rewrite <- !app_assoc; reflexivity|]. split; [|split; [exact NC|split; [exact CL|exact LQ]]].
    eapply sts_cons; [apply D|eapply Clear_P; eassumption|exact LT| |left; reflexivity|exact ST].
    + unfold fin. destruct c; cbn in SE |- *; [exact SE|congruence].
    + rewrite <- LL. eapply Inline_part. eapply inl_Inline; [exact IL|exact P7].
Qed.

Lemma close_first_tok ts q r : Close perm ts q -> exists p, first_tok (ts ++ r) = Some (lit "}", p).
Proof. intros C. destruct (close_first _ _ _ C) as (t & p & tl & -> & HT). exists p. rewrite <- app_assoc. apply T_first. exact HT. Qed.
Lemma first_brace k ts k' p : P k ts k' -> first_tok ts = Some (lit "}", p) -> lx_tok (lex 0 (cr k)) = TRIGHTCURLY.
Proof.
  intros (_ & (w & sp & p' & _ & _ & _ & L) & _) F. apply first_split in F. destruct F as (cs & its' & ->). apply lay_coms in L. destruct L as (g & gcs & r1 & -> & G & _).
  rewrite (lex_gap 0 g gcs _ eq_refl G). reflexivity.
Qed.
(** bodies of enums and services *)
Definition BodyR (drop : bool) (SS : list comment -> option comment -> list item -> visitee -> Prop) (k : cur) (tt : list item) (a : body_result) (k' : cur) : Prop :=
  let '(vs, lc, q) := a in Body perm bic true drop SS tt vs lc q /\ Line (lp k') = Line q.
Lemma S_body SS st (loop : option comment -> nat -> list visitee -> PM body_result) : IsLoop p0 perm bic st loop -> (forall ilc acc k, loop ilc 0%nat acc k = PFuel) -> NotNil st -> StS SS st ->
  Snd (pexpect p0 0 TLEFTCURLY;;; ilc <-- qInline p0;; n <-- pfuel;; loop ilc n []) (BodyR false SS).
Proof.
  intros HL HZ NN HS k G. pose proof (P_refl _ _ _ G) as PR. sexp t u k1 P1 T1 W1 L1 N1. eapply (SD_inline _ _ RS); [exact P1|]. intros lc k2 P2 IL _. apply SD_fuel.
  stail (S_loop SS st loop (inode lc) HL (HZ (inode lc)) NN HS) a u2 k3 P3 P4 X. destruct X as (vs & tcs & ts & t2 & q & -> & -> & ST & NC & CL & LQ). rewrite <- app_assoc in P4. sfin.
  split; [|exact LQ]. cbn [app]. eapply body_stmts; [exact T1|rewrite <- L1; eapply inl_Inline; [exact IL|exact P3]|exact ST|exact NC|exact CL|left; reflexivity].
Qed.
(** bodies of messages and extends *)
Lemma S_dbody SS st (loop : option comment -> nat -> list visitee -> PM body_result) f : IsLoop p0 perm bic st loop -> (forall ilc acc k, loop ilc 0%nat acc k = PFuel) -> NotNil st -> StS SS st ->
  Snd (pexpect p0 0 TLEFTCURLY;;; ilc <-- qInline p0;; eb <-- qEmptyBody p0 perm;;
      match eb with Some lastPos => pret ([], None, lastPos) | None => fun k => loop ilc (f k) [] k end) (BodyR true SS).
Proof.
  intros HL HZ NN HS k G. pose proof (P_refl _ _ _ G) as PR. sexp t u k1 P1 T1 W1 L1 N1. eapply (SD_inline _ _ RS); [exact P1|]. intros lc k2 P2 IL _. unfold qEmptyBody. apply SD_bind.
  stok t2 k3 R3 PB3. destruct (tok_eqb (tk t2) TRIGHTCURLY) eqn:E.
  - apply tokb_eq in E. apply SD_bind. eapply SD_close; [exact RS|exact P2|exact R3|exact E|]. intros tb tc q k' P3 T3 P4 P5 CL LL. apply SD_ret, SD_ret. rewrite <- app_assoc in P5.
    sfin. split; [|exact LL]. eapply body_empty; [reflexivity|exact T1| |exact CL]. rewrite <- L1. eapply inl_Inline; [exact IL|eapply P_trans; eassumption].
  - apply SD_back, SD_ret. pose proof (rd_back _ _ _ _ _ _ R3) as B3.
    stail (S_loop SS st loop (inode lc) HL (HZ (inode lc)) NN HS) a u2 k4 P3 P4 X. destruct X as (vs & tcs & ts & t3 & q & -> & -> & ST & NC & CL & LQ). rewrite <- app_assoc in P4. sfin.
    split; [|exact LQ]. cbn [app]. assert (PB : P k2 (ts ++ t3) k4) by (change (ts ++ t3) with ([] ++ ts ++ t3); eapply P_trans; [apply B3|exact P3]).
    eapply body_stmts; [exact T1|rewrite <- L1; eapply inl_Inline; [exact IL|exact PB]|exact ST|exact NC|exact CL|right].
    intros ->. inversion ST; subst. destruct (close_first_tok _ _ [] CL) as (p & F). rewrite app_nil_r in F.
    assert (F' : first_tok (coms tcs ++ t3) = Some (lit "}", p)) by (clear -F; induction tcs; [exact F|assumption]).
    pose proof (first_brace _ _ _ _ PB F') as X. destruct (Read_tk _ _ _ _ _ _ R3) as (Y & _). rewrite Y, X in E. discriminate E.
Qed.
Lemma body_last' drop SS ts vs lc q : Body perm bic true drop SS ts vs lc q -> exists x, last_tok ts = Some (x, q).
Proof.
  intros [t1 p1 l ts' vs' tcs t2 q' H1 IN HS NC C D|t1 p1 l t2 q' D H1 IN C]; destruct (close_last _ _ _ C) as (x & E); exists x; rewrite !last_tok_app, E; reflexivity.
Qed.
Lemma body_ends drop SS a ts vs lc q k : Body perm bic true drop SS ts vs lc q -> Line (lp k) = Line q -> ends (a ++ ts) k.
Proof. intros B L. destruct (body_last' _ _ _ _ _ _ B) as (x & E). apply ends_app. exists x, q. auto. Qed.

Lemma P_nil k ts k' : P k ts k' -> cr k = [] -> ts = [].
Proof. intros (_ & (w & sp & p & _ & _ & _ & L) & _) E. rewrite E in L. eapply lay_from_nil. exact L. Qed.

(** the token seen first is none of the words *)
Lemma other_first k ts k' ws : P k ts k' -> forallb (fun w => existsb (String.eqb w) (map fst keywords)) ws = true ->
  (forall t, In t (map snd keywords) -> lx_tok (lex ScanKeyword (cr k)) = t -> ~ In t (map snd (filter (fun e => existsb (String.eqb (fst e)) ws) keywords))) -> not_first ts ws.
Proof.
  intros H W F. rewrite forallb_forall in W. eapply not_first_kw; [exact H| |].
  { intros w I. apply W in I. apply existsb_exists in I. destruct I as (x & I & E). apply String.eqb_eq in E. subst x. exact I. }
  intros w t I J X. apply (F t); [apply in_map_iff; exists (w, t); auto|exact X|].
  apply in_map_iff. exists (w, t). split; [reflexivity|]. apply filter_In. split; [exact J|]. apply existsb_exists. exists w. split; [exact I|apply String.eqb_refl].
Qed.

(** ** Enum *)
Lemma S_enumField : Snd (qEnumField p0 perm) (fun k tt f k' => EnumField perm true [] None tt f /\ ends tt k').
Proof.
  intros k G. unfold qEnumField. pose proof (P_refl _ _ _ G) as PR. sexp name u k1 P1 T1 W1 L1 N1. sexp e u2 k2 P2 T2 W2 L2 N2. stok t k3 R3 PB3. apply SD_bind.
  assert (END : forall sg u3 k4, P k (u ++ u2 ++ u3) k4 -> Sign u3 sg -> SD k ((x <-- pexpect p0 ScanNumberLit TINTLIT;; opts <-- qEnumValueOptions p0 perm;;
    e <-- pexpect p0 0 TSEMICOLON;; pret (mkEnumField (tx name) (sg ++ tx x) opts [] None (mkMeta (tp name) (tp e)))) k4)
     (fun a k' => exists tt, P k tt k' /\ EnumField perm true [] None tt a /\ ends tt k')).
  { intros sg u3 k4 P4 SG. sexp x u4 k5 P5 T5 W5 L5 N5. scall (S_evOptions p0 src RS perm) os u5 k6 P6 P7 D. destruct D as (os' & -> & D). sexp e' u6 k7 P8 T8 W8 L8 N8. apply SD_ret.
    rewrite <- ?app_assoc in P8. sfin. split; [|sends]. econstructor; try eassumption. eapply K_of; exact T2. }
  destruct (tok_eqb (tk t) TMINUS) eqn:E.
  - stake R3 E u3 P3 P4 T3 W3 L3 N3. apply SD_ret. eapply END; [rewrite <- app_assoc in P4; exact P4|]. apply sign_minus. eapply K_of; exact T3.
  - apply SD_back, SD_ret. eapply END; [rewrite app_nil_r; exact PB3|constructor].
Qed.
Lemma st_enum : StS (EnumStmt perm true) (stEnum p0 perm).
Proof.
  intros cs k G. pose proof (P_refl _ _ _ G) as PR. remember (lx_tok (lex ScanKeyword (cr k))) as tok eqn:TK. unfold stEnum.
  assert (FLD : tok <> TOPTION -> tok <> TRESERVED -> SD k (precover p0 (qEnumField p0 perm) (fun f => with_comments cs (VEnumField f)) k)
    (fun v k' => exists tt, P k tt k' /\ (Clear k -> forall il v', fin il v v' -> EnumStmt perm true cs il tt v') /\ ends tt k')).
  { intros N1 N2. eapply SD_weak; [apply (SD_recover _ _ _ _ _ S_enumField (F_enumField p0 src RS perm k G) G)|]. cbn beta. intros v k' (tt & P1 & [(a & -> & D & EN)|(-> & EN & ts & t & p & -> & D & TS)]); eexists; (split; [exact P1|]); (split; [|exact EN]); intros CL il v' F.
    - destruct (rl_enumfield _ _ _ _ _ _ D F) as (o' & -> & D'). apply es_field; [exact D'|]. eapply other_first; [exact P1|reflexivity|].
      intros t _ <-. rewrite <- TK. cbn. intros [X|[X|[]]]; congruence.
    - apply rl_empty in F. subst v'. apply es_empty. eapply cut_empty; [exact CL|exact P1| |exact TS]. intros _. split; [exact D|]. eapply not_first_words. eapply other_first; [exact P1|reflexivity|].
      intros t' _ <-. rewrite <- TK. cbn. intros [X|[X|[]]]; congruence. }
  destruct tok; try (apply FLD; discriminate); clear FLD.
  - scall (S_option p0 src RS perm) o u k1 P1 P2 D. destruct D as [D EN]. apply SD_ret. exists u. split; [exact P2|]. split; [|exact EN]. intros CL il v' F. destruct (rl_option _ _ _ _ _ _ D F) as (o' & -> & D'). apply es_option. exact D'.
  - scall (S_reserved p0 src RS) o u k1 P1 P2 D. destruct D as [D EN]. apply SD_ret. exists u. split; [exact P2|]. split; [|exact EN]. intros CL il v' F. destruct (rl_reserved _ _ _ _ _ D F) as (o' & -> & D'). apply es_reserved. exact D'.
Qed.
Lemma S_enum : Snd (qParseEnum p0 perm bic) (fun k tt b k' => Enum perm bic true [] None tt b /\ ends tt k').
Proof.
  intros k G. unfold qParseEnum, qEnumBody. pose proof (P_refl _ _ _ G) as PR. sexp t u k1 P1 T1 W1 L1 N1. sexp name u2 k2 P2 T2 W2 L2 N2.
  scall (S_body (EnumStmt perm true) (stEnum p0 perm) (qEnumBody_loop p0 perm bic) (enum_loop p0 perm bic) (fun _ _ _ => eq_refl) (nn_enum p0 perm) st_enum) a u3 k3 P3 P4 D.
  destruct a as [[vs lc] q]. destruct D as [D LL]. apply SD_ret. rewrite <- ?app_assoc in P4. sfin. split; [econstructor; eassumption|]. apply ends_app. eapply body_ends; eassumption.
Qed.

(** ** Extend *)
Lemma st_extend : StS (ExtendStmt perm true) (stExtend p0 perm).
Proof.
  intros cs k G. unfold stExtend. eapply SD_weak; [apply (SD_recover _ _ _ _ _ (S_field p0 src RS perm) (F_field p0 src RS perm k G) G)|]. cbn beta.
  intros v k' (tt & P1 & [(a & -> & D & EN)|(-> & EN & ts & t & p & -> & D & TS)]); eexists; (split; [exact P1|]); (split; [|exact EN]); intros CL il v' F.
  - destruct (rl_field _ _ _ _ _ _ D F) as (o' & -> & D'). apply xs_field. exact D'.
  - apply rl_empty in F. subst v'. apply xs_empty. eapply cut_empty; [exact CL|exact P1|intros _; exact D|exact TS].
Qed.
Lemma S_extend : Snd (qParseExtend p0 perm bic) (fun k tt b k' => Extend perm bic true [] None tt b /\ ends tt k').
Proof.
  intros k G. unfold qParseExtend, qExtendBody. pose proof (P_refl _ _ _ G) as PR. sexp t u k1 P1 T1 W1 L1 N1. scall (S_messageType p0 src RS) mt u2 k2 P2 P3 D2.
  destruct mt as [mt pm]. cbn [fst snd] in *.
  eapply SD_call; [eapply (S_dbody (ExtendStmt perm true) (stExtend p0 perm) (qExtendBody_loop p0 perm bic) (fun k => S (List.length (cr k))) (extend_loop p0 perm bic) (fun _ _ _ => eq_refl) (nn_extend p0 perm) st_extend)|exact P3|].
  intros a u3 k3 P4 P5 D. destruct a as [[vs lc] q]. destruct D as [D LL]. apply SD_ret. rewrite <- ?app_assoc in P5. sfin.
  split; [|apply ends_app; eapply body_ends; eassumption]. econstructor; [exact T1| |exact D].
  destruct D2 as [D2|D2]; [exact D2|]. exfalso. pose proof (P_nil _ _ _ P4 D2) as ->. destruct (body_last' _ _ _ _ _ _ D) as (x & X). discriminate X.
Qed.

(** ** Message *)
Lemma S_message_ mb : Snd mb (BodyR true (MessageStmt perm bic true)) -> Snd (qParseMessage_ p0 mb) (fun k tt b k' => Message perm bic true [] None tt b /\ ends tt k').
Proof.
  intros S k G. unfold qParseMessage_. pose proof (P_refl _ _ _ G) as PR. sexp t u k1 P1 T1 W1 L1 N1. sexp name u2 k2 P2 T2 W2 L2 N2. scall S a u3 k3 P3 P4 D.
  destruct a as [[vs lc] q]. destruct D as [D LL]. apply SD_ret. rewrite <- ?app_assoc in P4. sfin. split; [econstructor; eassumption|]. apply ends_app. eapply body_ends; eassumption.
Qed.
Lemma SD_expect2 {A} m T0 k0 ts k (f : ti -> PM A) Q : has m ScanComment = false -> T0 <> TEOF -> T0 <> TILLEGAL -> P k0 ts k ->
  (forall t tt k', P k tt k' -> P k0 ts (kb t) -> P k0 (ts ++ tt) k' -> T tt (tx t) (tp t) -> want T0 (tx t) -> SD k0 (f t k') Q) ->
  SD k0 (pbind (pexpect p0 m T0) f k) Q.
Proof.
  intros M N1 N2 H F. unfold Cursor.pexpect. destruct (tok_read p0 src RS m k M (P_Gd _ _ _ _ _ H)) as (t & k' & E & R). unfold pbind at 1 2. rewrite E.
  pose proof (Bk_P _ _ _ _ _ _ H (rd_back _ _ _ _ _ _ R)) as PB. destruct (tok_eqb (tk t) T0) eqn:Q0.
  - apply tokb_eq in Q0. destruct (Read_hit _ _ _ _ _ _ _ R Q0 N1 N2) as (tt & TT & PP & L & W). cbn [pret]. apply (F t tt); try assumption. eapply P_trans; [exact H|exact PP].
  - cbn. exists ts. exact PB.
Qed.
Lemma S_group mb : Snd mb (BodyR true (MessageStmt perm bic true)) ->
  Snd (qParseGroupField p0 mb) (fun k tt g k' => (forall cs il v, fin il (with_comments cs (VGroupField g)) v -> MessageStmt perm bic true cs il tt v) /\ ends tt k').
Proof.
  intros S k G. unfold qParseGroupField. pose proof (P_refl _ _ _ G) as PR. scall (S_label p0 src RS) a u k1 P1 P2 D1. destruct a as (p & ((rp & rq) & op)).
  eapply SD_expect2; [reflexivity|discriminate|discriminate|exact P2|]. intros t2 u2 k2 P3 _ P3' T2 W2. cbn [want] in W2. rewrite W2 in T2.
  eapply SD_expect2; [reflexivity|discriminate|discriminate|exact P3'|]. intros t3 u3 k3 _ PB P4 T3 W3. cbn [want] in W3. destruct (negb (isCapitalized (tx t3))) eqn:CP.
  { eapply SD_err. exact PB. }
  sexp t4 u4 k4 P5 T4 W4 L4 N4. apply SD_bind. unfold qFieldNumber. sexp t5 u5 k5 P6 T5 W5 L5 N5. apply SD_ret. scall S a u6 k6 P7 P8 D.
  destruct a as [[vs lc] q]. destruct D as [D LL]. apply SD_ret. rewrite <- ?app_assoc in P8. sfin. split; [|do 4 apply ends_app; eapply body_ends; eassumption].
  intros cs il v F. assert (v = VGroupField (mkGroupField rp rq op (tx t3) vs (tx t5) cs il lc (mkMeta p q))) as ->.
  { destruct il; [injection F as <-|cbn in F; subst]; reflexivity. }
  assert (FT : first_tok u2 = Some (lit "group", tp t2)).
  { destruct T2 as (c & ->). clear. induction c as [|d c IH]; [reflexivity|exact IH]. }
  eapply ms_group; [eapply D1; [exact P3|exact FT]|eapply K_of; exact T2|exact T3|exact W3| |eapply K_of; exact T4|exact T5|exact W5|exact D].
  apply negb_false_iff in CP. unfold isCapitalized in CP. destruct (tx t3) as [|c l]; [discriminate|]. exists c, l. split; [reflexivity|].
  apply andb_true_iff in CP. rewrite !N.leb_le in CP. exact CP.
Qed.
Lemma st_message mb : Braces p0 src mb -> Snd mb (BodyR true (MessageStmt perm bic true)) -> StS (MessageStmt perm bic true) (qMessageStmt p0 perm bic mb).
Proof.
  intros BR S cs k G. pose proof (P_refl _ _ _ G) as PR. remember (lx_tok (lex ScanKeyword (cr k))) as tok eqn:TK. unfold qMessageStmt.
  assert (FLD : ~ In tok [TENUM; TMESSAGE; TOPTION; TONEOF; TMAP; TEXTEND; TRESERVED; TEXTENSIONS] ->
    SD k ((isGroup <-- qIsGroup p0;; if isGroup then precover p0 (qParseGroupField p0 mb) (fun g => with_comments cs (VGroupField g)) else precover p0 (qParseField p0 perm) (fun f => with_comments cs (VField f))) k)
    (fun v k' => exists tt, P k tt k' /\ (Clear k -> forall il v', fin il v v' -> MessageStmt perm bic true cs il tt v') /\ ends tt k')).
  { intros NI. eapply (SD_isGroup _ _ RS); [exact PR|]. intros g b GE B PB. eapply SD_from; [exact PB|]. pose proof (P_Gd _ _ _ _ _ PB) as GB. pose proof B as (_ & BC & _). destruct g.
    { eapply SD_weak; [apply (SD_recover _ _ _ _ _ (S_group mb S) (F_group p0 src RS mb b BR GB ltac:(rewrite BC; exact (group_heads _ _ _ GE))) GB)|]. cbn beta.
      intros v k' (tt & P1 & [(a & -> & D & EN)|(-> & EN & ts & t & p & -> & D & TS)]); eexists; (split; [exact (P_trans _ _ _ _ _ _ _ PB P1)|]); (split; [|exact EN]); intros CL il v' F.
      - apply D. exact F.
      - apply rl_empty in F. subst v'. apply ms_empty. eapply (cut_empty _ _ _ ts t); [exact CL|exact (P_trans _ _ _ _ _ _ _ PB P1)|intros _; right; exact D|exact TS]. }
    eapply SD_weak; [apply (SD_recover _ _ _ _ _ (S_field p0 src RS perm) (F_field p0 src RS perm b GB) GB)|]. cbn beta.
    intros v k' (tt & P1 & [(a & -> & D & EN)|(-> & EN & ts & t & p & -> & D & TS)]); eexists; (split; [exact (P_trans _ _ _ _ _ _ _ PB P1)|]); (split; [|exact EN]); intros CL il v' F.
    - destruct (rl_field _ _ _ _ _ _ D F) as (o' & -> & D'). apply ms_field; [exact D'|]. eapply other_first; [exact P1|reflexivity|].
      destruct B as (_ & B & _). rewrite B. intros t _ <-. rewrite <- TK. intros X. apply NI. cbn in X. repeat (destruct X as [X|X]; [rewrite <- X; repeat (first [left; reflexivity|right])|]). destruct X.
    - apply rl_empty in F. subst v'. apply ms_empty. eapply (cut_empty _ _ _ ts t); [exact CL|exact (P_trans _ _ _ _ _ _ _ PB P1)| |exact TS]. intros _. left. split; [exact D|]. eapply not_first_words. eapply other_first; [exact P1|reflexivity|].
      destruct B as (_ & B & _). rewrite B. intros t' _ <-. rewrite <- TK. intros X. apply NI. cbn in X. repeat (destruct X as [X|X]; [rewrite <- X; repeat (first [left; reflexivity|right])|]). destruct X. }
  destruct tok; try (apply FLD; intros X; repeat (destruct X as [X|X]; [discriminate X|]); exact X); clear FLD.
  - scall (S_message_ _ S) o u k1 P1 P2 D. destruct D as [D EN]. apply SD_ret. exists u. split; [exact P2|]. split; [|exact EN]. intros CL il v' F. destruct (rl_message _ _ _ _ _ _ _ D F) as (o' & -> & D'). destruct D'. eapply ms_message; eassumption.
  - scall S_extend o u k1 P1 P2 D. destruct D as [D EN]. apply SD_ret. exists u. split; [exact P2|]. split; [|exact EN]. intros CL il v' F. destruct (rl_extend _ _ _ _ _ _ _ D F) as (o' & -> & D'). apply ms_extend. exact D'.
  - scall (S_option p0 src RS perm) o u k1 P1 P2 D. destruct D as [D EN]. apply SD_ret. exists u. split; [exact P2|]. split; [|exact EN]. intros CL il v' F. destruct (rl_option _ _ _ _ _ _ D F) as (o' & -> & D'). apply ms_option. exact D'.
  - scall (S_oneof p0 src RS perm) o u k1 P1 P2 D. destruct D as [D EN]. apply SD_ret. exists u. split; [exact P2|]. split; [|exact EN]. intros CL il v' F. destruct (rl_oneof _ _ _ _ _ _ D F) as (o' & -> & D'). apply ms_oneof. exact D'.
  - scall (S_mapField p0 src RS perm) o u k1 P1 P2 D. destruct D as [D EN]. apply SD_ret. exists u. split; [exact P2|]. split; [|exact EN]. intros CL il v' F. destruct (rl_map _ _ _ _ _ _ D F) as (o' & -> & D'). apply ms_map. exact D'.
  - scall (S_reserved p0 src RS) o u k1 P1 P2 D. destruct D as [D EN]. apply SD_ret. exists u. split; [exact P2|]. split; [|exact EN]. intros CL il v' F. destruct (rl_reserved _ _ _ _ _ D F) as (o' & -> & D'). apply ms_reserved. exact D'.
  - scall (S_extensions p0 src RS) o u k1 P1 P2 D. destruct D as [D EN]. apply SD_ret. exists u. split; [exact P2|]. split; [|exact EN]. intros CL il v' F. destruct (rl_extensions _ _ _ _ _ D F) as (o' & -> & D'). apply ms_extensions. exact D'.
  - scall S_enum o u k1 P1 P2 D. destruct D as [D EN]. apply SD_ret. exists u. split; [exact P2|]. split; [|exact EN]. intros CL il v' F. destruct (rl_enum _ _ _ _ _ _ _ D F) as (o' & -> & D'). apply ms_enum. exact D'.
Qed.
Lemma SD_dtail SS st (loop : option comment -> nat -> list visitee -> PM body_result) f : IsLoop p0 perm bic st loop -> (forall ilc acc k, loop ilc 0%nat acc k = PFuel) -> NotNil st -> StS SS st ->
  forall k, Gd k -> SD k ((ilc <-- qInline p0;; eb <-- qEmptyBody p0 perm;;
      match eb with Some lastPos => pret ([], None, lastPos) | None => fun k => loop ilc (f k) [] k end) k) (fun _ _ => True).
Proof.
  intros HL HZ NN HS k G. pose proof (P_refl _ _ _ G) as PR. eapply (SD_inline _ _ RS); [exact PR|]. intros lc k2 P2 IL _. unfold qEmptyBody. apply SD_bind.
  stok t2 k3 R3 PB3. destruct (tok_eqb (tk t2) TRIGHTCURLY) eqn:E.
  - apply tokb_eq in E. apply SD_bind. eapply SD_close; [exact RS|exact P2|exact R3|exact E|]. intros tb tc q k' P3 T3 P4 P5 CL LL. apply SD_ret, SD_ret. exact Logic.I.
  - apply SD_back, SD_ret. stail (S_loop SS st loop (inode lc) HL (HZ (inode lc)) NN HS) a u2 k4 P3 P4 X. exact Logic.I.
Qed.
Lemma S_messageBody_ n : Snd (qMessageBody p0 perm bic n) (BodyR true (MessageStmt perm bic true)) /\ Braces p0 src (qMessageBody p0 perm bic n).
Proof.
  induction n as [|n [IH BR]]; [split; [intros k G; exact Logic.I|left; reflexivity]|]. split.
  - exact (S_dbody (MessageStmt perm bic true) (qMessageStmt p0 perm bic (qMessageBody p0 perm bic n)) (qMessageBody_loop p0 perm bic (qMessageBody p0 perm bic n)) (fun _ => n) (message_loop p0 perm bic _) (fun _ _ _ => eq_refl) (nn_message p0 perm bic _) (st_message _ BR IH)).
  - right. eexists. split; [intros k; reflexivity|]. cbv beta.
    exact (SD_dtail (MessageStmt perm bic true) (qMessageStmt p0 perm bic (qMessageBody p0 perm bic n)) (qMessageBody_loop p0 perm bic (qMessageBody p0 perm bic n)) (fun _ => n) (message_loop p0 perm bic _) (fun _ _ _ => eq_refl) (nn_message p0 perm bic _) (st_message _ BR IH)).
Qed.
Lemma S_messageBody n : Snd (qMessageBody p0 perm bic n) (BodyR true (MessageStmt perm bic true)).
Proof. apply S_messageBody_. Qed.
Lemma S_message n : Snd (qParseMessage p0 perm bic n) (fun k tt b k' => Message perm bic true [] None tt b /\ ends tt k').
Proof. apply S_message_, S_messageBody. Qed.
End Bodies.
