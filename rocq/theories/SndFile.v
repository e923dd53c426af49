(** What the parser accepts: services and files, and the soundness theorem. *)
From Coq Require Import List NArith ZArith Bool String Ascii Lia Sorted.
From Verif Require Import Base Token Scanner Lexer Lexing ScanRefine LexFacts LexSpec LexProofs ScanFacts LexerFacts ScanProps Ast Parser Api
  Cursor Pure Refine RefineFile Term Term2 Grammar GramLex GramRules GramNames GramValues GramStmts GramParts GramBodies GramMsg GramFile
  SndLex SndRules SndNames SndStmts SndParts SndBodies Strict StrictSim GroupSpec Tree Regular Junk.
Import ListNotations.
Open Scope N_scope.
Open Scope pure_scope.

Section Files.
Variable p0 : mpos.
Variable src : list rune.
Hypothesis RS : readable src.
Variables perm bic : bool.
Notation P := (P p0 src).
Notation SD := (SD p0 src).
Notation Snd := (Snd p0 src).
Notation Read := (Read p0 src).
Notation Gd := (Gd p0 src).
Notation Bk := (Bk p0 src).
Notation posat := (posat p0).

(** ** RPC *)
Lemma coms_inj a b : coms a = coms b -> a = b.
Proof. intros H. rewrite <- (citems_coms a), <- (citems_coms b), H. reflexivity. Qed.
Lemma texts_inj a b : texts a = texts b -> a = b.
Proof.
  revert b. induction a as [|[s p] a IH]; intros [|[s' p'] b]; cbn; try discriminate; [reflexivity|]. intros H. injection H as -> -> H. f_equal. apply IH. exact H.
Qed.
Lemma lay_first_coms p r cs x q its p' r' m : Lay false p r (coms cs ++ Tok x q :: its) p' r' -> has m ScanComment = false -> texts cs = place p (lx_cms (lex m r)).
Proof.
  intros L M. apply lay_coms in L. destruct L as (g & gcs & r1 & -> & G & PL & -> & TA & _).
  rewrite (lex_gap m g gcs _ M G). destruct (core_lex m (x ++ r1) (token_core _ _ TA)) as (_ & A & _). unfold skip. cbn [lx_cms]. rewrite A. cbn [map]. rewrite app_nil_r. symmetry. exact PL.
Qed.
(** a token read once more *)
Lemma Read_again k b u x p k1 v q k2 : Bk k b -> P k u k1 -> T u x p -> P b v k2 -> T v x q -> u = v /\ p = q.
Proof.
  intros (B1 & B2 & _) (_ & (w1 & sp1 & q1 & _ & _ & _ & L1) & _) (c1 & ->) (_ & (w2 & sp2 & q2 & _ & _ & _ & L2) & _) (c2 & ->).
  pose proof (lay_first_coms _ _ _ _ _ [] _ _ 0 L1 eq_refl) as X1. pose proof (lay_first_coms _ _ _ _ _ [] _ _ 0 L2 eq_refl) as X2. rewrite B1, B2 in X2.
  assert (FT : forall c y z, first_tok (coms c ++ [Tok y z]) = Some (y, z)) by (intros c y z; induction c as [|d c IH]; [reflexivity|exact IH]).
  destruct (lay_tok_first _ _ _ _ _ _ _ 0 L1 (FT _ _ _) eq_refl) as [Y1 _]. destruct (lay_tok_first _ _ _ _ _ _ _ 0 L2 (FT _ _ _) eq_refl) as [Y2 _]. rewrite B1, B2 in Y2.
  assert (p = q) as <- by congruence. split; [|reflexivity]. f_equal. f_equal. apply texts_inj. congruence.
Qed.
Lemma SD_embedded {A} k0 a x1 p1 m x2 p2 k (f : list comment -> PM A) Q : Gd k0 -> P k0 (a ++ Tok x1 p1 :: m ++ [Tok x2 p2]) k ->
  SD k0 (f (comments_in m) k) Q -> SD k0 (pbind (qEmbedded p1 p2) f k) Q.
Proof.
  intros (E0 & C & KN) (G & SG & KT) H. pose proof (KT C KN) as (_ & _ & n & LN & U). destruct G as (E1 & _).
  set (d := a ++ Tok x1 p1 :: m ++ [Tok x2 p2]) in *.
  destruct (ahead_lay p0 src (cc k) (cr k) E1) as (its & p' & r' & LY & CI).
  assert (ALL : exists p'' r'', Lay false (posat (cc k0)) (cr k0) (d ++ its) p'' r'').
  { destruct SG as (w & sp & p & W1 & W2 & SP & L). destruct its as [|i its]; [rewrite app_nil_r; eauto|]. pose proof (Seg_pos _ _ _ _ _ _ _ W1 W2 L) as PP.
    eexists _, _. eapply lay_app; [exact L|]. apply lay_pre; [exact SP|discriminate|]. rewrite PP. exact LY. }
  destruct ALL as (p'' & r'' & ALL). destruct (valid_part src RS _ _ E0) as [_ V]. pose proof (lay_sorted _ _ _ _ _ _ ALL V) as SA. pose proof (lay_above _ _ _ _ _ _ ALL V) as AB.
  assert (ED : d ++ its = a ++ Tok x1 p1 :: m ++ Tok x2 p2 :: its). { unfold d. rewrite <- app_assoc. cbn [app]. rewrite <- app_assoc. reflexivity. }
  assert (O1 : (Offset (posat (cc k0)) <= Offset p1)%Z).
  { rewrite Forall_forall in AB. apply (AB (Tok x1 p1)). rewrite ED. apply in_or_app. right. left. reflexivity. }
  assert (CD : citems d = citems a ++ citems m). { unfold d. rewrite citems_app. cbn [citems]. rewrite citems_app. cbn [citems]. rewrite app_nil_r. reflexivity. }
  unfold pbind, qEmbedded. rewrite U.
  assert (F : firstn n ((C ++ citems d) ++ ahead p0 (cc k) (cr k)) = C ++ citems a ++ citems m ++ firstn (n - List.length (C ++ citems d)) (citems its)).
  { rewrite firstn_app, firstn_all2 by exact LN. rewrite CI, CD, <- !app_assoc. reflexivity. }
  rewrite F. unfold texts. rewrite !map_app, !filter_app.
  destruct (sorted_mid _ SA a x1 p1 (m ++ Tok x2 p2 :: its) ED) as [M1 M2].
  destruct (sorted_mid _ SA (a ++ Tok x1 p1 :: m) x2 p2 its) as [M3 M4]; [rewrite ED, <- app_assoc; reflexivity|].
  rewrite filter_none; [rewrite filter_none; [rewrite filter_all; [rewrite filter_none|]|]|].
  - cbn [app]. rewrite app_nil_r. rewrite map_map. rewrite citems_nodes in H. unfold nodes in H.
    assert (X : map (fun c => qcomment (TPos (mkText (fst c) (snd c))) (Literal (mkText (fst c) (snd c)))) (citems m) = map node (citems m)).
    { apply map_ext. intros [s p]. apply qcomment_node. }
    exact (eq_ind_r (fun l => SD k0 (f l k) Q) H X).
  - intros t I. apply in_map_iff in I. destruct I as (c & <- & I). apply in_firstn in I. cbn [TPos]. specialize (M4 c I).
    rewrite (proj2 (Z.ltb_ge (Offset (snd c)) (Offset p2))) by lia. apply andb_false_r.
  - intros t I. apply in_map_iff in I. destruct I as (c & <- & I). cbn [TPos]. apply andb_true_iff. rewrite !Z.ltb_lt. split.
    + apply M2. rewrite citems_app. apply in_or_app. left. exact I.
    + apply M3. rewrite citems_app. apply in_or_app. right. exact I.
  - intros t I. apply in_map_iff in I. destruct I as (c & <- & I). cbn [TPos]. specialize (M1 c I). rewrite (proj2 (Z.ltb_ge (Offset p1) (Offset (snd c)))) by lia. reflexivity.
  - intros t I. apply in_map_iff in I. destruct I as (c & <- & I). cbn [TPos]. destruct KN as (_ & FC & _). rewrite Forall_forall in FC. specialize (FC c I).
    rewrite (proj2 (Z.ltb_ge (Offset p1) (Offset (snd c)))) by lia. reflexivity.
Qed.
Lemma S_rpcParam : Snd (qRpcParam p0) (fun k tt a k' => RPCParam tt a).
Proof.
  intros k G. unfold qRpcParam. pose proof (P_refl _ _ _ G) as PR. sexp t u k1 P1 T1 W1 L1 N1. stok s k2 R2 PB2. apply SD_bind.
  assert (END : forall st u2 k3, P k (u ++ u2) k3 -> (forall rest k', P k3 rest k' -> Stream u2 rest st) ->
    SD k ((messageType <-- qReadMessageType p0;; e <-- pexpect p0 0 TRIGHTPAREN;; pret (mkRPCParam st (fst messageType) (mkMeta (tp t) (tp e)))) k3) (fun a k' => exists tt, P k tt k' /\ RPCParam tt a)).
  { intros st u2 k3 P3 ST. scall (S_messageType p0 src RS) mt u3 k4 P4 P5 D. destruct mt as [mt pm]. cbn [fst snd] in *. sexp e u4 k5 P6 T6 W6 L6 N6. destruct D as [D|D]; [|contradiction]. apply SD_ret.
    rewrite <- ?app_assoc in P6. sfin. econstructor; [exact T1|eapply ST; exact P4|exact D|exact T6]. }
  destruct (tok_eqb (tk s) TSTREAM) eqn:E; cbn [negb].
  - stake R2 E u2 P3 P4 T2 W2 L2 N2. apply SD_ret. eapply END; [exact P4|]. intros rest k' _. apply stream_yes. eapply K_of; exact T2.
  - apply SD_back, SD_ret. eapply END; [rewrite app_nil_r; exact PB2|]. intros rest k' PP. apply stream_no. pose proof (rd_back _ _ _ _ _ _ R2) as (_ & B & _).
    eapply (other_first p0 src); [exact PP|reflexivity|]. intros x _ <-. rewrite B. destruct (Read_tk _ _ _ _ _ _ R2) as (X & _). rewrite <- X. cbn. intros [Y|[]]. rewrite <- Y in E. discriminate E.
Qed.
Lemma rpcbody_snoc ts os ts' os' : RPCBody perm true ts os -> RPCBody perm true ts' os' -> RPCBody perm true (ts ++ ts') (os ++ os').
Proof. intros H H'. induction H; [exact H'| |]; rewrite <- app_assoc; cbn [app]; econstructor; eassumption. Qed.
Lemma S_rpcOptions_loop n : forall options, Snd (qRpcOptions_loop p0 perm n options) (fun k tt a k' => exists os te b t, a = options ++ os /\ P k te b /\ Read 0 b t k' /\ tk t = TRIGHTCURLY /\ RPCBody perm true te os).
Proof.
  induction n as [|n IH]; intros options k G; [exact Logic.I|]. cbn [qRpcOptions_loop]. pose proof (P_refl _ _ _ G) as PR. speek t k1 R1 B1 PB1. apply SD_bind.
  assert (END : forall te os k2, P k te k2 -> RPCBody perm true te os ->
    SD k ((t <-- ptok p0 0;; if tok_eqb (tk t) TRIGHTCURLY then pret (options ++ os) else pback t;;; qRpcOptions_loop p0 perm n (options ++ os)) k2)
      (fun a k' => exists tt, P k tt k' /\ exists os te b t, a = options ++ os /\ P k te b /\ Read 0 b t k' /\ tk t = TRIGHTCURLY /\ RPCBody perm true te os)).
  { intros te os k2 P2 D. stok t2 k3 R3 PB3. destruct (tok_eqb (tk t2) TRIGHTCURLY) eqn:E.
    - pose proof E as E'. apply tokb_eq in E'. stake R3 E u P3 P4 T1 W L N. apply SD_ret. eexists. split; [exact P4|]. exists os, te, k2, t2. auto.
    - apply SD_back. stail IH a u k4 P3 P4 X. destruct X as (os' & te' & b & t3 & -> & P5 & R5 & T5 & D5). eexists. split; [exact P4|]. exists (os ++ os'), (te ++ te'), b, t3.
      split; [rewrite app_assoc; reflexivity|]. split; [eapply P_trans; [exact PB3|exact P5]|]. split; [exact R5|]. split; [exact T5|]. apply rpcbody_snoc; assumption. }
  assert (EMP : SD k ((qReadEmptyStatement p0;;; pret options) (kb t)) (fun a k' =>
    SD k ((t <-- ptok p0 0;; if tok_eqb (tk t) TRIGHTCURLY then pret a else pback t;;; qRpcOptions_loop p0 perm n a) k')
      (fun a k' => exists tt, P k tt k' /\ exists os te b t, a = options ++ os /\ P k te b /\ Read 0 b t k' /\ tk t = TRIGHTCURLY /\ RPCBody perm true te os))).
  { unfold qReadEmptyStatement. apply SD_bind. stok t2 k2 R2 PB2. destruct (tok_eqb (tk t2) TSEMICOLON) eqn:E; [|exact Logic.I]. stake R2 E u P2 P3 T1 W L N. apply SD_ret, SD_ret.
    pose proof (END u [] k2 P3) as X. rewrite app_nil_r in X. apply X. rewrite <- (app_nil_r u). apply rb_empty; [eapply K_of; exact T1|constructor]. }
  destruct (tk t) eqn:TK; try exact EMP; clear EMP.
  - apply SD_ret. pose proof (END [] [] _ PB1) as X. rewrite app_nil_r in X. apply X. constructor.
  - scall (S_option p0 src RS perm) o u k2 P2 P3 D. destruct D as [D _]. apply SD_ret. apply (END u [o]); [exact P3|]. rewrite <- (app_nil_r u). apply rb_option; [exact D|constructor].
Qed.
Lemma comments_last ts x p : comments_in (ts ++ [Tok x p]) = comments_in ts.
Proof. rewrite comments_in_app. cbn. apply app_nil_r. Qed.
Lemma S_rpc : Snd (qRPC p0 perm) (fun k tt r k' => RPC perm true [] None tt r /\ ends tt k').
Proof.
  intros k G. unfold qRPC. pose proof (P_refl _ _ _ G) as PR. sexp t u k1 P1 T1 W1 L1 N1. sexp name u2 k2 P2 T2 W2 L2 N2. scall S_rpcParam rq u3 k3 P3 P4 D3. sexp rt u4 k4 P5 T4 W4 L4 N4.
  scall S_rpcParam rs u5 k5 P6 P7 D5. stok e k6 R6 PB6. rewrite <- !app_assoc in P7, PB6.
  destruct T1 as (cs1 & ->).
  assert (EMB : forall x u6 (f : list comment -> PM rpc) Q, P k ((coms cs1 ++ [Tok (lit "rpc") (tp t)]) ++ u2 ++ u3 ++ u4 ++ u5 ++ u6) k6 -> T u6 x (tp e) ->
    SD k (f (comments_in (u2 ++ u3 ++ u4 ++ u5 ++ u6)) k6) Q -> SD k (pbind (qEmbedded (tp t) (tp e)) f k6) Q).
  { intros x u6 f Q P8 (cs6 & ->) H. rewrite !app_assoc in H. rewrite comments_last in H. rewrite <- !app_assoc in H. eapply (SD_embedded k (coms cs1) (lit "rpc") _ (u2 ++ u3 ++ u4 ++ u5 ++ coms cs6) x); [exact G| |exact H].
    rewrite <- !app_assoc in P8. cbn [app] in P8. rewrite <- !app_assoc. exact P8. }
  destruct (token_eq_dec (tk e) TSEMICOLON) as [E|E]; [|destruct (token_eq_dec (tk e) TLEFTCURLY) as [E1|E1]].
  - destruct (Read_next _ _ _ _ _ _ _ _ _ P7 R6 E ltac:(discriminate) ltac:(discriminate)) as (u6 & P8 & P9 & T6 & W6 & L6 & N6). cbn [want] in W6. rewrite W6 in T6. rewrite <- !app_assoc in P9.
    eapply EMB; [rewrite <- !app_assoc; exact P9|exact T6|]. rewrite E. apply SD_bind, SD_ret, SD_ret.
    eexists. split; [exact P9|]. split; [|sends].
    pose proof (rpc_intro perm true [] None cs1 (tp t) u2 (tx name) (tp name) u3 rq u4 u5 rs u6 [] [] None (tp e) T2 W2 D3 (K_of _ _ _ T4) D5 (re_semi _ _ _ _ T6)) as X.
    rewrite app_nil_r in X. rewrite <- !app_assoc in X. exact X.
  - destruct (Read_next _ _ _ _ _ _ _ _ _ P7 R6 E1 ltac:(discriminate) ltac:(discriminate)) as (u6 & P8 & P9 & T6 & W6 & L6 & N6). cbn [want] in W6. rewrite W6 in T6. rewrite <- !app_assoc in P9.
    eapply EMB; [rewrite <- !app_assoc; exact P9|exact T6|]. set (emb := comments_in (u2 ++ u3 ++ u4 ++ u5 ++ u6)). rewrite E1. apply SD_bind, SD_back. apply SD_bind. unfold qRpcOptions.
    eapply SD_from; [exact PB6|]. pose proof (P_refl _ _ _ (P_Gd _ _ _ _ _ PB6)) as PR2. sexp e2 u7 k7 P10 T7 W7 L7 N7.
    destruct (Read_again _ _ _ _ _ _ _ _ _ (rd_back _ _ _ _ _ _ R6) P8 T6 P10 T7) as [<- EP].
    eapply (SD_inline _ _ RS); [exact P10|]. intros lc k8 P11 I8 M8. apply SD_fuel. scall S_rpcOptions_loop os u8 k9 P12 P13 X. destruct X as (os' & te & b & t2 & -> & P14 & R9 & E9 & D9). cbn [app]. apply SD_ret.
    assert (P15 : P k ((coms cs1 ++ [Tok (lit "rpc") (tp t)]) ++ u2 ++ u3 ++ u4 ++ u5 ++ u6 ++ icom lc ++ te) b).
    { pose proof (P_trans _ _ _ _ _ _ _ PB6 (P_trans _ _ _ _ _ _ _ P11 P14)) as X. rewrite <- ?app_assoc in X. rewrite <- ?app_assoc. exact X. }
    apply SD_bind. eapply SD_close; [exact RS|exact P15|exact R9|exact E9|]. intros tb tc q k10 P16 T16 P17 P18 CL LL. apply SD_ret. apply SD_ret.
    rewrite <- ?app_assoc in P18. eexists. split; [exact P18|]. split.
    + rewrite <- ?app_assoc. pose proof (fun H => rpc_intro perm true [] None cs1 (tp t) u2 (tx name) (tp name) u3 rq u4 u5 rs u6 (icom lc ++ te ++ tb ++ tc) os' (inode lc) q T2 W2 D3 (K_of _ _ _ T4) D5 (re_block _ _ _ _ _ _ _ _ _ T6 H D9 CL)) as X.
      rewrite <- ?app_assoc in X. cbn [app] in X. cbn [app]. apply X. rewrite EP, <- L7. eapply inl_Inline; [exact I8|]. eapply P_trans; [exact P14|]. eapply P_trans; [exact P16|exact P17].
    + destruct (close_last _ _ _ CL) as (x & LT). exists x, q. split; [|exact LL]. rewrite !app_assoc. rewrite <- (app_assoc _ tb tc). rewrite last_tok_cat by (rewrite LT; discriminate). exact LT.
  - unfold pbind, qEmbedded. destruct (tk e); try congruence; cbn; eexists; exact PB6.
Qed.

(** ** Service *)
Lemma st_service : StS p0 src (ServiceStmt perm true) (stService p0 perm).
Proof.
  intros cs k G. pose proof (P_refl _ _ _ G) as PR. remember (lx_tok (lex ScanKeyword (cr k))) as tok eqn:TK. unfold stService.
  assert (EMP : SD k ((qReadEmptyStatement p0;;; pret (VEmpty (mkEmpty None))) k) (fun v k' => exists tt, P k tt k' /\ (Clear k -> forall il v', fin il v v' -> ServiceStmt perm true cs il tt v') /\ ends tt k')).
  { unfold qReadEmptyStatement. apply SD_bind. stok t2 k2 R2 PB2. destruct (tok_eqb (tk t2) TSEMICOLON) eqn:E; [|exact Logic.I]. stake R2 E u P2 P3 T1 W L N. apply SD_ret, SD_ret.
    eexists. split; [exact P3|]. split; [|sends]. intros CL il v' F. apply rl_empty in F. subst v'. pose proof (Clear_P _ _ _ _ _ CL P3) as NC. destruct T1 as ([|c l] & ->); [apply ss_empty|destruct NC]. }
  destruct tok; try exact EMP; clear EMP.
  - scall S_rpc o u k1 P1 P2 D. destruct D as [D EN]. apply SD_ret. exists u. split; [exact P2|]. split; [|exact EN]. intros CL il v' F. destruct (rl_rpc _ _ _ _ _ _ D F) as (o' & -> & D'). apply ss_rpc. exact D'.
  - scall (S_option p0 src RS perm) o u k1 P1 P2 D. destruct D as [D EN]. apply SD_ret. exists u. split; [exact P2|]. split; [|exact EN]. intros CL il v' F. destruct (rl_option _ _ _ _ _ _ D F) as (o' & -> & D'). apply ss_option. exact D'.
Qed.
Lemma S_service : Snd (qParseService p0 perm bic) (fun k tt b k' => Service perm bic true [] None tt b /\ ends tt k').
Proof.
  intros k G. unfold qParseService, qServiceBody. pose proof (P_refl _ _ _ G) as PR. sexp t u k1 P1 T1 W1 L1 N1. sexp name u2 k2 P2 T2 W2 L2 N2.
  scall (S_body p0 src RS perm bic (ServiceStmt perm true) (stService p0 perm) (qServiceBody_loop p0 perm bic) (service_loop p0 perm bic) (fun _ _ _ => eq_refl) (nn_service p0 perm) st_service) a u3 k3 P3 P4 D.
  destruct a as [[vs lc] q]. destruct D as [D LL]. apply SD_ret. rewrite <- ?app_assoc in P4. sfin. split; [econstructor; eassumption|]. apply ends_app. eapply body_ends; eassumption.
Qed.

(** ** File *)
Lemma S_protoStmt n cs k : Gd k -> SD k (qProtoStmt p0 perm bic n (lx_tok (lex ScanKeyword (cr k))) cs k)
  (fun a k' => exists tt, P k tt k' /\ ends tt k' /\
    ((fst a = [] /\ (forall c, set_inline c (snd a) <> None) /\ forall il v', fin il (snd a) v' -> FileStmt perm bic true cs il tt v') \/
     (a = ([VEmpty (mkEmpty None)], VNil) /\ exists p, T tt (lit ";") p))).
Proof.
  intros G. pose proof (P_refl _ _ _ G) as PR. remember (lx_tok (lex ScanKeyword (cr k))) as tok eqn:TK. unfold qProtoStmt.
  assert (EMP : SD k ((qReadEmptyStatement p0;;; pret ([VEmpty (mkEmpty None)], VNil)) k) (fun a k' => exists tt, P k tt k' /\ ends tt k' /\
    ((fst a = [] /\ (forall c, set_inline c (snd a) <> None) /\ forall il v', fin il (snd a) v' -> FileStmt perm bic true cs il tt v') \/ (a = ([VEmpty (mkEmpty None)], VNil) /\ exists p, T tt (lit ";") p)))).
  { unfold qReadEmptyStatement. apply SD_bind. stok t2 k2 R2 PB2. destruct (tok_eqb (tk t2) TSEMICOLON) eqn:E; [|exact Logic.I]. stake R2 E u P2 P3 T1 W L N. apply SD_ret, SD_ret.
    eexists. split; [exact P3|]. split; [sends|]. right. split; [reflexivity|]. eexists. exact T1. }
  destruct tok; try exact EMP; clear EMP.
  - scall S_service o u k1 P1 P2 D. destruct D as [D EN]. apply SD_ret. exists u. split; [exact P2|]. split; [exact EN|]. left. split; [reflexivity|]. split; [discriminate|]. intros il v' F. destruct (rl_service _ _ _ _ _ _ _ D F) as (o' & -> & D'). apply fs_service. exact D'.
  - scall (S_message p0 src RS perm bic n) o u k1 P1 P2 D. destruct D as [D EN]. apply SD_ret. exists u. split; [exact P2|]. split; [exact EN|]. left. split; [reflexivity|]. split; [discriminate|]. intros il v' F. destruct (rl_message _ _ _ _ _ _ _ D F) as (o' & -> & D'). apply fs_message. exact D'.
  - scall (S_extend p0 src RS perm bic) o u k1 P1 P2 D. destruct D as [D EN]. apply SD_ret. exists u. split; [exact P2|]. split; [exact EN|]. left. split; [reflexivity|]. split; [discriminate|]. intros il v' F. destruct (rl_extend _ _ _ _ _ _ _ D F) as (o' & -> & D'). apply fs_extend. exact D'.
  - scall (S_import p0 src RS) o u k1 P1 P2 D. destruct D as [D EN]. apply SD_ret. exists u. split; [exact P2|]. split; [exact EN|]. left. split; [reflexivity|]. split; [discriminate|]. intros il v' F. destruct (rl_import _ _ _ _ _ D F) as (o' & -> & D'). apply fs_import. exact D'.
  - scall (S_package p0 src RS) o u k1 P1 P2 D. destruct D as [D EN]. apply SD_ret. exists u. split; [exact P2|]. split; [exact EN|]. left. split; [reflexivity|]. split; [discriminate|]. intros il v' F. destruct (rl_package _ _ _ _ _ D F) as (o' & -> & D'). apply fs_package. exact D'.
  - scall (S_option p0 src RS perm) o u k1 P1 P2 D. destruct D as [D EN]. apply SD_ret. exists u. split; [exact P2|]. split; [exact EN|]. left. split; [reflexivity|]. split; [discriminate|]. intros il v' F. destruct (rl_option _ _ _ _ _ _ D F) as (o' & -> & D'). apply fs_option. exact D'.
  - scall (S_enum p0 src RS perm bic) o u k1 P1 P2 D. destruct D as [D EN]. apply SD_ret. exists u. split; [exact P2|]. split; [exact EN|]. left. split; [reflexivity|]. split; [discriminate|]. intros il v' F. destruct (rl_enum _ _ _ _ _ _ _ D F) as (o' & -> & D'). apply fs_enum. exact D'.
Qed.
(** the file level is the only place where a panic can come from *)
Definition SDp {A} (Pn : Prop) (k0 : cur) (r : pres A) (Q : A -> cur -> Prop) : Prop := match r with PPanic => Pn | _ => SD k0 r Q end.
Lemma SDp_of {A} Pn k0 (r : pres A) Q : SD k0 r Q -> SDp Pn k0 r Q.
Proof. destruct r; cbn; tauto. Qed.
Lemma SDp_bind {A B} (Pn : Prop) k0 (m : PM A) (f : A -> PM B) k Q : SD k0 (m k) (fun a k' => SDp Pn k0 (f a k') Q) -> SDp Pn k0 (pbind m f k) Q.
Proof. unfold pbind. destruct (m k); cbn; tauto. Qed.
Lemma SDp_bind2 {A B} (Pn : Prop) k0 (m : PM A) (f : A -> PM B) k Q : SDp Pn k0 (m k) (fun a k' => SDp Pn k0 (f a k') Q) -> SDp Pn k0 (pbind m f k) Q.
Proof. unfold pbind. destruct (m k); cbn; tauto. Qed.
Lemma SDp_weak {A} (Pn Pn' : Prop) k0 (r : pres A) (Q Q' : A -> cur -> Prop) : SDp Pn k0 r Q -> (Pn -> Pn') -> (forall a k', Q a k' -> Q' a k') -> SDp Pn' k0 r Q'.
Proof. intros H F G. destruct r; cbn in *; auto. Qed.
Lemma SDp_from {A} Pn k0 ts k (r : pres A) Q : P k0 ts k -> SDp Pn k r Q -> SDp Pn k0 r Q.
Proof. intros H S. assert (X := SD_from p0 src k0 ts k r Q H). destruct r; cbn in *; auto. Qed.
Lemma pbind_ret {A} (m : PM A) k : pbind m pret k = m k.
Proof. unfold pbind. destruct (m k); reflexivity. Qed.
(** what is read up to a panic: statements, a semicolon, a comment on its line *)
Definition Pan (k : cur) : Prop := exists tt p c k' vs, P k (tt ++ [Tok (lit ";") p; Com (fst c) (snd c)]) k' /\ Line (snd c) = Line p /\
  FileStmts perm bic true (tt ++ [Tok (lit ";") p]) (vs ++ [VEmpty (mkEmpty None); VNil]) [].
Lemma S_protoBody n : forall body k, Gd k -> SDp (Pan k) k (qProtoBody_loop p0 perm bic n body k) (fun a k' => exists tt, P k tt k' /\ Spaces (cr k') /\ Filename (lp k') = Filename p0 /\
  exists vs tcs, a = body ++ vs ++ trailing bic tcs /\ FileStmts perm bic true tt vs tcs).
Proof.
  induction n as [|n IH]; intros body k G; [exact Logic.I|]. cbn [qProtoBody_loop]. pose proof (P_refl _ _ _ G) as PR.
  apply SDp_bind. rewrite <- pbind_ret. eapply (SD_comments _ _ RS); [exact PR|]. intros cs k1 P1 C1 L1. cbn [app] in P1. apply SD_ret.
  apply SDp_bind. rewrite <- pbind_ret. speek t k2 R2 B2 PB2. pose proof (Clear_bk _ _ _ _ C1 B2) as C2. apply SD_ret.
  destruct (tok_eqb (tk t) TEOF) eqn:E.
  - apply SDp_of, SD_ret. eexists. split; [exact PB2|]. apply tokb_eq in E. destruct (rd_view _ _ _ _ _ _ R2) as [cs2 _ _ CR P2|tt x N _ _ _ _]; [|contradiction].
    assert (cs2 = []) as -> by (pose proof (Clear_P _ _ _ _ _ C1 P2) as X; destruct cs2 as [|c l]; [reflexivity|destruct X]).
    destruct B2 as (B2a & B2b & B2c & B2d). destruct P2 as (_ & (w & sp & p & W1 & W2 & SP & LY) & _). apply lay_none in LY. destruct LY as [_ LY]. rewrite CR, app_nil_r in LY.
    split; [rewrite B2b, <- LY; exact SP|]. split; [rewrite B2c; apply Filename_posafter|]. exists [], cs. split; [destruct bic; reflexivity|]. apply fss_nil.
  - assert (PP : P k (coms cs) (kb t)) by exact PB2. clear PB2. apply SDp_bind. rewrite <- pbind_ret. speek t3 k3 R3 B3 PB3. pose proof (Clear_bk _ _ _ _ C2 B3) as C3. apply SD_ret.
    assert (TK : tk t3 = lx_tok (lex ScanKeyword (cr (kb t3)))). { destruct (Read_tk _ _ _ _ _ _ R3) as (-> & _). destruct B3 as (_ & -> & _). reflexivity. }
    rewrite TK. apply SDp_bind. eapply SD_from; [exact PB3|]. eapply SD_weak; [apply S_protoStmt; eapply P_Gd; exact PB3|]. cbn beta.
    intros [pre v] k4 (tt & P4 & (x & q & LT & LL) & D). cbn [fst snd] in D. assert (P5 : P k (coms cs ++ tt) k4) by (eapply P_trans; eassumption).
    apply SDp_bind2. unfold qMaybeInline. apply SDp_bind.
    pose proof (P_refl _ _ _ (P_Gd _ _ _ _ _ P4)) as PR4. apply (SD_from _ _ k _ _ _ _ P5). eapply (SD_inline1 _ _ RS); [exact PR4|]. intros c k5 P7 IL _. cbn [app] in P7.
    assert (P6 : P k ((coms cs ++ tt) ++ icom c) k5) by (eapply P_trans; eassumption).
    assert (GO : forall v', fin (inode c) v v' -> SDp (Pan k) k (qProtoBody_loop p0 perm bic n (body ++ pre ++ [v']) k5) (fun a k' => exists tt, P k tt k' /\ Spaces (cr k') /\ Filename (lp k') = Filename p0 /\
        exists vs tcs, a = body ++ vs ++ trailing bic tcs /\ FileStmts perm bic true tt vs tcs)).
    { intros v' SE.
      assert (ST1 : forall rest k' ws vs tcs, P k5 (rest ++ ws) k' -> FileStmts perm bic true rest vs tcs -> FileStmts perm bic true (((coms cs ++ tt) ++ icom c) ++ rest) (pre ++ v' :: vs) tcs).
      { intros rest k' ws vs tcs P8 ST. rewrite <- !app_assoc. destruct D as [(-> & NN & D)|[D (p & TT)]].
        - eapply fss_cons; [apply D; exact SE|eapply Clear_P; eassumption|exact LT| |left; reflexivity|exact ST]. rewrite <- LL. eapply Inline_part. eapply inl_Inline; [exact IL|exact P8].
        - injection D as -> ->. destruct c as [c|]; [discriminate SE|]. cbn in SE. subst v'.
          pose proof (Clear_P _ _ _ _ _ C3 P4) as NC. destruct TT as ([|c l] & ->); [|destruct NC]. cbn in LT. injection LT as <- <-. cbn [coms map app icom].
          apply fss_empty; [|exact ST]. rewrite <- LL. eapply inl_Inline in IL; [|exact P8]. apply Inline_part in IL. exact IL. }
      eapply SDp_from; [exact P6|]. eapply SDp_weak; [apply IH; eapply P_Gd; exact P6| |].
      - intros (u & p & c2 & k6 & vs & P8 & LQ & ST). exists (((coms cs ++ tt) ++ icom c) ++ u), p, c2, k6, (pre ++ v' :: vs).
        split; [rewrite <- app_assoc; eapply P_trans; eassumption|]. split; [exact LQ|].
        replace (u ++ [Tok (lit ";") p; Com (fst c2) (snd c2)]) with ((u ++ [Tok (lit ";") p]) ++ [Com (fst c2) (snd c2)]) in P8 by (rewrite <- app_assoc; reflexivity).
        pose proof (ST1 _ _ _ _ _ P8 ST) as X. rewrite <- !app_assoc in X. rewrite <- !app_assoc. cbn [app]. exact X.
      - cbn beta. intros a k6 (u & P8 & SP & FN & vs & tcs & -> & ST). eexists. split; [eapply P_trans; [exact P6|exact P8]|]. split; [exact SP|]. split; [exact FN|].
        exists (pre ++ v' :: vs), tcs. split; [rewrite <- !app_assoc; reflexivity|]. rewrite <- (app_nil_r u) in P8. eapply ST1; eassumption. }
    destruct c as [c|]; cbn [inode option_map].
    + destruct (set_inline (node c) v) as [v'|] eqn:SE.
      * apply SDp_of. apply SD_ret. apply GO. exact SE.
      * destruct D as [(-> & NN & D)|[D (p & TT)]].
        -- destruct (NN _ SE).
        -- cbn. pose proof (Clear_P _ _ _ _ _ C3 P4) as NC. destruct TT as ([|c0 l] & ->); [|destruct NC]. cbn in LT. injection LT as <- <-.
           exists (coms cs), p, c, k5, []. cbn [coms map app icom] in P6. rewrite <- app_assoc in P6. cbn [app] in P6. split; [exact P6|]. split; [cbn in IL; congruence|].
           apply (fss_empty perm bic true cs p [] [] []); [exact Logic.I|apply (fss_nil perm bic true [])].
    + apply SDp_of, SD_ret, GO. reflexivity.
Qed.
Lemma S_BOM : Snd (qBOM p0) (fun k tt _ k' => Bom tt).
Proof.
  intros k G. unfold qBOM. pose proof (P_refl _ _ _ G) as PR. stok t k2 R2 PB2. destruct (tok_eqb (tk t) TBOM) eqn:E.
  - stake R2 E u P2 P3 T1 W L N. apply SD_ret. sfin. destruct T1 as (cs & ->). apply bom_mark.
  - exists []. split; [exact PB2|constructor].
Qed.
Lemma no_com_part a b : no_com (a ++ b) -> no_com a.
Proof. destruct a as [|[] a]; cbn; auto. Qed.
Lemma next_tok_com ts x p : next_tok (ts ++ [Com x p]) = next_tok ts.
Proof. induction ts as [|[y q|y q] ts IH]; cbn; auto. Qed.
Lemma syntax_part_com cs ts sy rest x p : SyntaxPart true cs ts sy (rest ++ [Com x p]) -> SyntaxPart true cs ts sy rest.
Proof.
  intros H. remember (rest ++ [Com x p]) as r eqn:E. destruct H as [r N|t s y q il r D L I]; subst r.
  - apply sp_none. unfold not_first in *. rewrite next_tok_com in N. exact N.
  - eapply sp_some; [exact D|exact L|]. eapply Inline_part. exact I.
Qed.
Lemma edition_part_com cs ts sy rest x p : EditionPart true cs ts sy (rest ++ [Com x p]) -> EditionPart true cs ts sy rest.
Proof.
  intros H. remember (rest ++ [Com x p]) as r eqn:E. destruct H as [r N|t s y q il r D L I]; subst r.
  - apply ep_none. unfold not_first in *. rewrite next_tok_com in N. exact N.
  - eapply ep_some; [exact D|exact L|]. eapply Inline_part. exact I.
Qed.
(** a file up to a panic *)
Definition PanF (k : cur) : Prop := exists tt p c k' vs sy ed, P k (tt ++ [Tok (lit ";") p; Com (fst c) (snd c)]) k' /\ Line (snd c) = Line p /\
  File perm bic true (Filename p0) (tt ++ [Tok (lit ";") p]) (mkProto sy ed (vs ++ [VEmpty (mkEmpty None); VNil]) (Filename p0)).
Lemma S_file n k : Gd k -> SDp (PanF k) k (qParseProto p0 perm bic n k) (fun a k' => exists tt, P k tt k' /\ Spaces (cr k') /\ File perm bic true (Filename p0) tt a).
Proof.
  intros G. unfold qParseProto. pose proof (P_refl _ _ _ G) as PR. apply SDp_bind. rewrite <- pbind_ret. scall S_BOM a tb k1 P1 P2 BM. apply SD_ret.
  apply SDp_bind. rewrite <- pbind_ret. eapply (SD_comments _ _ RS); [exact P2|]. intros cs k2 P3 C3 L3. apply SD_ret.
  apply SDp_bind. rewrite <- pbind_ret. scall (S_syntax p0 src RS) sy ts k3 P4 P5 D1. apply SD_ret.
  apply SDp_bind.
  assert (X1 : SD k (match sy with None => pret None | Some x => x <-- qMaybeInline p0 (total_set set_sy_inline) (mkSyntax (sy_version x) (sy_versionQuote x) (nodes cs) (sy_inline x) (sy_meta x));; pret (Some x) end k3)
    (fun sy' k' => exists ts', P k ((tb ++ coms cs) ++ ts') k' /\ P k2 ts' k' /\ forall rest k'', P k' rest k'' -> SyntaxPart true (nodes cs) ts' sy' rest)).
  { destruct sy as [s|].
    - eapply (SD_maybe _ _ RS); [exact P5|discriminate|]. intros c x' k' P6 P7 IL SE. apply SD_ret. exists (ts ++ icom c). rewrite <- ?app_assoc in *. split; [exact P6|]. split; [eapply P_trans; eassumption|].
      destruct D1 as [D1 (x & q & LT & LL)]. intros rest k'' P8. eapply sp_some; [|exact LT|rewrite <- LL; eapply inl_Inline; eassumption].
      destruct D1. destruct c as [c|]; cbn in SE; [injection SE as <-|subst x']; cbn; econstructor; eassumption.
    - destruct D1 as (-> & B & N). apply SD_ret. exists []. split; [exact P5|]. split; [exact P4|]. intros rest k'' P8. apply sp_none.
      eapply (other_first p0 src); [exact P8|reflexivity|]. destruct B as (_ & -> & _). intros t _ E. cbn. intros [Y|[]]. congruence. }
  eapply SD_weak; [exact X1|]. clear X1 D1 P5 P4. cbn beta. intros sy' k4 (ts' & P4 & P5 & D1).
  apply SDp_bind. rewrite <- pbind_ret. scall (S_edition p0 src RS) ed te k5 P6 P7 D2. apply SD_ret. apply SDp_bind.
  assert (X1 : SD k (match ed with None => pret None | Some x => x <-- qMaybeInline p0 (total_set set_ed_inline) (mkEdition (ed_edition x) (ed_editionQuote x) (nodes cs) (ed_inline x) (ed_meta x));; pret (Some x) end k5)
    (fun sy' k' => exists te', P k (((tb ++ coms cs) ++ ts') ++ te') k' /\ P k4 te' k' /\ forall rest k'', P k' rest k'' -> EditionPart true (nodes cs) te' sy' rest)).
  { destruct ed as [s|].
    - eapply (SD_maybe _ _ RS); [exact P7|discriminate|]. intros c x' k' P8 P9 IL SE. apply SD_ret. exists (te ++ icom c). rewrite <- ?app_assoc in *. split; [exact P8|]. split; [eapply P_trans; eassumption|].
      destruct D2 as [D2 (x & q & LT & LL)]. intros rest k'' P10. eapply ep_some; [|exact LT|rewrite <- LL; eapply inl_Inline; eassumption].
      destruct D2. destruct c as [c|]; cbn in SE; [injection SE as <-|subst x']; cbn; econstructor; eassumption.
    - destruct D2 as (-> & B & N). apply SD_ret. exists []. split; [exact P7|]. split; [exact P6|]. intros rest k'' P8. apply ep_none.
      eapply (other_first p0 src); [exact P8|reflexivity|]. destruct B as (_ & -> & _). intros t _ E. cbn. intros [Y|[]]. congruence. }
  eapply SD_weak; [exact X1|]. clear X1 D2 P7 P6. cbn beta. intros ed' k6 (te' & P6 & P7 & D2).
  apply SDp_bind2. eapply SDp_from; [exact P6|]. eapply SDp_weak; [apply S_protoBody; eapply P_Gd; exact P6| |].
  - intros (u & p & c & k7 & vs & P8 & LQ & ST). exists (tb ++ coms cs ++ ts' ++ te' ++ u), p, c, k7, vs, sy', ed'.
    split. { pose proof (P_trans _ _ _ _ _ _ _ P6 P8) as X. rewrite <- ?app_assoc in X. rewrite <- ?app_assoc. exact X. }
    split; [exact LQ|]. replace (u ++ [Tok (lit ";") p; Com (fst c) (snd c)]) with ((u ++ [Tok (lit ";") p]) ++ [Com (fst c) (snd c)]) in P8 by (rewrite <- app_assoc; reflexivity).
    pose proof (file_intro perm bic true (Filename p0) tb cs ts' sy' te' ed' (u ++ [Tok (lit ";") p]) (vs ++ [VEmpty (mkEmpty None); VNil]) []) as X.
    cbn [trailing nodes map] in X. replace (trailing bic []) with (@nil visitee) in X by (destruct bic; reflexivity). rewrite app_nil_r in X. rewrite <- !app_assoc. apply X; clear X.
    + exact BM.
    + pose proof (Clear_P _ _ _ _ _ C3 (P_trans _ _ _ _ _ _ _ P5 (P_trans _ _ _ _ _ _ _ P7 P8))) as NC. rewrite !app_assoc in NC. apply no_com_part in NC. rewrite ?app_assoc. rewrite ?app_assoc in NC. exact NC.
    + eapply (syntax_part_com _ _ _ _ (fst c) (snd c)). rewrite <- app_assoc. eapply D1. eapply P_trans; [exact P7|exact P8].
    + eapply edition_part_com. eapply D2. exact P8.
    + exact ST.
  - cbn beta. intros body k7 (rest & P8 & SP & FN & vs & tcs & -> & ST). apply SDp_of, SD_last, SD_ret. eexists. split; [rewrite <- ?app_assoc in P6; eapply P_trans; [exact P6|exact P8]|].
    split; [exact SP|]. rewrite FN. rewrite <- ?app_assoc. cbn [app]. apply file_intro; [exact BM| | |eapply D2; exact P8|exact ST].
    + eapply Clear_P; [exact C3|]. eapply P_trans; [exact P5|]. eapply P_trans; [exact P7|exact P8].
    + eapply D1. eapply P_trans; [exact P7|exact P8].
Qed.
End Files.

(** Whatever Parse returns for a settled text, or without an empty
    statement in a message or group, is denoted by the grammar with the
    junk-dropping recovery. *)
Lemma sound_run n opts input c : c = config_of opts -> (List.length input < n)%nat -> readable input -> settled input ->
  match parse_fuel n opts input with
  | Ok pr => exists its, Layout false (pos0 (cfg_filename c)) input its /\ File (cfg_permissive c) (cfg_bodyIncludingComments c) true (cfg_filename c) its pr
  | Panic => exists its p x q p' rest vs sy ed, Lay false (pos0 (cfg_filename c)) input (its ++ [Tok (lit ";") p; Com x q]) p' rest /\ Line q = Line p /\
      File (cfg_permissive c) (cfg_bodyIncludingComments c) true (cfg_filename c) (its ++ [Tok (lit ";") p]) (mkProto sy ed (vs ++ [VEmpty (mkEmpty None); VNil]) (cfg_filename c))
  | _ => True
  end.
Proof.
  intros Ec LN RD CS. unfold parse_fuel. rewrite <- Ec. set (fn := cfg_filename c) in *. set (perm := cfg_permissive c) in *. set (bic := cfg_bodyIncludingComments c) in *.
  assert (NN : nonul input). { clear - RD. unfold nonul. eapply Forall_impl; [|exact RD]. cbn beta. tauto. }
  pose proof (parse_refines perm bic n fn input NN) as R.
  assert (G : Gd (pos0 fn) input (start input)).
  { split; [reflexivity|]. exists []. split; [constructor|]. split; [constructor|]. exists O. split; [apply le_n|reflexivity]. }
  pose proof (t_proto (pos0 fn) false perm bic n (start input) LN (or_intror (conj NN CS))) as T.
  pose proof (S_file (pos0 fn) input RD perm bic n (start input) G) as S.
  destruct (qParseProto (pos0 fn) perm bic n (start input)) as [a k|kb ka|k w| | | |] eqn:E; cbn [out Term.OK] in R, T.
  - destruct R as (s' & -> & _). destruct S as (tt & (_ & (w & sp & p & W1 & W2 & SP & LY) & _) & SP2 & F). exists tt. split; [|exact F].
    exists p, (sp ++ cr k). split; [exact LY|]. apply Forall_app. auto.
  - destruct R as (e & s' & -> & _). exact Logic.I.
  - destruct R as (e & s' & -> & _). exact Logic.I.
  - destruct R as (e & s' & -> & _). exact Logic.I.
  - discriminate T.
  - destruct R as (s' & ->). destruct S as (tt & p & [x q] & k' & vs & sy & ed & (_ & (w & sp & p' & W1 & W2 & SP & LY) & _) & LQ & F). cbn [fst snd] in *.
    exists tt, p, x, q, p', (sp ++ cr k'), vs, sy, ed. auto.
  - destruct T.
Qed.
Theorem regular_sound opts input pr c : c = config_of opts -> readable input -> regular input pr -> Parse opts input = Ok pr ->
  exists its, Layout false (pos0 (cfg_filename c)) input its /\ File (cfg_permissive c) (cfg_bodyIncludingComments c) true (cfg_filename c) its pr.
Proof.
  intros Ec RD [CS|NE] E.
  { pose proof (sound_run (S (S (List.length input))) opts input c Ec ltac:(lia) RD CS) as H. unfold Parse in E. rewrite E in H. exact H. }
  unfold Parse, parse_fuel in E. rewrite <- Ec in E. set (fn := cfg_filename c) in *. set (perm := cfg_permissive c) in *. set (bic := cfg_bodyIncludingComments c) in *.
  set (n := S (S (List.length input))) in *. assert (LN : (List.length input < n)%nat) by (unfold n; lia). clearbody n.
  assert (NN : nonul input). { clear - RD. unfold nonul. eapply Forall_impl; [|exact RD]. cbn beta. tauto. }
  assert (G : Gd (pos0 fn) input (start input)).
  { split; [reflexivity|]. exists []. split; [constructor|]. split; [constructor|]. exists O. split; [apply le_n|reflexivity]. }
  destruct (ParseProto perm bic n (init_st fn input)) as [r s'] eqn:E1. cbn [fst] in E. subst r. apply (strict_accepts _ _ _ _ _ _ NE) in E1.
  pose proof (parse_refines' perm bic n fn input NN) as R. rewrite E1 in R. pose proof (s_proto (pos0 fn) false perm bic n (start input) LN) as T.
  pose proof (S_file (pos0 fn) input RD perm bic n (start input) G) as S.
  destruct (qParseProto' (pos0 fn) perm bic n (start input)) as [a k|kb ka|k w| | | |] eqn:E2; cbn [out Term.OK] in R, T.
  - destruct R as (s1 & R & _). injection R as <- _. apply (sub_proto (pos0 fn)) in E2. rewrite E2 in S.
    destruct S as (tt & (_ & (w & sp & p & W1 & W2 & SP & LY) & _) & SP2 & F). exists tt. split; [|exact F].
    exists p, (sp ++ cr k). split; [exact LY|]. apply Forall_app. auto.
  - destruct R as (e & s1 & R & _). discriminate R.
  - destruct R as (e & s1 & R & _). discriminate R.
  - destruct R as (e & s1 & R & _). discriminate R.
  - discriminate T.
  - destruct R as (s1 & R). discriminate R.
  - destruct T.
Qed.
(** The same for all ordinary texts. *)
Theorem parse_sound opts input pr c : c = config_of opts -> readable input -> ordinary c input pr -> Parse opts input = Ok pr ->
  exists its, Layout false (pos0 (cfg_filename c)) input its /\ File (cfg_permissive c) (cfg_bodyIncludingComments c) true (cfg_filename c) its pr.
Proof.
  intros Ec RD [RG|(its & LY & F)] E; [exact (regular_sound opts input pr c Ec RD RG E)|]. exists its. split; [apply layout_wider; exact LY|apply J_file; exact F].
Qed.
(** Parse panics only behind a semicolon at the top level with a comment on its line. *)
Theorem panic_sound opts input c : c = config_of opts -> readable input -> settled input -> Parse opts input = Panic ->
  exists its p x q p' rest vs sy ed, Lay false (pos0 (cfg_filename c)) input (its ++ [Tok (lit ";") p; Com x q]) p' rest /\ Line q = Line p /\
    File (cfg_permissive c) (cfg_bodyIncludingComments c) true (cfg_filename c) (its ++ [Tok (lit ";") p]) (mkProto sy ed (vs ++ [VEmpty (mkEmpty None); VNil]) (cfg_filename c)).
Proof. intros Ec RD CS E. pose proof (sound_run (S (S (List.length input))) opts input c Ec ltac:(lia) RD CS) as H. unfold Parse in E. rewrite E in H. exact H. Qed.
