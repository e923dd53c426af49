(** Completeness of the pure parser: services and files. *)
From Coq Require Import List NArith ZArith Bool String Ascii Lia Sorted.
From Verif Require Import Base Token Scanner Lexer Lexing ScanRefine LexFacts LexSpec LexProofs ScanFacts ScanProps Ast Parser Api Cursor Pure
  Refine RefineFile Grammar GramLex GramRules GramNames GramValues GramStmts GramParts GramBodies GramMsg.
Import ListNotations.
Open Scope N_scope.
Open Scope pure_scope.

Section Files.
Variable p0 : mpos.
Variable all : list item.
Hypothesis SA : StronglySorted before all.
Variables perm bic : bool.
Notation posat := (posat p0).
Notation ptok := (ptok p0).
Notation ppeek := (ppeek p0).
Notation pexpect := (pexpect p0).
Notation lexc := (lexc p0).
Notation At := (At p0 all).
Notation bk := (bk p0 all).
Notation read := (read p0 all).
Notation after := (after p0 all).
Notation closed := (closed perm false).
Ltac kwhit := apply hitb_ok; lazy; reflexivity.

(** ** Comments in an RPC *)
Lemma sorted_mid (a : list item) x p b : all = a ++ Tok x p :: b ->
  (forall c, In c (citems a) -> (Offset (snd c) < Offset p)%Z) /\ (forall c, In c (citems b) -> (Offset p < Offset (snd c))%Z).
Proof.
  intros E. split; intros c I; apply citems_in in I; pose proof SA as S0; rewrite E in S0.
  - apply (sorted_app_lt before a (Tok x p :: b) S0 _ (Tok x p) I). left. reflexivity.
  - change (Tok x p :: b) with ([Tok x p] ++ b) in S0. rewrite app_assoc in S0.
    apply (sorted_app_lt before _ b S0 (Tok x p) (Com (fst c) (snd c))); [apply in_or_app; right; left; reflexivity|exact I].
Qed.
Lemma filter_all {A} (f : A -> bool) l : (forall x, In x l -> f x = true) -> filter f l = l.
Proof. induction l as [|x l IH]; intros H; [reflexivity|]. cbn. rewrite (H x (or_introl eq_refl)), IH; [reflexivity|]. intros y I. apply H. right. exact I. Qed.
Lemma filter_none {A} (f : A -> bool) l : (forall x, In x l -> f x = false) -> filter f l = [].
Proof. induction l as [|x l IH]; intros H; [reflexivity|]. cbn. rewrite (H x (or_introl eq_refl)). apply IH. intros y I. apply H. right. exact I. Qed.
Lemma in_firstn {A} n (l : list A) x : In x (firstn n l) -> In x l.
Proof. revert l. induction n as [|n IH]; intros [|y l]; cbn; try tauto. intros [H|H]; auto. Qed.
Lemma C_embedded a x1 from m x2 to rest k (Q : list comment -> cur -> Prop) : all = a ++ Tok x1 from :: m ++ Tok x2 to :: rest -> At k rest ->
  Q (comments_in m) k -> CP (qEmbedded from to) k Q.
Proof.
  intros E (_ & d & n & E' & U & L) G. unfold CP, qEmbedded. rewrite U.
  assert (D : d = a ++ Tok x1 from :: m ++ [Tok x2 to]).
  { apply (app_inv_tail rest). rewrite <- E', E, <- app_assoc. cbn [app]. rewrite <- app_assoc. reflexivity. }
  assert (CD : citems d = citems a ++ citems m). { rewrite D, citems_app. cbn [citems]. rewrite citems_app. cbn [citems]. rewrite app_nil_r. reflexivity. }
  assert (F : firstn n (citems all) = citems a ++ citems m ++ firstn (n - List.length (citems d)) (citems rest)).
  { rewrite E', citems_app, firstn_app, firstn_all2 by exact L. rewrite CD at 1. rewrite <- app_assoc. reflexivity. }
  rewrite F. unfold texts. rewrite !map_app, !filter_app.
  rewrite filter_none; [rewrite filter_all; [rewrite filter_none|]|].
  - cbn [app]. rewrite app_nil_r. rewrite map_map. rewrite citems_nodes in G. unfold nodes in G.
    assert (X : map (fun c => qcomment (TPos (mkText (fst c) (snd c))) (Literal (mkText (fst c) (snd c)))) (citems m) = map node (citems m)).
    { apply map_ext. intros [s p]. apply qcomment_node. }
    exact (eq_ind_r (fun l => Q l k) G X).
  - intros t I. apply in_map_iff in I. destruct I as (c & <- & I). apply in_firstn in I. cbn [TPos].
    destruct (sorted_mid (a ++ Tok x1 from :: m) x2 to rest) as [_ H]; [rewrite E, <- app_assoc; reflexivity|]. specialize (H c I).
    rewrite (proj2 (Z.ltb_ge (Offset (snd c)) (Offset to))) by lia. apply andb_false_r.
  - intros t I. apply in_map_iff in I. destruct I as (c & <- & I). cbn [TPos]. apply andb_true_iff. rewrite !Z.ltb_lt. split.
    + destruct (sorted_mid a x1 from (m ++ Tok x2 to :: rest) E) as [_ H]. apply H. rewrite citems_app. apply in_or_app. left. exact I.
    + destruct (sorted_mid (a ++ Tok x1 from :: m) x2 to rest) as [H _]; [rewrite E, <- app_assoc; reflexivity|]. apply H. rewrite citems_app. apply in_or_app. right. exact I.
  - intros t I. apply in_map_iff in I. destruct I as (c & <- & I). cbn [TPos]. destruct (sorted_mid a x1 from _ E) as [H _]. specialize (H c I).
    rewrite (proj2 (Z.ltb_ge (Offset from) (Offset (snd c)))) by lia. reflexivity.
Qed.
Lemma At_all k its : At k its -> exists d, all = d ++ its.
Proof. intros (_ & d & n & E & _). eauto. Qed.
Lemma comments_in_app a b : comments_in (a ++ b) = comments_in a ++ comments_in b.
Proof. rewrite !citems_nodes, citems_app. apply map_app. Qed.

(** ** RPC *)
Lemma C_rpcparam ts v k rest (Q : rpcParam -> cur -> Prop) : RPCParam ts v -> At k (ts ++ rest) ->
  (forall k', At k' rest -> (len k' < len k)%nat -> Q v k') -> CP (qRpcParam p0) k Q.
Proof.
  intros [t1 p1 t2 st t3 v' p3 t4 p4 H1 H2 H3 H4] A G. rewrite <- !app_assoc in A. unfold qRpcParam. ex H1.
  assert (X : forall k', At k' (t3 ++ t4 ++ rest) -> (len k' < len k)%nat ->
    CP (mt <-- qReadMessageType p0;; e <-- pexpect 0 TRIGHTPAREN;; pret (mkRPCParam st (fst mt) (mkMeta p1 (tp e)))) k' Q).
  { intros k' A' L'. apply CP_bind. eapply C_messagetype; [exact SA|exact H3|exact A'|eapply Follow_T; [exact H4|cbn; tauto]|]. intros k2 A2 L2. ex H4. apply CP_ret. cbn [fst]. apply G; [assumption|lia]. }
  destruct H2 as [t2 r (p2 & H2)|r N].
  - ex H2. tk. apply CP_bind, CP_ret. apply X; [assumption|lia].
  - cbn [app] in *. pose proof H3 as H0. apply MessageType_first in H0. destruct H0 as (t & x & tl & -> & HT & I). rewrite <- app_assoc in *.
    destruct (hit_name ScanKeyword x I eq_refl) as (t0 & HI & C). apply CP_bind. eapply CP_tok; [exact SA|reflexivity|eassumption|exact HT|exact HI|]. intros b1 w1 g1 k1 B1 _. cbn [tk].
    assert (tok_eqb t0 TSTREAM = false) as ->.
    { unfold tok_eqb. destruct (token_eq_dec t0 TSTREAM) as [->|]; [|reflexivity]. exfalso. destruct C as [[_ C]|[_ C]]; [|discriminate C].
      symmetry in C. revert C. apply (tok_not x "stream"); [cbn; tauto|]. apply (not_first_T _ _ _ tl _ HT). exact N. }
    cbn [negb]. apply CP_bind, CP_bind, CP_back, CP_ret. cbn [kb]. pose proof (bk_len _ _ _ _ _ B1). apply X; [exact (At_bk _ _ _ _ _ B1)|lia].
Qed.
Lemma rpcbody_next ts os : RPCBody perm false ts os -> (ts = [] /\ os = []) \/ exists x, next_tok ts = Some x /\ x <> lit "}".
Proof.
  intros [|ts' o ts2 os' H _|ts' ts2 os' (p & H) _]; [auto| |]; right.
  - apply option_first in H. destruct H as (t & p & tl & -> & H). rewrite <- app_assoc. eapply start_T; [exact H|discriminate].
  - eapply start_T; [exact H|discriminate].
Qed.
Lemma C_rpcbody ts os : RPCBody perm false ts os -> forall n k t2 q rest acc (Q : list option_ -> cur -> Prop), At k (ts ++ t2 ++ rest) -> Close perm t2 q -> closed t2 rest -> (len k < n)%nat ->
  (forall k1, oneof_done p0 all perm k rest q k1 -> Q (acc ++ os) k1) -> CP (qRpcOptions_loop p0 perm n acc) k Q.
Proof.
  assert (CLOSE : forall n k t2 q rest acc (Q : list option_ -> cur -> Prop), At k (t2 ++ rest) -> Close perm t2 q -> closed t2 rest -> 
    (forall k1, oneof_done p0 all perm k rest q k1 -> Q acc k1) -> CP (t <-- ptok 0;; if tok_eqb (tk t) TRIGHTCURLY then pret acc else pback t;;; qRpcOptions_loop p0 perm n acc) k Q).
  { intros n k t2 q rest acc Q A C CL G. apply CP_bind.
    eapply CP_weak; [eapply (C_close p0 all SA perm t2 q k rest (fun q' k' => q' = q /\ At k' rest /\ (len k' < len k)%nat /\ Line (lp k') = Line q)); [exact C|exact CL|exact A|auto]|].
    cbn beta. intros t k1 [-> D]. tk. apply CP_ret. apply G. exact D. }
  induction 1 as [|ts o ts' os H HB IH|ts ts' os (p & H) HB IH]; intros n k t2 q rest acc Q A C CL L G; (destruct n as [|n]; [lia|]); cbn [qRpcOptions_loop].
  - rewrite app_nil_r in G. cbn [app] in A. pose proof (close_first _ _ _ C) as (t & p & tl & E & HT). assert (A1' : At k (t ++ tl ++ rest)) by (rewrite app_assoc, <- E; exact A).
    apply CP_bind, CP_peek. ex HT. cbn [kb]. apply CP_bind, CP_ret. pose proof (bk_len _ _ _ _ _ B). rewrite app_assoc, <- E in B.
    eapply CLOSE; [exact (At_bk _ _ _ _ _ B)|exact C|exact CL|]. intros k1 D. apply G. eapply done_mono; [|exact D]. lia.
  - rewrite <- app_assoc in A. pose proof (option_first _ _ _ _ _ H) as (t & p & tl & E & HT). assert (A1' : At k (t ++ tl ++ ts' ++ t2 ++ rest)) by (rewrite (app_assoc t), <- E; exact A).
    apply CP_bind, CP_peek. ex HT. cbn [kb]. pose proof (bk_len _ _ _ _ _ B) as LB. rewrite (app_assoc t), <- E in B.
    apply CP_bind, CP_bind. eapply C_option; [exact SA|exact H|exact (At_bk _ _ _ _ _ B)|]. intros k2 (A2 & L2 & _). apply CP_ret.
    destruct (rpcbody_next _ _ HB) as [[-> ->]|(x & NX & NB)].
    + cbn [app] in A2. eapply CLOSE; [exact A2|exact C|exact CL|]. intros k3 D. apply G. eapply done_mono; [|exact D]. lia.
    + apply CP_bind. eapply (CP_not p0 all SA (ch "}")); [exact A2|reflexivity|discriminate|rewrite next_tok_cat, NX; intros X; injection X as ->; apply NB; reflexivity|].
      intros t0 y p0' b0 w0 g0 k3 B3 NT. cbn [tk]. unfold tok_eqb. destruct (token_eq_dec t0 TRIGHTCURLY) as [->|]; [destruct (NT eq_refl)|].
      apply CP_bind, CP_back. cbn [kb]. pose proof (bk_len _ _ _ _ _ B3). eapply IH; [exact (At_bk _ _ _ _ _ B3)|exact C|exact CL|lia|].
      intros k4 D. rewrite <- app_assoc. apply G. eapply done_mono; [|exact D]. lia.
  - rewrite <- app_assoc in A. apply CP_bind, CP_peek. ex H. cbn [kb]. pose proof (bk_len _ _ _ _ _ B) as LB. pose proof (At_bk _ _ _ _ _ B) as AB.
    apply CP_bind, CP_bind. unfold qReadEmptyStatement. ex H. tk. apply CP_ret, CP_ret.
    destruct (rpcbody_next _ _ HB) as [[-> ->]|(x & NX & NB)].
    + cbn [app] in *. eapply CLOSE; [eassumption|exact C|exact CL|]. intros k3 D. rewrite app_nil_r in G. apply G. eapply done_mono; [|exact D]. lia.
    + apply CP_bind. eapply (CP_not p0 all SA (ch "}")); [eassumption|reflexivity|discriminate|rewrite next_tok_cat, NX; intros X; injection X as ->; apply NB; reflexivity|].
      intros t0 y p0' b0' w0' g0' k3 B3 NT. cbn [tk]. unfold tok_eqb. destruct (token_eq_dec t0 TRIGHTCURLY) as [->|]; [destruct (NT eq_refl)|].
      apply CP_bind, CP_back. cbn [kb]. pose proof (bk_len _ _ _ _ _ B3). eapply IH; [exact (At_bk _ _ _ _ _ B3)|exact C|exact CL|lia|].
      intros k4 D. apply G. eapply done_mono; [|exact D]. lia.
Qed.
Lemma C_rpc ts r k rest (Q : rpc -> cur -> Prop) : RPC perm false [] None ts r -> At k (ts ++ rest) -> closed ts rest ->
  (forall k', after k ts rest k' -> Q r k') -> CP (qRPC p0 perm) k Q.
Proof.
  intros [cs1 p1 t2 name p2 t3 rq t4 t5 rs t6 t7 os lc q H2 I2 H3 (p4 & H4) H5 H6] A CL G. rewrite <- !app_assoc in A. cbn [app] in A. unfold qRPC.
  destruct (At_all _ _ A) as (d & ALL). rewrite (app_assoc d) in ALL.
  assert (H1 : T (coms cs1 ++ [Tok (lit "rpc") p1]) (lit "rpc") p1) by (exists cs1; reflexivity).
  assert (A' : At k ((coms cs1 ++ [Tok (lit "rpc") p1]) ++ t2 ++ t3 ++ t4 ++ t5 ++ t6 ++ t7 ++ rest)) by (rewrite <- app_assoc; exact A). clear A.
  ex H1. ex H2. apply CP_bind. eapply C_rpcparam; [exact H3|eassumption|]. intros k3 A3 L3. ex H4. apply CP_bind. eapply C_rpcparam; [exact H5|eassumption|]. intros k5 A5 L5.
  assert (EMB : forall c6 x6 p6 R, t6 = coms c6 ++ [Tok x6 p6] -> all = (d ++ coms cs1) ++ Tok (lit "rpc") p1 :: (t2 ++ t3 ++ t4 ++ t5 ++ coms c6) ++ Tok x6 p6 :: R ->
    forall k0 (Q0 : list comment -> cur -> Prop), At k0 R -> Q0 (comments_in (t2 ++ t3 ++ t4 ++ t5 ++ t6)) k0 -> CP (qEmbedded p1 p6) k0 Q0).
  { intros c6 x6 p6 R E6 EA k9 Q0 AB0 G0. eapply C_embedded; [exact EA|exact AB0|]. rewrite E6, !comments_in_app in G0. cbn [comments_in] in G0. rewrite app_nil_r in G0.
    rewrite !comments_in_app. exact G0. }
  destruct H6 as [t6 p6 H6|t6 p6 l ts6 os t8 q H6 IN HB C].
  - ex H6. apply CP_bind. pose proof H6 as (c6 & E6). eapply (EMB c6 (lit ";") p6 rest E6); [|eassumption|].
    { rewrite ALL, E6. cbn [app]. rewrite <- !app_assoc. reflexivity. }
    apply CP_bind, CP_ret, CP_ret. cbn beta iota. apply G. split; [assumption|]. split; [lia|]. exists (lit ";"), p6. split; [|congruence].
    rewrite app_nil_r, !app_assoc. apply (last_tok_T _ _ _ _ H6).
  - ex H6. apply CP_bind. pose proof H6 as (c6 & E6). eapply (EMB c6 (lit "{") p6 ((icom l ++ ts6 ++ t8) ++ rest) E6); [|eassumption|].
    { rewrite ALL, E6. cbn [app]. rewrite <- !app_assoc. reflexivity. }
    apply CP_bind, CP_bind, CP_back. cbn [kb]. match goal with B : bk ?b k5 _ |- CP _ ?b _ => pose proof (At_bk _ _ _ _ _ B) as AB; pose proof (bk_len _ _ _ _ _ B) as LB end.
    apply CP_bind. unfold qRpcOptions. ex H6. pose proof (close_nonempty _ _ _ C) as NE. rewrite <- !app_assoc in *.
    apply CP_bind. eapply CP_inline; [exact SA|eassumption|reflexivity|rewrite LP3, app_assoc; apply Inline_app; [left; apply app_nonempty; exact NE|exact IN]|].
    intros k7 A7 L7 _. apply CP_bind, CP_fuel, CP_bind. eapply C_rpcbody; [exact HB|exact A7|exact C| |lia|].
    { destruct (close_last _ _ _ C) as (x & E). eapply (closed_app perm (((coms cs1 ++ [Tok (lit "rpc") p1]) ++ t2 ++ t3 ++ t4 ++ t5 ++ t6 ++ icom l ++ ts6))); [congruence|]. rewrite <- !app_assoc. exact CL. }
    intros k8 D. cbn [app]. apply CP_ret. cbn beta iota. apply CP_bind. eapply CP_weak; [exact D|]. cbn beta. intros q' k9 (-> & A9 & L9 & LL9). apply CP_ret, CP_ret. cbn beta iota. apply G.
    split; [exact A9|]. split; [lia|]. destruct (close_last _ _ _ C) as (x & E). exists x, q. rewrite !last_tok_app, E. auto.
Qed.

(** ** Service *)
Lemma rpc_starts cs il ts r : RPC perm false cs il ts r -> exists t p tl, ts = t ++ tl /\ T t (lit "rpc") p.
Proof. intros []. eexists _, _, _. split; [reflexivity|]. eexists. reflexivity. Qed.
Lemma service_starts : Starts (ServiceStmt perm false).
Proof.
  intros cs il ts v [ts' o H|ts' r H|p].
  - apply option_starts in H. destruct H as (t & p & tl & -> & H). eapply start_T; [exact H|discriminate].
  - apply rpc_starts in H. destruct H as (t & p & tl & -> & H). eapply start_T; [exact H|discriminate].
  - exists (lit ";"). split; [reflexivity|discriminate].
Qed.
Lemma st_service N : StOK p0 all perm (ServiceStmt perm false) (stService p0 perm) N.
Proof.
  intros cs il ts v k rest Q H NC A CL _ G. destruct H as [ts o H|ts r H|p].
  - apply option_relabel' in H. destruct H as (f0 & H & F). pose proof (option_starts _ _ _ _ _ H) as (t & p & tl & E & HT). subst ts.
    eapply peek_kw; [exact SA|exact HT|exact A|kwhit|discriminate|]. intros k1 B. cbn [stService]. apply CP_bind. eapply C_option; [exact SA|exact H|exact (At_bk _ _ _ _ _ B)|].
    intros k2 AF. apply CP_ret. apply G; [eapply after_bk; eassumption|exact F].
  - apply rpc_relabel in H. destruct H as (f0 & H & F). pose proof (rpc_starts _ _ _ _ H) as (t & p & tl & E & HT). subst ts.
    eapply peek_kw; [exact SA|exact HT|exact A|kwhit|discriminate|]. intros k1 B. cbn [stService]. apply CP_bind. eapply C_rpc; [exact H|exact (At_bk _ _ _ _ _ B)|exact CL|].
    intros k2 AF. apply CP_ret. apply G; [eapply after_bk; eassumption|exact F].
  - eapply (peek_kw p0 all SA (nodes cs) (stService p0 perm) k [Tok (lit ";") p] _ p []); [apply Tsemi|exact A|kwhit|discriminate|]. intros k1 B.
    cbn [stService]. unfold qReadEmptyStatement. apply CP_bind. pose proof (Tsemi p) as HT. pose proof (At_bk _ _ _ _ _ B) as AB. cbn [app] in AB. change (Tok (lit ";") p :: rest) with ([Tok (lit ";") p] ++ rest) in AB. pose proof (bk_len _ _ _ _ _ B).
    ex HT. tk. apply CP_ret, CP_ret. apply G; [|destruct il; reflexivity]. split; [assumption|]. split; [lia|]. exists (lit ";"), p. split; [reflexivity|congruence].
Qed.
Lemma C_service ts b k rest (Q : block -> cur -> Prop) : Service perm bic false [] None ts b -> At k (ts ++ rest) -> closed ts rest ->
  (forall k', after k ts rest k' -> Q b k') -> CP (qParseService p0 perm bic) k Q.
Proof.
  intros [t1 p1 t2 name p2 t3 vs lc q H1 H2 I2 HB] A CL G. rewrite <- !app_assoc in A. unfold qParseService. ex H1. ex H2. apply CP_bind. unfold qServiceBody.
  eapply C_body; [exact SA|apply service_loop|apply st_service|apply service_starts|exact HB|eassumption| |].
  { destruct (body_last _ _ _ _ _ _ _ _ HB) as (x & E). apply (closed_app perm (t1 ++ t2)); [congruence|]. rewrite <- app_assoc. exact CL. }
  intros k' (A' & L' & LL'). apply CP_ret. cbn beta iota. apply G. eapply block_after; [exact HB|]. split; [exact A'|]. split; [lia|exact LL'].
Qed.

(** ** File statements *)
Definition file_words : list string := ["import"; "package"; "option"; "message"; "enum"; "service"; "extend"]%string.
Lemma filestmt_starts cs il ts v : FileStmt perm bic false cs il ts v -> exists s t p tl, ts = t ++ tl /\ T t (lit s) p /\ In s file_words.
Proof.
  intros [ts' i H|ts' i H|ts' i H|ts' i H|ts' i H|ts' i H|ts' i H]; destruct H; eexists _, _, _, _; (split; [reflexivity|split; [eassumption|cbn; tauto]]).
Qed.
Lemma C_filestmt cs il ts v k rest n (Q : list visitee * visitee -> cur -> Prop) : FileStmt perm bic false (nodes cs) (inode il) ts v -> At k (ts ++ rest) -> closed ts rest -> (len k <= n)%nat ->
  (forall v0 k', after k ts rest k' -> fin (inode il) v0 v -> Q ([], v0) k') ->
  CP (ppeek ScanKeyword) k (fun t k1 => CP (qProtoStmt p0 perm bic n (tk t) (nodes cs)) k1 Q).
Proof.
  intros H A CL L G.
  assert (PK : forall t w p tl tok, ts = t ++ tl -> T t w p -> hit ScanKeyword w tok -> (forall k1, bk k1 k (ts ++ rest) -> CP (qProtoStmt p0 perm bic n tok (nodes cs)) k1 Q) ->
     CP (ppeek ScanKeyword) k (fun t k1 => CP (qProtoStmt p0 perm bic n (tk t) (nodes cs)) k1 Q)).
  { intros t w p tl tok E HT HI X. apply CP_peek. subst ts. rewrite <- app_assoc in A. eapply CP_tok; [exact SA|reflexivity|exact A|exact HT|exact HI|]. intros b w0 g k' B _. cbn [tk kb]. apply X. rewrite <- app_assoc. exact B. }
  destruct H as [ts i H|ts i H|ts i H|ts i H|ts i H|ts i H|ts i H].
  - apply import_relabel in H. destruct H as (f0 & H & F). assert (exists t p tl, ts = t ++ tl /\ T t (lit "import") p) as (t & p & tl & E & HT) by (destruct H; eauto).
    eapply PK; [exact E|exact HT|kwhit|]. intros k1 B. cbn [qProtoStmt]. apply CP_bind. eapply C_import; [exact SA|exact H|exact (At_bk _ _ _ _ _ B)|].
    intros k2 AF. apply CP_ret. apply G; [eapply after_bk; eassumption|exact F].
  - apply package_relabel in H. destruct H as (f0 & H & F). assert (exists t p tl, ts = t ++ tl /\ T t (lit "package") p) as (t & p & tl & E & HT) by (destruct H; eauto).
    eapply PK; [exact E|exact HT|kwhit|]. intros k1 B. cbn [qProtoStmt]. apply CP_bind. eapply C_package; [exact SA|exact H|exact (At_bk _ _ _ _ _ B)|].
    intros k2 AF. apply CP_ret. apply G; [eapply after_bk; eassumption|exact F].
  - apply option_relabel' in H. destruct H as (f0 & H & F). assert (exists t p tl, ts = t ++ tl /\ T t (lit "option") p) as (t & p & tl & E & HT) by (destruct H; eauto).
    eapply PK; [exact E|exact HT|kwhit|]. intros k1 B. cbn [qProtoStmt]. apply CP_bind. eapply C_option; [exact SA|exact H|exact (At_bk _ _ _ _ _ B)|].
    intros k2 AF. apply CP_ret. apply G; [eapply after_bk; eassumption|exact F].
  - apply message_relabel in H. destruct H as (f0 & H & F). assert (exists t p tl, ts = t ++ tl /\ T t (lit "message") p) as (t & p & tl & E & HT) by (destruct H; eauto).
    eapply PK; [exact E|exact HT|kwhit|]. intros k1 B. cbn [qProtoStmt]. apply CP_bind. unfold qParseMessage. eapply C_message; [exact SA|exact H| |exact (At_bk _ _ _ _ _ B)|exact CL|].
    { eapply MBOK_le; [|apply C_mbody; exact SA]. rewrite (bk_len _ _ _ _ _ B). exact L. }
    intros k2 AF. apply CP_ret. apply G; [eapply after_bk; eassumption|exact F].
  - apply enum_relabel in H. destruct H as (f0 & H & F). assert (exists t p tl, ts = t ++ tl /\ T t (lit "enum") p) as (t & p & tl & E & HT) by (destruct H; eauto).
    eapply PK; [exact E|exact HT|kwhit|]. intros k1 B. cbn [qProtoStmt]. apply CP_bind. eapply C_enum; [exact SA|exact H|exact (At_bk _ _ _ _ _ B)|exact CL|].
    intros k2 AF. apply CP_ret. apply G; [eapply after_bk; eassumption|exact F].
  - apply service_relabel in H. destruct H as (f0 & H & F). assert (exists t p tl, ts = t ++ tl /\ T t (lit "service") p) as (t & p & tl & E & HT) by (destruct H; eauto).
    eapply PK; [exact E|exact HT|kwhit|]. intros k1 B. cbn [qProtoStmt]. apply CP_bind. eapply C_service; [exact H|exact (At_bk _ _ _ _ _ B)|exact CL|].
    intros k2 AF. apply CP_ret. apply G; [eapply after_bk; eassumption|exact F].
  - apply extend_relabel in H. destruct H as (f0 & H & F). assert (exists t p tl, ts = t ++ tl /\ T t (lit "extend") p) as (t & p & tl & E & HT) by (destruct H; eauto).
    eapply PK; [exact E|exact HT|kwhit|]. intros k1 B. cbn [qProtoStmt]. apply CP_bind. eapply C_extend; [exact SA|exact H|exact (At_bk _ _ _ _ _ B)|exact CL|].
    intros k2 AF. apply CP_ret. apply G; [eapply after_bk; eassumption|exact F].
Qed.
Lemma closed_icom ts il rest : closed ts rest -> closed ts (icom il ++ rest).
Proof. unfold Grammar.closed. destruct (last_tok ts) as [[x p]|]; [rewrite next_tok_icom; auto|auto]. Qed.
Lemma Filename_posafter p s : Filename (posafter p s) = Filename p.
Proof. revert p. induction s as [|c s IH]; intros p; [reflexivity|]. change (posafter p (c :: s)) with (posafter (padv p c) s). rewrite IH. unfold padv. destruct p. cbn. destruct (c =? NL); reflexivity. Qed.
Lemma C_filestmts ts vs tcs : FileStmts perm bic false ts vs tcs -> forall n k acc (Q : list visitee -> cur -> Prop), At k ts -> (len k < n)%nat ->
  (forall k', Filename (lp k') = Filename p0 -> Q (acc ++ vs ++ trailing bic tcs) k') -> CP (qProtoBody_loop p0 perm bic n acc) k Q.
Proof.
  induction 1 as [cs|cs ts v x q il rest vs tcs Hv NC LT IN CL HR IH|cs p rest vs tcs NO HR IH]; intros n k acc Q A L G; (destruct n as [|n]; [lia|]); cbn [qProtoBody_loop].
  - rewrite <- (app_nil_r (coms cs)) in A. apply CP_bind. eapply CP_comments; [exact SA|exact A|exact I|]. intros k1 A1 _ L1 _.
    apply CP_bind, CP_peek. eapply (CP_eof p0 all SA 0 k1 []); [reflexivity|exact A1|]. intros p b w g k' B. cbn [tk kb]. tk. apply CP_ret. apply G.
    rewrite (bk_lp _ _ _ _ _ B). unfold Cursor.posat. apply Filename_posafter.
  - pose proof (filestmt_starts _ _ _ _ Hv) as (s & t & p & tl & E & HT & IS). apply CP_bind.
    eapply CP_comments; [exact SA|exact A|apply no_com_more; [rewrite E; eapply T_nonempty; exact HT|exact NC]|]. intros k1 A1 _ L1 _.
    assert (A1' : At k1 (t ++ tl ++ icom il ++ rest)) by (rewrite (app_assoc t), <- E; exact A1).
    assert (IDS : is_ident (lit s)). { apply identb_iff. cbn [In file_words] in IS. repeat (destruct IS as [<-|IS]; [reflexivity|]). destruct IS. }
    apply CP_bind, CP_peek. eapply CP_tok; [exact SA|reflexivity|exact A1'|exact HT|apply (hit_ident 0 _ IDS)|]. intros b w g k2 B _. cbn [tk kb].
    change (tok_eqb (identToken 0 (lit s)) TEOF) with false. cbv iota. rewrite (app_assoc t), <- E in B. pose proof (bk_len _ _ _ _ _ B) as LB. apply CP_bind.
    eapply CP_weak; [eapply (C_filestmt cs il ts v b _ n (fun r k' => exists v0, r = ([], v0) /\ after b ts (icom il ++ rest) k' /\ fin (inode il) v0 v)); [exact Hv|exact (At_bk _ _ _ _ _ B)|apply closed_icom; exact CL|lia|]|].
    + intros v0 k' AF F. eauto.
    + cbn beta. intros t3 k3 D. apply CP_bind. eapply CP_weak; [exact D|]. cbn beta. intros r k4 (v0 & -> & (A4 & L4 & x4 & q4 & E4 & LL4) & F). cbn beta iota.
      rewrite LT in E4. injection E4 as <- <-. apply CP_bind. eapply (C_maybe p0 all SA set_inline v0 v); [exact A4|exact LL4|exact IN|exact F|].
      intros k5 A5 L5. cbn [app]. eapply IH; [exact A5|lia|]. intros k6 F6. rewrite <- app_assoc. apply G. exact F6.
  - apply CP_bind. eapply CP_comments; [exact SA|exact A|exact I|]. intros k1 A1 _ L1 _. pose proof (Tsemi p) as HT. change (Tok (lit ";") p :: rest) with ([Tok (lit ";") p] ++ rest) in A1.
    apply CP_bind, CP_peek. ex HT. cbn [kb]. tk. pose proof (bk_len _ _ _ _ _ B) as LB. pose proof (At_bk _ _ _ _ _ B) as AB.
    apply CP_bind, CP_peek. ex HT. cbn [kb]. pose proof (bk_len _ _ _ _ _ B0) as LB0. pose proof (At_bk _ _ _ _ _ B0) as AB0. cbn [qProtoStmt].
    apply CP_bind, CP_bind. unfold qReadEmptyStatement. ex HT. tk. apply CP_ret, CP_ret. cbn beta iota. apply CP_bind.
    match goal with HA : At ?k rest, HL : lp ?k = p |- CP (qMaybeInline _ _ _) ?k _ => eapply (C_maybe p0 all SA set_inline VNil VNil k None rest (Line p)); [exact HA|rewrite HL; reflexivity|exact NO|reflexivity|] end.
    intros k5 A5 L5. cbn [app]. eapply IH; [exact A5|lia|]. intros k6 F6. specialize (G k6 F6). rewrite <- !app_assoc. exact G.
Qed.

(** ** Header *)
Definition fstart (ts : list item) : Prop := forall x, next_tok ts = Some x -> is_ident x \/ x = lit ";".
Lemma filestmts_start ts vs tcs : FileStmts perm bic false ts vs tcs -> fstart ts.
Proof.
  intros [cs|cs ts' v x q il rest vs' tcs' Hv NC LT IN CL HR|cs p rest vs' tcs' NO HR] y E.
  - rewrite <- (app_nil_r (coms cs)), next_tok_coms in E. discriminate E.
  - pose proof (filestmt_starts _ _ _ _ Hv) as (s & t & p & tl & -> & HT & IS). rewrite next_tok_coms, <- app_assoc, (next_tok_T _ _ _ _ HT) in E. injection E as <-. left.
    apply identb_iff. cbn [In file_words] in IS. repeat (destruct IS as [<-|IS]; [reflexivity|]). destruct IS.
  - rewrite next_tok_coms in E. injection E as <-. auto.
Qed.
Lemma not_kw k ts s t (Q : ti -> cur -> Prop) : At k ts -> fstart ts -> not_first ts [s] -> In (s, t) keywords ->
  (forall t' x p b w g k', bk b k ts -> t' <> t -> Q (mkTi t' x p b w g) k') -> CP (ptok ScanKeyword) k Q.
Proof.
  intros A F N I G. assert (NE : t <> TEOF /\ t <> TSEMICOLON). { unfold keywords in I. cbn [In] in I. repeat (destruct I as [I|I]; [injection I as <- <-; split; discriminate|]). destruct I. }
  destruct (next_tok ts) as [x|] eqn:E.
  - specialize (F x E). unfold not_first in N. rewrite E in N. apply next_T in E. destruct E as (u & p & tl & -> & HT). destruct F as [F| ->].
    + eapply CP_tok; [exact SA|reflexivity|exact A|exact HT|apply hit_ident; exact F|]. intros b w g k' B _. apply G; [exact B|]. eapply tok_not; [exact I|exact N].
    + eapply CP_tok; [exact SA|reflexivity|exact A|exact HT|apply semi_hit; reflexivity|]. intros b w g k' B _. apply G; [exact B|]. intros X. symmetry in X. tauto.
  - assert (X : exists cs, ts = coms cs).
    { clear - E. induction ts as [|[y q|y q] ts IH]; [exists []; reflexivity|discriminate E|]. destruct (IH E) as (cs & ->). exists ((y, q) :: cs). reflexivity. }
    destruct X as (cs & ->). eapply CP_eof; [exact SA|reflexivity|exact A|]. intros p b w g k' B. apply G; [exact B|]. intros X. symmetry in X. tauto.
Qed.
Lemma syntax_relabel cs il ts s : Syntax false cs il ts s -> exists s0, Syntax false [] None ts s0 /\
  match il with Some c => set_sy_inline c (mkSyntax (sy_version s0) (sy_versionQuote s0) cs (sy_inline s0) (sy_meta s0)) = s | None => mkSyntax (sy_version s0) (sy_versionQuote s0) cs (sy_inline s0) (sy_meta s0) = s end.
Proof. intros []. eexists. split; [econstructor; eassumption|]. destruct il; reflexivity. Qed.
Lemma edition_relabel cs il ts s : Edition false cs il ts s -> exists s0, Edition false [] None ts s0 /\
  match il with Some c => set_ed_inline c (mkEdition (ed_edition s0) (ed_editionQuote s0) cs (ed_inline s0) (ed_meta s0)) = s | None => mkEdition (ed_edition s0) (ed_editionQuote s0) cs (ed_inline s0) (ed_meta s0) = s end.
Proof. intros []. eexists. split; [econstructor; eassumption|]. destruct il; reflexivity. Qed.
Lemma C_syntaxpart cs ts sy rest k (Q : option syntax -> cur -> Prop) : SyntaxPart false cs ts sy rest -> fstart rest -> At k (ts ++ rest) ->
  (forall k', At k' rest -> (len k' <= len k)%nat -> Q sy k') ->
  CP (x <-- qParseSyntax p0;; match x with None => pret None | Some x => x <-- qMaybeInline p0 (total_set set_sy_inline) (mkSyntax (sy_version x) (sy_versionQuote x) cs (sy_inline x) (sy_meta x));; pret (Some x) end) k Q.
Proof.
  intros [r N|ts' s x q il r H LT IN] F A G.
  - cbn [app] in A. apply CP_bind. unfold qParseSyntax. apply CP_bind. eapply (not_kw k r "syntax" TSYNTAX); [exact A|exact F|exact N|cbn; tauto|].
    intros t' x p b w g k' B NT. cbn [tk]. unfold tok_eqb. destruct (token_eq_dec t' TSYNTAX); [congruence|]. cbn [negb]. apply CP_bind, CP_back, CP_ret, CP_ret. cbn [kb].
    apply G; [exact (At_bk _ _ _ _ _ B)|rewrite (bk_len _ _ _ _ _ B); lia].
  - apply syntax_relabel in H. destruct H as (s0 & H & E). rewrite <- app_assoc in A. apply CP_bind. eapply C_syntax; [exact SA|exact H|exact A|]. intros k1 (A1 & L1 & x1 & q1 & E1 & LL1).
    rewrite LT in E1. injection E1 as <- <-. apply CP_bind. eapply (C_maybe p0 all SA); [exact A1|exact LL1|exact IN| |].
    { instantiate (1 := s). destruct (inode il); [unfold total_set; rewrite E; reflexivity|exact E]. }
    intros k2 A2 L2. apply CP_ret. apply G; [exact A2|lia].
Qed.
Lemma C_editionpart cs ts sy rest k (Q : option edition -> cur -> Prop) : EditionPart false cs ts sy rest -> fstart rest -> At k (ts ++ rest) ->
  (forall k', At k' rest -> (len k' <= len k)%nat -> Q sy k') ->
  CP (x <-- qParseEdition p0;; match x with None => pret None | Some x => x <-- qMaybeInline p0 (total_set set_ed_inline) (mkEdition (ed_edition x) (ed_editionQuote x) cs (ed_inline x) (ed_meta x));; pret (Some x) end) k Q.
Proof.
  intros [r N|ts' s x q il r H LT IN] F A G.
  - cbn [app] in A. apply CP_bind. unfold qParseEdition. apply CP_bind. eapply (not_kw k r "edition" TEDITION); [exact A|exact F|exact N|cbn; tauto|].
    intros t' x p b w g k' B NT. cbn [tk]. unfold tok_eqb. destruct (token_eq_dec t' TEDITION); [congruence|]. cbn [negb]. apply CP_bind, CP_back, CP_ret, CP_ret. cbn [kb].
    apply G; [exact (At_bk _ _ _ _ _ B)|rewrite (bk_len _ _ _ _ _ B); lia].
  - apply edition_relabel in H. destruct H as (s0 & H & E). rewrite <- app_assoc in A. apply CP_bind. eapply C_edition; [exact SA|exact H|exact A|]. intros k1 (A1 & L1 & x1 & q1 & E1 & LL1).
    rewrite LT in E1. injection E1 as <- <-. apply CP_bind. eapply (C_maybe p0 all SA); [exact A1|exact LL1|exact IN| |].
    { instantiate (1 := s). destruct (inode il); [unfold total_set; rewrite E; reflexivity|exact E]. }
    intros k2 A2 L2. apply CP_ret. apply G; [exact A2|lia].
Qed.
Lemma syntaxpart_start cs ts sy rest : SyntaxPart false cs ts sy rest -> fstart rest -> fstart (ts ++ rest).
Proof.
  intros [r N|ts' s x q il r H LT IN] F; [exact F|]. destruct H as [t1 p1 t2 t3 q0 p3 t4 v p4 t5 q' p5 t6 p6 H1 _ _ _ _ _ _ _ _ _]. intros y E. left.
  rewrite <- !app_assoc, (next_tok_T _ _ _ _ H1) in E. injection E as <-. apply identb_iff. reflexivity.
Qed.
Lemma editionpart_start cs ts sy rest : EditionPart false cs ts sy rest -> fstart rest -> fstart (ts ++ rest).
Proof.
  intros [r N|ts' s x q il r H LT IN] F; [exact F|]. destruct H as [t1 p1 t2 t3 q0 p3 t4 v p4 t5 q' p5 t6 p6 H1 _ _ _ _ _ _ _ _ _]. intros y E. left.
  rewrite <- !app_assoc, (next_tok_T _ _ _ _ H1) in E. injection E as <-. apply identb_iff. reflexivity.
Qed.
Lemma CP_assoc2 {A B C} (q : PM A) (f : A -> PM B) (h : B -> PM C) k Q : CP (pbind (pbind q f) h) k Q -> CP (pbind q (fun a => pbind (f a) h)) k Q.
Proof. apply CP_assoc. Qed.
Lemma C_file fn ts pr k n (Q : proto -> cur -> Prop) : File perm bic false fn ts pr -> Filename p0 = fn -> At k ts -> (len k < n)%nat ->
  (forall k', Q pr k') -> CP (qParseProto p0 perm bic n) k Q.
Proof.
  intros [tb cs ts' sy te ed rest vs tcs HB NC HS HE HF] FN A L G. unfold qParseProto.
  pose proof (filestmts_start _ _ _ HF) as F1. pose proof (editionpart_start _ _ _ _ HE F1) as F2. pose proof (syntaxpart_start _ _ _ _ HS F2) as F3.
  apply CP_bind.
  assert (X : CP (qBOM p0) k (fun _ k' => At k' (coms cs ++ ts' ++ te ++ rest) /\ (len k' <= len k)%nat)).
  { unfold qBOM. destruct HB as [|c0 q0].
    - cbn [app] in A. apply CP_bind. eapply (CP_not p0 all SA 0xFEFF); [exact A|reflexivity|discriminate| |].
      { rewrite next_tok_coms. intros E. apply F3 in E. destruct E as [(c & l & E & H & _)|E]; [injection E as <- _; apply ident_start_iff in H; discriminate|discriminate]. }
      intros t y q b w g k' B NT. cbn [tk]. unfold tok_eqb. destruct (token_eq_dec t TBOM) as [->|]; [destruct (NT eq_refl)|]. apply CP_back. cbn [kb].
      split; [exact (At_bk _ _ _ _ _ B)|rewrite (bk_len _ _ _ _ _ B); lia].
    - assert (HT : T (coms c0 ++ [Tok [0xFEFF] q0]) [0xFEFF] q0) by (exists c0; reflexivity). ex HT. tk. apply CP_ret. split; [assumption|lia]. }
  eapply CP_weak; [exact X|]. cbn beta. intros _ k1 [A1 L1]. apply CP_bind. eapply CP_comments; [exact SA|exact A1|exact NC|]. intros k2 A2 _ L2 _.
  apply CP_assoc2. apply CP_bind. eapply C_syntaxpart; [exact HS|exact F2|exact A2|]. intros k3 A3 L3.
  apply CP_assoc2. apply CP_bind. eapply C_editionpart; [exact HE|exact F1|exact A3|]. intros k4 A4 L4.
  apply CP_bind. eapply C_filestmts; [exact HF|exact A4|lia|]. intros k5 F5. cbn [app]. apply CP_bind, CP_last, CP_ret. rewrite F5, FN. apply G.
Qed.
End Files.

(** ** Completeness *)
Lemma complete_run perm bic fn input its pr : readable input -> Layout true (pos0 fn) input its -> File perm bic false fn its pr ->
  exists k, qParseProto (pos0 fn) perm bic (S (S (List.length input))) (start input) = POk pr k.
Proof.
  intros RD LY HF. set (n := S (S (List.length input))).
  assert (V : Forall valid_rune input). { eapply Forall_impl; [|exact RD]. cbn beta. tauto. }
  destruct LY as (p' & sp & LY & SP). pose proof (lay_sorted _ _ _ _ _ _ LY V) as SA.
  assert (C : CP (qParseProto (pos0 fn) perm bic n) (start input) (fun a _ => a = pr)).
  { eapply (C_file (pos0 fn) its SA perm bic fn its pr); [exact HF|reflexivity| |cbn; lia|auto].
    split; [exists p', sp; cbn [cc cr start]; auto|]. exists [], O. split; [reflexivity|]. split; [reflexivity|cbn; lia]. }
  apply CP_run in C. destruct C as (a & k' & E & ->). exists k'. exact E.
Qed.
Theorem parse_complete opts input its pr c : c = config_of opts -> readable input -> Layout true (pos0 (cfg_filename c)) input its ->
  File (cfg_permissive c) (cfg_bodyIncludingComments c) false (cfg_filename c) its pr -> Parse opts input = Ok pr.
Proof.
  intros Ec RD LY HF. unfold Parse, parse_fuel. rewrite <- Ec.
  assert (NN : nonul input). { clear - RD. unfold nonul. eapply Forall_impl; [|exact RD]. cbn beta. tauto. }
  pose proof (parse_refines (cfg_permissive c) (cfg_bodyIncludingComments c) (S (S (List.length input))) (cfg_filename c) input NN) as R.
  destruct (complete_run _ _ _ _ _ _ RD LY HF) as (k' & E). rewrite E in R. destruct R as (s' & R & _). rewrite R. reflexivity.
Qed.
