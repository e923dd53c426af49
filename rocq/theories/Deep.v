(** Every element of the AST a derivation denotes is denoted by a derivation of
    its own for a segment of the text. *)
From Coq Require Import List NArith ZArith Bool String Ascii Lia Sorted.
From Verif Require Import Base Token Scanner Lexing ScanRefine Ast LexSpec LexFacts LexProofs ScanFacts ScanProps Tree Grammar GramLex GramRules SndNames SndStmts.
Import ListNotations.
Open Scope N_scope.

Section Deep.
Variables perm bic junk : bool.

Inductive Elem (cs : list comment) (il : option comment) : list item -> elem -> Prop :=
| e_syntax ts s : Syntax junk cs il ts s -> Elem cs il ts (ESyntax s)
| e_edition ts s : Edition junk cs il ts s -> Elem cs il ts (EEdition s)
| e_file ts v : FileStmt perm bic junk cs il ts v -> Elem cs il ts (EStmt v)
| e_enum ts v : EnumStmt perm junk cs il ts v -> Elem cs il ts (EStmt v)
| e_extend ts v : ExtendStmt perm junk cs il ts v -> Elem cs il ts (EStmt v)
| e_message ts v : MessageStmt perm bic junk cs il ts v -> Elem cs il ts (EStmt v)
| e_service ts v : ServiceStmt perm junk cs il ts v -> Elem cs il ts (EStmt v)
| e_option ts o : Option perm junk cs il ts o -> Elem cs il ts (EOption o)
| e_field ts o : OneofField perm junk cs il ts o -> Elem cs il ts (EOneofField o)
| e_param ts o : cs = [] -> il = None -> RPCParam ts o -> Elem cs il ts (EParam o)
| e_decl ts d : Declaration junk cs il ts d -> Elem cs il ts (EDeclaration d)
| e_comment x q : cs = [] -> il = None -> Elem cs il [Com x q] (EStmt (VComment (node (x, q))))
| e_nil : cs = [] -> il = None -> Elem cs il [] (EStmt VNil)
| e_empty p : cs = [] -> il = None -> Elem cs il [Tok (lit ";") p] (EStmt (VEmpty (mkEmpty None))).

(** a comment of the items *)
Definition from (w : list item) (c : comment) : Prop := exists x q, c = node (x, q) /\ In (Com x q) w.
Definition froms (w : list item) (cs : list comment) (il : option comment) : Prop := Forall (from w) cs /\ match il with Some c => from w c | None => True end.
Inductive Segs (w : list item) : list item -> list elem -> Prop :=
| sg_nil ts : Segs w ts []
| sg_cons a cs il ts e b es : Elem cs il ts e -> froms w cs il -> Segs w b es -> Segs w (a ++ ts ++ b) (e :: es).

Lemma from_incl a b c : incl a b -> from a c -> from b c.
Proof. intros I (x & q & E & H). exists x, q. auto. Qed.
Lemma froms_incl a b cs il : incl a b -> froms a cs il -> froms b cs il.
Proof. intros I [A B]. split; [eapply Forall_impl; [|exact A]; intros c; apply from_incl; exact I|]. destruct il; [eapply from_incl; eassumption|exact B]. Qed.
Lemma Segs_w w w' ts l : incl w w' -> Segs w ts l -> Segs w' ts l.
Proof. intros I. induction 1 as [|a cs il ts e b es H F S IH]; econstructor; [exact H|eapply froms_incl; eassumption|exact IH]. Qed.
Lemma Segs_pre w p ts l : Segs w ts l -> Segs w (p ++ ts) l.
Proof. intros [ts'|a cs il ts' e b es H F S]; [constructor|]. rewrite app_assoc. econstructor; eassumption. Qed.
Lemma Segs_post w ts l p : Segs w ts l -> Segs w (ts ++ p) l.
Proof. induction 1 as [|a cs il ts e b es H F S IH]; [constructor|]. rewrite <- !app_assoc. econstructor; eassumption. Qed.
Lemma from_nodes w cs : incl (coms cs) w -> Forall (from w) (nodes cs).
Proof. intros I. apply Forall_forall. intros c H. apply in_map_iff in H. destruct H as ([x q] & <- & H). exists x, q. split; [reflexivity|]. apply I. apply in_map_iff. exists (x, q). auto. Qed.
Lemma from_inode w il : incl (icom il) w -> match inode il with Some c => from w c | None => True end.
Proof. destruct il as [[x q]|]; cbn; [|auto]. intros I. exists x, q. split; [reflexivity|apply I; left; reflexivity]. Qed.
Lemma incl_mid {A} (a b c : list A) : incl b (a ++ b ++ c).
Proof. intros x H. apply in_or_app. right. apply in_or_app. auto. Qed.
Ltac inc := let x := fresh in let H := fresh in intros x H; rewrite ?in_app_iff in H; rewrite ?in_app_iff; cbn [In]; rewrite ?in_app_iff; tauto.

Lemma coms_segs cs : Segs (coms cs) (coms cs) (map EStmt (map VComment (nodes cs))).
Proof.
  induction cs as [|[x q] cs IH]; [constructor|]. change (coms ((x, q) :: cs)) with ([] ++ [Com x q] ++ coms cs). cbn [nodes map].
  eapply sg_cons; [apply e_comment; reflexivity|split; [constructor|exact I]|]. eapply Segs_w; [|exact IH]. inc.
Qed.
Lemma trailing_segs cs : Segs (coms cs) (coms cs) (map EStmt (trailing bic cs)).
Proof. unfold trailing. destruct bic; [apply coms_segs|constructor]. Qed.
Lemma stmts_segs (S : list comment -> option comment -> list item -> visitee -> Prop) ts vs tcs : (forall cs il ts v, S cs il ts v -> Elem cs il ts (EStmt v)) -> Stmts perm junk S ts vs tcs ->
  Segs ts ts (map EStmt (vs ++ trailing bic tcs)).
Proof.
  intros HS. induction 1 as [cs|cs ts v x q il rest vs tcs H NC LT IN CL HR IH].
  - apply trailing_segs.
  - eapply sg_cons; [apply HS; exact H|split; [apply from_nodes; inc|apply from_inode; inc]|]. apply Segs_pre. eapply Segs_w; [|exact IH]. inc.
Qed.

Definition Inside (ts : list item) (l : list elem) : Prop :=
  exists h mid t, ts = h ++ mid ++ t /\ last_tok h <> None /\ last_tok t <> None /\ Segs mid mid l.
Lemma Inside_pre a ts l : Inside ts l -> Inside (a ++ ts) l.
Proof. intros (h & m & t & -> & H & H' & S). exists (a ++ h), m, t. rewrite <- app_assoc. split; [reflexivity|]. split; [|auto]. rewrite last_tok_app. destruct (last_tok h); congruence. Qed.
Lemma has_last_T t x p : T t x p -> last_tok t <> None.
Proof. intros H. rewrite (last_tok_T0 _ _ _ H). discriminate. Qed.
Lemma has_last_pre a b : last_tok a <> None -> last_tok (a ++ b) <> None.
Proof. intros H. rewrite last_tok_app. destruct (last_tok b); congruence. Qed.
Lemma has_last_post a b : last_tok b <> None -> last_tok (a ++ b) <> None.
Proof. intros H. rewrite last_tok_app. destruct (last_tok b); congruence. Qed.
Lemma close_has ts q : Close perm ts q -> exists x, last_tok ts = Some (x, q) /\ block_end x.
Proof. intros [ts' p H|ts' p ts2 p' E H H']; [exists (lit "}"); split; [apply (last_tok_T0 _ _ _ H)|left; reflexivity]|exists (lit ";"); split; [apply (last_tok_T _ _ _ _ H')|right; reflexivity]]. Qed.
Lemma close_last_has ts q : Close perm ts q -> last_tok ts <> None.
Proof. intros C. destruct (close_has _ _ C) as (x & E & _). rewrite E. discriminate. Qed.

Lemma body_inside drop (S : list comment -> option comment -> list item -> visitee -> Prop) ts vs lc q : (forall cs il ts v, S cs il ts v -> Elem cs il ts (EStmt v)) -> Body perm bic junk drop S ts vs lc q -> Inside ts (map EStmt vs).
Proof.
  intros HS [t1 p1 lc' ts' vs' tcs t2 q' H1 IN ST NC CL D|t1 p1 lc' t2 q' D H1 IN CL].
  - exists (t1 ++ icom lc'), ts', t2. rewrite <- !app_assoc. split; [reflexivity|]. split; [apply has_last_pre; eapply has_last_T; exact H1|]. split; [eapply close_last_has; exact CL|].
    eapply stmts_segs; eassumption.
  - exists (t1 ++ icom lc'), [], t2. rewrite <- !app_assoc. split; [reflexivity|]. split; [apply has_last_pre; eapply has_last_T; exact H1|]. split; [eapply close_last_has; exact CL|constructor].
Qed.
Lemma body_end drop S ts vs lc q : Body perm bic junk drop S ts vs lc q -> exists x, last_tok ts = Some (x, q) /\ block_end x.
Proof.
  intros [t1 p1 l ts' vs' tcs t2 q' H1 IN HS NC C D|t1 p1 l t2 q' D H1 IN C]; destruct (close_has _ _ C) as (x & E & B); exists x; rewrite !last_tok_app, E; auto.
Qed.

Scheme OneofElems_ind2 := Induction for OneofElems Sort Prop with OneofRest_ind2 := Induction for OneofRest Sort Prop.
Combined Scheme Oneof_mut from OneofElems_ind2, OneofRest_ind2.
Definition OneofParts (ts : list item) (fs : list oneofField) (os : list option_) : Prop :=
  exists mid t q, ts = mid ++ t /\ Close perm t q /\ Segs mid mid (map EOneofField fs) /\ Segs mid mid (map EOption os).
Lemma oneof_parts : (forall ts fs os, OneofElems perm junk ts fs os -> OneofParts ts fs os) /\ (forall ts fs os, OneofRest perm junk ts fs os -> OneofParts ts fs os).
Proof.
  apply (Oneof_mut perm junk (fun ts fs os _ => OneofParts ts fs os) (fun ts fs os _ => OneofParts ts fs os)).
  - intros cs p ts fs os _ (mid & t & q & -> & C & S1 & S2). exists (coms cs ++ Tok (lit ";") p :: mid), t, q. split; [rewrite <- app_assoc; reflexivity|]. split; [exact C|].
    change (Tok (lit ";") p :: mid) with ([Tok (lit ";") p] ++ mid). split; apply Segs_pre, Segs_pre; (eapply Segs_w; [|eassumption]; inc).
  - intros cs ts o x q il rest fs os HO NC LT IN _ (mid & t & q' & -> & C & S1 & S2). exists (coms cs ++ ts ++ icom il ++ mid), t, q'. split; [rewrite <- !app_assoc; reflexivity|]. split; [exact C|]. split.
    + apply Segs_pre, Segs_pre, Segs_pre. eapply Segs_w; [|exact S1]. inc.
    + eapply sg_cons; [apply e_option; exact HO|split; [apply from_nodes; inc|apply from_inode; inc]|]. apply Segs_pre. eapply Segs_w; [|exact S2]. inc.
  - intros cs ts f x q il rest fs os HO NC NF LT IN _ (mid & t & q' & -> & C & S1 & S2). exists (coms cs ++ ts ++ icom il ++ mid), t, q'. split; [rewrite <- !app_assoc; reflexivity|]. split; [exact C|]. split.
    + eapply sg_cons; [apply e_field; exact HO|split; [apply from_nodes; inc|apply from_inode; inc]|]. apply Segs_pre. eapply Segs_w; [|exact S1]. inc.
    + apply Segs_pre, Segs_pre, Segs_pre. eapply Segs_w; [|exact S2]. inc.
  - intros ts p C. exists [], ts, p. split; [reflexivity|]. split; [exact C|]. split; constructor.
  - intros ts fs os _ H. exact H.
Qed.
Lemma decl_segs fol ts ds : Declarations junk fol ts ds -> Segs ts ts (map EDeclaration ds).
Proof.
  assert (LS : forall w c1 c2, incl (icom c1) w -> incl (icom c2) w -> match inode (last_some c1 c2) with Some c => from w c | None => True end).
  { intros w c1 c2 I1 I2. destruct c2; cbn [last_some]; apply from_inode; assumption. }
  induction 1 as [cs ts d t p c1 c2 H NC HT IN|cs ts d t p c1 c2 rest ds H NC HT IN HR IH].
  - eapply sg_cons; [apply e_decl; exact H|split; [apply from_nodes; inc|apply LS; inc]|constructor].
  - eapply sg_cons; [apply e_decl; exact H|split; [apply from_nodes; inc|apply LS; inc]|]. apply Segs_pre, Segs_pre, Segs_pre. eapply Segs_w; [|exact IH]. inc.
Qed.
Lemma rpcbody_segs ts os : RPCBody perm junk ts os -> Segs ts ts (map EOption os).
Proof.
  induction 1 as [|ts o ts' os H HR IH|ts ts' os H HR IH]; [constructor| |apply Segs_pre; eapply Segs_w; [|exact IH]; inc].
  apply (sg_cons _ [] [] None); [apply e_option; exact H|split; [constructor|exact I]|]. eapply Segs_w; [|exact IH]. inc.
Qed.

(** ** Children *)
Definition Kids (ts : list item) (e : elem) : Prop := Forall (Inside ts) (children e).
Lemma kids_one ts l : Inside ts l -> Forall (Inside ts) [l].
Proof. repeat constructor. assumption. Qed.
Lemma kids_enum cs il ts b : Enum perm bic junk cs il ts b -> Inside ts (map EStmt (b_body b)).
Proof. intros []. cbn [b_body]. apply Inside_pre, Inside_pre. eapply body_inside; [|eassumption]. intros. apply e_enum. assumption. Qed.
Lemma kids_extend cs il ts b : Extend perm bic junk cs il ts b -> Inside ts (map EStmt (b_body b)).
Proof. intros []. cbn [b_body]. apply Inside_pre, Inside_pre. eapply body_inside; [|eassumption]. intros. apply e_extend. assumption. Qed.
Lemma kids_service cs il ts b : Service perm bic junk cs il ts b -> Inside ts (map EStmt (b_body b)).
Proof. intros []. cbn [b_body]. apply Inside_pre, Inside_pre. eapply body_inside; [|eassumption]. intros. apply e_service. assumption. Qed.
Lemma kids_message cs il ts b : Message perm bic junk cs il ts b -> Inside ts (map EStmt (b_body b)).
Proof. intros []. cbn [b_body]. apply Inside_pre, Inside_pre. eapply body_inside; [|eassumption]. intros. apply e_message. assumption. Qed.
Lemma kids_oneof cs il ts o : Oneof perm junk cs il ts o -> Inside ts (map EOneofField (oo_fields o)) /\ Inside ts (map EOption (oo_options o)).
Proof.
  intros [t1 p1 t2 name p2 t3 p3 lc t4 fs os x q H1 H2 I H3 IN HE LT]. destruct oneof_parts as [X _]. destruct (X _ _ _ HE) as (mid & t & q' & -> & C & S1 & S2). cbn [oo_fields oo_options].
  split; exists (t1 ++ t2 ++ t3 ++ icom lc), mid, t; (split; [rewrite <- !app_assoc; reflexivity|]); (split; [apply has_last_pre; eapply has_last_T; exact H1|]); (split; [eapply close_last_has; exact C|assumption]).
Qed.
Lemma kids_extensions cs il ts x : Extensions junk cs il ts x -> Inside ts (map EDeclaration (xs_declarations x)).
Proof.
  intros [t1 p1 t2 rs t3 p3 H1 H2 H3|t1 p1 t2 rs t3 p3 lc t4 ds t5 p5 H1 H2 H3 IN HD H5]; cbn [xs_declarations].
  - exists t1, t2, t3. split; [reflexivity|]. split; [eapply has_last_T; eassumption|]. split; [eapply has_last_T; eassumption|constructor].
  - exists (t1 ++ t2 ++ t3 ++ icom lc), t4, t5. split; [rewrite <- !app_assoc; reflexivity|]. split; [apply has_last_pre; eapply has_last_T; exact H1|]. split; [eapply has_last_T; exact H5|].
    eapply decl_segs. exact HD.
Qed.
Lemma kids_rpc cs il ts r : RPC perm junk cs il ts r -> Inside ts (EParam (r_request r) :: EParam (r_response r) :: map EOption (r_options r)).
Proof.
  intros [cs1 p1 t2 name p2 t3 rq t4 t5 rs t6 t7 os lc q H2 I2 H3 H4 H5 HE]. cbn [r_request r_response r_options].
  assert (PP : forall w z, Segs w z (map EOption os) -> Segs w (t3 ++ t4 ++ t5 ++ z) (EParam rq :: EParam rs :: map EOption os)).
  { intros w z S. apply (sg_cons w [] [] None); [apply e_param; auto|split; [constructor|exact I]|]. apply (sg_cons w t4 [] None); [apply e_param; auto|split; [constructor|exact I]|exact S]. }
  destruct HE as [tx p HT|t1 p3 lc tx os' t8 q H1 IN HB C].
  - exists ((coms cs1 ++ [Tok (lit "rpc") p1]) ++ t2), (t3 ++ t4 ++ t5 ++ []), tx. split; [rewrite <- !app_assoc, app_nil_r; reflexivity|]. split; [apply has_last_post; eapply has_last_T; exact H2|].
    split; [eapply has_last_T; exact HT|]. apply PP. constructor.
  - exists ((coms cs1 ++ [Tok (lit "rpc") p1]) ++ t2), (t3 ++ t4 ++ t5 ++ t1 ++ icom lc ++ tx), t8. split; [rewrite <- !app_assoc; reflexivity|]. split; [apply has_last_post; eapply has_last_T; exact H2|].
    split; [eapply close_last_has; exact C|]. apply PP. apply Segs_pre, Segs_pre. eapply Segs_w; [|eapply rpcbody_segs; exact HB]. inc.
Qed.
Lemma kids_msgstmt cs il ts v : MessageStmt perm bic junk cs il ts v -> Kids ts (EStmt v).
Proof.
  intros []; unfold Kids; cbn [children]; try (constructor; fail).
  - apply kids_one. eapply kids_enum; eassumption.
  - apply kids_one. apply Inside_pre, Inside_pre. eapply body_inside; [|eassumption]. intros. apply e_message. assumption.
  - edestruct kids_oneof; [eassumption|]. repeat constructor; assumption.
  - apply kids_one. eapply kids_extend; eassumption.
  - apply kids_one. eapply kids_extensions; eassumption.
  - apply kids_one. cbn [g_body]. apply Inside_pre, Inside_pre, Inside_pre, Inside_pre, Inside_pre. eapply body_inside; [|eassumption]. intros. apply e_message. assumption.
  - match goal with H : Empty _ _ _ _ _ |- _ => destruct H end; constructor.
Qed.
Lemma elem_kids cs il ts e : Elem cs il ts e -> Kids ts e.
Proof.
  intros [ts' s H|ts' s H|ts' v H|ts' v H|ts' v H|ts' v H|ts' v H|ts' v H|ts' v H|ts' v E1 E2 H|ts' v H|x q E1 E2|E1 E2|p E1 E2]; try (constructor; fail).
  - destruct H; unfold Kids; cbn [children]; try (constructor; fail); apply kids_one.
    + eapply kids_message; eassumption.
    + eapply kids_enum; eassumption.
    + eapply kids_service; eassumption.
    + eapply kids_extend; eassumption.
  - destruct H; try (constructor; fail). match goal with H : Empty _ _ _ _ _ |- _ => destruct H end; constructor.
  - destruct H; try (constructor; fail). match goal with H : Empty _ _ _ _ _ |- _ => destruct H end; constructor.
  - eapply kids_msgstmt. exact H.
  - destruct H; try (constructor; fail). unfold Kids. cbn [children]. apply kids_one. eapply kids_rpc; eassumption.
Qed.

(** ** The whole file *)
Lemma filestmts_segs ts vs tcs : FileStmts perm bic junk ts vs tcs -> Segs ts ts (map EStmt (vs ++ trailing bic tcs)).
Proof.
  induction 1 as [cs|cs ts v x q il rest vs tcs Hv NC LT IN CL HR IH|cs p rest vs tcs NO HR IH].
  - apply trailing_segs.
  - eapply sg_cons; [apply e_file; exact Hv|split; [apply from_nodes; inc|apply from_inode; inc]|]. apply Segs_pre. eapply Segs_w; [|exact IH]. inc.
  - cbn [map app]. change (Tok (lit ";") p :: rest) with ([Tok (lit ";") p] ++ rest). apply (sg_cons _ _ [] None); [apply e_empty; reflexivity|split; [constructor|exact I]|].
    apply (sg_cons _ [] [] None [] _ rest); [apply e_nil; reflexivity|split; [constructor|exact I]|]. eapply Segs_w; [|exact IH]. inc.
Qed.
Lemma file_segs fn its pr : File perm bic junk fn its pr -> Segs its its (roots pr).
Proof.
  intros [tb cs ts sy te ed rest vs tcs HB NC HS HE HF]. unfold roots. cbn [p_syntax p_edition p_body]. apply filestmts_segs in HF.
  set (w := tb ++ coms cs ++ ts ++ te ++ rest). assert (HF' : Segs w rest (map EStmt (vs ++ trailing bic tcs))) by (eapply Segs_w; [|exact HF]; unfold w; inc). clear HF.
  assert (HE' : Segs w (te ++ rest) (opt_list EEdition ed ++ map EStmt (vs ++ trailing bic tcs))).
  { destruct HE as [r N|ts' e x q il r H LT IN]; cbn [opt_list app]; [exact HF'|]. rewrite <- app_assoc. change (ts' ++ icom il ++ r) with ([] ++ ts' ++ icom il ++ r).
    eapply sg_cons; [apply e_edition; exact H|split; [apply from_nodes; unfold w; inc|apply from_inode; unfold w; inc]|]. apply Segs_pre. exact HF'. }
  apply Segs_pre, Segs_pre. destruct HS as [r N|ts' e x q il r H LT IN]; cbn [opt_list app]; [exact HE'|]. rewrite <- app_assoc.
  change (ts' ++ icom il ++ r) with ([] ++ ts' ++ icom il ++ r). eapply sg_cons; [apply e_syntax; exact H|split; [apply from_nodes; unfold w; inc|apply from_inode; unfold w; inc]|]. apply Segs_pre. exact HE'.
Qed.
Lemma segs_in w ts l e : Segs w ts l -> In e l -> exists a cs il t b, ts = a ++ t ++ b /\ Elem cs il t e /\ froms w cs il.
Proof.
  induction 1 as [|a cs il ts e' b es H F S IH]; [intros []|]. intros [<-|I].
  - exists a, cs, il, ts, b. auto.
  - destruct (IH I) as (a' & cs' & il' & t & b' & -> & X). exists (a ++ ts ++ a'), cs', il', t, b'. rewrite <- !app_assoc. auto.
Qed.
Lemma deep fn its pr e : File perm bic junk fn its pr -> element pr e ->
  exists a cs il ts b, its = a ++ ts ++ b /\ Elem cs il ts e /\ froms its cs il.
Proof.
  intros HF. induction 1 as [e I|e l e' H IH I I'].
  - apply file_segs in HF. eapply segs_in; eassumption.
  - destruct IH as (a & cs & il & ts & b & -> & HE & _). apply elem_kids in HE. unfold Kids in HE. rewrite Forall_forall in HE. destruct (HE _ I) as (h & m & t & -> & _ & _ & S).
    destruct (segs_in _ _ _ _ S I') as (a' & cs' & il' & ts & b' & -> & X & F). exists (a ++ h ++ a'), cs', il', ts, (b' ++ t ++ b). rewrite <- !app_assoc. split; [reflexivity|]. split; [exact X|].
    eapply froms_incl; [|exact F]. inc.
Qed.

(** ** First and last token *)
Definition Span (ts : list item) (e : elem) : Prop :=
  forall m, e_meta e = Some m ->
  match e with
  | EStmt (VComment c) => exists x q, ts = [Com x q] /\ c = node (x, q)
  | _ => exists x y, first_tok ts = Some (x, Pos m) /\ starts e x /\ last_tok ts = Some (y, LastPos m) /\ ends_with e y
  end.
Lemma T_fst t x p r : T t x p -> first_tok (t ++ r) = Some (x, p).
Proof. apply T_first. Qed.
Lemma fullident_prefix ts v p r : FullIdent ts v p -> exists x, first_tok (ts ++ r) = Some (x, p) /\ starts_type v x.
Proof.
  intros [u x q H I|u x q td ts' v' p' H I]; exists x; rewrite <- ?app_assoc; (split; [eapply T_fst; exact H|split; [|left; exact I]]); [exists []; symmetry; apply app_nil_r|eexists; reflexivity].
Qed.
Lemma messagetype_prefix ts v p r : MessageType ts v p -> exists x, first_tok (ts ++ r) = Some (x, p) /\ starts_type v x.
Proof.
  intros [u x q H|td q u x q' H F]; [eapply fullident_prefix; exact H|]. exists (lit "."). rewrite <- app_assoc. split; [eapply T_fst; exact H|split; [eexists; reflexivity|right; reflexivity]].
Qed.
Lemma type_prefix ts v p r : Type_ ts v p -> exists x, first_tok (ts ++ r) = Some (x, p) /\ starts_type v x.
Proof.
  intros [u x q H W|u x q H _]; [|eapply messagetype_prefix; exact H]. exists x. split; [eapply T_fst; exact H|]. split; [exists []; symmetry; apply app_nil_r|left].
  unfold words, scalars in W. cbn [map In] in W. repeat (destruct W as [<-|W]; [apply identb_iff; reflexivity|]). destruct W.
Qed.
Lemma fieldend_end ts name num os q a : FieldEnd perm junk ts name num os q -> last_tok (a ++ ts) = Some (lit ";", q).
Proof. intros []. rewrite !app_assoc. eapply last_tok_T. eassumption. Qed.
Ltac lastT := rewrite ?app_assoc; eapply last_tok_T; eassumption.
Ltac simple_span := let m := fresh in let E := fresh in intros m E; cbn [e_meta e_comments] in E; injection E as <-; cbn [Pos LastPos]; do 2 eexists; split; [eapply T_fst; eassumption|]; split; [cbn; auto|]; split; [lastT|reflexivity].
Lemma span_option cs il ts o : Option perm junk cs il ts o -> Span ts (EStmt (VOption o)) /\ Span ts (EOption o).
Proof. intros []. split; simple_span. Qed.
Lemma span_field cs il ts f : Field perm junk cs il ts f -> Span ts (EStmt (VField f)).
Proof.
  intros [t1 p1 rp rq op t2 ty p2 t3 name num os p3 HL HT HF] m E. injection E as <-. cbn [Pos LastPos].
  assert (LT : last_tok (t1 ++ t2 ++ t3) = Some (lit ";", p3)) by (rewrite app_assoc; eapply fieldend_end; exact HF).
  destruct HL as [t p r H|t p r H|t p r H|x p r F N]; do 2 eexists; (split; [|split; [|split; [exact LT|reflexivity]]]); try (eapply T_fst; eassumption); cbn; try reflexivity.
  - cbn [app]. destruct (type_prefix _ _ _ [] HT) as (x' & E & _). rewrite app_nil_r, F in E. injection E as <- <-. destruct (first_tok_split _ _ _ F) as (cs' & its' & ->). rewrite <- app_assoc, first_tok_coms. reflexivity.
  - destruct (type_prefix _ _ _ [] HT) as (x' & E & Y). rewrite app_nil_r, F in E. injection E as <- <-. exact Y.
Qed.
Lemma span_reserved cs il ts r : Reserved junk cs il ts r -> Span ts (EStmt (VReserved r)).
Proof. intros []; simple_span. Qed.
Lemma span_block cs il t1 p1 t2 t3 q name vs lc w (f : block -> visitee) drop S : Body perm bic junk drop S t3 vs lc q -> T t1 (lit w) p1 ->
  (forall b, e_meta (EStmt (f b)) = Some (b_meta b)) -> (forall b x, starts (EStmt (f b)) x <-> x = lit w) -> (forall b x, ends_with (EStmt (f b)) x <-> block_end x) -> (forall b c, f b <> VComment c) ->
  Span (t1 ++ t2 ++ t3) (EStmt (f (mkBlock name vs cs il lc (mkMeta p1 q)))).
Proof.
  intros HB HT EM ST EN NC m E. rewrite EM in E. injection E as <-. cbn [Pos LastPos]. destruct (body_end _ _ _ _ _ _ HB) as (y & LT & BE).
  assert (X : exists x y, first_tok (t1 ++ t2 ++ t3) = Some (x, p1) /\ starts (EStmt (f (mkBlock name vs cs il lc (mkMeta p1 q)))) x /\ last_tok (t1 ++ t2 ++ t3) = Some (y, q) /\ ends_with (EStmt (f (mkBlock name vs cs il lc (mkMeta p1 q)))) y).
  { exists (lit w), y. split; [eapply T_fst; exact HT|]. split; [apply ST; reflexivity|]. split; [rewrite !last_tok_app, LT; reflexivity|apply EN; exact BE]. }
  destruct (f _) eqn:E; try exact X. destruct (NC _ _ E).
Qed.
Ltac blk := eapply span_block; [eassumption|eassumption|reflexivity|intros; reflexivity|intros; reflexivity|discriminate].
Lemma span_enum cs il ts b : Enum perm bic junk cs il ts b -> Span ts (EStmt (VEnum b)).
Proof. intros []. eapply (span_block _ _ _ _ _ _ _ _ _ _ _ VEnum); [eassumption|eassumption|reflexivity|intros; reflexivity|intros; reflexivity|discriminate]. Qed.
Lemma span_extend cs il ts b : Extend perm bic junk cs il ts b -> Span ts (EStmt (VExtend b)).
Proof. intros []. eapply (span_block _ _ _ _ _ _ _ _ _ _ _ VExtend); [eassumption|eassumption|reflexivity|intros; reflexivity|intros; reflexivity|discriminate]. Qed.
Lemma span_message cs il ts b : Message perm bic junk cs il ts b -> Span ts (EStmt (VMessage b)).
Proof. intros []. eapply (span_block _ _ _ _ _ _ _ _ _ _ _ VMessage); [eassumption|eassumption|reflexivity|intros; reflexivity|intros; reflexivity|discriminate]. Qed.
Lemma span_service cs il ts b : Service perm bic junk cs il ts b -> Span ts (EStmt (VService b)).
Proof. intros []. eapply (span_block _ _ _ _ _ _ _ _ _ _ _ VService); [eassumption|eassumption|reflexivity|intros; reflexivity|intros; reflexivity|discriminate]. Qed.
Lemma span_empty U il ts v : Empty junk U il ts v -> Span ts (EStmt v).
Proof. intros [p|t p x H] m E; discriminate E. Qed.
Lemma span_oneof cs il ts o : Oneof perm junk cs il ts o -> Span ts (EStmt (VOneof o)).
Proof.
  intros [t1 p1 t2 name p2 t3 p3 lc t4 fs os x q H1 H2 I H3 IN HE LT] m E. injection E as <-. cbn [Pos LastPos]. destruct oneof_parts as [X _]. destruct (X _ _ _ HE) as (mid & t & q' & -> & C & _).
  destruct (close_has _ _ C) as (y & L & B). exists (lit "oneof"), y. split; [eapply T_fst; exact H1|]. split; [reflexivity|]. rewrite !last_tok_app, L in *. injection LT as <- <-. auto.
Qed.
Lemma span_rpc cs il ts r : RPC perm junk cs il ts r -> Span ts (EStmt (VRPC r)).
Proof.
  intros [cs1 p1 t2 name p2 t3 rq t4 t5 rs t6 t7 os lc q H2 I2 H3 H4 H5 HE] m E. injection E as <-. cbn [Pos LastPos].
  assert (X : exists y, last_tok (t6 ++ t7) = Some (y, q) /\ block_end y).
  { destruct HE as [tx p HT|t1 p3 lc tx os' t8 q H1 IN HB C]; [exists (lit ";"); rewrite app_nil_r; split; [eapply last_tok_T0; exact HT|right; reflexivity]|].
    destruct (close_has _ _ C) as (y & L & B). exists y. rewrite !last_tok_app, L. auto. }
  destruct X as (y & LT & B). exists (lit "rpc"), y. split; [rewrite <- app_assoc, first_tok_coms; reflexivity|]. split; [reflexivity|]. split; [|exact B].
  rewrite !app_assoc, <- (app_assoc _ t6 t7), last_tok_app, LT. reflexivity.
Qed.
Lemma span_msgstmt cs il ts v : MessageStmt perm bic junk cs il ts v -> Span ts (EStmt v).
Proof.
  intros H. destruct H as [ts e H|t1 p1 t2 name p2 t3 vs lc q H1 H2 I HB|ts o H|ts o H|ts o H|ts o H|ts o H|ts o H|ts o H N|t1 p1 rp rq op t2 t3 name p3 t4 t5 num p5 t6 vs lc q HL H2 H3 I3 CP H4 H5 I5 HB|ts v H].
  - eapply span_enum; eassumption.
  - eapply (span_block _ _ _ _ _ _ _ _ _ _ _ VMessage); [eassumption|eassumption|reflexivity|intros; reflexivity|intros; reflexivity|discriminate].
  - eapply span_option; eassumption.
  - eapply span_oneof; eassumption.
  - destruct H. intros m E. injection E as <-. cbn [Pos LastPos]. do 2 eexists. split; [eapply T_fst; eassumption|]. split; [reflexivity|]. split; [rewrite !app_assoc; eapply fieldend_end; eassumption|reflexivity].
  - eapply span_extend; eassumption.
  - eapply span_reserved; eassumption.
  - destruct H; simple_span.
  - eapply span_field; eassumption.
  - intros m E. injection E as <-. cbn [Pos LastPos]. destruct (body_end _ _ _ _ _ _ HB) as (y & LT & BE).
    assert (LL : last_tok (t1 ++ t2 ++ t3 ++ t4 ++ t5 ++ t6) = Some (y, q)) by (rewrite !app_assoc, last_tok_app, LT; reflexivity).
    destruct HL as [t p r H|t p r H|t p r H|x p r F NN]; do 2 eexists; (split; [|split; [|split; [exact LL|exact BE]]]); try (eapply T_fst; eassumption); try reflexivity.
    + cbn [app]. destruct H2 as (p2 & H2). rewrite <- (app_nil_r r) in F. rewrite (T_fst _ _ _ _ H2) in F. injection F as <- <-. eapply T_fst. exact H2.
  - eapply span_empty; eassumption.
Qed.
Lemma elem_span cs il ts e : Elem cs il ts e -> Span ts e.
Proof.
  intros [ts' s H|ts' s H|ts' v H|ts' v H|ts' v H|ts' v H|ts' v H|ts' v H|ts' v H|ts' v E1 E2 H|ts' v H|x q E1 E2|E1 E2|p E1 E2].
  - destruct H; simple_span.
  - destruct H; simple_span.
  - destruct H.
    + match goal with H : Import _ _ _ _ _ |- _ => destruct H end. simple_span.
    + match goal with H : Package _ _ _ _ |- _ => destruct H end. simple_span.
    + eapply span_option; eassumption.
    + eapply span_message; eassumption.
    + eapply span_enum; eassumption.
    + eapply span_service; eassumption.
    + eapply span_extend; eassumption.
  - destruct H.
    + eapply span_option; eassumption.
    + eapply span_reserved; eassumption.
    + match goal with H : EnumField _ _ _ _ _ _ |- _ => destruct H end. simple_span.
    + eapply span_empty; eassumption.
  - destruct H; [eapply span_field; eassumption|eapply span_empty; eassumption].
  - eapply span_msgstmt; exact H.
  - destruct H; [eapply span_option; eassumption|eapply span_rpc; eassumption|]. intros m E. discriminate E.
  - eapply span_option; exact H.
  - destruct H as [t1 ty p1 t2 name num os p2 HT HF]. intros m E. injection E as <-. cbn [Pos LastPos]. destruct (type_prefix _ _ _ t2 HT) as (x & F & Y). exists x, (lit ";").
    split; [exact F|]. split; [exact Y|]. split; [eapply fieldend_end; exact HF|reflexivity].
  - destruct H; simple_span.
  - destruct H; simple_span.
  - intros m E. exists x, q. auto.
  - intros m E. discriminate E.
  - intros m E. discriminate E.
Qed.

(** ** Comments *)
Definition is_empty_stmt (e : elem) : Prop := exists il, e = EStmt (VEmpty (mkEmpty il)).
Definition Own (cs : list comment) (il : option comment) (ts : list item) (e : elem) : Prop :=
  (e_comments e = cs \/ is_empty_stmt e) /\ e_inline e = il /\ Forall (from ts) (e_inner e).
Lemma from_comments_in ts : Forall (from ts) (comments_in ts).
Proof.
  induction ts as [|[x q|x q] ts IH]; cbn [comments_in]; [constructor| |].
  - eapply Forall_impl; [|exact IH]. intros c. apply from_incl. inc.
  - constructor; [exists x, q; split; [reflexivity|left; reflexivity]|]. eapply Forall_impl; [|exact IH]. intros c. apply from_incl. inc.
Qed.
Lemma from_lc ts lc : incl (icom lc) ts -> Forall (from ts) (opt_list (fun c => c) (inode lc)).
Proof. intros I. apply from_inode in I. destruct (inode lc); cbn; [constructor; [exact I|constructor]|constructor]. Qed.
Lemma from_more a b l : incl a b -> Forall (from a) l -> Forall (from b) l.
Proof. intros I. apply Forall_impl. intros c. apply from_incl. exact I. Qed.
Lemma body_lc drop S ts vs lc q : Body perm bic junk drop S ts vs lc q -> Forall (from ts) (opt_list (fun c => c) lc).
Proof. intros [t1 p1 l ts' vs' tcs t2 q' H1 IN HS NC C D|t1 p1 l t2 q' D H1 IN C]; [apply from_lc; inc|constructor]. Qed.
Lemma own_plain cs il ts e : e_comments e = cs -> e_inline e = il -> e_inner e = [] -> Own cs il ts e.
Proof. intros A B C. split; [left; exact A|]. split; [exact B|rewrite C; constructor]. Qed.
Lemma own_inner cs il ts e : e_comments e = cs -> e_inline e = il -> Forall (from ts) (e_inner e) -> Own cs il ts e.
Proof. intros A B C. split; [left; exact A|]. split; [exact B|exact C]. Qed.
Lemma own_empty cs U il ts v : Empty junk U il ts v -> Own cs il ts (EStmt v).
Proof. intros [p|t p x H]; (split; [right; eexists; reflexivity|]); (split; [reflexivity|constructor]). Qed.
Ltac own := try (apply own_plain; reflexivity).
Ltac ownb := apply own_inner; [reflexivity|reflexivity|]; cbn [e_inner b_inlineLC g_inlineLC]; eapply from_more; [|eapply body_lc; eassumption]; inc.
Lemma elem_own cs il ts e : Elem cs il ts e -> Own cs il ts e.
Proof.
  intros [ts' s H|ts' s H|ts' v H|ts' v H|ts' v H|ts' v H|ts' v H|ts' v H|ts' v H|ts' v E1 E2 H|ts' v H|x q E1 E2|E1 E2|p E1 E2].
  - destruct H; own.
  - destruct H; own.
  - destruct H as [? ? H|? ? H|? ? H|? ? H|? ? H|? ? H|? ? H]; destruct H; own; ownb.
  - destruct H as [? ? H|? ? H|? ? H|? ? H]; try (destruct H; own; fail). eapply own_empty. exact H.
  - destruct H as [? ? H|? ? H]; try (destruct H; own; fail). eapply own_empty. exact H.
  - destruct H as [? ? H|? ? ? ? ? ? ? ? ? ? ? ? ?|? ? H|? ? H|? ? H|? ? H|? ? H|? ? H|? ? H|? ? ? ? ? ? ? ? ? ? ? ? ? ? ? ? ? ? ? ? ? ? ? ? ? ?|? ? H]; try (destruct H; own; ownb; fail); try ownb.
    + destruct H. apply own_inner; [reflexivity|reflexivity|]. cbn. apply from_lc. inc.
    + destruct H; own. apply own_inner; [reflexivity|reflexivity|]. cbn. apply from_lc. inc.
    + eapply own_empty. exact H.
  - destruct H as [? ? H|? ? H|p]; [destruct H; own| |split; [right; eexists; reflexivity|split; [reflexivity|constructor]]].
    destruct H as [cs1 p1 t2 name p2 t3 rq t4 t5 rs t6 t7 os lc q H2 I2 H3 H4 H5 HE]. apply own_inner; [reflexivity|reflexivity|]. cbn [e_inner r_embedded r_inlineLC]. apply Forall_app. split.
    + eapply from_more; [|apply from_comments_in]. inc.
    + destruct HE; [constructor|]. apply from_lc. inc.
  - destruct H; own.
  - destruct H; own.
  - subst. destruct H; own.
  - destruct H. apply own_inner; [reflexivity|reflexivity|]. cbn. apply from_lc. inc.
  - subst. split; [left; reflexivity|]. split; [reflexivity|]. constructor; [|constructor]. exists x, q. split; [reflexivity|left; reflexivity].
  - subst. own.
  - subst. own.
Qed.
End Deep.
