(** Completeness of the pure parser: bodies, enums, extends and messages. *)
From Coq Require Import List NArith ZArith Bool String Ascii Lia Sorted.
From Verif Require Import Base Token Scanner Lexer Lexing ScanRefine LexFacts LexSpec LexProofs ScanFacts ScanProps Ast Parser Cursor Pure
  Refine Grammar GramLex GramRules GramNames GramValues GramStmts GramParts.
Import ListNotations.
Open Scope N_scope.
Open Scope pure_scope.

Lemma next_tok_cat a b : next_tok (a ++ b) = match next_tok a with Some y => Some y | None => next_tok b end.
Proof. induction a as [|[] a IH]; cbn [app next_tok]; auto. Qed.
Lemma next_tok_icom il ts : next_tok (icom il ++ ts) = next_tok ts.
Proof. destruct il; reflexivity. Qed.
Lemma CP_recover {A} p0 (q : PM A) ok k Q : CP q k (fun a k' => Q (ok a) k') -> CP (precover p0 q ok) k Q.
Proof. unfold CP, precover. destruct (q k); tauto. Qed.
Lemma CP_recover_err {A} p0 (q : PM A) ok k Q :
  CE q k (fun b => CP (t <-- ptok p0 0;; if tok_eqb (tk t) TSEMICOLON then pret (VEmpty (mkEmpty None)) else pbal t) b Q) -> CP (precover p0 q ok) k Q.
Proof. unfold CP, CE, precover. destruct (q k); tauto. Qed.
Lemma CP_eq {A} (q q' : PM A) k Q : q = q' -> CP q' k Q -> CP q k Q.
Proof. intros ->. auto. Qed.

(** the loop of all bodies *)
Definition gstep (p0 : mpos) (perm bic : bool) (st : token -> list comment -> PM visitee) (ilc : option comment) (loop : list visitee -> PM body_result)
    (stmts : list visitee) : PM body_result :=
  comments <-- qParseComments p0;;
  t <-- ppeek p0 ScanKeyword;;
  match tk t with
  | TRIGHTCURLY => qBodyEnd p0 perm bic ilc stmts comments
  | _ =>
    stmt <-- st (tk t) comments;;
    stmt <-- qMaybeInline p0 set_inline stmt;;
    loop (stmts ++ [stmt])
  end.
Definition IsLoop p0 perm bic st (loop : option comment -> nat -> list visitee -> PM body_result) : Prop :=
  forall ilc n acc, loop ilc (S n) acc = gstep p0 perm bic st ilc (loop ilc n) acc.
Definition stEnum p0 perm (t : token) (comments : list comment) : PM visitee :=
  match t with
  | TOPTION => o <-- qParseOption p0 perm;; pret (with_comments comments (VOption o))
  | TRESERVED => r <-- qParseReserved p0;; pret (with_comments comments (VReserved r))
  | _ => precover p0 (qEnumField p0 perm) (fun f => with_comments comments (VEnumField f))
  end.
Definition stExtend p0 perm (t : token) (comments : list comment) : PM visitee :=
  precover p0 (qParseField p0 perm) (fun f => with_comments comments (VField f)).
Definition stService p0 perm (t : token) (comments : list comment) : PM visitee :=
  match t with
  | TOPTION => o <-- qParseOption p0 perm;; pret (with_comments comments (VOption o))
  | TRPC => r <-- qRPC p0 perm;; pret (with_comments comments (VRPC r))
  | _ => qReadEmptyStatement p0;;; pret (VEmpty (mkEmpty None))
  end.
Lemma enum_loop p0 perm bic : IsLoop p0 perm bic (stEnum p0 perm) (qEnumBody_loop p0 perm bic).
Proof. intros ilc n acc. reflexivity. Qed.
Lemma extend_loop p0 perm bic : IsLoop p0 perm bic (stExtend p0 perm) (qExtendBody_loop p0 perm bic).
Proof. intros ilc n acc. reflexivity. Qed.
Lemma service_loop p0 perm bic : IsLoop p0 perm bic (stService p0 perm) (qServiceBody_loop p0 perm bic).
Proof. intros ilc n acc. reflexivity. Qed.
Lemma message_loop p0 perm bic mb : IsLoop p0 perm bic (qMessageStmt p0 perm bic mb) (qMessageBody_loop p0 perm bic mb).
Proof. intros ilc n acc. reflexivity. Qed.

Section Bodies.
Variable p0 : mpos.
Variable all : list item.
Hypothesis SA : StronglySorted before all.
Variables perm bic : bool.
Notation posat := (posat p0).
Notation ptok := (ptok p0).
Notation ppeek := (ppeek p0).
Notation pexpect := (pexpect p0).
Notation lexc := (lexc p0).
Notation At := (At p0 all).
Notation bk := (bk p0 all).
Notation read := (read p0 all).
Notation after := (after p0 all).
Notation closed := (closed perm false).

Definition fin (il : option comment) (v0 v : visitee) : Prop := match il with Some c => set_inline c v0 = Some v | None => v0 = v end.
(** the statements [SS] are read by [st] *)
Definition StOK (SS : list comment -> option comment -> list item -> visitee -> Prop) (st : token -> list comment -> PM visitee) (N : nat) : Prop :=
  forall cs il ts v k rest (Q : visitee -> cur -> Prop), SS (nodes cs) (inode il) ts v -> no_com ts -> At k (ts ++ rest) -> closed ts rest -> (len k < N)%nat ->
    (forall v0 k', after k ts rest k' -> fin (inode il) v0 v -> Q v0 k') ->
    CP (ppeek ScanKeyword) k (fun t k1 => tk t <> TRIGHTCURLY /\ CP (st (tk t) (nodes cs)) k1 Q).
Definition Starts (SS : list comment -> option comment -> list item -> visitee -> Prop) : Prop :=
  forall cs il ts v, SS cs il ts v -> exists x, next_tok ts = Some x /\ x <> lit "}".
Definition bend (k : cur) (R : list item) (q : mpos) (k' : cur) : Prop := At k' R /\ (len k' < len k)%nat /\ Line (lp k') = Line q.

Lemma closed_more ts rest il t2 q R : closed ts rest -> Close perm t2 q -> closed ts (icom il ++ rest ++ t2 ++ R).
Proof.
  intros C H. unfold Grammar.closed in *. destruct C as [C|[C|C]]; [discriminate C|auto|]. right. right. destruct (last_tok ts) as [[x p]|]; [|exact C].
  intros E. rewrite next_tok_icom, next_tok_cat. destruct (next_tok rest); [apply C; exact E|]. rewrite (close_next _ _ _ _ H). discriminate.
Qed.
Lemma trailing_eq tcs : body_comments bic (nodes tcs) = trailing bic tcs.
Proof. reflexivity. Qed.
Lemma no_brace_token {A} (t : token) (a b : A) : t <> TRIGHTCURLY -> match t with TRIGHTCURLY => a | _ => b end = b.
Proof. destruct t; congruence. Qed.
Lemma C_stmts SS st loop N ilc : IsLoop p0 perm bic st loop -> StOK SS st N -> Starts SS -> forall ts vs tcs, Stmts perm false SS ts vs tcs -> forall n k t2 q R acc (Q : body_result -> cur -> Prop),
  At k (ts ++ t2 ++ R) -> Close perm t2 q -> no_com t2 -> closed t2 R -> (len k < n)%nat -> (len k < N)%nat ->
  (forall k', bend k R q k' -> Q (acc ++ vs ++ trailing bic tcs, ilc, q) k') -> CP (loop ilc n acc) k Q.
Proof.
  intros HL HS HF ts vs tcs H. induction H as [cs|cs ts v x q0 il rest vs tcs Hv NC LT IN CL HR IH]; intros n k t2 q R acc Q A C NC2 CL2 L LN G; (destruct n as [|n]; [lia|]); rewrite HL; unfold gstep.
  - apply CP_bind. pose proof (close_first _ _ _ C) as (t & p & tl & E & HT). assert (NE : t2 <> []) by (rewrite E; eapply T_nonempty; exact HT).
    eapply CP_comments; [exact SA|exact A|apply no_com_more; assumption|]. intros k1 A1 _ L1 _.
    apply CP_bind, CP_peek. assert (A1' : At k1 (t ++ tl ++ R)) by (rewrite app_assoc, <- E; exact A1). ex HT. cbn [kb].
    pose proof (bk_len _ _ _ _ _ B) as LB. pose proof (At_bk _ _ _ _ _ B) as AB. rewrite app_assoc, <- E in AB. unfold qBodyEnd.
    apply CP_bind. eapply CP_weak; [eapply (C_close p0 all SA perm t2 q b R (fun q' k' => q' = q /\ bend b R q k')); [exact C|exact CL2|exact AB|]|].
    + intros k' A' L' LL'. exact (conj eq_refl (conj A' (conj L' LL'))).
    + cbn beta. intros t0 k3 [_ D]. apply CP_bind. eapply CP_weak; [exact D|]. cbn beta. intros q' k' (-> & A' & L' & LL'). apply CP_ret. rewrite trailing_eq.
      apply (G k'). split; [exact A'|]. split; [lia|exact LL'].
  - rewrite <- !app_assoc in A. apply CP_bind. destruct (HF _ _ _ _ Hv) as (y & NX & _). assert (NE : ts <> []) by (intros ->; discriminate NX).
    eapply CP_comments; [exact SA|exact A|apply no_com_more; assumption|]. intros k1 A1 _ L1 _. apply CP_bind.
    eapply CP_weak; [eapply (HS cs il ts v k1 _ (fun v0 k' => after k1 ts (icom il ++ rest ++ t2 ++ R) k' /\ fin (inode il) v0 v)); [exact Hv|exact NC|exact A1|eapply closed_more; eassumption|lia|]|].
    + intros v0 k' AF F. exact (conj AF F).
    + cbn beta. intros t k2 [NT D]. rewrite no_brace_token by exact NT. apply CP_bind. eapply CP_weak; [exact D|]. cbn beta.
      intros v0 k3 [(A3 & L3 & x3 & q3 & E3 & LL3) F]. rewrite LT in E3. injection E3 as <- <-. apply CP_bind.
      eapply (C_maybe p0 all SA set_inline v0 v); [exact A3|exact LL3| |exact F|].
      { apply Inline_app; [|exact IN]. right. apply no_com_more; [|exact NC2]. pose proof (close_first _ _ _ C) as (t' & p' & tl & -> & HT). eapply T_nonempty; exact HT. }
      intros k4 A4 L4. eapply IH; [exact A4|exact C|exact NC2|exact CL2|lia|lia|]. intros k' (A' & L' & LL'). rewrite <- app_assoc. apply G.
      split; [exact A'|]. split; [lia|exact LL'].
Qed.
Lemma body_last drop SS ts vs lc q : Body perm bic false drop SS ts vs lc q -> exists x, last_tok ts = Some (x, q).
Proof.
  intros [t1 p1 l ts' vs' tcs t2 q' H1 IN HS NC C D|t1 p1 l t2 q' D H1 IN C]; destruct (close_last _ _ _ C) as (x & E); exists x; rewrite !last_tok_app, E; reflexivity.
Qed.
Lemma body_next drop SS ts vs lc q : Body perm bic false drop SS ts vs lc q -> next_tok ts = Some (lit "{").
Proof. intros [t1 p1 l ts' vs' tcs t2 q' H1 IN HS NC C D|t1 p1 l t2 q' D H1 IN C]; apply (next_tok_T _ _ _ _ H1). Qed.
Lemma body_follow drop SS ts vs lc q rest : Body perm bic false drop SS ts vs lc q -> Follow (ts ++ rest).
Proof.
  intros [t1 p1 l ts' vs' tcs t2 q' H1 IN HS NC C D|t1 p1 l t2 q' D H1 IN C]; rewrite <- app_assoc; (eapply Follow_T; [exact H1|cbn; tauto]).
Qed.
Lemma close_nonempty t2 q : Close perm t2 q -> t2 <> [].
Proof. intros C. pose proof (close_first _ _ _ C) as (t' & p' & tl & -> & HT). eapply T_nonempty; exact HT. Qed.
Lemma app_nonempty {A} (a b : list A) : b <> [] -> a ++ b <> [].
Proof. destruct a; [auto|discriminate]. Qed.
(** bodies of enums and services *)
Lemma C_body SS st loop ts vs lc q k R (Q : body_result -> cur -> Prop) : IsLoop p0 perm bic st loop -> StOK SS st (len k) -> Starts SS -> Body perm bic false false SS ts vs lc q -> At k (ts ++ R) -> closed ts R ->
  (forall k', bend k R q k' -> Q (vs, lc, q) k') -> CP (pexpect 0 TLEFTCURLY;;; ilc <-- qInline p0;; n <-- pfuel;; loop ilc n []) k Q.
Proof.
  intros HL HS HF H A CL G. destruct H as [t1 p1 l ts vs tcs t2 q H1 IN HSS NC C D|t1 p1 l t2 q D H1 IN C]; [|discriminate D].
  rewrite <- !app_assoc in A. ex H1. pose proof (close_nonempty _ _ C) as NE.
  apply CP_bind. eapply CP_inline; [exact SA|eassumption|reflexivity|rewrite LP, app_assoc; apply Inline_app; [left; apply app_nonempty; exact NE|exact IN]|].
  intros k2 A2 L2 _. apply CP_bind, CP_fuel. eapply C_stmts; [exact HL|exact HS|exact HF|exact HSS|exact A2|exact C|exact NC| |lia|lia|].
  { destruct (close_last _ _ _ C) as (x & E). apply (closed_app perm (t1 ++ icom l ++ ts)); [congruence|]. rewrite <- !app_assoc. exact CL. }
  intros k' (A' & L' & LL'). cbn [app]. apply G. split; [exact A'|]. split; [lia|exact LL'].
Qed.
(** bodies of messages and extends *)
Lemma C_dbody SS st loop ts vs lc q k R (f : cur -> nat) (Q : body_result -> cur -> Prop) : IsLoop p0 perm bic st loop -> StOK SS st (len k) -> Starts SS -> Body perm bic false true SS ts vs lc q -> At k (ts ++ R) -> closed ts R ->
  (forall k', len k' < len k -> len k' < f k')%nat -> (forall k', bend k R q k' -> Q (vs, lc, q) k') ->
  CP (pexpect 0 TLEFTCURLY;;; ilc <-- qInline p0;; eb <-- qEmptyBody p0 perm;;
      match eb with Some lastPos => pret ([], None, lastPos) | None => fun k => loop ilc (f k) [] k end) k Q.
Proof.
  intros HL HS HF H A CL FU G. destruct H as [t1 p1 l ts vs tcs t2 q H1 IN HSS NC C D|t1 p1 l t2 q D H1 IN C].
  - destruct D as [D|D]; [discriminate D|]. rewrite <- !app_assoc in A. ex H1. pose proof (close_nonempty _ _ C) as NE.
    apply CP_bind. eapply CP_inline; [exact SA|eassumption|reflexivity|rewrite LP, app_assoc; apply Inline_app; [left; apply app_nonempty; exact NE|exact IN]|].
    intros k2 A2 L2 _. apply CP_bind. unfold qEmptyBody. apply CP_bind. eapply (CP_not p0 all SA (ch "}")); [exact A2|reflexivity|discriminate| |].
    { destruct HSS as [cs|cs ts v x q0 il rest vs tcs Hv _ _ _ _ _]; [congruence|]. destruct (HF _ _ _ _ Hv) as (y & NX & NY).
      rewrite <- !app_assoc, next_tok_coms, next_tok_cat, NX. intros X. injection X as ->. apply NY. reflexivity. }
    intros t y p b2 w2 g2 k3 B3 NT. cbn [tk]. unfold tok_eqb. destruct (token_eq_dec t TRIGHTCURLY) as [->|]; [destruct (NT eq_refl)|].
    apply CP_bind, CP_back, CP_ret. cbn [kb]. pose proof (bk_len _ _ _ _ _ B3) as LB. specialize (FU b2 ltac:(lia)).
    assert (X : CP (loop (inode l) (f b2) []) b2 Q).
    { eapply C_stmts; [exact HL|exact HS|exact HF|exact HSS|exact (At_bk _ _ _ _ _ B3)|exact C|exact NC| |exact FU|lia|].
      { destruct (close_last _ _ _ C) as (x & E). apply (closed_app perm (t1 ++ icom l ++ ts)); [congruence|]. rewrite <- !app_assoc. exact CL. }
      intros k' (A' & L' & LL'). cbn [app]. apply G. split; [exact A'|]. split; [lia|exact LL']. }
    exact X.
  - rewrite <- !app_assoc in A. ex H1. pose proof (close_nonempty _ _ C) as NE.
    apply CP_bind. eapply CP_inline; [exact SA|eassumption|reflexivity|rewrite LP; apply Inline_app; [left; exact NE|exact IN]|].
    intros k2 A2 L2 _. apply CP_bind. unfold qEmptyBody. apply CP_bind.
    eapply CP_weak; [eapply (C_close p0 all SA perm t2 q k2 R (fun q' k' => q' = q /\ bend k2 R q k')); [exact C| |exact A2|]|].
    + destruct (close_last _ _ _ C) as (x & E). apply (closed_app perm (t1 ++ icom l)); [congruence|]. rewrite <- !app_assoc. exact CL.
    + intros k' A' L' LL'. exact (conj eq_refl (conj A' (conj L' LL'))).
    + cbn beta. intros t0 k3 [-> D3]. tk. apply CP_bind. eapply CP_weak; [exact D3|]. cbn beta. intros q' k' (-> & A' & L' & LL'). apply CP_ret, CP_ret.
      apply G. split; [exact A'|]. split; [lia|exact LL'].
Qed.
Lemma block_after k t1 t2 t3 drop SS vs lc q rest k' : Body perm bic false drop SS t3 vs lc q -> bend k rest q k' -> after k (t1 ++ t2 ++ t3) rest k'.
Proof.
  intros H (A & L & LL). apply body_last in H. destruct H as (x & E). split; [exact A|]. split; [exact L|]. exists x, q. rewrite !last_tok_app, E. auto.
Qed.

(** ** Statements in bodies *)
Lemma peek_kw cs (st : token -> list comment -> PM visitee) k t w p tl rest tok (Q : visitee -> cur -> Prop) : T t w p -> At k ((t ++ tl) ++ rest) -> hit ScanKeyword w tok -> tok <> TRIGHTCURLY ->
  (forall k1, bk k1 k ((t ++ tl) ++ rest) -> CP (st tok cs) k1 Q) -> CP (ppeek ScanKeyword) k (fun t k1 => tk t <> TRIGHTCURLY /\ CP (st (tk t) cs) k1 Q).
Proof.
  intros HT A HI N G. apply CP_peek. rewrite <- app_assoc in A. eapply CP_tok; [exact SA|reflexivity|exact A|exact HT|exact HI|]. intros b w0 g k' B _. cbn [tk kb].
  split; [exact N|]. apply G. rewrite <- app_assoc. exact B.
Qed.
Lemma after_bk k b ts rest its k' : bk b k its -> after b ts rest k' -> after k ts rest k'.
Proof. intros B (A & L & E). rewrite (bk_len _ _ _ _ _ B) in L. exact (conj A (conj L E)). Qed.
Lemma ident_not_brace x : is_ident x -> x <> lit "}".
Proof. intros (c & l & -> & H & _) E. injection E as -> _. apply ident_start_iff in H. discriminate. Qed.
Lemma name_not_brace x : is_ident x \/ x = lit "." -> x <> lit "}".
Proof. intros [I| ->]; [apply ident_not_brace; exact I|discriminate]. Qed.
Lemma ident_tok_brace x : identToken ScanKeyword x <> TRIGHTCURLY.
Proof.
  destruct (kw_token x) as (t & -> & [[-> _]|(n & -> & I)]); [discriminate|]. intros ->. unfold keywords in I. cbn [In] in I.
  repeat (destruct I as [I|I]; [discriminate|]). destruct I.
Qed.

(** ** Enum *)
Lemma C_enumfield ts f k rest (Q : enumField -> cur -> Prop) : EnumField perm false [] None ts f -> At k (ts ++ rest) ->
  (forall k', after k ts rest k' -> Q f k') -> CP (qEnumField p0 perm) k Q.
Proof.
  intros [t1 name p1 t2 t3 sg t4 num p4 t5 os t6 p6 H1 I1 (p2 & H2) H3 H4 I4 H5 H6] A G. rewrite <- !app_assoc in A. unfold qEnumField.
  ex H1. ex H2.
  assert (X : forall k', At k' (t4 ++ t5 ++ t6 ++ rest) -> (len k' < len k)%nat -> CP (x <-- pexpect ScanNumberLit TINTLIT;; opts <-- qEnumValueOptions p0 perm;;
    e <-- pexpect 0 TSEMICOLON;; pret (mkEnumField name (sg ++ tx x) opts [] None (mkMeta p1 (tp e)))) k' Q).
  { intros k' A' L'. ex H4. apply CP_bind. eapply C_evoptions; [exact SA|exact H5|eassumption|exact H6|]. intros k5 A5 L5. ex H6. apply CP_ret. apply G.
    eapply (after_T _ _ _ _ (t1 ++ t2 ++ t3 ++ t4 ++ t5)); [rewrite <- !app_assoc; reflexivity|exact H6|eassumption|eassumption|lia]. }
  destruct H3 as [|t3 (p3 & H3)].
  - cbn [app] in *. apply CP_bind. eapply (CP_not p0 all SA (ch "-")); [eassumption|reflexivity|discriminate| |].
    { rewrite (next_tok_T _ _ _ _ H4). intros E. injection E as ->. apply int_head in I4. destruct I4 as (c & l & E & D). injection E as <- _. apply digit_iff in D. discriminate D. }
    intros t y q b4 w4 g4 k4 B4 NT. cbn [tk]. unfold tok_eqb. destruct (token_eq_dec t TMINUS) as [->|]; [destruct (NT eq_refl)|].
    apply CP_bind, CP_bind, CP_back, CP_ret. cbn [kb]. pose proof (bk_len _ _ _ _ _ B4). apply X; [exact (At_bk _ _ _ _ _ B4)|lia].
  - ex H3. tk. apply CP_bind, CP_ret. apply X; [assumption|lia].
Qed.
Lemma enumfield_relabel cs il ts f : EnumField perm false cs il ts f -> exists f0, EnumField perm false [] None ts f0 /\ fin il (with_comments cs (VEnumField f0)) (VEnumField f).
Proof. intros []. eexists. split; [econstructor; eassumption|]. destruct il; reflexivity. Qed.
Lemma option_relabel' cs il ts f : Option perm false cs il ts f -> exists f0, Option perm false [] None ts f0 /\ fin il (with_comments cs (VOption f0)) (VOption f).
Proof. intros []. eexists. split; [econstructor; eassumption|]. destruct il; reflexivity. Qed.
Lemma reserved_relabel cs il ts f : Reserved false cs il ts f -> exists f0, Reserved false [] None ts f0 /\ fin il (with_comments cs (VReserved f0)) (VReserved f).
Proof. intros []; eexists; (split; [econstructor; eassumption|]); destruct il; reflexivity. Qed.
Lemma extensions_relabel cs il ts f : Extensions false cs il ts f -> exists f0, Extensions false [] None ts f0 /\ fin il (with_comments cs (VExtensions f0)) (VExtensions f).
Proof. intros []; eexists; (split; [econstructor; eassumption|]); destruct il; reflexivity. Qed.
Lemma oneof_relabel cs il ts f : Oneof perm false cs il ts f -> exists f0, Oneof perm false [] None ts f0 /\ fin il (with_comments cs (VOneof f0)) (VOneof f).
Proof. intros []; eexists; (split; [econstructor; eassumption|]); destruct il; reflexivity. Qed.
Lemma field_relabel cs il ts f : Field perm false cs il ts f -> exists f0, Field perm false [] None ts f0 /\ fin il (with_comments cs (VField f0)) (VField f).
Proof. intros []; eexists; (split; [econstructor; eassumption|]); destruct il; reflexivity. Qed.
Lemma map_relabel cs il ts f : MapField perm false cs il ts f -> exists f0, MapField perm false [] None ts f0 /\ fin il (with_comments cs (VMapField f0)) (VMapField f).
Proof. intros []; eexists; (split; [econstructor; eassumption|]); destruct il; reflexivity. Qed.
Lemma enum_relabel cs il ts f : Enum perm bic false cs il ts f -> exists f0, Enum perm bic false [] None ts f0 /\ fin il (with_comments cs (VEnum f0)) (VEnum f).
Proof. intros []; eexists; (split; [econstructor; eassumption|]); destruct il; reflexivity. Qed.
Lemma extend_relabel cs il ts f : Extend perm bic false cs il ts f -> exists f0, Extend perm bic false [] None ts f0 /\ fin il (with_comments cs (VExtend f0)) (VExtend f).
Proof. intros []; eexists; (split; [econstructor; eassumption|]); destruct il; reflexivity. Qed.
Lemma service_relabel cs il ts f : Service perm bic false cs il ts f -> exists f0, Service perm bic false [] None ts f0 /\ fin il (with_comments cs (VService f0)) (VService f).
Proof. intros []; eexists; (split; [econstructor; eassumption|]); destruct il; reflexivity. Qed.
Lemma message_relabel cs il ts f : Message perm bic false cs il ts f -> exists f0, Message perm bic false [] None ts f0 /\ fin il (with_comments cs (VMessage f0)) (VMessage f).
Proof. intros []; eexists; (split; [econstructor; eassumption|]); destruct il; reflexivity. Qed.
Lemma rpc_relabel cs il ts f : RPC perm false cs il ts f -> exists f0, RPC perm false [] None ts f0 /\ fin il (with_comments cs (VRPC f0)) (VRPC f).
Proof. intros []; eexists; (split; [econstructor; eassumption|]); destruct il; reflexivity. Qed.
Lemma import_relabel cs il ts f : Import false cs il ts f -> exists f0, Import false [] None ts f0 /\ fin il (with_comments cs (VImport f0)) (VImport f).
Proof. intros []; eexists; (split; [econstructor; eassumption|]); destruct il; reflexivity. Qed.
Lemma package_relabel cs il ts f : Package cs il ts f -> exists f0, Package [] None ts f0 /\ fin il (with_comments cs (VPackage f0)) (VPackage f).
Proof. intros []; eexists; (split; [econstructor; eassumption|]); destruct il; reflexivity. Qed.

(** an empty statement *)
Lemma C_empty {A} (q : PM A) ok k p rest il (Q : visitee -> cur -> Prop) :
  CE q k (fun b => bk b k ([Tok (lit ";") p] ++ rest)) ->
  (forall v0 k', after k [Tok (lit ";") p] rest k' -> fin il v0 (VEmpty (mkEmpty il)) -> Q v0 k') -> CP (precover p0 q ok) k Q.
Proof.
  intros E G. apply CP_recover_err. revert E. unfold CE. destruct (q k); auto. intros B.
  assert (HT : T [Tok (lit ";") p] (lit ";") p) by (exists []; reflexivity). pose proof (At_bk _ _ _ _ _ B) as AB. pose proof (bk_len _ _ _ _ _ B).
  ex HT. tk. apply CP_ret. apply G; [|destruct il; reflexivity]. split; [assumption|]. split; [lia|]. exists (lit ";"), p. split; [reflexivity|congruence].
Qed.
Lemma Tsemi p : T [Tok (lit ";") p] (lit ";") p. Proof. exists []. reflexivity. Qed.
Lemma CE_expect m t k ts x p rest t' (P : cur -> Prop) : has m ScanComment = false -> At k (ts ++ rest) -> T ts x p -> hit m x t' -> tok_eqb t' t = false ->
  (forall b, bk b k (ts ++ rest) -> P b) -> CE (pexpect m t) k P.
Proof.
  intros M A HT H N G. unfold Cursor.pexpect. apply CE_bind. eapply CP_tok; [exact SA|exact M|exact A|exact HT|exact H|]. intros b w g k' B _. cbn [tk]. rewrite N.
  unfold CE, perr. cbn [kb]. apply G. exact B.
Qed.

Lemma option_starts cs il ts o : Option perm false cs il ts o -> exists t p tl, ts = t ++ tl /\ T t (lit "option") p. Proof. apply option_first. Qed.
Lemma reserved_starts cs il ts o : Reserved false cs il ts o -> exists t p tl, ts = t ++ tl /\ T t (lit "reserved") p. Proof. intros []; eauto. Qed.
Lemma start_T (t tl : list item) w p : T t (lit w) p -> lit w <> lit "}" -> exists x, next_tok (t ++ tl) = Some x /\ x <> lit "}".
Proof. intros H N. exists (lit w). rewrite (next_tok_T _ _ _ _ H). auto. Qed.
Lemma empty_next U il ts v : Empty false U il ts v -> exists p, ts = [Tok (lit ";") p] /\ v = VEmpty (mkEmpty il).
Proof. intros [p|ts' t p J]; [eauto|discriminate J]. Qed.
Ltac kwhit := apply hitb_ok; lazy; reflexivity.
Lemma enum_starts : Starts (EnumStmt perm false).
Proof.
  intros cs il ts v [ts' o H|ts' r H|ts' f H _|ts' v' H].
  - apply option_starts in H. destruct H as (t & p & tl & -> & H). eapply start_T; [exact H|discriminate].
  - apply reserved_starts in H. destruct H as (t & p & tl & -> & H). eapply start_T; [exact H|discriminate].
  - destruct H as [t1 name p1 t2 t3 sg t4 num p4 t5 os t6 p6 H1 I1 _ _ _ _ _ _]. exists name. rewrite (next_tok_T _ _ _ _ H1). split; [reflexivity|]. apply ident_not_brace. exact I1.
  - apply empty_next in H. destruct H as (p & -> & _). exists (lit ";"). split; [reflexivity|discriminate].
Qed.
Lemma semi_hit m : has m ScanNumberLit = has m ScanNumberLit -> hit m (lit ";") TSEMICOLON.
Proof. intros _. apply (hit_punct m (ch ";")); [cbn; tauto|intros [H|H]; discriminate H|intros H; discriminate H]. Qed.
Lemma st_enum N : StOK (EnumStmt perm false) (stEnum p0 perm) N.
Proof.
  intros cs il ts v k rest Q H NC A CL _ G. destruct H as [ts o H|ts r H|ts f H NF|ts v H].
  - apply option_relabel' in H. destruct H as (f0 & H & F). pose proof (option_starts _ _ _ _ H) as (t & p & tl & E & HT). subst ts.
    eapply peek_kw; [exact HT|exact A|kwhit|discriminate|]. intros k1 B. cbn [stEnum]. apply CP_bind. eapply C_option; [exact SA|exact H|exact (At_bk _ _ _ _ _ B)|].
    intros k2 AF. apply CP_ret. apply G; [eapply after_bk; eassumption|exact F].
  - apply reserved_relabel in H. destruct H as (f0 & H & F). pose proof (reserved_starts _ _ _ _ H) as (t & p & tl & E & HT). subst ts.
    eapply peek_kw; [exact HT|exact A|kwhit|discriminate|]. intros k1 B. cbn [stEnum]. apply CP_bind. eapply C_reserved; [exact SA|exact H|exact (At_bk _ _ _ _ _ B)|].
    intros k2 AF. apply CP_ret. apply G; [eapply after_bk; eassumption|exact F].
  - apply enumfield_relabel in H. destruct H as (f0 & H & F).
    assert (exists t x p tl, ts = t ++ tl /\ T t x p /\ is_ident x) as (t & x & p & tl & E & HT & I). { destruct H. eauto 8. } subst ts.
    eapply peek_kw; [exact HT|exact A|apply hit_ident; exact I|apply ident_tok_brace|]. intros k1 B.
    apply (not_first_T _ _ _ tl _ HT) in NF.
    assert (N1 : identToken ScanKeyword x <> TOPTION). { apply (tok_not x "option"); [cbn; tauto|]. intros W. apply NF. destruct W as [<-|[]]. cbn. tauto. }
    assert (N2 : identToken ScanKeyword x <> TRESERVED). { apply (tok_not x "reserved"); [cbn; tauto|]. intros W. apply NF. destruct W as [<-|[]]. cbn. tauto. }
    assert (X : CP (precover p0 (qEnumField p0 perm) (fun f => with_comments (nodes cs) (VEnumField f))) k1 Q).
    { apply CP_recover. eapply C_enumfield; [exact H|exact (At_bk _ _ _ _ _ B)|]. intros k2 AF. apply G; [eapply after_bk; eassumption|exact F]. }
    unfold stEnum. destruct (identToken ScanKeyword x); first [exact X|congruence].
  - apply empty_next in H. destruct H as (p & -> & ->). eapply (peek_kw (nodes cs) (stEnum p0 perm) k [Tok (lit ";") p] _ p []); [apply Tsemi|exact A|kwhit|discriminate|]. intros k1 B.
    cbn [stEnum]. eapply C_empty.
    + unfold qEnumField. apply CE_bind0. eapply CE_expect; [reflexivity|exact (At_bk _ _ _ _ _ B)|apply Tsemi|kwhit|reflexivity|]. intros b X. exact X.
    + intros v0 k' AF F. apply G; [eapply after_bk; eassumption|exact F].
Qed.
Lemma C_enum ts b k rest (Q : block -> cur -> Prop) : Enum perm bic false [] None ts b -> At k (ts ++ rest) -> closed ts rest ->
  (forall k', after k ts rest k' -> Q b k') -> CP (qParseEnum p0 perm bic) k Q.
Proof.
  intros [t1 p1 t2 name p2 t3 vs lc q H1 H2 I2 HB] A CL G. rewrite <- !app_assoc in A. unfold qParseEnum. ex H1. ex H2. apply CP_bind. unfold qEnumBody.
  eapply C_body; [apply enum_loop|apply st_enum|apply enum_starts|exact HB|eassumption| |].
  { destruct (body_last _ _ _ _ _ _ HB) as (x & E). apply (closed_app perm (t1 ++ t2)); [congruence|]. rewrite <- app_assoc. exact CL. }
  intros k' (A' & L' & LL'). apply CP_ret. cbn beta iota. apply G. eapply block_after; [exact HB|]. split; [exact A'|]. split; [lia|exact LL'].
Qed.

(** ** Extend *)
Lemma field_starts cs il ts f : Field perm false cs il ts f -> exists t x p tl, ts = t ++ tl /\ T t x p /\ (is_ident x \/ x = lit ".").
Proof.
  intros [t1 p1 rp rq op t2 ty p2 t3 name num os p3 H1 H2 H3].
  assert (ID : forall s, words labels (lit s) -> is_ident (lit s)). { intros s W. apply identb_iff. apply words_cases in W. destruct W as (s' & W & ->). cbn [In labels] in W. repeat (destruct W as [<-|W]; [reflexivity|]). destruct W. }
  destruct H1 as [t1 p1 r H|t1 p1 r H|t1 p1 r H|x p1 r FT N]; try (eexists t1, _, p1, _; split; [reflexivity|split; [exact H|left; apply ID; cbn; tauto]]).
  apply Type_first in H2. destruct H2 as (t & y & tl & -> & H2 & I). cbn [app]. rewrite <- app_assoc. eauto 8.
Qed.
Lemma extend_starts : Starts (ExtendStmt perm false).
Proof.
  intros cs il ts v [ts' f H|ts' v' H].
  - apply field_starts in H. destruct H as (t & x & p & tl & -> & H & I). exists x. rewrite (next_tok_T _ _ _ _ H). split; [reflexivity|]. apply name_not_brace. exact I.
  - apply empty_next in H. destruct H as (p & -> & _). exists (lit ";"). split; [reflexivity|discriminate].
Qed.
(** a field cannot start with a semicolon *)
Lemma CE_field k p rest : At k ([Tok (lit ";") p] ++ rest) -> CE (qParseField p0 perm) k (fun b => bk b k ([Tok (lit ";") p] ++ rest)).
Proof.
  intros A. unfold qParseField. apply CE_bind. unfold qLabel. pose proof (Tsemi p) as HT. ex HT. apply CP_bind, CP_back, CP_ret. cbn beta iota. cbn [kb].
  pose proof (At_bk _ _ _ _ _ B) as AB. apply CE_bind0. unfold qType. apply CE_bind. ex HT. cbn [tx]. change (str_mem (lit ";") typeConstants) with false. cbv iota.
  apply CE_bind, CP_back. cbn [kb]. pose proof (bk_trans _ _ _ _ _ _ B0 B) as BB. pose proof (At_bk _ _ _ _ _ BB) as AB2. unfold qReadMessageType.
  apply CE_bind. ex HT. tk. apply CE_bind, CP_bind, CP_back, CP_ret. cbn [kb]. pose proof (bk_trans _ _ _ _ _ _ B1 BB) as BB2. pose proof (At_bk _ _ _ _ _ BB2) as AB3.
  apply CE_bind. ex HT. apply CE_bind, CP_fuel. apply CE_bind0. cbn [qMessageType_loop tk]. tk. unfold CE, perr. cbn [kb]. exact (bk_trans _ _ _ _ _ _ B2 BB2).
Qed.
Lemma st_extend N : StOK (ExtendStmt perm false) (stExtend p0 perm) N.
Proof.
  intros cs il ts v k rest Q H NC A CL _ G. destruct H as [ts f H|ts v H].
  - apply field_relabel in H. destruct H as (f0 & H & F). pose proof (field_starts _ _ _ _ H) as (t & x & p & tl & E & HT & I). subst ts.
    destruct (hit_name ScanKeyword x I eq_refl) as (t0 & HI & C). eapply peek_kw; [exact HT|exact A|exact HI| |].
    { destruct C as [[_ ->]|[_ ->]]; [apply ident_tok_brace|discriminate]. }
    intros k1 B. apply CP_recover. eapply C_field; [exact SA|exact H|exact (At_bk _ _ _ _ _ B)|]. intros k2 AF. apply G; [eapply after_bk; eassumption|exact F].
  - apply empty_next in H. destruct H as (p & -> & ->). eapply (peek_kw (nodes cs) (stExtend p0 perm) k [Tok (lit ";") p] _ p []); [apply Tsemi|exact A|kwhit|discriminate|]. intros k1 B.
    eapply C_empty; [apply CE_field; exact (At_bk _ _ _ _ _ B)|]. intros v0 k' AF F. apply G; [eapply after_bk; eassumption|exact F].
Qed.
Lemma C_extend ts b k rest (Q : block -> cur -> Prop) : Extend perm bic false [] None ts b -> At k (ts ++ rest) -> closed ts rest ->
  (forall k', after k ts rest k' -> Q b k') -> CP (qParseExtend p0 perm bic) k Q.
Proof.
  intros [t1 p1 t2 name p2 t3 vs lc q H1 H2 HB] A CL G. rewrite <- !app_assoc in A. unfold qParseExtend. ex H1. apply CP_bind.
  eapply C_messagetype; [exact SA|exact H2|eassumption|eapply body_follow; exact HB|]. intros k2 A2 L2. apply CP_bind. unfold qExtendBody.
  refine (C_dbody _ _ _ t3 vs lc q k2 rest (fun k => S (len k)) _ (extend_loop p0 perm bic) (st_extend _) extend_starts HB A2 _ _ _).
  { destruct (body_last _ _ _ _ _ _ HB) as (x & E). apply (closed_app perm (t1 ++ t2)); [congruence|]. rewrite <- app_assoc. exact CL. }
  { intros; lia. }
  intros k' (A' & L' & LL'). apply CP_ret. cbn beta iota. cbn [fst]. apply G. eapply block_after; [exact HB|]. split; [exact A'|]. split; [lia|exact LL'].
Qed.
End Bodies.
