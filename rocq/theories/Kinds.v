(** Every body holds only statements that belong there; when UnorderedInterpret fails. *)
From Coq Require Import List NArith ZArith Bool String Ascii Lia.
From Verif Require Import Base Token Scanner Lexer Ast Parser Api Unordered Spec Direct LexSpec Tree Refuted KindSpec.
Import ListNotations.
Open Scope N_scope.
Open Scope monad_scope.

(** ** Values returned, whatever the state *)
Definition Ret {A} (m : M A) (P : A -> Prop) : Prop := forall s, match fst (m s) with Ok a => P a | _ => True end.
Lemma h_any {A} (m : M A) : Ret m (fun _ => True).
Proof. intros s. destruct (fst (m s)); exact I. Qed.
Lemma h_ret {A} (a : A) (P : A -> Prop) : P a -> Ret (ret a) P.
Proof. intros X s. exact X. Qed.
Lemma h_bind {A B} (m : M A) (f : A -> M B) P Q : Ret m P -> (forall a, P a -> Ret (f a) Q) -> Ret (bind m f) Q.
Proof. intros X Y s. unfold bind. specialize (X s). destruct (m s) as [[a| | |] s']; cbn in *; try exact I. apply Y. exact X. Qed.
Lemma h_skip {A B} (m : M A) (f : A -> M B) Q : (forall a, Ret (f a) Q) -> Ret (bind m f) Q.
Proof. intros Y. apply h_bind with (P := fun _ => True); [apply h_any|auto]. Qed.
Lemma h_try {A B} (m : M A) (f : A + err -> M B) P Q : Ret m P -> (forall a, P a -> Ret (f (inl a)) Q) -> (forall e, Ret (f (inr e)) Q) -> Ret (try m f) Q.
Proof. intros X Y Z s. unfold try. specialize (X s). destruct (m s) as [[a| | |] s']; cbn in *; try exact I; [apply Y; exact X|apply Z]. Qed.
Lemma h_weak {A} (m : M A) (P Q : A -> Prop) : Ret m P -> (forall a, P a -> Q a) -> Ret m Q.
Proof. intros X Y s. specialize (X s). destruct (fst (m s)); auto. Qed.
Lemma h_fail {A} e (Q : A -> Prop) : Ret (fail e) Q. Proof. intros s. exact I. Qed.
Lemma h_panic {A} (Q : A -> Prop) : Ret panic Q. Proof. intros s. exact I. Qed.
Lemma h_oof {A} (Q : A -> Prop) : Ret oof Q. Proof. intros s. exact I. Qed.
Lemma h_pun {A} w (Q : A -> Prop) : Ret (p_unexpected w) Q. Proof. intros s. exact I. Qed.

Section K.
Variable com : bool.
Inductive Deep (e : elem) : Prop := deep_intro : body_kinds com e -> Forall (Forall Deep) (children e) -> Deep e.
Definition DS (v : visitee) : Prop := Deep (EStmt v).
Lemma deep_iff e : Deep e <-> body_kinds com e /\ Forall (Forall Deep) (children e).
Proof. split; [intros []; auto|intros []; constructor; auto]. Qed.
(** a predicate on statements that depends on the kind only *)
Definition kind (v w : visitee) : Prop :=
  match v, w with
  | VNil, VNil | VComment _, VComment _ | VEmpty _, VEmpty _ | VImport _, VImport _ | VPackage _, VPackage _ | VOption _, VOption _
  | VField _, VField _ | VMapField _, VMapField _ | VGroupField _, VGroupField _ | VOneof _, VOneof _ | VEnumField _, VEnumField _
  | VRPC _, VRPC _ | VReserved _, VReserved _ | VExtensions _, VExtensions _ | VMessage _, VMessage _ | VEnum _, VEnum _
  | VService _, VService _ | VExtend _, VExtend _ => True
  | _, _ => False
  end.
Definition kindly (P : visitee -> Prop) : Prop := forall v w, kind v w -> P v -> P w.
Lemma k_message : kindly (in_message com). Proof. intros [] []; cbn; auto; contradiction. Qed.
Lemma k_enum : kindly (in_enum com). Proof. intros [] []; cbn; auto; contradiction. Qed.
Lemma k_service : kindly (in_service com). Proof. intros [] []; cbn; auto; contradiction. Qed.
Lemma k_extend : kindly (in_extend com). Proof. intros [] []; cbn; auto; contradiction. Qed.
Lemma with_kind cs v : kind v (with_comments cs v). Proof. destruct v; exact I. Qed.
Lemma inline_kind c v v' : set_inline c v = Some v' -> kind v v'. Proof. destruct v; try discriminate; intros E; injection E as <-; exact I. Qed.
Lemma with_deep cs v : DS v -> DS (with_comments cs v).
Proof. unfold DS. rewrite !deep_iff. destruct v; exact (fun x => x). Qed.
Lemma inline_deep c v v' : set_inline c v = Some v' -> DS v -> DS v'.
Proof. unfold DS. rewrite !deep_iff. destruct v; try discriminate; intros E; injection E as <-; exact (fun x => x). Qed.
Definition K (P : visitee -> Prop) (v : visitee) : Prop := P v /\ DS v.
Lemma K_with P cs v : kindly P -> K P v -> K P (with_comments cs v).
Proof. intros X [A B]. split; [exact (X _ _ (with_kind cs v) A)|apply with_deep; exact B]. Qed.
Lemma h_maybe P v : kindly P -> K P v -> Ret (MaybeScanInlineComment set_inline v) (K P).
Proof.
  intros X [A B]. unfold MaybeScanInlineComment. apply h_skip. intros [c|]; [|apply h_ret; split; assumption].
  destruct (set_inline c v) as [v'|] eqn:E; [|apply h_panic]. apply h_ret. split; [exact (X _ _ (inline_kind _ _ _ E) A)|exact (inline_deep _ _ _ E B)].
Qed.
Lemma deep_leaf v : body_kinds com (EStmt v) -> children (EStmt v) = [] -> DS v.
Proof. intros A B. apply deep_iff. rewrite B. split; [exact A|constructor]. Qed.
Lemma deep_flat e : match e with EStmt (VMessage _) | EStmt (VGroupField _) | EStmt (VEnum _) | EStmt (VService _) | EStmt (VExtend _) => False | _ => True end -> Deep e.
Proof.
  assert (F : forall A (f : A -> elem) l, (forall x, Deep (f x)) -> Forall Deep (map f l)). { intros A f l X. apply Forall_forall. intros x Y. apply in_map_iff in Y. destruct Y as (y & <- & _). apply X. }
  assert (A1 : forall f, Deep (EOneofField f)) by (intros; apply deep_iff; cbn; split; [exact I|constructor]).
  assert (A2 : forall f, Deep (EOption f)) by (intros; apply deep_iff; cbn; split; [exact I|constructor]).
  assert (A3 : forall f, Deep (EParam f)) by (intros; apply deep_iff; cbn; split; [exact I|constructor]).
  assert (A4 : forall f, Deep (EDeclaration f)) by (intros; apply deep_iff; cbn; split; [exact I|constructor]).
  destruct e as [| |v| | | |]; intros X; try (apply deep_iff; split; [exact I|constructor]). destruct v; try contradiction; apply deep_iff; split; try exact I; cbn; repeat constructor; auto.
Qed.
Lemma body_end P l cs : Forall (K P) l -> (com = true -> forall c, P (VComment c)) -> Forall (K P) (l ++ body_comments com cs).
Proof.
  intros A B. apply Forall_app. split; [exact A|]. unfold body_comments. destruct com; [|constructor]. rewrite Forall_map. apply Forall_forall. intros c _. split; [auto|apply deep_flat; exact I].
Qed.
Lemma h_recover (P : visitee -> Prop) e : P (VEmpty (mkEmpty None)) -> Ret (recoverEmpty e) (K P).
Proof. intros X. unfold recoverEmpty. apply h_skip. intros _. eapply h_try with (P := fun _ => True); [apply h_any| |intros; apply h_fail]. intros _ _. apply h_ret. split; [exact X|apply deep_flat; exact I]. Qed.
Definition bres (P : visitee -> Prop) (r : body_result) : Prop := match r with (l, _, _) => Forall (K P) l end.
Lemma snoc P l v : Forall (K P) l -> K P v -> Forall (K P) (l ++ [v]).
Proof. intros. apply Forall_app. auto. Qed.
Lemma bres_deep P l e : Forall (K P) l -> children e = [map EStmt l] -> (Forall P l -> body_kinds com e) -> Deep e.
Proof.
  intros A B C. apply deep_iff. rewrite B. split; [apply C; revert A; apply Forall_impl; intros a [X _]; exact X|].
  constructor; [|constructor]. rewrite Forall_map. revert A. apply Forall_impl. intros a [_ X]. exact X.
Qed.

Ltac to m := repeat (lazymatch goal with |- Ret (bind m _) _ => fail | |- Ret (bind _ _) _ => apply h_skip; intros end).
Ltac leaf := apply h_skip; intros; apply h_ret; apply K_with; [assumption || auto using k_message, k_enum, k_service, k_extend|split; [exact I|apply deep_flat; exact I]].
Lemma h_enumBody p ilc n : forall l, Forall (K (in_enum com)) l -> Ret (enumBody_loop p com ilc n l) (bres (in_enum com)).
Proof.
  induction n as [|n IH]; intros l A; [apply h_oof|]. cbn [enumBody_loop]. apply h_skip. intros cs. apply h_skip. intros t.
  assert (X : Ret (stmt <- match t with
              | TOPTION => o <- ParseOption p;; ret (with_comments cs (VOption o))
              | TRESERVED => r <- ParseReserved;; ret (with_comments cs (VReserved r))
              | _ =>
                try (parseEnumField p) (fun r =>
                  match r with
                  | inl f => ret (with_comments cs (VEnumField f))
                  | inr e => recoverEmpty e
                  end)
              end;;
      stmt <- MaybeScanInlineComment set_inline stmt;;
      enumBody_loop p com ilc n (l ++ [stmt])) (bres (in_enum com))).
  { apply h_bind with (P := K (in_enum com)).
    - destruct t; try leaf; (eapply h_try with (P := fun _ => True); [apply h_any| |]; intros; [apply h_ret, K_with; [apply k_enum|split; [exact I|apply deep_flat; exact I]]|apply h_recover; exact I]).
    - intros v KV. eapply h_bind; [apply h_maybe; [apply k_enum|exact KV]|]. intros v' KV'. apply IH, snoc; assumption. }
  destruct t; try exact X. apply h_skip. intros _. apply h_skip. intros lp. apply h_ret. apply body_end; [exact A|]. intros ->. reflexivity.
Qed.
Lemma h_ParseEnum p : Ret (ParseEnum p com) (fun b => DS (VEnum b)).
Proof.
  unfold ParseEnum. to (parseEnumBody p com). apply h_bind with (P := bres (in_enum com)).
  - unfold parseEnumBody. repeat (apply h_skip; intros). apply h_enumBody. constructor.
  - intros [[l ilc] lp] A. apply h_ret. eapply bres_deep; [exact A|reflexivity|exact (fun x => x)].
Qed.
Lemma h_extendBody p ilc n : forall l, Forall (K (in_extend com)) l -> Ret (extendBody_loop p com ilc n l) (bres (in_extend com)).
Proof.
  induction n as [|n IH]; intros l A; [apply h_oof|]. cbn [extendBody_loop]. apply h_skip. intros cs. apply h_skip. intros t.
  assert (X : Ret (stmt <- try (ParseField p) (fun r =>
                match r with
                | inl f => ret (with_comments cs (VField f))
                | inr e => recoverEmpty e
                end);;
      stmt <- MaybeScanInlineComment set_inline stmt;;
      extendBody_loop p com ilc n (l ++ [stmt])) (bres (in_extend com))).
  { apply h_bind with (P := K (in_extend com)).
    - eapply h_try with (P := fun _ => True); [apply h_any| |]; intros; [apply h_ret, K_with; [apply k_extend|split; [exact I|apply deep_flat; exact I]]|apply h_recover; exact I].
    - intros v KV. eapply h_bind; [apply h_maybe; [apply k_extend|exact KV]|]. intros v' KV'. apply IH, snoc; assumption. }
  destruct t; try exact X. apply h_skip. intros _. apply h_skip. intros lp. apply h_ret. apply body_end; [exact A|]. intros ->. reflexivity.
Qed.
Lemma h_ParseExtend p : Ret (ParseExtend p com) (fun b => DS (VExtend b)).
Proof.
  unfold ParseExtend. to (parseExtendBody p com). apply h_bind with (P := bres (in_extend com)).
  - unfold parseExtendBody. do 3 (apply h_skip; intros). apply h_skip. intros [lp|]; [apply h_ret; constructor|]. apply h_skip. intros. apply h_extendBody. constructor.
  - intros [[l ilc] lp] A. apply h_ret. eapply bres_deep; [exact A|reflexivity|exact (fun x => x)].
Qed.
Lemma h_serviceBody p ilc n : forall l, Forall (K (in_service com)) l -> Ret (serviceBody_loop p com ilc n l) (bres (in_service com)).
Proof.
  induction n as [|n IH]; intros l A; [apply h_oof|]. cbn [serviceBody_loop]. apply h_skip. intros cs. apply h_skip. intros t.
  assert (X : Ret (stmt <- match t with
              | TOPTION => o <- ParseOption p;; ret (with_comments cs (VOption o))
              | TRPC => r <- parseRPC p;; ret (with_comments cs (VRPC r))
              | _ => ReadEmptyStatement;; ret (VEmpty (mkEmpty None))
              end;;
      stmt <- MaybeScanInlineComment set_inline stmt;;
      serviceBody_loop p com ilc n (l ++ [stmt])) (bres (in_service com))).
  { apply h_bind with (P := K (in_service com)).
    - destruct t; try leaf; (apply h_skip; intros; apply h_ret; split; [exact I|apply deep_flat; exact I]).
    - intros v KV. eapply h_bind; [apply h_maybe; [apply k_service|exact KV]|]. intros v' KV'. apply IH, snoc; assumption. }
  destruct t; try exact X. apply h_skip. intros _. apply h_skip. intros lp. apply h_ret. apply body_end; [exact A|]. intros ->. reflexivity.
Qed.
Lemma h_ParseService p : Ret (ParseService p com) (fun b => DS (VService b)).
Proof.
  unfold ParseService. to (parseServiceBody p com). apply h_bind with (P := bres (in_service com)).
  - unfold parseServiceBody. repeat (apply h_skip; intros). apply h_serviceBody. constructor.
  - intros [[l ilc] lp] A. apply h_ret. eapply bres_deep; [exact A|reflexivity|exact (fun x => x)].
Qed.
Lemma h_ParseMessage_ mb : Ret mb (bres (in_message com)) -> Ret (ParseMessage_ mb) (fun b => DS (VMessage b)).
Proof.
  intros X. unfold ParseMessage_. to mb. eapply h_bind; [exact X|].
  intros [[l ilc] lp] A. apply h_ret. eapply bres_deep; [exact A|reflexivity|exact (fun x => x)].
Qed.
Lemma h_ParseGroup mb : Ret mb (bres (in_message com)) -> Ret (ParseGroupField mb) (fun b => DS (VGroupField b)).
Proof.
  intros X. unfold ParseGroupField. apply h_skip. intros [sp [[a b] c]]. to mb. destruct (negb _); [apply h_pun|]. to mb. eapply h_bind; [exact X|].
  intros [[l ilc] lp] A. apply h_ret. eapply bres_deep; [exact A|reflexivity|exact (fun x => x)].
Qed.
Lemma h_messageStmt p mb t cs : Ret mb (bres (in_message com)) -> Ret (messageStmt p com mb t cs) (K (in_message com)).
Proof.
  intros X. unfold messageStmt.
  assert (Y : forall (B : bool), Ret (if B then
      try (ParseGroupField mb) (fun r =>
        match r with
        | inl g => ret (with_comments cs (VGroupField g))
        | inr e => recoverEmpty e
        end)
    else
      try (ParseField p) (fun r =>
        match r with
        | inl f => ret (with_comments cs (VField f))
        | inr e => recoverEmpty e
        end)) (K (in_message com))).
  { intros []; [eapply h_try; [apply h_ParseGroup; exact X| |]|eapply h_try with (P := fun _ => True); [apply h_any| |]]; intros; try (apply h_recover; exact I);
      (apply h_ret, K_with; [apply k_message|split; [exact I|first [assumption|apply deep_flat; exact I]]]). }
  destruct t; try (apply h_skip; exact Y); try leaf.
  all: eapply h_bind; [first [apply h_ParseEnum|apply h_ParseExtend|apply h_ParseMessage_; exact X]|]; intros; apply h_ret, K_with; [apply k_message|split; [exact I|assumption]].
Qed.
Lemma h_messageBody_loop p mb ilc n : Ret mb (bres (in_message com)) -> forall l, Forall (K (in_message com)) l -> Ret (messageBody_loop p com mb ilc n l) (bres (in_message com)).
Proof.
  intros XB. induction n as [|n IH]; intros l A; [apply h_oof|]. cbn [messageBody_loop]. apply h_skip. intros cs. apply h_skip. intros t.
  assert (X : Ret (stmt <- messageStmt p com mb t cs;;
      stmt <- MaybeScanInlineComment set_inline stmt;;
      messageBody_loop p com mb ilc n (l ++ [stmt])) (bres (in_message com))).
  { eapply h_bind; [apply h_messageStmt; exact XB|].
    intros v KV. eapply h_bind; [apply h_maybe; [apply k_message|exact KV]|]. intros v' KV'. apply IH, snoc; assumption. }
  destruct t; try exact X. apply h_skip. intros _. apply h_skip. intros lp. apply h_ret. apply body_end; [exact A|]. intros ->. reflexivity.
Qed.
Lemma h_parseMessageBody p n : Ret (parseMessageBody p com n) (bres (in_message com)).
Proof.
  induction n as [|n IH]; [apply h_oof|]. cbn [parseMessageBody]. do 3 (apply h_skip; intros). apply h_skip. intros [lp|]; [apply h_ret; constructor|]. apply h_messageBody_loop; [exact IH|constructor].
Qed.

(** ** The file *)
Definition top (v : visitee) : Prop := match v with VImport _ | VPackage _ | VOption _ | VMessage _ | VEnum _ | VService _ | VExtend _ => True | _ => False end.
Lemma k_top : kindly top. Proof. intros [] []; cbn; auto; contradiction. Qed.
Definition top_res (r : list visitee * visitee) : Prop := (fst r = [] /\ K top (snd r)) \/ r = ([VEmpty (mkEmpty None)], VNil).
Lemma h_protoStmt p n t cs : Ret (protoStmt p com n t cs) top_res.
Proof.
  unfold protoStmt. assert (F : Ret (ReadEmptyStatement;; ret ([VEmpty (mkEmpty None)], VNil)) top_res) by (apply h_skip; intros; apply h_ret; right; reflexivity).
  destruct t; try exact F.
  all: first [eapply h_bind; [first [apply h_ParseEnum|apply h_ParseExtend|apply h_ParseService|apply h_ParseMessage_, h_parseMessageBody]|]|apply h_skip]; intros; apply h_ret; left; split; [reflexivity|]; apply K_with; [apply k_top|split; [exact I|first [assumption|apply deep_flat; exact I]]].
Qed.
(** a body being read: more statements may follow *)
Definition open (l : list visitee) : Prop := Forall DS l /\ forall l', file_kinds com l' -> file_kinds com (l ++ l').
Lemma h_protoBody p n : forall l, open l -> Ret (protoBody_loop p com n l) (fun l => Forall DS l /\ file_kinds com l).
Proof.
  induction n as [|n IH]; intros l [A B]; [apply h_oof|]. cbn [protoBody_loop]. apply h_skip. intros cs. apply h_skip. intros [|].
  - apply h_ret. split.
    + apply Forall_app. split; [exact A|]. unfold body_comments. destruct com; [|constructor]. rewrite Forall_map. apply Forall_forall. intros c _. apply deep_flat. exact I.
    + apply B. unfold body_comments. destruct com; [apply fk_end; auto|apply (fk_end _ []); auto].
  - apply h_skip. intros t. eapply h_bind; [apply h_protoStmt|]. intros [pre v] [[E KV]|E].
    + cbn [fst snd] in E, KV. subst pre. eapply h_bind; [apply h_maybe; [apply k_top|exact KV]|]. intros v' [T D]. apply IH. cbn [app]. split; [apply Forall_app; auto|].
      intros l' F. rewrite <- app_assoc. apply B. apply fk_stmt; [exact T|exact F].
    + injection E as -> ->. apply h_bind with (P := fun v => v = VNil).
      * unfold MaybeScanInlineComment. apply h_skip. intros [c|]; [apply h_panic|apply h_ret; reflexivity].
      * intros v ->. apply IH. cbn [app]. split; [apply Forall_app; split; [exact A|]; repeat constructor|]. intros l' F. rewrite <- app_assoc. apply B. apply fk_empty. exact F.
Qed.
Lemma h_ParseProto p n : Ret (ParseProto p com n) (fun pr => Forall DS (p_body pr) /\ file_kinds com (p_body pr)).
Proof.
  unfold ParseProto. do 6 (apply h_skip; intros). eapply h_bind; [apply h_protoBody; split; [constructor|exact (fun l x => x)]|].
  intros l A. apply h_skip. intros. apply h_ret. exact A.
Qed.
End K.
Definition bic (opts : list ParseOpt) : bool := cfg_bodyIncludingComments (config_of opts).
Lemma parse_kinds opts input pr : Parse opts input = Ok pr ->
  file_kinds (bic opts) (p_body pr) /\ forall e, element pr e -> body_kinds (bic opts) e.
Proof.
  unfold Parse, parse_fuel. intros P. pose proof (h_ParseProto (bic opts) (cfg_permissive (config_of opts)) (S (S (List.length input))) (init_st (cfg_filename (config_of opts)) input)) as X.
  unfold bic in *. rewrite P in X. destruct X as [D F]. split; [exact F|]. intros e E. assert (Z : Deep (cfg_bodyIncludingComments (config_of opts)) e).
  { induction E as [e E|e l e' E IH X Y].
    - unfold roots in E. apply in_app_or in E. destruct E as [E|E]; [apply deep_flat; destruct (p_syntax pr); [|contradiction]; destruct E as [<-|[]]; exact I|].
      apply in_app_or in E. destruct E as [E|E]; [apply deep_flat; destruct (p_edition pr); [|contradiction]; destruct E as [<-|[]]; exact I|].
      apply in_map_iff in E. destruct E as (v & <- & V). rewrite Forall_forall in D. apply D, V.
    - apply deep_iff in IH. destruct IH as [_ C]. rewrite Forall_forall in C. specialize (C _ X). rewrite Forall_forall in C. auto. }
  apply deep_iff in Z. apply Z.
Qed.

(** ** UnorderedInterpret *)
Section U.
Variable com : bool.
Variable pr : proto.
Hypothesis FK : file_kinds com (p_body pr).
Hypothesis BK : forall e, element pr e -> body_kinds com e.
Definition commented : Prop := exists l c, gone_through pr l /\ In (VComment c) l.
Definition bad : Prop := (exists x, In (VEmpty x) (p_body pr)) \/ (exists b x, In (VService b) (p_body pr) /\ In (VEmpty x) (b_body b)) \/ commented.
Lemma search {A} (P : A -> Prop) (Q : Prop) l : (forall x, In x l -> P x \/ Q) -> Forall P l \/ Q.
Proof.
  induction l as [|a l IH]; intros X; [left; constructor|]. destruct (X a (or_introl eq_refl)) as [A1|A1]; [|right; exact A1].
  destruct IH as [B|B]; [intros x Y; apply X; right; exact Y|left; constructor; assumption|right; exact B].
Qed.
Lemma searchb {A} (f : A -> bool) (Q : Prop) l : (forall x, In x l -> f x = true \/ Q) -> forallb f l = true \/ Q.
Proof. intros X. apply (search (fun x => f x = true)) in X. destruct X as [X|X]; [left; apply forallb_forall; rewrite Forall_forall in X; exact X|right; exact X]. Qed.
Lemma element_body v w l : element pr (EStmt v) -> children (EStmt v) = [map EStmt l] -> In w l -> element pr (EStmt w).
Proof. intros E C X. eapply el_child; [exact E|rewrite C; left; reflexivity|apply in_map; exact X]. Qed.
Lemma top_element v : In v (p_body pr) -> element pr (EStmt v).
Proof. intros X. apply el_root. unfold roots. apply in_or_app. right. apply in_or_app. right. apply in_map. exact X. Qed.
Lemma enum_find b : element pr (EStmt (VEnum b)) -> gone_through pr (b_body b) -> forallb enum_ok (b_body b) = true \/ commented.
Proof.
  intros E G. pose proof (BK _ E) as B. cbn in B. rewrite Forall_forall in B. apply searchb. intros x X. specialize (B x X). destruct x; try contradiction; try (left; reflexivity). right. exists (b_body b). eauto.
Qed.
Lemma message_find : forall v b, v = VMessage b -> element pr (EStmt v) -> message_reached pr b -> message_ok b \/ commented.
Proof.
  intros v. induction v as [v IH] using visitee_nested. intros b -> E R. cbn [body_of] in IH. rewrite Forall_forall in IH. pose proof (BK _ E) as B. cbn in B. rewrite Forall_forall in B.
  destruct (search mstmt_ok commented (b_body b)) as [X|X]; [|left; constructor; exact X|right; exact X].
  intros x X. specialize (B x X). assert (EX : element pr (EStmt x)) by (eapply element_body; [exact E|reflexivity|exact X]).
  destruct x; try contradiction; try (left; constructor; fail).
  - right. exists (b_body b). eexists. split; [apply gt_message; exact R|exact X].
  - destruct (IH _ X _ eq_refl EX) as [Y|Y]; [eapply mr_message; eassumption|left; constructor; exact Y|right; exact Y].
  - destruct (enum_find _ EX) as [Y|Y]; [apply gt_enum; right; eauto|left; constructor; exact Y|right; exact Y].
Qed.
Lemma file_in v : In v (p_body pr) -> top v \/ (exists c, v = VComment c) \/ ((v = VNil \/ v = VEmpty (mkEmpty None)) /\ exists x, In (VEmpty x) (p_body pr)).
Proof.
  revert v. induction FK as [cs X|v l T F IH|l F IH].
  - intros v Y. apply in_map_iff in Y. destruct Y as (c & <- & _). eauto.
  - intros w [<-|Y]; [left; exact T|]. destruct (IH F w Y) as [Z|[Z|(Z & x & Z')]]; auto. right. right. split; [exact Z|]. exists x. right. exact Z'.
  - intros w Y. destruct Y as [<-|[<-|Y]]; [right; right; split; [auto|eexists; left; reflexivity]..|]. destruct (IH F w Y) as [Z|[Z|(Z & x & Z')]]; auto.
    right. right. split; [exact Z|]. exists x. right. right. exact Z'.
Qed.
Lemma nil_in x : In (VEmpty x) (p_body pr) -> In VNil (p_body pr).
Proof.
  induction FK as [cs X|v l T F IH|l F IH]; intros Y.
  - apply in_map_iff in Y. destruct Y as (c & Y & _). discriminate.
  - destruct Y as [->|Y]; [contradiction|]. right. apply IH; assumption.
  - right. left. reflexivity.
Qed.
Lemma file_find : Forall pstmt_ok (p_body pr) \/ bad.
Proof.
  apply search. intros v X. pose proof (top_element _ X) as E. destruct (file_in _ X) as [T|[[c ->]|(_ & x & Y)]].
  - destruct v; try contradiction; try (left; exact I).
    + destruct (message_find _ _ eq_refl E (mr_file _ _ X)) as [Y|Y]; [left; exact Y|right; right; right; exact Y].
    + destruct (enum_find _ E) as [Y|Y]; [apply gt_enum; left; exact X|left; exact Y|right; right; right; exact Y].
    + match goal with _ : In (VService ?b) (p_body pr) |- _ => rename b into service end. pose proof (BK _ E) as B. cbn in B. rewrite Forall_forall in B. cbn [pstmt_ok]. destruct (searchb service_ok bad (b_body service)) as [Y|Y]; [|left; exact Y|right; exact Y].
      intros w W. specialize (B w W). destruct w; try contradiction; try (left; reflexivity); right.
      * right. right. exists (b_body service). eexists. split; [apply gt_service; exact X|exact W].
      * right. left. eauto.
    + match goal with _ : In (VExtend ?b) (p_body pr) |- _ => rename b into extend end. pose proof (BK _ E) as B. cbn in B. rewrite Forall_forall in B. cbn [pstmt_ok]. destruct (searchb extend_ok bad (b_body extend)) as [Y|Y]; [|left; exact Y|right; exact Y].
      intros w W. specialize (B w W). destruct w; try contradiction; try (left; reflexivity); right.
      right. right. exists (b_body extend). eexists. split; [apply gt_extend; exact X|exact W].
  - right. right. right. exists (p_body pr). eexists. split; [apply gt_file|exact X].
  - right. left. eauto.
Qed.
Lemma ok_message b : Forall pstmt_ok (p_body pr) -> message_reached pr b -> message_ok b.
Proof.
  intros F. induction 1 as [b X|m b R IH X]; [rewrite Forall_forall in F; exact (F _ X)|]. destruct IH as [m F']. rewrite Forall_forall in F'. specialize (F' _ X). inversion F'. assumption.
Qed.
Lemma file_bad : Forall pstmt_ok (p_body pr) -> ~ bad.
Proof.
  intros F B. pose proof F as F0. rewrite Forall_forall in F. destruct B as [[x X]|[(b & x & X & Y)|(l & c & G & X)]].
  - apply nil_in in X. exact (F _ X).
  - specialize (F _ X). cbn in F. rewrite forallb_forall in F. discriminate (F _ Y).
  - destruct G as [|b R|b R|b R|b R].
    + exact (F _ X).
    + destruct (ok_message _ F0 R) as [b M]. rewrite Forall_forall in M. specialize (M _ X). inversion M.
    + assert (Z : forallb enum_ok (b_body b) = true).
      { destruct R as [R|(m & R & Y)]; [exact (F _ R)|]. destruct (ok_message _ F0 R) as [m M]. rewrite Forall_forall in M. specialize (M _ Y). inversion M. assumption. }
      rewrite forallb_forall in Z. discriminate (Z _ X).
    + specialize (F _ R). cbn in F. rewrite forallb_forall in F. discriminate (F _ X).
    + specialize (F _ R). cbn in F. rewrite forallb_forall in F. discriminate (F _ X).
Qed.
Lemma unordered_none : UnorderedInterpret pr = None <-> bad.
Proof.
  pose proof (InterpretProto_spec pr) as S. unfold UnorderedInterpret. destruct (InterpretProto pr) as [r|].
  - destruct S as [S _]. split; [discriminate|]. intros B. exfalso. exact (file_bad S B).
  - split; [|reflexivity]. intros _. destruct file_find as [X|X]; [contradiction|exact X].
Qed.
Lemma no_comments : com = false -> ~ commented.
Proof.
  intros -> (l & c & G & X). assert (M : forall b, message_reached pr b -> element pr (EStmt (VMessage b))).
  { induction 1 as [b Y|m b R IH Y]; [apply top_element; exact Y|eapply element_body; [exact IH|reflexivity|exact Y]]. }
  destruct G as [|b R|b R|b R|b R].
  - clear BK M. revert X. induction FK as [cs Y|v l T F IH|l F IH]; intros X.
    + destruct Y as [Y | ->]; [discriminate|contradiction].
    + destruct X as [->|X]; [contradiction|auto].
    + destruct X as [X|[X|X]]; [discriminate|discriminate|auto].
  - specialize (BK _ (M _ R)). cbn in BK. rewrite Forall_forall in BK. discriminate (BK _ X).
  - assert (E : element pr (EStmt (VEnum b))) by (destruct R as [R|(m & R & Y)]; [apply top_element; exact R|eapply element_body; [apply M; exact R|reflexivity|exact Y]]).
    specialize (BK _ E). cbn in BK. rewrite Forall_forall in BK. discriminate (BK _ X).
  - specialize (BK _ (top_element _ R)). cbn in BK. rewrite Forall_forall in BK. discriminate (BK _ X).
  - specialize (BK _ (top_element _ R)). cbn in BK. rewrite Forall_forall in BK. discriminate (BK _ X).
Qed.
End U.
Lemma unordered_class opts input pr : Parse opts input = Ok pr ->
  (UnorderedInterpret pr = None <->
   (exists x, In (VEmpty x) (p_body pr)) \/
   (exists b x, In (VService b) (p_body pr) /\ In (VEmpty x) (b_body b)) \/
   (exists l c, gone_through pr l /\ In (VComment c) l)).
Proof. intros P. destruct (parse_kinds _ _ _ P) as [F B]. exact (unordered_none _ pr F B). Qed.
Lemma unordered_class_plain opts input pr : Parse opts input = Ok pr -> cfg_bodyIncludingComments (config_of opts) = false ->
  (UnorderedInterpret pr = None <->
   (exists x, In (VEmpty x) (p_body pr)) \/ (exists b x, In (VService b) (p_body pr) /\ In (VEmpty x) (b_body b))).
Proof.
  intros P C. rewrite (unordered_class _ _ _ P). destruct (parse_kinds _ _ _ P) as [F B]. pose proof (no_comments _ pr F B C). unfold commented in *. intuition.
Qed.
