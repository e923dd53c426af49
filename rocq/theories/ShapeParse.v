(** Every parse function returns proper elements, on any input. *)
From Coq Require Import List NArith ZArith Bool String Ascii Lia.
From Verif Require Import Base Token Scanner Lexer Ast Parser Api LexSpec LexProofs Refine Spec Direct Tree Shape ShapeTree.
Import ListNotations.
Open Scope N_scope.
Open Scope monad_scope.

Lemma Lx_ident s : Lx s -> ltok s = TIDENT -> is_ident (ltext s). Proof. apply Lx_tok. Qed.
Lemma Lx_int s : Lx s -> ltok s = TINTLIT -> is_int (ltext s). Proof. apply Lx_tok. Qed.
Lemma Lx_str s : Lx s -> ltok s = TSTRLIT -> quoted (ltext s). Proof. apply Lx_tok. Qed.
Lemma Lx_quote s : Lx s -> ltok s = TQUOTE -> is_quote_mark (ltext s). Proof. apply Lx_tok. Qed.
#[global] Hint Resolve Lx_ident Lx_int Lx_str Lx_quote : vd.
Lemma CFo_list o : CFo o -> Forall CF (opt_list (fun c => c) o).
Proof. destruct o; cbn; intros; constructor; auto. Qed.
#[global] Hint Resolve CFo_list : vd.

(** ** Setters *)
Lemma all_comments e : Forall CF (e_all_comments e) <-> Forall CF (e_comments e) /\ CFo (e_inline e) /\ Forall CF (e_inner e).
Proof.
  unfold e_all_comments. rewrite !Forall_app. destruct (e_inline e); cbn; [|intuition]. rewrite Forall_cons_iff. intuition.
Qed.
Lemma good_iff e : Good e <-> proper e /\ (Forall CF (e_comments e) /\ CFo (e_inline e) /\ Forall CF (e_inner e)) /\ Forall (Forall Good) (children e).
Proof. rewrite <- all_comments. split; [intros []; auto|intros (A & B & C); constructor; auto]. Qed.
Lemma good_with cs v : GoodS v -> Forall CF cs -> GoodS (with_comments cs v).
Proof. unfold GoodS. rewrite !good_iff. intros (A & (_ & B & C) & D) F. destruct v; try (split; [exact A|split; [split; [exact F|split; [exact B|exact C]]|exact D]]). all: split; [exact A|split; [split; [constructor|split; [exact B|exact C]]|exact D]]. Qed.
Lemma good_inline c v v' : GoodS v -> CF c -> set_inline c v = Some v' -> GoodS v'.
Proof.
  unfold GoodS. rewrite !good_iff. intros (A & (B & _ & C) & D) F E. destruct v; try discriminate; injection E as <-; try (split; [exact A|split; [split; [exact B|split; [exact F|exact C]]|exact D]]).
  split; [exact A|split; [split; [constructor|split; [exact I|exact C]]|exact D]].
Qed.
Lemma good_empty : GoodS (VEmpty (mkEmpty None)).
Proof. apply good_iff. split; [exact I|]. split; [split; [constructor|split; [exact I|constructor]]|constructor]. Qed.
Lemma good_comment c : CF c -> GoodS (VComment c).
Proof. intros H. apply good_iff. split; [exact I|]. split; [split; [constructor|split; [exact I|constructor; [exact H|constructor]]]|constructor]. Qed.
Lemma good_body_comments bic cs : Forall CF cs -> Forall GoodS (body_comments bic cs).
Proof. intros H. unfold body_comments. destruct bic; [|constructor]. rewrite Forall_map. eapply Forall_impl; [|exact H]. intros. apply good_comment. assumption. Qed.
Lemma V_maybe_inline v : GoodS v -> V (MaybeScanInlineComment set_inline v) GoodS.
Proof. intros H. apply V_maybe; [exact H|]. intros. eapply good_inline; eassumption. Qed.
#[global] Hint Resolve good_with good_empty V_maybe_inline good_body_comments : vd.
Lemma V_recover e : V (recoverEmpty e) GoodS.
Proof. wstart. unfold recoverEmpty. ws. split; [assumption|apply good_empty]. Qed.
#[global] Hint Resolve V_recover : vd.

(** ** Statements *)
Ltac gd := split; [assumption|]; apply good_iff; cbn -[lit]; (split; [|split; [split; [constructor|split; [exact I|auto with vd]]|repeat constructor]]).
Lemma V_ParseOption p : V (ParseOption p) (fun o => GoodS (VOption o) /\ Good (EOption o)).
Proof. wstart. unfold ParseOption. ws. split; [assumption|]. split; apply good_iff; cbn; intuition constructor. Qed.
Lemma V_ParseOptionS p : V (ParseOption p) (fun o => GoodS (VOption o)).
Proof. eapply V_weak; [apply V_ParseOption|]. intros a []. assumption. Qed.
Lemma V_ParseSyntax : V ParseSyntax (fun o => match o with Some x => Good (ESyntax x) | None => True end).
Proof.
  wstart. unfold ParseSyntax. ws. gd. split.
  - apply andb_false_iff in E0. rewrite !negb_false_iff in E0. destruct E0 as [E0|E0]; apply str_eqb_eq in E0; [right|left]; exact E0.
  - eexists _, _. split; [|split; [|reflexivity]]; auto with vd.
Qed.
Lemma V_ParseEdition : V ParseEdition (fun o => match o with Some x => Good (EEdition x) | None => True end).
Proof.
  wstart. unfold ParseEdition. ws. gd. split; [auto with vd|]. eexists _, _. split; [|split; [|reflexivity]]; auto with vd.
Qed.
Lemma V_ParseImport : V ParseImport (fun i => GoodS (VImport i)).
Proof.
  wstart. unfold ParseImport. do 6 w. w. w. w. w. w. eapply W_call with (Phi := fun _ => True); [|assumption|]; [intros s9 L9; ws|]. intros. ws. gd. auto with vd.
Qed.
Lemma V_ParsePackage : V ParsePackage (fun i => GoodS (VPackage i)).
Proof. pose proof (V_or _ "fullIdent"%string _ V_ReadFullIdent). wstart. unfold ParsePackage. ws. gd. exact I. Qed.
#[global] Hint Resolve V_ParseSyntax V_ParseEdition V_ParseImport V_ParsePackage V_ParseOptionS : vd.
Lemma V_parseType : V0 parseType. Proof. wstart. unfold parseType. ws. Qed.
Lemma V_parseFieldNumber : V parseFieldNumber is_int.
Proof. wstart. unfold parseFieldNumber. ws. split; auto with vd. Qed.
Lemma V_orType e : V0 (or_unexpected parseType e). Proof. apply V_or, V_parseType. Qed.
Lemma V_orNumber e : V (or_unexpected parseFieldNumber e) is_int. Proof. apply V_or, V_parseFieldNumber. Qed.
#[global] Hint Resolve V_parseType V_parseFieldNumber V_orType V_orNumber : vd.
Lemma V_parseFieldOption p : V0 (parseFieldOption p). Proof. wstart. unfold parseFieldOption. ws. Qed.
#[global] Hint Resolve V_parseFieldOption V_or : vd.
Lemma V_fieldOptions_loop p n : forall o, V0 (fieldOptions_loop p n o).
Proof. induction n as [|n IH]; intros o; wstart; cbn [fieldOptions_loop]; ws. Qed.
#[global] Hint Resolve V_fieldOptions_loop : vd.
Lemma V_parseFieldOptions p : V0 (parseFieldOptions p). Proof. wstart. unfold parseFieldOptions. ws. Qed.
#[global] Hint Resolve V_parseFieldOptions : vd.
Lemma V_parseFieldOptionsOption p : V0 (parseFieldOptionsOption p). Proof. wstart. unfold parseFieldOptionsOption. ws. Qed.
#[global] Hint Resolve V_parseFieldOptionsOption : vd.
Definition lab_ok (x : mpos * (bool * bool * bool)) : Prop := match x with (_, (a, b, c)) => one_label a b c end.
Lemma V_parseLabel : V parseLabel lab_ok.
Proof. wstart. unfold parseLabel. ws; (split; [assumption|repeat split]). Qed.
#[global] Hint Resolve V_parseLabel : vd.
Lemma V_ParseField p : V (ParseField p) (fun f => GoodS (VField f)).
Proof. wstart. unfold ParseField. ws. gd. repeat split; auto with vd; cbn in *; try apply H1; auto. Qed.
Lemma str_mem_In x l : str_mem x l = true -> In x l.
Proof. unfold str_mem. rewrite existsb_exists. intros (y & I & E). apply str_eqb_eq in E. subst. exact I. Qed.
Lemma V_parseKeyType : V parseKeyType (fun x => In x map_keys).
Proof. wstart. unfold parseKeyType. ws. split; [assumption|]. apply str_mem_In in E. exact E. Qed.
#[global] Hint Resolve V_ParseField V_parseKeyType : vd.
Lemma V_ParseMapField p : V (ParseMapField p) (fun f => GoodS (VMapField f)).
Proof. wstart. unfold ParseMapField. ws. gd. repeat split; auto with vd. Qed.
Lemma V_defer {A} (k : M A) Phi : V k Phi -> V (deferUnNext k) Phi.
Proof. intros H s L. unfold deferUnNext. ws. split; assumption. Qed.
#[global] Hint Resolve V_ParseMapField V_defer : vd.
Lemma V_tail : V0 peekIsGroup_tail.
Proof.
  unfold peekIsGroup_tail. intros s L. w. w. apply V_defer; [|assumption]. intros s1 L1. w. w. w; [ws|]. w. w. apply V_defer; [|assumption]. intros s2 L2. ws.
  apply V_defer; [|assumption]. intros s3 L3. w. w. w; [ws|]. w. w.
  - apply V_defer; [|assumption]. intros s4 L4. w. w. apply V_defer; [|assumption]. intros s5 L5. ws.
  - apply V_defer; [|assumption]. intros s4 L4. ws.
Qed.
#[global] Hint Resolve V_tail : vd.
Lemma V_peekIsGroup : V0 peekIsGroup.
Proof. wstart. unfold peekIsGroup. ws. Qed.
Lemma V_blockEnd p : V0 (blockEnd p). Proof. wstart. unfold blockEnd. ws. Qed.
#[global] Hint Resolve V_peekIsGroup V_blockEnd : vd.
Lemma V_parseOneofField p : V (parseOneofField p) (fun f => Good (EOneofField f)).
Proof. wstart. unfold parseOneofField. ws. gd. repeat split; auto with vd. Qed.
#[global] Hint Resolve V_parseOneofField : vd.
Lemma V_set_op cs o : Good (EOption o) -> Forall CF cs -> V (MaybeScanInlineComment (total_set set_op_inline) (set_op_comments cs o)) (fun o => Good (EOption o)).
Proof.
  rewrite good_iff. intros (A & (_ & B & C) & D) F. apply V_maybe.
  - apply good_iff. split; [exact A|split; [split; [exact F|split; [exact B|exact C]]|exact D]].
  - intros c x K E. injection E as <-. apply good_iff. split; [exact A|split; [split; [exact F|split; [exact K|exact C]]|exact D]].
Qed.
Lemma V_set_oof cs o : Good (EOneofField o) -> Forall CF cs -> V (MaybeScanInlineComment (total_set set_oof_inline) (set_oof_comments cs o)) (fun o => Good (EOneofField o)).
Proof.
  rewrite good_iff. intros (A & (_ & B & C) & D) F. apply V_maybe.
  - apply good_iff. split; [exact A|split; [split; [exact F|split; [exact B|exact C]]|exact D]].
  - intros c x K E. injection E as <-. apply good_iff. split; [exact A|split; [split; [exact F|split; [exact K|exact C]]|exact D]].
Qed.
Definition oneof_ok (r : list oneofField * list option_) : Prop :=
  Forall (fun f => Good (EOneofField f)) (fst r) /\ Forall (fun o => Good (EOption o)) (snd r).
Lemma Forall_snoc {A} (P : A -> Prop) l x : Forall P l -> P x -> Forall P (l ++ [x]).
Proof. intros. apply Forall_app. auto. Qed.
#[global] Hint Resolve Forall_snoc : vd.
Lemma snoc_ne {A} (l : list A) x : l ++ [x] <> []. Proof. destruct l; discriminate. Qed.
#[global] Hint Resolve snoc_ne : vd.
Lemma V_oneof_loop p n : forall f o, oneof_ok (f, o) -> V (oneof_loop p n f o) (fun r => oneof_ok r /\ (fst r <> [] \/ snd r <> [])).
Proof.
  induction n as [|n IH]; intros f o [HF HO] s L; [exact I|]. cbn [oneof_loop]. cbn [fst snd] in *. w. w. w.
  - w. apply IH; [split; assumption|assumption].
  - w. w. w. w.
    + w. eapply W_call; [apply V_ParseOption|assumption|]. intros o1 s3 L3 [_ G3]. w. eapply W_call; [apply V_set_op; eassumption|assumption|]. intros o2 s4 L4 G4. w. w. w. w. w. w.
      * w. split; [assumption|]. split; [split; cbn; auto with vd|]. right. cbn. auto with vd.
      * w. w. apply IH; [split; cbn; auto with vd|assumption].
    + w. w. w. eapply W_call; [apply V_set_oof; eassumption|assumption|]. intros o2 s4 L4 G4. w. w. w. w. w. w.
      * w. split; [assumption|]. split; [split; cbn; auto with vd|]. left. cbn. auto with vd.
      * w. w. apply IH; [split; cbn; auto with vd|assumption].
Qed.
Lemma V_oneof p n : V (oneof_loop p n [] []) (fun r => oneof_ok r /\ (fst r <> [] \/ snd r <> [])).
Proof. apply V_oneof_loop. split; constructor. Qed.
#[global] Hint Resolve V_oneof : vd.
Lemma V_ParseOneof p : V (ParseOneof p) (fun o => GoodS (VOneof o)).
Proof.
  wstart. unfold ParseOneof. ws. match goal with H : oneof_ok _ /\ _ |- _ => destruct H as [[HF HO] NE] end. cbn in *. split; [assumption|]. apply good_iff. cbn. split; [split; auto with vd|]. split; [split; [constructor|split; [exact I|auto with vd]]|].
  constructor; [rewrite Forall_map; exact HF|constructor; [rewrite Forall_map; exact HO|constructor]].
Qed.
Lemma V_parseRange : V parseRange range_ok.
Proof.
  wstart. unfold parseRange. ws; (split; [assumption|]); apply negb_false_iff, tokb_eq in E; split; cbn; auto with vd. right.
  apply orb_true_iff in E1. destruct E1 as [E1|E1]; [left; apply tokb_eq in E1; auto with vd|right; apply str_eqb_eq in E1; exact E1].
Qed.
#[global] Hint Resolve V_ParseOneof V_parseRange : vd.
Lemma V_ranges_loop n : forall l, Forall range_ok l -> l <> [] -> V (ranges_loop n l) (fun l => Forall range_ok l /\ l <> []).
Proof. induction n as [|n IH]; intros l H NE s L; cbn [ranges_loop]; [exact I|]. w. w. w. w. w; [ws; split; auto|]. w. w. apply IH; auto with vd. Qed.
Lemma V_parseRanges : V parseRanges (fun l => Forall range_ok l /\ l <> []).
Proof. wstart. unfold parseRanges. w. w. w. w. apply V_ranges_loop; [constructor; [exact H1|constructor]|discriminate|assumption]. Qed.
Definition fname (x : str) : Prop := quoted x \/ is_ident x.
Lemma V_parseFieldName : V parseFieldName fname.
Proof.
  wstart. unfold parseFieldName. w.
  - eapply W_call with (Phi := quoted); [|assumption|].
    + intros s1 L1. unfold parseQuotedFieldName. ws. apply negb_false_iff, tokb_eq in E. split; auto with vd.
    + intros. w. split; [assumption|left; assumption].
  - ws. apply negb_false_iff, tokb_eq in E. split; [assumption|right; auto with vd].
Qed.
#[global] Hint Resolve V_parseRanges V_parseFieldName : vd.
Lemma V_fieldNames_loop n : forall l, Forall fname l -> l <> [] -> V (fieldNames_loop n l) (fun l => Forall fname l /\ l <> []).
Proof.
  induction n as [|n IH]; intros l H NE s L; cbn [fieldNames_loop]; [exact I|]. w. w. w. w. w; [w; w; apply IH; auto with vd|]. w. w. w.
  - w. apply IH; auto with vd.
  - w. split; auto.
Qed.
Lemma V_parseFieldNames : V parseFieldNames (fun l => Forall fname l /\ l <> []).
Proof. wstart. unfold parseFieldNames. w. w. w. w. apply V_fieldNames_loop; [constructor; [exact H1|constructor]|discriminate|assumption]. Qed.
#[global] Hint Resolve V_parseFieldNames : vd.
Lemma V_ParseReserved : V ParseReserved (fun r => GoodS (VReserved r)).
Proof. wstart. unfold ParseReserved. ws; gd; match goal with H : (fun _ => _ /\ _) _ |- _ => destruct H as [HA HB] end; (split; [auto|split; [auto|]]); [right|left]; auto. Qed.
Lemma V_declaration_loop n : forall v, V0 (declaration_loop n v).
Proof.
  induction n as [|n IH]; intros v; wstart; cbn [declaration_loop]; [exact I|]. w. w. w. w. w; [ws|]. w. eapply W_call with (Phi := fun _ => True); [|assumption|]; [intros s1 L1; ws|]. intros. w. w. w. w. w.
  eapply W_call with (Phi := fun _ => True); [|assumption|]; [intros s1 L1; ws|]. intros. apply IH. assumption.
Qed.
#[global] Hint Resolve V_ParseReserved V_declaration_loop : vd.
Lemma V_ParseDeclaration : V ParseDeclaration (fun d => Good (EDeclaration d)).
Proof. wstart. unfold ParseDeclaration. ws. gd. exact I. Qed.
#[global] Hint Resolve V_ParseDeclaration : vd.
Lemma good_assign d l : Good (EDeclaration d) -> Forall CFo l -> Good (EDeclaration (assignInlineComments d l)).
Proof.
  intros G F. revert d G. induction F as [|c l HC F IH]; intros d G; [exact G|]. cbn. apply IH. destruct c as [c|]; [|exact G]. apply good_iff in G. destruct G as (A & (B & _ & C) & D). apply good_iff.
  split; [exact A|split; [split; [exact B|split; [exact HC|exact C]]|exact D]].
Qed.
Lemma good_d_comments d cs : Good (EDeclaration d) -> Forall CF cs -> Good (EDeclaration (set_d_comments cs d)).
Proof. rewrite !good_iff. intros (A & (_ & B & C) & D) F. split; [exact A|split; [split; [exact F|split; [exact B|exact C]]|exact D]]. Qed.
#[global] Hint Resolve good_assign good_d_comments : vd.
Lemma V_declarations_loop n : forall l, Forall (fun d => Good (EDeclaration d)) l -> V (declarations_loop n l) (Forall (fun d => Good (EDeclaration d))).
Proof.
  induction n as [|n IH]; intros l H s L; cbn [declarations_loop]; [exact I|]. w. w. w. w. cbv zeta. w. w. w. w. w. w. w.
  - ws. split; [assumption|]. apply Forall_snoc; [exact H|]. apply good_assign; [apply good_d_comments; assumption|]. repeat constructor; assumption.
  - w; [ws|]. w. w. apply IH; [|assumption]. apply Forall_snoc; [exact H|]. apply good_assign; [apply good_d_comments; assumption|]. repeat constructor; assumption.
Qed.
Lemma V_declarations n : V (declarations_loop n []) (Forall (fun d => Good (EDeclaration d))).
Proof. apply V_declarations_loop. constructor. Qed.
#[global] Hint Resolve V_declarations : vd.
Lemma V_parseDeclarations : V parseDeclarations (fun r => Forall (fun d => Good (EDeclaration d)) (fst r) /\ CFo (snd r)).
Proof. wstart. unfold parseDeclarations. ws; (split; [assumption|]); split; cbn; auto; constructor. Qed.
#[global] Hint Resolve V_parseDeclarations : vd.
Lemma V_ParseExtensions : V ParseExtensions (fun x => GoodS (VExtensions x)).
Proof.
  wstart. unfold ParseExtensions. ws. cbn in *. split; [assumption|]. apply good_iff. cbn. split; [tauto|]. split; [split; [constructor|split; [exact I|apply CFo_list; tauto]]|]. constructor; [rewrite Forall_map; tauto|constructor].
Qed.
Lemma V_parseEnumValueOption p : V0 (parseEnumValueOption p). Proof. wstart. unfold parseEnumValueOption. ws. Qed.
#[global] Hint Resolve V_ParseExtensions V_parseEnumValueOption : vd.
Lemma V_enumValueOptions_loop p n : forall o, V0 (enumValueOptions_loop p n o).
Proof. induction n as [|n IH]; intros o; wstart; cbn [enumValueOptions_loop]; ws. Qed.
#[global] Hint Resolve V_enumValueOptions_loop : vd.
Lemma V_parseEnumValueOptions p : V0 (parseEnumValueOptions p). Proof. wstart. unfold parseEnumValueOptions. ws. Qed.
#[global] Hint Resolve V_parseEnumValueOptions : vd.
Lemma V_parseEnumField p : V (parseEnumField p) (fun f => GoodS (VEnumField f)).
Proof.
  wstart. unfold parseEnumField. cbv zeta. ws. gd. split; [auto with vd|]. destruct (tok_eqb _ TMINUS); [right|left]; [|cbn; auto with vd]. eexists. split; [reflexivity|auto with vd].
Qed.
#[global] Hint Resolve V_parseEnumField : vd.

(** ** Bodies *)
Definition body_ok (r : body_result) : Prop := match r with (l, ilc, _) => Forall GoodS l /\ CFo ilc end.
Lemma body_end bic s l cs ilc p : Lx s -> Forall GoodS l -> Forall CF cs -> CFo ilc -> Lx s /\ body_ok (l ++ body_comments bic cs, ilc, p).
Proof. intros. split; [assumption|]. split; [|assumption]. apply Forall_app. auto with vd. Qed.
Ltac bodyloop IH := 
  match goal with |- W (match ?t with _ => _ end _) _ => assert (HT : t = TRIGHTCURLY \/ t <> TRIGHTCURLY) by (destruct t; (left; reflexivity) || (right; discriminate)) end.
Lemma V_enumBody_loop p bic ilc n : CFo ilc -> forall l, Forall GoodS l -> V (enumBody_loop p bic ilc n l) body_ok.
Proof.
  intros HC. induction n as [|n IH]; intros l H s L; cbn [enumBody_loop]; [exact I|]. w. w. w. w.
  assert (X : V (stmt <- match a0 with
              | TOPTION => o <- ParseOption p;; ret (with_comments a (VOption o))
              | TRESERVED => r <- ParseReserved;; ret (with_comments a (VReserved r))
              | _ =>
                try (parseEnumField p) (fun r =>
                  match r with
                  | inl f => ret (with_comments a (VEnumField f))
                  | inr e => recoverEmpty e
                  end)
              end;;
      stmt <- MaybeScanInlineComment set_inline stmt;;
      enumBody_loop p bic ilc n (l ++ [stmt])) body_ok).
  { intros s2 L2. w. eapply W_call with (Phi := GoodS); [|assumption|].
    - intros s3 L3. destruct a0; ws; (split; [assumption|auto with vd]).
    - intros. w. w. apply IH; auto with vd. }
  destruct a0; try (apply X; assumption). ws. apply body_end; assumption.
Qed.
Lemma V_enumBody p bic ilc n : CFo ilc -> V (enumBody_loop p bic ilc n []) body_ok.
Proof. intros H. apply V_enumBody_loop; [exact H|constructor]. Qed.
#[global] Hint Resolve V_enumBody : vd.
Lemma V_parseEnumBody p bic : V (parseEnumBody p bic) body_ok.
Proof. wstart. unfold parseEnumBody. ws. split; assumption. Qed.
#[global] Hint Resolve V_parseEnumBody : vd.
Ltac blk := split; [assumption|]; apply good_iff; cbn; (split; [auto with vd|split; [split; [constructor|split; [exact I|apply CFo_list; match goal with H : body_ok _ |- _ => apply H end]]|constructor; [rewrite Forall_map; match goal with H : body_ok _ |- _ => apply H end|constructor]]]).
Lemma V_ParseEnum p bic : V (ParseEnum p bic) (fun b => GoodS (VEnum b)).
Proof. wstart. unfold ParseEnum. ws. blk. Qed.
Lemma V_emptyBody p : V0 (emptyBody p). Proof. wstart. unfold emptyBody. ws. Qed.
#[global] Hint Resolve V_ParseEnum V_emptyBody : vd.
Lemma V_extendBody_loop p bic ilc n : CFo ilc -> forall l, Forall GoodS l -> V (extendBody_loop p bic ilc n l) body_ok.
Proof.
  intros HC. induction n as [|n IH]; intros l H s L; cbn [extendBody_loop]; [exact I|]. w. w. w. w.
  assert (X : V (stmt <- try (ParseField p) (fun r =>
                match r with
                | inl f => ret (with_comments a (VField f))
                | inr e => recoverEmpty e
                end);;
      stmt <- MaybeScanInlineComment set_inline stmt;;
      extendBody_loop p bic ilc n (l ++ [stmt])) body_ok).
  { intros s2 L2. w. eapply W_call with (Phi := GoodS); [|assumption|].
    - intros s3 L3. ws; (split; [assumption|auto with vd]).
    - intros. w. w. apply IH; auto with vd. }
  destruct a0; try (apply X; assumption). ws. apply body_end; assumption.
Qed.
Lemma V_extendBody p bic ilc n : CFo ilc -> V (extendBody_loop p bic ilc n []) body_ok.
Proof. intros H. apply V_extendBody_loop; [exact H|constructor]. Qed.
#[global] Hint Resolve V_extendBody : vd.
Lemma V_parseExtendBody p bic : V (parseExtendBody p bic) body_ok.
Proof. wstart. unfold parseExtendBody. ws; (split; [assumption|]); [split; [constructor|exact I]|assumption]. Qed.
#[global] Hint Resolve V_parseExtendBody : vd.
Lemma V_ParseExtend p bic : V (ParseExtend p bic) (fun b => GoodS (VExtend b)).
Proof. wstart. unfold ParseExtend. ws. blk. Qed.
#[global] Hint Resolve V_ParseExtend : vd.
Lemma capital x : isCapitalized x = true -> upper_start x.
Proof. destruct x as [|c l]; [discriminate|]. cbn -[N.leb]. rewrite andb_true_iff, !N.leb_le. change (ch "A") with 65. change (ch "Z") with 90. intros. exists c, l. auto. Qed.
Lemma V_ParseGroupField mb : V mb body_ok -> V (ParseGroupField mb) (fun g => GoodS (VGroupField g)).
Proof.
  intros HM. wstart. unfold ParseGroupField. ws. apply negb_false_iff, capital in E2. split; [assumption|]. apply good_iff. cbn. split; [|split; [split; [constructor|split; [exact I|apply CFo_list; match goal with H : body_ok _ |- _ => apply H end]]|constructor; [rewrite Forall_map; match goal with H : body_ok _ |- _ => apply H end|constructor]]].
  repeat split; auto with vd; cbn in *; apply H1.
Qed.
Lemma V_ParseMessage_ mb : V mb body_ok -> V (ParseMessage_ mb) (fun b => GoodS (VMessage b)).
Proof. intros HM. wstart. unfold ParseMessage_. ws. blk. Qed.
#[global] Hint Resolve V_ParseGroupField V_ParseMessage_ : vd.
Lemma V_messageStmt p bic mb t cs : V mb body_ok -> Forall CF cs -> V (messageStmt p bic mb t cs) GoodS.
Proof. intros HM HC. wstart. unfold messageStmt. destruct t; ws; (split; [assumption|auto with vd]). Qed.
#[global] Hint Resolve V_messageStmt : vd.
Lemma V_messageBody_loop p bic mb ilc n : V mb body_ok -> CFo ilc -> forall l, Forall GoodS l -> V (messageBody_loop p bic mb ilc n l) body_ok.
Proof.
  intros HM HC. induction n as [|n IH]; intros l H s L; cbn [messageBody_loop]; [exact I|]. w. w. w. w.
  assert (X : V (stmt <- messageStmt p bic mb a0 a;;
      stmt <- MaybeScanInlineComment set_inline stmt;;
      messageBody_loop p bic mb ilc n (l ++ [stmt])) body_ok).
  { intros s2 L2. w. w. w. w. apply IH; auto with vd. }
  destruct a0; try (apply X; assumption). ws. apply body_end; assumption.
Qed.
Lemma V_messageBody p bic mb ilc n : V mb body_ok -> CFo ilc -> V (messageBody_loop p bic mb ilc n []) body_ok.
Proof. intros HM H. apply V_messageBody_loop; [exact HM|exact H|constructor]. Qed.
#[global] Hint Resolve V_messageBody : vd.
Lemma V_parseMessageBody p bic n : V (parseMessageBody p bic n) body_ok.
Proof. induction n as [|n IH]; wstart; cbn [parseMessageBody]; ws; (split; [assumption|]); [split; [constructor|exact I]|assumption]. Qed.
#[global] Hint Resolve V_parseMessageBody : vd.
Lemma V_ParseMessage p bic n : V (ParseMessage p bic n) (fun b => GoodS (VMessage b)).
Proof. apply V_ParseMessage_, V_parseMessageBody. Qed.
#[global] Hint Resolve V_ParseMessage : vd.
Lemma good_op o : GoodS (VOption o) -> Good (EOption o).
Proof. unfold GoodS. rewrite !good_iff. exact (fun H => H). Qed.
Lemma V_rpcOptions_loop p n : forall l, Forall (fun o => Good (EOption o)) l -> V (rpcOptions_loop p n l) (Forall (fun o => Good (EOption o))).
Proof.
  induction n as [|n IH]; intros l H s L; cbn [rpcOptions_loop]; [exact I|]. w. w. w. eapply W_call with (Phi := Forall (fun o => Good (EOption o))); [|assumption|].
  - intros s1 L1. destruct a; ws; try (split; assumption). split; auto using good_op with vd.
  - intros. ws; split; assumption.
Qed.
Lemma V_rpcOptions p n : V (rpcOptions_loop p n []) (Forall (fun o => Good (EOption o))).
Proof. apply V_rpcOptions_loop. constructor. Qed.
#[global] Hint Resolve V_rpcOptions : vd.
Lemma V_parseRPCOptions p : V (parseRPCOptions p) (fun r => Forall (fun o => Good (EOption o)) (fst r) /\ CFo (snd r)).
Proof. wstart. unfold parseRPCOptions. ws. split; [assumption|]. split; assumption. Qed.
Lemma V_parseRPCParam : V0 parseRPCParam. Proof. wstart. unfold parseRPCParam. ws. Qed.
#[global] Hint Resolve V_parseRPCOptions V_parseRPCParam : vd.
Lemma good_param p : Good (EParam p). Proof. apply good_iff. cbn. intuition constructor. Qed.
Definition rpc_tail_ok (r : list option_ * option comment * mpos) : Prop := match r with (o, c, _) => Forall (fun o => Good (EOption o)) o /\ CFo c end.
Lemma V_parseRPC p : V (parseRPC p) (fun r => GoodS (VRPC r)).
Proof.
  wstart. unfold parseRPC. repeat (lazymatch goal with |- W (bind (match ltok _ with _ => _ end) _ _) _ => fail | _ => w end). w. eapply W_call with (Phi := rpc_tail_ok); [|assumption|].
  - intros s1 L1. ws; (split; [assumption|]); cbn in *; first [tauto|repeat constructor].
  - intros [[o c] lp] s1 L1 [HO HC]. w. split; [assumption|]. apply good_iff. cbn. split; [auto with vd|]. split; [split; [constructor|split; [exact I|apply Forall_app; split; [assumption|apply CFo_list; exact HC]]]|].
    constructor; [|constructor]. constructor; [apply good_param|]. constructor; [apply good_param|]. rewrite Forall_map. exact HO.
Qed.
#[global] Hint Resolve V_parseRPC : vd.
Lemma V_serviceBody_loop p bic ilc n : CFo ilc -> forall l, Forall GoodS l -> V (serviceBody_loop p bic ilc n l) body_ok.
Proof.
  intros HC. induction n as [|n IH]; intros l H s L; cbn [serviceBody_loop]; [exact I|]. w. w. w. w.
  assert (X : V (stmt <- match a0 with
              | TOPTION => o <- ParseOption p;; ret (with_comments a (VOption o))
              | TRPC => r <- parseRPC p;; ret (with_comments a (VRPC r))
              | _ => ReadEmptyStatement;; ret (VEmpty (mkEmpty None))
              end;;
      stmt <- MaybeScanInlineComment set_inline stmt;;
      serviceBody_loop p bic ilc n (l ++ [stmt])) body_ok).
  { intros s2 L2. w. eapply W_call with (Phi := GoodS); [|assumption|].
    - intros s3 L3. destruct a0; ws; (split; [assumption|auto with vd]).
    - intros. w. w. apply IH; auto with vd. }
  destruct a0; try (apply X; assumption). ws. apply body_end; assumption.
Qed.
Lemma V_serviceBody p bic ilc n : CFo ilc -> V (serviceBody_loop p bic ilc n []) body_ok.
Proof. intros H. apply V_serviceBody_loop; [exact H|constructor]. Qed.
#[global] Hint Resolve V_serviceBody : vd.
Lemma V_parseServiceBody p bic : V (parseServiceBody p bic) body_ok.
Proof. wstart. unfold parseServiceBody. ws. split; assumption. Qed.
#[global] Hint Resolve V_parseServiceBody : vd.
Lemma V_ParseService p bic : V (ParseService p bic) (fun b => GoodS (VService b)).
Proof. wstart. unfold ParseService. ws. blk. Qed.
#[global] Hint Resolve V_ParseService : vd.
Lemma good_nil : GoodS VNil. Proof. apply good_iff. cbn. intuition constructor. Qed.
Lemma V_protoStmt p bic n t cs : Forall CF cs -> V (protoStmt p bic n t cs) (fun r => Forall GoodS (fst r) /\ GoodS (snd r)).
Proof.
  intros HC. wstart. unfold protoStmt. destruct t; ws; (split; [assumption|]); (split; [repeat constructor; apply good_empty || constructor|cbn -[with_comments]; auto using good_nil with vd]).
Qed.
#[global] Hint Resolve V_protoStmt : vd.
Lemma V_protoBody_loop p bic n : forall l, Forall GoodS l -> V (protoBody_loop p bic n l) (Forall GoodS).
Proof.
  induction n as [|n IH]; intros l H s L; cbn [protoBody_loop]; [exact I|]. w. w. w. w. w.
  - w. split; [assumption|]. apply Forall_app. auto with vd.
  - w. w. w. eapply W_call; [apply V_protoStmt; eassumption|assumption|]. intros [pre v] s3 L3 [HP HV]. cbn in HP, HV. w. w. apply IH; [|assumption]. rewrite app_assoc. apply Forall_snoc; [apply Forall_app; auto|assumption].
Qed.
Lemma V_parseBOM : V0 parseBOM. Proof. wstart. unfold parseBOM. ws. Qed.
Lemma V_set_sy cs o : Good (ESyntax o) -> Forall CF cs -> V (MaybeScanInlineComment (total_set set_sy_inline) (mkSyntax (sy_version o) (sy_versionQuote o) cs (sy_inline o) (sy_meta o))) (fun o => Good (ESyntax o)).
Proof.
  rewrite good_iff. intros (A & (_ & B & C) & D) F. apply V_maybe.
  - apply good_iff. split; [exact A|split; [split; [exact F|split; [exact B|exact C]]|exact D]].
  - intros c x K E. injection E as <-. apply good_iff. split; [exact A|split; [split; [exact F|split; [exact K|exact C]]|exact D]].
Qed.
Lemma V_set_ed cs o : Good (EEdition o) -> Forall CF cs -> V (MaybeScanInlineComment (total_set set_ed_inline) (mkEdition (ed_edition o) (ed_editionQuote o) cs (ed_inline o) (ed_meta o))) (fun o => Good (EEdition o)).
Proof.
  rewrite good_iff. intros (A & (_ & B & C) & D) F. apply V_maybe.
  - apply good_iff. split; [exact A|split; [split; [exact F|split; [exact B|exact C]]|exact D]].
  - intros c x K E. injection E as <-. apply good_iff. split; [exact A|split; [split; [exact F|split; [exact K|exact C]]|exact D]].
Qed.
#[global] Hint Resolve V_parseBOM : vd.
Lemma V_ParseProto p bic n : V (ParseProto p bic n) (fun pr => Forall Good (roots pr)).
Proof.
  wstart. unfold ParseProto. w. w. w. w. w. w. w. eapply W_call with (Phi := fun o => Forall Good (opt_list ESyntax o)); [|assumption|].
  { intros s4 L4. destruct a1 as [x|]; [|w; split; [assumption|constructor]]. w. eapply W_call; [apply V_set_sy; eassumption|assumption|]. intros. w. split; [assumption|]. constructor; [assumption|constructor]. }
  intros sy s4 L4 GS. w. w. w. eapply W_call with (Phi := fun o => Forall Good (opt_list EEdition o)); [|assumption|].
  { intros s5 L5. destruct a2 as [x|]; [|w; split; [assumption|constructor]]. w. eapply W_call; [apply V_set_ed; eassumption|assumption|]. intros. w. split; [assumption|]. constructor; [assumption|constructor]. }
  intros ed s6 L6 GE. w. eapply W_call; [apply V_protoBody_loop; constructor|assumption|]. intros body s7 L7 GB. w. w. w. split; [assumption|]. unfold roots. cbn [p_syntax p_edition p_body].
  apply Forall_app. split; [exact GS|]. apply Forall_app. split; [exact GE|]. rewrite Forall_map. exact GB.
Qed.

(** ** The file *)
Lemma Lx_init fn input : Lx (init_st fn input).
Proof. split; [exact I|constructor]. Qed.
Lemma good_roots opts input pr : Parse opts input = Ok pr -> Forall Good (roots pr).
Proof.
  unfold Parse, parse_fuel. intros H. pose proof (V_ParseProto (cfg_permissive (config_of opts)) (cfg_bodyIncludingComments (config_of opts)) (S (S (List.length input))) _ (Lx_init (cfg_filename (config_of opts)) input)) as X.
  destruct (ParseProto _ _ _ _) as [r s']. cbn in H. subst r. cbn in X. apply X.
Qed.
Lemma good_element opts input pr e : Parse opts input = Ok pr -> element pr e -> Good e.
Proof.
  intros H. apply good_roots in H. rewrite Forall_forall in H. induction 1 as [e X|e l e' E IH X Y]; [apply H; exact X|]. destruct IH as [_ _ C]. rewrite Forall_forall in C. specialize (C _ X). rewrite Forall_forall in C. auto.
Qed.
Lemma proper_element opts input pr e : Parse opts input = Ok pr -> element pr e -> proper e.
Proof. intros H E. eapply good_element in E; [|exact H]. apply E. Qed.
Lemma comment_lines opts input pr e c : Parse opts input = Ok pr -> element pr e -> In c (e_all_comments e) ->
  (exists b, c_raw c = lit "/*" ++ b ++ lit "*/" /\ IsCStyle c = true /\ unlines (Lines c) = b /\ Forall (fun l => ~ In NL l) (Lines c)) \/
  (exists b, c_raw c = lit "//" ++ b /\ ~ In NL b /\ IsCStyle c = false /\ Lines c = [b]).
Proof.
  intros H E X. eapply good_element in E; [|exact H]. destruct E as [_ F _]. rewrite Forall_forall in F. specialize (F _ X). destruct c as [x m]. destruct F as [(b & E & N)|(b & E)]; cbn in E; subst x.
  - right. exists b. pose proof (Lines_line b m N). auto.
  - left. exists b. pose proof (Lines_c b m). auto.
Qed.
Lemma syntax_version opts input pr s : Parse opts input = Ok pr -> p_syntax pr = Some s ->
  ((sy_version s = lit "proto2" /\ Version s = 2%Z) \/ (sy_version s = lit "proto3" /\ Version s = 3%Z)) /\
  exists q q', is_quote_mark q /\ is_quote_mark q' /\ sy_versionQuote s = q ++ sy_version s ++ q'.
Proof.
  intros H E. assert (X : element pr (ESyntax s)) by (apply el_root; unfold roots; rewrite E; left; reflexivity). eapply proper_element in X; [|exact H]. destruct X as [V Q]. split; [|exact Q].
  unfold Version. destruct V as [V|V]; rewrite V; [left|right]; split; reflexivity.
Qed.
Lemma quote_mismatch : exists pr s, Parse [] (lit "syntax = 'proto3"";") = Ok pr /\ p_syntax pr = Some s /\ sy_versionQuote s = lit "'proto3""".
Proof. eexists. eexists. vm_compute. repeat split. Qed.
(** a case: a text with a group, a oneof, a map and comments *)
Local Definition nl : string := String (ascii_of_nat 10) EmptyString.
Definition shape_text : str := lit ("syntax = ""proto2""; // s" ++ nl ++ "message M { // m" ++ nl ++ " optional group G = 1 { required int32 a = 2; } /* g */ map<string, B> m = 3; oneof o { int32 x = 4; } reserved 5 to max; }").
Definition shape_proto : proto := Eval vm_compute in match Parse [] shape_text with Ok p => p | _ => mkProto None None [] [] end.
Lemma shape_case : Parse [] shape_text = Ok shape_proto /\
  exists g f s c, element shape_proto (EStmt (VGroupField g)) /\ g_body g = [VField f] /\ element shape_proto (EStmt (VField f)) /\
    f_name f = lit "a" /\ g_inline g = Some c /\ In c (e_all_comments (EStmt (VGroupField g))) /\ c_raw c = lit "/* g */" /\
    p_syntax shape_proto = Some s /\ sy_version s = lit "proto2".
Proof.
  assert (P : Parse [] shape_text = Ok shape_proto) by (vm_compute; reflexivity). split; [exact P|]. clear P.
  eexists _, _, _, _.
  split; [eapply el_child; [apply el_root; right; left; reflexivity|left; reflexivity|left; reflexivity]|].
  split; [reflexivity|].
  split; [eapply el_child; [eapply el_child; [apply el_root; right; left; reflexivity|left; reflexivity|left; reflexivity]|left; reflexivity|left; reflexivity]|].
  split; [reflexivity|]. split; [reflexivity|]. split; [left; reflexivity|]. split; [reflexivity|]. split; reflexivity.
Qed.
