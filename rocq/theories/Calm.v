(** In permissive mode, on a text without the heading of a group, no failed statement has
    un-read its last token: the error recovery un-reads exactly one token. *)
From Coq Require Import List NArith ZArith Bool String Ascii Lia Arith.
From Verif Require Import Base Token Scanner Lexer Ast Parser Lexing ScanRefine LexFacts LexSpec LexProofs
  ScanFacts LexerFacts ScanProps Cursor Pure Refine Term Term2.
Import ListNotations.
Open Scope N_scope.
Open Scope pure_scope.

(** [b]: errors after un-reading are possible *)
Definition calm {A} (b : bool) (r : pres A) : Prop :=
  match r with PBal _ _ => b = true | PFatal | PBad => False | _ => True end.
Definition Cq {A} (b : bool) (q : PM A) : Prop := forall k, calm b (q k).
Lemma Cq_at {A} b (q : PM A) k : Cq b q -> calm b (q k).
Proof. intros H. apply H. Qed.
Lemma C_bind {A B} b (q : PM A) (f : A -> PM B) : Cq b q -> (forall a, Cq b (f a)) -> Cq b (pbind q f).
Proof. intros H F k. specialize (H k). unfold pbind. destruct (q k); cbn [calm] in *; auto. apply F. Qed.
Lemma C_true {A} b (q : PM A) : Cq false q -> Cq b q.
Proof. intros H k. specialize (H k). destruct (q k); cbn [calm] in *; auto. discriminate. Qed.
Lemma C_try {A B} b (q : PM A) (f : option A -> PM B) : Cq true q -> (forall a, Cq b (f a)) -> Cq b (ptry q f).
Proof. intros H F k. specialize (H k). unfold ptry. destruct (q k); cbn [calm] in *; auto; apply F. Qed.
Lemma C_ret {A} b (a : A) : Cq b (pret a). Proof. intros k. exact I. Qed.
Lemma C_tok b p m : Cq b (ptok p m). Proof. intros k. unfold ptok. destruct (lexc p m k). exact I. Qed.
Lemma C_back b t : Cq b (pback t). Proof. intros k. exact I. Qed.
Lemma C_err {A} b t : Cq b (@perr A t). Proof. intros k. exact I. Qed.
Lemma C_bal {A} t : Cq true (@pbal A t). Proof. intros k. reflexivity. Qed.
Lemma C_fuel b : Cq b pfuel. Proof. intros k. exact I. Qed.
Lemma C_oof {A} b : Cq b (@poof A). Proof. intros k. exact I. Qed.
Lemma C_panic {A} b : Cq b (@ppanic A). Proof. intros k. exact I. Qed.
Lemma C_last b : Cq b plast. Proof. intros k. exact I. Qed.
Lemma C_defer {A} b t (q : PM A) : Cq b q -> Cq b (pdefer t q).
Proof. intros H k. specialize (H k). unfold pdefer. destruct (q k); cbn [calm] in *; auto. Qed.
Lemma C_embedded b x y : Cq b (qEmbedded x y). Proof. intros k. exact I. Qed.
Create HintDb cl.
Ltac cstep :=
  match goal with
  | |- Cq _ (pbind _ _) => apply C_bind; [|intros]
  | |- Cq _ (ptry _ _) => apply C_try; [|intros]
  | |- Cq _ (pret _) => apply C_ret
  | |- Cq _ (ptok _ _) => apply C_tok
  | |- Cq _ (pback _) => apply C_back
  | |- Cq _ (perr _) => apply C_err
  | |- Cq true (pbal _) => apply C_bal
  | |- Cq _ pfuel => apply C_fuel
  | |- Cq _ poof => apply C_oof
  | |- Cq _ ppanic => apply C_panic
  | |- Cq _ plast => apply C_last
  | |- Cq _ (pdefer _ _) => apply C_defer
  | |- Cq _ (qEmbedded _ _) => apply C_embedded
  | |- Cq _ (ppeek _ _) => unfold ppeek
  | |- Cq _ (ppeek2 _) => unfold ppeek2
  | |- Cq _ (fun k => POk _ _) => intros ?; exact I
  | |- Cq _ (pexpect _ _ _) => unfold pexpect
  | |- Cq _ (let x := ?v in _) => cbv zeta
  | |- Cq _ (if ?b then _ else _) => destruct b
  | |- Cq _ (match ?b with _ => _ end) => destruct b
  end.
Ltac cgo := intros; repeat first [solve [auto 2 with cl nocore] | cstep].
Section C.
Variable p0 : mpos.
Section A.
Variable b : bool.
Notation Cq := (Cq b).
Lemma c_fi_loop n : forall acc y, Cq (qFullIdent_loop p0 n acc y). Proof. induction n; intros; cbn [qFullIdent_loop]; cgo. Qed.
Hint Resolve c_fi_loop : cl.
Lemma c_fullIdent : Cq (qReadFullIdent p0). Proof. unfold qReadFullIdent. cgo. Qed.
Lemma c_mt_loop n : forall acc y, Cq (qMessageType_loop p0 n acc y). Proof. induction n; intros; cbn [qMessageType_loop]; cgo. Qed.
Hint Resolve c_fullIdent c_mt_loop : cl.
Lemma c_messageType : Cq (qReadMessageType p0). Proof. unfold qReadMessageType. cgo. Qed.
Lemma c_merge_loop q n : forall a y, Cq (qMerge_loop p0 n q a y). Proof. induction n; intros; cbn [qMerge_loop]; cgo. Qed.
Hint Resolve c_messageType c_merge_loop : cl.
Lemma c_merge x : Cq (qMerge p0 x). Proof. unfold qMerge. cgo. Qed.
Hint Resolve c_merge : cl.
Lemma c_constant perm : Cq (qReadConstant p0 perm). Proof. unfold qReadConstant. cgo. Qed.
Hint Resolve c_constant : cl.
Lemma c_comments_loop n : forall acc, Cq (qComments_loop p0 n acc). Proof. induction n; intros; cbn [qComments_loop]; cgo. Qed.
Hint Resolve c_comments_loop : cl.
Lemma c_comments : Cq (qParseComments p0). Proof. unfold qParseComments. cgo. Qed.
Lemma c_inline : Cq (qInline p0). Proof. unfold qInline. cgo. Qed.
Hint Resolve c_comments c_inline : cl.
Lemma c_maybe {A} set (x : A) : Cq (qMaybeInline p0 set x). Proof. unfold qMaybeInline. cgo. Qed.
Hint Resolve c_maybe : cl.
Lemma c_parenName perm name : Cq (qParenName p0 perm name). Proof. unfold qParenName. cgo. Qed.
Hint Resolve c_parenName : cl.
Lemma c_optionName_loop perm n : forall name, Cq (qOptionName_loop p0 perm n name). Proof. induction n; intros; cbn [qOptionName_loop]; cgo. Qed.
Hint Resolve c_optionName_loop : cl.
Lemma c_optionName perm : Cq (qOptionName p0 perm). Proof. unfold qOptionName. cgo. Qed.
Hint Resolve c_optionName : cl.
Lemma c_cloud_loop perm pc n : Cq pc -> forall r, Cq (qCloud_loop p0 perm pc n r). Proof. intros P. induction n; intros; cbn [qCloud_loop]; cgo. Qed.
Hint Resolve c_cloud_loop : cl.
Lemma c_cloud perm pc n : Cq pc -> Cq (qCloud p0 perm pc n). Proof. intros P. unfold qCloud. cgo. Qed.
Lemma c_constants_loop pc n : Cq pc -> forall r, Cq (qConstants_loop p0 pc n r). Proof. intros P. induction n; intros; cbn [qConstants_loop]; cgo. Qed.
Hint Resolve c_cloud c_constants_loop : cl.
Lemma c_constants pc n : Cq pc -> Cq (qConstants p0 pc n). Proof. intros P. unfold qConstants. cgo. Qed.
Hint Resolve c_constants : cl.
Lemma c_optionConstant n : Cq (qOptionConstant p0 true n). Proof. induction n; cbn [qOptionConstant negb]; cgo. Qed.
Hint Resolve c_optionConstant : cl.
Lemma c_qconstant : Cq (qConstant p0 true). Proof. unfold qConstant. cgo. Qed.
Hint Resolve c_qconstant : cl.
Lemma c_option : Cq (qParseOption p0 true). Proof. unfold qParseOption. cgo. Qed.
Lemma c_syntax : Cq (qParseSyntax p0). Proof. unfold qParseSyntax. cgo. Qed.
Lemma c_edition : Cq (qParseEdition p0). Proof. unfold qParseEdition. cgo. Qed.
Lemma c_import : Cq (qParseImport p0). Proof. unfold qParseImport. cgo. Qed.
Lemma c_package : Cq (qParsePackage p0). Proof. unfold qParsePackage. cgo. Qed.
Lemma c_type : Cq (qType p0). Proof. unfold qType. cgo. Qed.
Lemma c_fieldNumber : Cq (qFieldNumber p0). Proof. unfold qFieldNumber. cgo. Qed.
Lemma c_fieldOption : Cq (qFieldOption p0 true). Proof. unfold qFieldOption. cgo. Qed.
Hint Resolve c_option c_syntax c_edition c_import c_package c_type c_fieldNumber c_fieldOption : cl.
Lemma c_fieldOptions_loop n : forall l, Cq (qFieldOptions_loop p0 true n l). Proof. induction n; intros; cbn [qFieldOptions_loop]; cgo. Qed.
Hint Resolve c_fieldOptions_loop : cl.
Lemma c_fieldOptions : Cq (qFieldOptions p0 true). Proof. unfold qFieldOptions. cgo. Qed.
Hint Resolve c_fieldOptions : cl.
Lemma c_fieldOptionsOption : Cq (qFieldOptionsOption p0 true). Proof. unfold qFieldOptionsOption. cgo. Qed.
Lemma c_label : Cq (qLabel p0). Proof. unfold qLabel. cgo. Qed.
Hint Resolve c_fieldOptionsOption c_label : cl.
Lemma c_field : Cq (qParseField p0 true). Proof. unfold qParseField. cgo. Qed.
Lemma c_keyType : Cq (qKeyType p0). Proof. unfold qKeyType. cgo. Qed.
Hint Resolve c_field c_keyType : cl.
Lemma c_mapField : Cq (qParseMapField p0 true). Proof. unfold qParseMapField. cgo. Qed.
Lemma c_blockEnd : Cq (qBlockEnd p0 true). Proof. unfold qBlockEnd. cgo. Qed.
Lemma c_oneofField : Cq (qOneofField p0 true). Proof. unfold qOneofField. cgo. Qed.
Hint Resolve c_mapField c_blockEnd c_oneofField : cl.
Lemma c_enumValueOption : Cq (qEnumValueOption p0 true). Proof. unfold qEnumValueOption. cgo. Qed.
Hint Resolve c_enumValueOption : cl.
Lemma c_enumValueOptions_loop n : forall l, Cq (qEnumValueOptions_loop p0 true n l). Proof. induction n; intros; cbn [qEnumValueOptions_loop]; cgo. Qed.
Hint Resolve c_enumValueOptions_loop : cl.
Lemma c_enumValueOptions : Cq (qEnumValueOptions p0 true). Proof. unfold qEnumValueOptions. cgo. Qed.
Hint Resolve c_enumValueOptions : cl.
Lemma c_enumField : Cq (qEnumField p0 true). Proof. unfold qEnumField. cgo. Qed.
End A.
Notation Ct := (Cq true).
Hint Resolve c_fullIdent c_messageType c_comments c_inline c_maybe c_optionName c_qconstant c_option c_syntax c_edition c_import c_package c_type
  c_fieldNumber c_fieldOption c_fieldOptionsOption c_label c_field c_mapField c_blockEnd c_oneofField c_enumField : cl.
Lemma c_oneof_loop n : forall f o, Ct (qOneof_loop p0 true n f o). Proof. induction n; intros; cbn [qOneof_loop]; cgo. Qed.
Hint Resolve c_oneof_loop : cl.
Lemma c_oneof : Ct (qParseOneof p0 true). Proof. unfold qParseOneof. cgo. Qed.
Lemma c_empty : Ct (qReadEmptyStatement p0). Proof. unfold qReadEmptyStatement. cgo. Qed.
Lemma c_range : Ct (qRange p0). Proof. unfold qRange. cgo. Qed.
Hint Resolve c_oneof c_empty c_range : cl.
Lemma c_ranges_loop n : forall l, Ct (qRanges_loop p0 n l). Proof. induction n; intros; cbn [qRanges_loop]; cgo. Qed.
Hint Resolve c_ranges_loop : cl.
Lemma c_ranges : Ct (qRanges p0). Proof. unfold qRanges. cgo. Qed.
Lemma c_fieldName : Ct (qFieldName p0). Proof. unfold qFieldName. cgo. Qed.
Hint Resolve c_ranges c_fieldName : cl.
Lemma c_fieldNames_loop n : forall l, Ct (qFieldNames_loop p0 n l). Proof. induction n; intros; cbn [qFieldNames_loop]; cgo. Qed.
Hint Resolve c_fieldNames_loop : cl.
Lemma c_fieldNames : Ct (qFieldNames p0). Proof. unfold qFieldNames. cgo. Qed.
Hint Resolve c_fieldNames : cl.
Lemma c_reserved : Ct (qParseReserved p0). Proof. unfold qParseReserved. cgo. Qed.
Lemma c_declaration_loop n : forall v, Ct (qDeclaration_loop p0 n v). Proof. induction n; intros; cbn [qDeclaration_loop]; cgo. Qed.
Hint Resolve c_reserved c_declaration_loop : cl.
Lemma c_declaration : Ct (qParseDeclaration p0). Proof. unfold qParseDeclaration. cgo. Qed.
Lemma c_inlineErr {A} : Ct (@qInlineErr p0 A). Proof. unfold qInlineErr. cgo. Qed.
Hint Resolve c_declaration c_inlineErr : cl.
Lemma c_declarations_loop n : forall l, Ct (qDeclarations_loop p0 n l). Proof. induction n; intros; cbn [qDeclarations_loop]; cgo. Qed.
Hint Resolve c_declarations_loop : cl.
Lemma c_declarations : Ct (qDeclarations p0). Proof. unfold qDeclarations. cgo. Qed.
Hint Resolve c_declarations : cl.
Lemma c_extensions : Ct (qParseExtensions p0). Proof. unfold qParseExtensions. cgo. Qed.
Hint Resolve c_extensions : cl.
Lemma c_recover {A} (q : PM A) ok : Cq false q -> Ct (precover p0 q ok).
Proof.
  intros H k. specialize (H k). unfold precover. destruct (q k) as [a k'|kb ka|k' w| | | |]; cbn [calm] in *; auto; [|discriminate].
  revert kb. change (Ct (t <-- ptok p0 0;; if tok_eqb (tk t) TSEMICOLON then pret (VEmpty (mkEmpty None)) else pbal t)). cgo.
Qed.
Hint Resolve c_recover : cl.
Lemma c_bodyEnd bic ilc l cs : Ct (qBodyEnd p0 true bic ilc l cs). Proof. unfold qBodyEnd. cgo. Qed.
Lemma c_emptyBody : Ct (qEmptyBody p0 true). Proof. unfold qEmptyBody. cgo. Qed.
Hint Resolve c_bodyEnd c_emptyBody : cl.
Lemma c_enumBody_loop bic ilc n : forall l, Ct (qEnumBody_loop p0 true bic ilc n l). Proof. induction n; intros; cbn [qEnumBody_loop]; cgo. Qed.
Hint Resolve c_enumBody_loop : cl.
Lemma c_enumBody bic : Ct (qEnumBody p0 true bic). Proof. unfold qEnumBody. cgo. Qed.
Hint Resolve c_enumBody : cl.
Lemma c_enum bic : Ct (qParseEnum p0 true bic). Proof. unfold qParseEnum. cgo. Qed.
Lemma c_extendBody_loop bic ilc n : forall l, Ct (qExtendBody_loop p0 true bic ilc n l). Proof. induction n; intros; cbn [qExtendBody_loop]; cgo. Qed.
Hint Resolve c_enum c_extendBody_loop : cl.
Lemma c_extendBody bic : Ct (qExtendBody p0 true bic). Proof. unfold qExtendBody. cgo. Qed.
Hint Resolve c_extendBody : cl.
Lemma c_extend bic : Ct (qParseExtend p0 true bic). Proof. unfold qParseExtend. cgo. Qed.
Lemma c_rpcOptions_loop n : forall l, Ct (qRpcOptions_loop p0 true n l). Proof. induction n; intros; cbn [qRpcOptions_loop]; cgo. Qed.
Hint Resolve c_extend c_rpcOptions_loop : cl.
Lemma c_rpcOptions : Ct (qRpcOptions p0 true). Proof. unfold qRpcOptions. cgo. Qed.
Lemma c_rpcParam : Ct (qRpcParam p0). Proof. unfold qRpcParam. cgo. Qed.
Hint Resolve c_rpcOptions c_rpcParam : cl.
Lemma c_rpc : Ct (qRPC p0 true). Proof. unfold qRPC. cgo. Qed.
Hint Resolve c_rpc : cl.
Lemma c_serviceBody_loop bic ilc n : forall l, Ct (qServiceBody_loop p0 true bic ilc n l). Proof. induction n; intros; cbn [qServiceBody_loop]; cgo. Qed.
Hint Resolve c_serviceBody_loop : cl.
Lemma c_serviceBody bic : Ct (qServiceBody p0 true bic). Proof. unfold qServiceBody. cgo. Qed.
Hint Resolve c_serviceBody : cl.
Lemma c_service bic : Ct (qParseService p0 true bic). Proof. unfold qParseService. cgo. Qed.
Hint Resolve c_service : cl.
Lemma c_bom : Ct (qBOM p0). Proof. unfold qBOM. cgo. Qed.
Hint Resolve c_bom : cl.

(** ** Messages: here the text matters *)
Definition Ck {A} (L : nat) (q : PM A) : Prop := forall k, (len k < L)%nat -> clean (cr k) -> calm true (q k).
Lemma ck_bind {A B} s (q : PM A) (f : A -> PM B) k : OK false true s k (q k) -> calm true (q k) ->
  (forall a k', adv s k k' -> calm true (f a k')) -> calm true (pbind q f k).
Proof. intros O H F. unfold pbind. destruct (q k); cbn [calm OK] in *; auto. Qed.
Lemma ck_bind1 {A B} (q : PM A) (f : A -> PM B) k : calm true (q k) -> (forall a, Cq true (f a)) -> calm true (pbind q f k).
Proof. intros H F. unfold pbind. destruct (q k); cbn [calm] in *; auto. apply F. Qed.
Lemma expect_adv m T k : T <> TEOF -> OK false true true k (pexpect p0 m T k).
Proof. intros N. apply OK_expect1; [exact N|apply suffix_refl]. Qed.
Lemma peek_adv m k : OK false true false k (ppeek p0 m k).
Proof. unfold ppeek. apply OK_tok. intros t k' (T1 & _) _ _ _ _. split; [|discriminate]. cbn. rewrite T1. apply suffix_refl. Qed.
Hint Resolve t_fullIdent t_messageType t_comments t_inline t_maybe t_bom t_syntax t_edition t_emptyBody t_messageStmt t_protoStmt : tl.
Ltac ck1 := eapply ck_bind; [solve [eauto 3 with tl nocore | apply expect_adv; discriminate | apply peek_adv]
  |solve [cgo | match goal with |- calm ?b (?q ?k) => apply (Cq_at b q k); cgo end]|intros].
Ltac cq := match goal with |- calm ?b (?q ?k) => apply (Cq_at b q k); cgo end.
Ltac cln := match goal with H : clean (cr ?k) |- clean _ => apply (clean_suffix _ (cr k)); [tadv|exact H] end.
Lemma c_message_ L mb : Ck L mb -> Ck (S L) (qParseMessage_ p0 mb).
Proof.
  intros P k H G. unfold qParseMessage_. ck1. ck1. apply ck_bind1; [|cgo]. apply P; [tadv|cln].
Qed.
Lemma c_messageStmt L bic mb : Ck L mb -> forall T cs, Ck (S L) (qMessageStmt p0 true bic mb T cs).
Proof.
  intros P T cs k H G.
  assert (D : calm true (pbind (qIsGroup p0) (fun b => if b then precover p0 (qParseGroupField p0 mb) (fun g => with_comments cs (VGroupField g))
     else precover p0 (qParseField p0 true) (fun f => with_comments cs (VField f))) k)).
  { destruct (IsGroup p0 k) as (b & k' & E & CR & CL). rewrite (CL G) in E. unfold pbind. rewrite E. cq. }
  unfold qMessageStmt. destruct T; try exact D; try (cq; fail).
  apply ck_bind1; [|cgo]. apply (c_message_ L); assumption.
Qed.
Lemma c_messageBody_loop L bic mb ilc : Ck L mb -> (forall k, (len k < L)%nat -> good false k -> OK false true true k (mb k)) ->
  (forall k, (len k < L)%nat -> ready (cr k) -> OK false false true k (mb k)) ->
  forall n l, Ck (Nat.min n (S L)) (qMessageBody_loop p0 true bic mb ilc n l).
Proof.
  intros P O O2. induction n as [|n IH]; intros l k H G; [lia|]. cbn [qMessageBody_loop]. ck1. ck1.
  assert (D : calm true (pbind (qMessageStmt p0 true bic mb (tk a0) a) (fun stmt => pbind (qMaybeInline p0 set_inline stmt) (fun stmt => qMessageBody_loop p0 true bic mb ilc n (l ++ [stmt]))) k'0)).
  { eapply ck_bind; [apply (t_messageStmt p0 false L); [exact O|exact O2|tadv|right; apply clean_tame; cln]|apply (c_messageStmt L); [exact P|tadv|cln]|intros].
    ck1. apply IH; [tadv|cln]. }
  destruct (tk a0); try exact D. cq.
Qed.
Lemma c_messageBody bic n : Ck n (qMessageBody p0 true bic n).
Proof.
  induction n as [|n IH]; intros k H G; [lia|]. cbn [qMessageBody]. ck1. ck1. ck1. destruct a1; [cq|].
  apply (c_messageBody_loop n); [exact IH|intros; apply t_messageBody; assumption|apply d_messageBody|tadv|cln].
Qed.
Lemma c_protoStmt bic n T cs : Ck (S n) (qProtoStmt p0 true bic n T cs).
Proof.
  intros k H G. unfold qProtoStmt. destruct T; try (cq; fail). apply ck_bind1; [|cgo].
  apply (c_message_ n); [apply c_messageBody|exact H|exact G].
Qed.
Lemma c_protoBody_loop bic n : forall l, Ck n (qProtoBody_loop p0 true bic n l).
Proof.
  induction n as [|n IH]; intros l k H G; [lia|]. cbn [qProtoBody_loop]. ck1. ck1. destruct (tok_eqb (tk a0) TEOF); [cq|]. ck1.
  eapply ck_bind; [apply t_protoStmt; [tadv|right; apply clean_tame; cln]|apply c_protoStmt; [tadv|cln]|intros]. destruct a2. ck1. apply IH; [tadv|cln].
Qed.
Lemma c_proto bic n : Ck n (qParseProto p0 true bic n).
Proof.
  intros k H G. unfold qParseProto. ck1. ck1. ck1. eapply (ck_bind false); [destruct a1; repeat tstep; apply OK_ret; tadv|cq|intros].
  ck1. eapply (ck_bind false); [destruct a3; repeat tstep; apply OK_ret; tadv|cq|intros].
  apply ck_bind1; [|cgo]. apply c_protoBody_loop; [tadv|cln].
Qed.
End C.
