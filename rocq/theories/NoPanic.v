(** Panics: none but the one behind a top level semicolon (C02), on any input. *)
From Coq Require Import List NArith ZArith Bool String Ascii Lia Arith.
From Verif Require Import Base Token Scanner Lexer Ast Parser Api LexSpec LexProofs Refine Inv.
Import ListNotations.
Open Scope N_scope.
Open Scope monad_scope.

(** [m] does not panic, from any state; its results satisfy [Q] *)
Definition NPQ {A} (m : M A) (Q : A -> Prop) : Prop := forall s, match fst (m s) with Panic => False | Ok a => Q a | _ => True end.
Definition NP {A} (m : M A) : Prop := NPQ m (fun _ => True).
Lemma npq_bind {A B} (m : M A) (f : A -> M B) Q R : NPQ m Q -> (forall a, Q a -> NPQ (f a) R) -> NPQ (bind m f) R.
Proof. intros H K s. specialize (H s). unfold bind. destruct (m s) as [[a|e| |] t]; cbn [fst] in *; auto. apply (K a H). Qed.
Lemma npq_try {A B} (m : M A) (f : A + err -> M B) R : NP m -> (forall a, NPQ (f (inl a)) R) -> (forall e, NPQ (f (inr e)) R) -> NPQ (try m f) R.
Proof. intros H K L s. specialize (H s). unfold try. destruct (m s) as [[a|e| |] t]; cbn [fst] in *; auto; [apply K|apply L]. Qed.
Lemma npq_ret {A} (a : A) (Q : A -> Prop) : Q a -> NPQ (ret a) Q. Proof. intros H s. exact H. Qed.
Lemma npq_fail {A} e (Q : A -> Prop) : NPQ (fail e) Q. Proof. intros s. exact I. Qed.
Lemma np_bind {A B} (m : M A) (f : A -> M B) R : NP m -> (forall a, NPQ (f a) R) -> NPQ (bind m f) R.
Proof. intros H K. eapply npq_bind; [exact H|]. auto. Qed.
Lemma npb {A B} (m : M A) (f : A -> M B) : NP m -> (forall a, NP (f a)) -> NP (bind m f).
Proof. apply np_bind. Qed.
Lemma npt {A B} (m : M A) (f : A + err -> M B) : NP m -> (forall a, NP (f (inl a))) -> (forall e, NP (f (inr e))) -> NP (try m f).
Proof. apply npq_try. Qed.
Lemma np_ret {A} (a : A) : NP (ret a). Proof. intros s. exact I. Qed.
Lemma np_fail {A} e : NP (@fail A e). Proof. intros s. exact I. Qed.
Lemma np_oof {A} : NP (@oof A). Proof. intros s. exact I. Qed.
Lemma np_gets {A} (f : st -> A) : NP (gets f). Proof. intros s. exact I. Qed.
Lemma np_modify (f : st -> st) : NP (modify f). Proof. intros s. exact I. Qed.
Lemma np_read : NP read.
Proof. intros s. unfold read. destruct (rest s) as [|x r]; [exact I|]. destruct (x =? eof); exact I. Qed.
Lemma np_fuel : NP fuel_here. Proof. apply np_gets. Qed.
Lemma np_s_unexpected {A} r x : NP (@s_unexpected A r x).
Proof. unfold s_unexpected. apply npb; [apply np_gets|intros p; apply np_fail]. Qed.
Lemma np_l_unexpected {A} x : NP (@l_unexpected A x). Proof. intros s. exact I. Qed.
Lemma np_p_unexpected {A} x : NP (@p_unexpected A x). Proof. intros s. exact I. Qed.
Lemma np_mk_comment p l : NP (mk_comment p l).
Proof. intros s. unfold mk_comment. destruct (AdvancedBulk p (cols s) l). exact I. Qed.
Lemma np_peek : NP peek.
Proof. unfold peek. repeat first [apply npb; [|intros ?]|apply np_read|apply np_modify|apply np_ret|match goal with |- NP (match ?x with _ => _ end) => destruct x end]. Qed.
Lemma np_deferUnNext {A} (k : M A) : NP k -> NP (deferUnNext k).
Proof.
  intros H. unfold deferUnNext. apply npb; [apply np_gets|intros r]. apply npb; [exact H|intros a]. apply npb; [|intros _; apply np_ret].
  unfold UnNextTo. apply npb; [apply np_modify|intros _; apply np_modify].
Qed.
Create HintDb np.
#[global] Hint Resolve np_ret np_oof np_gets np_modify np_read np_peek np_fuel np_fail np_s_unexpected np_l_unexpected np_p_unexpected np_mk_comment : np.
Ltac np1 :=
  match goal with
  | |- NP (bind _ _) => apply npb; [|intros ?]
  | |- NP (try _ _) => apply npt; [|intros ?|intros ?]
  | |- NP (match ?x with _ => _ end) => destruct x
  | |- NP (let x := _ in _) => cbv zeta
  | |- NP (deferUnNext _) => apply np_deferUnNext
  | |- NP _ => solve [auto with np]
  end.
Ltac nps := repeat np1.
Section Leaves.
Notation T := NP.
Lemma np_UnNext : T UnNext. Proof. unfold UnNext. nps. Qed.
Hint Resolve np_UnNext : np.
Lemma np_UnNextTo r : T (UnNextTo r). Proof. unfold UnNextTo. nps. Qed.
Hint Resolve np_UnNextTo : np.
Lemma np_unnext_all l : T (unnext_all l). Proof. induction l; cbn [unnext_all]; nps. Qed.
Hint Resolve np_unnext_all : np.
Lemma np_isEOF  : T (isEOF ).
Proof. intros. unfold isEOF. nps. Qed.
Hint Resolve np_isEOF : np.
Lemma np_ident_loop (n : nat) (ident : str) : T (ident_loop n ident).
Proof. intros. revert ident. induction n as [|? ?]; intros; cbn [ident_loop]; nps. Qed.
Hint Resolve np_ident_loop : np.
Lemma np_scanIdent  : T (scanIdent ).
Proof. intros. unfold scanIdent. nps. Qed.
Hint Resolve np_scanIdent : np.
Lemma np_line_loop (n : nat) (l : str) (c : rune) : T (line_loop n l c).
Proof. intros. revert l c. induction n as [|? ?]; intros; cbn [line_loop]; nps. Qed.
Hint Resolve np_line_loop : np.
Lemma np_block_loop (n : nat) (l : str) (c : rune) : T (block_loop n l c).
Proof. intros. revert l c. induction n as [|? ?]; intros; cbn [block_loop]; nps. Qed.
Hint Resolve np_block_loop : np.
Lemma np_scanComment  : T (scanComment ).
Proof. intros. unfold scanComment. nps. Qed.
Hint Resolve np_scanComment : np.
Lemma np_digits_loop (n : nat) (cls : rune -> bool) (l : str) : T (digits_loop n cls l).
Proof. intros. revert cls l. induction n as [|? ?]; intros; cbn [digits_loop]; nps. Qed.
Hint Resolve np_digits_loop : np.
Lemma np_scanDecimals  : T (scanDecimals ).
Proof. intros. unfold scanDecimals. nps. Qed.
Hint Resolve np_scanDecimals : np.
Lemma np_scanExponent  : T (scanExponent ).
Proof. intros. unfold scanExponent. nps. Qed.
Hint Resolve np_scanExponent : np.
Lemma np_scanFractionPart  : T (scanFractionPart ).
Proof. intros. unfold scanFractionPart. nps. Qed.
Hint Resolve np_scanFractionPart : np.
Lemma np_scanFractionPartNoOmit  : T (scanFractionPartNoOmit ).
Proof. intros. unfold scanFractionPartNoOmit. nps. Qed.
Hint Resolve np_scanFractionPartNoOmit : np.
Lemma np_scanNumberLit  : T (scanNumberLit ).
Proof. intros. unfold scanNumberLit. nps. Qed.
Hint Resolve np_scanNumberLit : np.
Lemma np_escape_digits (k : nat) (cls : rune -> bool) (l : str) : T (escape_digits k cls l).
Proof. intros. revert cls l. induction k as [|? ?]; intros; cbn [escape_digits]; nps. Qed.
Hint Resolve np_escape_digits : np.
Lemma np_tryScanEscape  : T (tryScanEscape ).
Proof. intros. unfold tryScanEscape. nps. Qed.
Hint Resolve np_tryScanEscape : np.
Lemma np_scanCharValue  : T (scanCharValue ).
Proof. intros. unfold scanCharValue. nps. Qed.
Hint Resolve np_scanCharValue : np.
Lemma np_str_loop (n : nat) (quote : rune) (l : str) (c : rune) : T (str_loop n quote l c).
Proof. intros. revert quote l c. induction n as [|? ?]; intros; cbn [str_loop]; nps. Qed.
Hint Resolve np_str_loop : np.
Lemma np_scanStrLit  : T (scanStrLit ).
Proof. intros. unfold scanStrLit. nps. Qed.
Hint Resolve np_scanStrLit : np.
Lemma np_or_illegal p m : T m -> T (or_illegal p m). Proof. intros. unfold or_illegal. nps. Qed.
Hint Resolve np_or_illegal : np.
Lemma np_scan n : T (scan n). Proof. induction n as [|n IH]; cbn [scan]; nps; apply np_or_illegal; nps. Qed.
Hint Resolve np_scan : np.
Lemma np_Next : T Next. Proof. unfold Next, Scan. nps. Qed.
Hint Resolve np_Next : np.
Lemma np_nextWithSpecificMode m : T (nextWithSpecificMode m). Proof. unfold nextWithSpecificMode. nps. Qed.
Hint Resolve np_nextWithSpecificMode : np.
Lemma np_nexts_raw n : forall l, T (nexts_raw n l). Proof. induction n; intros; cbn [nexts_raw]; nps. Qed.
Hint Resolve np_nexts_raw : np.
Lemma np_PeekN n : T (PeekN n). Proof. unfold PeekN. nps. Qed.
Hint Resolve np_PeekN : np.
Lemma np_NextN (n : nat) : T (NextN n).
Proof. intros. induction n as [|? ?]; intros; cbn [NextN]; nps. Qed.
Hint Resolve np_NextN : np.
Lemma np_NextKeywordOrStrLit  : T (NextKeywordOrStrLit ).
Proof. intros. unfold NextKeywordOrStrLit. nps. Qed.
Hint Resolve np_NextKeywordOrStrLit : np.
Lemma np_NextKeyword  : T (NextKeyword ).
Proof. intros. unfold NextKeyword. nps. Qed.
Hint Resolve np_NextKeyword : np.
Lemma np_NextStrLit  : T (NextStrLit ).
Proof. intros. unfold NextStrLit. nps. Qed.
Hint Resolve np_NextStrLit : np.
Lemma np_NextLit  : T (NextLit ).
Proof. intros. unfold NextLit. nps. Qed.
Hint Resolve np_NextLit : np.
Lemma np_NextNumberLit  : T (NextNumberLit ).
Proof. intros. unfold NextNumberLit. nps. Qed.
Hint Resolve np_NextNumberLit : np.
Lemma np_NextComment  : T (NextComment ).
Proof. intros. unfold NextComment. nps. Qed.
Hint Resolve np_NextComment : np.
Lemma np_lex_IsEOF  : T (lex_IsEOF ).
Proof. intros. unfold lex_IsEOF. nps. Qed.
Hint Resolve np_lex_IsEOF : np.
Lemma np_Peek  : T (Peek ).
Proof. intros. unfold Peek. nps. Qed.
Hint Resolve np_Peek : np.
Lemma np_ConsumeToken (t : token) : T (ConsumeToken t).
Proof. intros. unfold ConsumeToken. nps. Qed.
Hint Resolve np_ConsumeToken : np.
Lemma np_ReadEmptyStatement : T ReadEmptyStatement.
Proof. unfold ReadEmptyStatement. nps. Qed.
Hint Resolve np_ReadEmptyStatement : np.
Lemma np_fullIdent_loop (n : nat) (acc : str) : T (fullIdent_loop n acc).
Proof. intros. revert acc. induction n as [|? ?]; intros; cbn [fullIdent_loop]; nps. Qed.
Hint Resolve np_fullIdent_loop : np.
Lemma np_ReadFullIdent  : T (ReadFullIdent ).
Proof. intros. unfold ReadFullIdent. nps. Qed.
Hint Resolve np_ReadFullIdent : np.
Lemma np_messageType_loop (n : nat) (acc : str) : T (messageType_loop n acc).
Proof. intros. revert acc. induction n as [|? ?]; intros; cbn [messageType_loop]; nps. Qed.
Hint Resolve np_messageType_loop : np.
Lemma np_ReadMessageType  : T (ReadMessageType ).
Proof. intros. unfold ReadMessageType. nps. Qed.
Hint Resolve np_ReadMessageType : np.
Lemma np_ReadEnumType  : T (ReadEnumType ).
Proof. intros. unfold ReadEnumType. nps. Qed.
Hint Resolve np_ReadEnumType : np.
Lemma np_merge_loop (n : nat) (q : rune) (b : str) : T (merge_loop n q b).
Proof. intros. revert q b. induction n as [|? ?]; intros; cbn [merge_loop]; nps. Qed.
Hint Resolve np_merge_loop : np.
Lemma np_mergeMultilineStrLit  : T (mergeMultilineStrLit ).
Proof. intros. unfold mergeMultilineStrLit. nps. Qed.
Hint Resolve np_mergeMultilineStrLit : np.
Lemma np_ReadConstant (permissive : bool) : T (ReadConstant permissive).
Proof. unfold ReadConstant. nps. Qed.
Hint Resolve np_ReadConstant : np.
Lemma np_expect (t : token) (expected : string) : T (expect t expected).
Proof. intros. unfold expect. nps. Qed.
Hint Resolve np_expect : np.
Lemma np_p_IsEOF  : T (p_IsEOF ).
Proof. intros. unfold p_IsEOF. nps. Qed.
Hint Resolve np_p_IsEOF : np.
Lemma np_peekKeyword  : T (peekKeyword ).
Proof. intros. unfold peekKeyword. nps. Qed.
Hint Resolve np_peekKeyword : np.
Lemma np_parseComment : T parseComment.
Proof.
  unfold parseComment. apply npb; [auto with np|intros _]. apply npb; [apply np_gets|intros t]. destruct (tok_eqb t TCOMMENT); [nps|]. intros s. cbv zeta.
  assert (X : T (UnNext;; @fail comment (EParse (lpos s) "comment" (ltext s) (ltok s)))) by nps. exact (X s).
Qed.
Hint Resolve np_parseComment : np.
Lemma np_parseComments_loop (n : nat) (acc : list comment) : T (parseComments_loop n acc).
Proof. intros. revert acc. induction n as [|? ?]; intros; cbn [parseComments_loop]; nps. Qed.
Hint Resolve np_parseComments_loop : np.
Lemma np_ParseComments  : T (ParseComments ).
Proof. intros. unfold ParseComments. nps. Qed.
Hint Resolve np_ParseComments : np.
Lemma np_mk_comments (l : list text) : T (mk_comments l).
Proof. intros. induction l as [|? ?]; intros; cbn [mk_comments]; nps. Qed.
Hint Resolve np_mk_comments : np.
Lemma np_findEmbeddedComments (from to : mpos) : T (findEmbeddedComments from to).
Proof. intros. unfold findEmbeddedComments. nps. Qed.
Hint Resolve np_findEmbeddedComments : np.
Lemma np_parseInlineComment  : T (parseInlineComment ).
Proof. intros. unfold parseInlineComment. nps. Qed.
Hint Resolve np_parseInlineComment : np.
Lemma np_MaybeScanInlineComment {A} (set : comment -> A -> option A) (x : A) : (forall c, set c x <> None) -> T (MaybeScanInlineComment set x).
Proof. intros H. unfold MaybeScanInlineComment. apply npb; [auto with np|intros [c|]]; [|auto with np]. specialize (H c). destruct (set c x); [auto with np|congruence]. Qed.
Lemma np_total {A} (set : comment -> A -> A) (x : A) : T (MaybeScanInlineComment (total_set set) x).
Proof. apply np_MaybeScanInlineComment. discriminate. Qed.
Hint Resolve np_total : np.
Lemma np_parseParenName (perm : bool) (name : str) : T (parseParenName perm name).
Proof. intros. unfold parseParenName. nps. Qed.
Hint Resolve np_parseParenName : np.
Lemma np_optionName_loop (perm : bool) (n : nat) (name : str) : T (optionName_loop perm n name).
Proof. intros. revert name. induction n as [|? ?]; intros; cbn [optionName_loop]; nps. Qed.
Hint Resolve np_optionName_loop : np.
Lemma np_parseOptionName (perm : bool) : T (parseOptionName perm).
Proof. intros. unfold parseOptionName. nps. Qed.
Hint Resolve np_parseOptionName : np.
Lemma np_cloud_loop (perm : bool) (pc : M str) (n : nat) (r : str) : T pc -> T (cloud_loop perm pc n r).
Proof. intros. revert r. induction n as [|? ?]; intros; cbn [cloud_loop]; nps. Qed.
Hint Resolve np_cloud_loop : np.
Lemma np_parseCloudEndpointsOptionConstant (perm : bool) (pc : M str) (n : nat) : T pc -> T (parseCloudEndpointsOptionConstant perm pc n).
Proof. intros. unfold parseCloudEndpointsOptionConstant. nps. Qed.
Hint Resolve np_parseCloudEndpointsOptionConstant : np.
Lemma np_constants_loop (pc : M str) (n : nat) (opts : list str) : T pc -> T (constants_loop pc n opts).
Proof. intros. revert opts. induction n as [|? ?]; intros; cbn [constants_loop]; nps. Qed.
Hint Resolve np_constants_loop : np.
Lemma np_parseOptionConstants (pc : M str) (n : nat) : T pc -> T (parseOptionConstants pc n).
Proof. intros. unfold parseOptionConstants. nps. Qed.
Hint Resolve np_parseOptionConstants : np.
Lemma np_parseOptionConstant (perm : bool) (n : nat) : T (parseOptionConstant perm n).
Proof. intros. induction n as [|? ?]; intros; cbn [parseOptionConstant]; nps. Qed.
Hint Resolve np_parseOptionConstant : np.
Lemma np_parseConstant (perm : bool) : T (parseConstant perm).
Proof. intros. unfold parseConstant. nps. Qed.
Hint Resolve np_parseConstant : np.
Lemma np_ParseOption (perm : bool) : T (ParseOption perm).
Proof. intros. unfold ParseOption. nps. Qed.
Hint Resolve np_ParseOption : np.
Lemma np_ParseSyntax  : T (ParseSyntax ).
Proof. intros. unfold ParseSyntax. nps. Qed.
Hint Resolve np_ParseSyntax : np.
Lemma np_ParseEdition  : T (ParseEdition ).
Proof. intros. unfold ParseEdition. nps. Qed.
Hint Resolve np_ParseEdition : np.
Lemma np_ParseImport  : T (ParseImport ).
Proof. intros. unfold ParseImport. nps. Qed.
Hint Resolve np_ParseImport : np.
Lemma np_or_unexpected {A} (m : M A) (expected : string) : T m -> T (or_unexpected m expected).
Proof. intros. unfold or_unexpected. nps. Qed.
Hint Resolve np_or_unexpected : np.
Lemma np_ParsePackage  : T (ParsePackage ).
Proof. intros. unfold ParsePackage. nps. Qed.
Hint Resolve np_ParsePackage : np.
Lemma np_parseType  : T (parseType ).
Proof. intros. unfold parseType. nps. Qed.
Hint Resolve np_parseType : np.
Lemma np_parseFieldNumber  : T (parseFieldNumber ).
Proof. intros. unfold parseFieldNumber. nps. Qed.
Hint Resolve np_parseFieldNumber : np.
Lemma np_parseFieldOption (perm : bool) : T (parseFieldOption perm).
Proof. intros. unfold parseFieldOption. nps. Qed.
Hint Resolve np_parseFieldOption : np.
Lemma np_fieldOptions_loop (perm : bool) (n : nat) (opts : list fieldOption) : T (fieldOptions_loop perm n opts).
Proof. intros. revert opts. induction n as [|? ?]; intros; cbn [fieldOptions_loop]; nps. Qed.
Hint Resolve np_fieldOptions_loop : np.
Lemma np_parseFieldOptions (perm : bool) : T (parseFieldOptions perm).
Proof. intros. unfold parseFieldOptions. nps. Qed.
Hint Resolve np_parseFieldOptions : np.
Lemma np_parseFieldOptionsOption (perm : bool) : T (parseFieldOptionsOption perm).
Proof. intros. unfold parseFieldOptionsOption. nps. Qed.
Hint Resolve np_parseFieldOptionsOption : np.
Lemma np_parseLabel  : T (parseLabel ).
Proof. intros. unfold parseLabel. nps. Qed.
Hint Resolve np_parseLabel : np.
Lemma np_ParseField (perm : bool) : T (ParseField perm).
Proof. intros. unfold ParseField. nps. Qed.
Hint Resolve np_ParseField : np.
Lemma np_parseKeyType  : T (parseKeyType ).
Proof. intros. unfold parseKeyType. nps. Qed.
Hint Resolve np_parseKeyType : np.
Lemma np_ParseMapField (perm : bool) : T (ParseMapField perm).
Proof. intros. unfold ParseMapField. nps. Qed.
Hint Resolve np_ParseMapField : np.
Lemma np_peekIsGroup_tail  : T (peekIsGroup_tail ).
Proof. intros. unfold peekIsGroup_tail. nps. Qed.
Hint Resolve np_peekIsGroup_tail : np.
Lemma np_peekIsGroup  : T (peekIsGroup ).
Proof. intros. unfold peekIsGroup. nps. Qed.
Hint Resolve np_peekIsGroup : np.
Lemma np_blockEnd (perm : bool) : T (blockEnd perm).
Proof. intros. unfold blockEnd. nps. Qed.
Hint Resolve np_blockEnd : np.
Lemma np_parseOneofField (perm : bool) : T (parseOneofField perm).
Proof. intros. unfold parseOneofField. nps. Qed.
Hint Resolve np_parseOneofField : np.
Lemma np_oneof_loop (perm : bool) (n : nat) (fields : list oneofField) (options : list option_) : T (oneof_loop perm n fields options).
Proof. intros. revert fields options. induction n as [|? ?]; intros; cbn [oneof_loop]; nps. Qed.
Hint Resolve np_oneof_loop : np.
Lemma np_ParseOneof (perm : bool) : T (ParseOneof perm).
Proof. intros. unfold ParseOneof. nps. Qed.
Hint Resolve np_ParseOneof : np.
Lemma np_parseRange  : T (parseRange ).
Proof. intros. unfold parseRange. nps. Qed.
Hint Resolve np_parseRange : np.
Lemma np_ranges_loop (n : nat) (ranges : list range) : T (ranges_loop n ranges).
Proof. intros. revert ranges. induction n as [|? ?]; intros; cbn [ranges_loop]; nps. Qed.
Hint Resolve np_ranges_loop : np.
Lemma np_parseRanges  : T (parseRanges ).
Proof. intros. unfold parseRanges. nps. Qed.
Hint Resolve np_parseRanges : np.
Lemma np_parseQuotedFieldName  : T (parseQuotedFieldName ).
Proof. intros. unfold parseQuotedFieldName. nps. Qed.
Hint Resolve np_parseQuotedFieldName : np.
Lemma np_parseFieldName  : T (parseFieldName ).
Proof. intros. unfold parseFieldName. nps. Qed.
Hint Resolve np_parseFieldName : np.
Lemma np_fieldNames_loop (n : nat) (names : list str) : T (fieldNames_loop n names).
Proof. intros. revert names. induction n as [|? ?]; intros; cbn [fieldNames_loop]; nps. Qed.
Hint Resolve np_fieldNames_loop : np.
Lemma np_parseFieldNames  : T (parseFieldNames ).
Proof. intros. unfold parseFieldNames. nps. Qed.
Hint Resolve np_parseFieldNames : np.
Lemma np_declaration_loop (n : nat) (v : decl_vars) : T (declaration_loop n v).
Proof. intros. revert v. induction n as [|? ?]; intros; cbn [declaration_loop]; nps. Qed.
Hint Resolve np_declaration_loop : np.
Lemma np_ParseDeclaration  : T (ParseDeclaration ).
Proof. intros. unfold ParseDeclaration. nps. Qed.
Hint Resolve np_ParseDeclaration : np.
Lemma np_declarations_loop (n : nat) (ds : list declaration) : T (declarations_loop n ds).
Proof. intros. revert ds. induction n as [|? ?]; intros; cbn [declarations_loop]; nps. Qed.
Hint Resolve np_declarations_loop : np.
Lemma np_parseDeclarations  : T (parseDeclarations ).
Proof. intros. unfold parseDeclarations. nps. Qed.
Hint Resolve np_parseDeclarations : np.
Lemma np_ParseExtensions  : T (ParseExtensions ).
Proof. intros. unfold ParseExtensions. nps. Qed.
Hint Resolve np_ParseExtensions : np.
Lemma np_parseEnumValueOption (perm : bool) : T (parseEnumValueOption perm).
Proof. intros. unfold parseEnumValueOption. nps. Qed.
Hint Resolve np_parseEnumValueOption : np.
Lemma np_enumValueOptions_loop (perm : bool) (n : nat) (opts : list enumValueOption) : T (enumValueOptions_loop perm n opts).
Proof. intros. revert opts. induction n as [|? ?]; intros; cbn [enumValueOptions_loop]; nps. Qed.
Hint Resolve np_enumValueOptions_loop : np.
Lemma np_parseEnumValueOptions (perm : bool) : T (parseEnumValueOptions perm).
Proof. intros. unfold parseEnumValueOptions. nps. Qed.
Hint Resolve np_parseEnumValueOptions : np.
Lemma np_parseEnumField (perm : bool) : T (parseEnumField perm).
Proof. intros. unfold parseEnumField. nps. Qed.
Hint Resolve np_parseEnumField : np.
Lemma np_ParseReserved  : T (ParseReserved ).
Proof. intros. unfold ParseReserved. nps. Qed.
Hint Resolve np_ParseReserved : np.
Lemma np_emptyBody (perm : bool) : T (emptyBody perm).
Proof. intros. unfold emptyBody. nps. Qed.
Hint Resolve np_emptyBody : np.
Lemma np_rpcOptions_loop (perm : bool) (n : nat) (options : list option_) : T (rpcOptions_loop perm n options).
Proof. intros. revert options. induction n as [|? ?]; intros; cbn [rpcOptions_loop]; nps. Qed.
Hint Resolve np_rpcOptions_loop : np.
Lemma np_parseRPCOptions (perm : bool) : T (parseRPCOptions perm).
Proof. intros. unfold parseRPCOptions. nps. Qed.
Hint Resolve np_parseRPCOptions : np.
Lemma np_parseRPCParam  : T (parseRPCParam ).
Proof. intros. unfold parseRPCParam. nps. Qed.
Hint Resolve np_parseRPCParam : np.
Lemma np_parseRPC (perm : bool) : T (parseRPC perm).
Proof. intros. unfold parseRPC. nps. Qed.
Hint Resolve np_parseRPC : np.
Lemma np_parseBOM  : T (parseBOM ).
Proof. intros. unfold parseBOM. nps. Qed.
Hint Resolve np_parseBOM : np.

(** ** Bodies: no nil statement *)
Definition non_nil (v : visitee) : Prop := v <> VNil.
Lemma np_inline v : non_nil v -> T (MaybeScanInlineComment set_inline v).
Proof. intros H. apply np_MaybeScanInlineComment. intros c. destruct v; [destruct (H eq_refl)|..]; discriminate. Qed.
Lemma npq_recoverEmpty e : NPQ (recoverEmpty e) non_nil.
Proof.
  unfold recoverEmpty. apply np_bind; [auto with np|intros _]. apply npq_try; [auto with np|intros a|intros e']; [apply npq_ret; discriminate|apply npq_fail].
Qed.
Lemma nn_with cs v : non_nil v -> non_nil (with_comments cs v).
Proof. intros H. destruct v; [exact H|..]; cbn [with_comments]; discriminate. Qed.
Ltac stm :=
  match goal with
  | |- NPQ (ret (with_comments _ _)) _ => apply npq_ret, nn_with; discriminate
  | |- NPQ (ret _) _ => apply npq_ret; discriminate
  | |- NPQ (fail _) _ => apply npq_fail
  | |- NPQ (recoverEmpty _) _ => apply npq_recoverEmpty
  | |- NPQ (bind _ _) _ => apply np_bind; [solve [auto with np|nps]|intros ?]
  | |- NPQ (try _ _) _ => apply npq_try; [solve [auto with np|nps]|intros ?|intros ?]
  end.
Lemma np_enumBody_loop perm bic ilc n : forall stmts, T (enumBody_loop perm bic ilc n stmts).
Proof.
  induction n as [|n IH]; intros stmts; cbn [enumBody_loop]; [auto with np|]. apply npb; [auto with np|intros cs]. apply npb; [auto with np|intros t].
  destruct t; try (eapply npq_bind with (Q := non_nil); [repeat stm|intros v Hv; apply npb; [apply np_inline; exact Hv|intros v'; apply IH]]). nps.
Qed.
Hint Resolve np_enumBody_loop : np.
Lemma np_ParseEnum perm bic : T (ParseEnum perm bic).
Proof. unfold ParseEnum, parseEnumBody. nps. Qed.
Hint Resolve np_ParseEnum : np.
Lemma np_extendBody_loop perm bic ilc n : forall stmts, T (extendBody_loop perm bic ilc n stmts).
Proof.
  induction n as [|n IH]; intros stmts; cbn [extendBody_loop]; [auto with np|]. apply npb; [auto with np|intros cs]. apply npb; [auto with np|intros t].
  destruct t; try (eapply npq_bind with (Q := non_nil); [repeat stm|intros v Hv; apply npb; [apply np_inline; exact Hv|intros v'; apply IH]]). nps.
Qed.
Hint Resolve np_extendBody_loop : np.
Lemma np_ParseExtend perm bic : T (ParseExtend perm bic).
Proof. unfold ParseExtend, parseExtendBody. nps. Qed.
Hint Resolve np_ParseExtend : np.
Lemma np_serviceBody_loop perm bic ilc n : forall stmts, T (serviceBody_loop perm bic ilc n stmts).
Proof.
  induction n as [|n IH]; intros stmts; cbn [serviceBody_loop]; [auto with np|]. apply npb; [auto with np|intros cs]. apply npb; [auto with np|intros t].
  destruct t; try (eapply npq_bind with (Q := non_nil); [repeat stm|intros v Hv; apply npb; [apply np_inline; exact Hv|intros v'; apply IH]]). nps.
Qed.
Hint Resolve np_serviceBody_loop : np.
Lemma np_ParseService perm bic : T (ParseService perm bic).
Proof. unfold ParseService, parseServiceBody. nps. Qed.
Hint Resolve np_ParseService : np.
Lemma np_ParseGroupField mb : T mb -> T (ParseGroupField mb).
Proof. intros H. unfold ParseGroupField. nps. Qed.
Lemma np_ParseMessage_ mb : T mb -> T (ParseMessage_ mb).
Proof. intros H. unfold ParseMessage_. nps. Qed.
Hint Resolve np_ParseGroupField np_ParseMessage_ : np.
Lemma np_messageBody_loop perm bic mb ilc n : T mb -> forall stmts, T (messageBody_loop perm bic mb ilc n stmts).
Proof.
  intros H. assert (S : forall t cs, NPQ (messageStmt perm bic mb t cs) non_nil).
  { intros t cs. unfold messageStmt. assert (G : NPQ (b <- peekIsGroup;; if b then try (ParseGroupField mb) (fun r => match r with inl g => ret (with_comments cs (VGroupField g)) | inr e => recoverEmpty e end)
      else try (ParseField perm) (fun r => match r with inl f => ret (with_comments cs (VField f)) | inr e => recoverEmpty e end)) non_nil).
    { apply np_bind; [auto with np|intros b]. destruct b; repeat stm. }
    destruct t; try exact G; repeat stm. }
  induction n as [|n IH]; intros stmts; cbn [messageBody_loop]; [auto with np|]. apply npb; [auto with np|intros cs]. apply npb; [auto with np|intros t].
  destruct t; try (eapply npq_bind with (Q := non_nil); [apply S|intros v Hv; apply npb; [apply np_inline; exact Hv|intros v'; apply IH]]). nps.
Qed.
Lemma np_parseMessageBody perm bic n : T (parseMessageBody perm bic n).
Proof. induction n as [|n IH]; cbn [parseMessageBody]; [apply np_oof|]. pose proof (np_messageBody_loop perm bic _ None 0 IH). nps. apply np_messageBody_loop. exact IH. Qed.
Hint Resolve np_parseMessageBody : np.
Lemma np_ParseMessage perm bic n : T (ParseMessage perm bic n).
Proof. unfold ParseMessage. auto with np. Qed.
End Leaves.

(** ** The characters of a text that panics *)
Section Chars.
Variable V : rune -> Prop.
Record Over (s : st) : Prop := mkOver { ov_rest : Forall V (rest s); ov_raw : Forall V (raw s); ov_lraw : Forall V (lraw s) }.
Notation any := (fun _ => True).
Notation Tv := (@T Over any).
Notation Trv := (@Tr Over any).
Lemma ov_read s : Over s -> Over (snd (read s)) /\ forall c, fst (read s) = Ok c -> V c \/ c = eof.
Proof.
  intros [A B C]. unfold read. destruct (rest s) as [|c r] eqn:R0; [cbn; split; [split; rewrite ?R0; auto|intros c [= <-]; auto]|].
  inversion A; subst. destruct (N.eqb_spec c eof) as [->|N0]; cbn [fst snd].
  - split; [split; auto|intros c [= <-]; auto].
  - split; [split; cbn [rest raw lraw set_rest set_raw set_pc]; auto|intros d [= <-]; auto]. apply Forall_app. split; [exact B|]. constructor; [assumption|constructor].
Qed.
Lemma ov_unread c s : V c -> Over s -> Over (unread c s).
Proof. intros H [A B C]. split; cbn; auto. Qed.
Lemma ov_removelast (l : list rune) : Forall V l -> Forall V (removelast l).
Proof. induction 1 as [|a l H F IH]; [constructor|]. cbn. destruct l; [constructor|]. constructor; assumption. Qed.
Lemma ov_setraw r s : Over s -> Forall V r -> Over (set_raw r s).
Proof. intros [A B C] H. split; auto. Qed.
Lemma ov_peek s : Over s -> Over (snd (peek s)) /\ forall c, fst (peek s) = Ok c -> V c \/ c = eof.
Proof.
  intros H. destruct (ov_read s H) as [K L]. unfold peek, bind. destruct (read s) as [[c|e| |] t] eqn:Q; cbn [fst snd] in *; auto; try (split; [assumption|discriminate]).
  specialize (L c eq_refl). destruct (c =? eof) eqn:Ec; cbn.
  - split; [exact K|]. intros d [= <-]. apply N.eqb_eq in Ec. auto.
  - split; [|intros d [= <-]; exact L]. apply ov_unread; [destruct L as [L| ->]; [exact L|discriminate]|].
    apply ov_setraw; [exact K|]. apply ov_removelast, K.
Qed.
Lemma ov_unscan s : Over s -> Over (UnScan s).
Proof.
  intros H. unfold UnScan. assert (F : Forall V (rev (raw s))) by (apply Forall_rev, H). revert s H F.
  intros s H. generalize (rev (raw s)). intros l. revert s H. induction l as [|c l IH]; intros s H F; [exact H|].
  cbn [fold_left]. inversion F; subst. apply IH; [apply ov_unread; assumption|assumption].
Qed.
Ltac side := try solve [exact I|exact (fun s H => proj1 (ov_read s H))|exact (fun s H => proj1 (ov_peek s H))|exact ov_unscan|exact ov_setraw|
  intros; exact I|intros ? K; apply K|intros; repeat match goal with H : Over _ |- _ => destruct H end; split; assumption].
Lemma tv_ParseComments : Tv ParseComments. Proof. first [solve [apply (t_ParseComments Over any any V); side]|solve [apply (t_ParseComments Over any any); side]|apply (t_ParseComments Over any); side]. Qed.
Lemma tv_p_IsEOF : Tv p_IsEOF. Proof. first [solve [apply (t_p_IsEOF Over any any V); side]|solve [apply (t_p_IsEOF Over any any); side]|apply (t_p_IsEOF Over any); side]. Qed.
Lemma tv_peekKeyword : Tv peekKeyword. Proof. first [solve [apply (t_peekKeyword Over any any V); side]|solve [apply (t_peekKeyword Over any any); side]|apply (t_peekKeyword Over any); side]. Qed.
Lemma tv_protoStmt perm bic n t cs : Tv (protoStmt perm bic n t cs). Proof. first [solve [apply (t_protoStmt Over any any V); side]|solve [apply (t_protoStmt Over any any); side]|apply (t_protoStmt Over any); side]. Qed.
Lemma tv_inline {A} (set : comment -> A -> option A) x : Tv (MaybeScanInlineComment set x).
Proof. first [solve [apply (t_MaybeScanInlineComment Over any any V); side]|solve [apply (t_MaybeScanInlineComment Over any any); side]|apply (t_MaybeScanInlineComment Over any); side]. Qed.
Lemma tv_ParseSyntax : Tv ParseSyntax. Proof. first [solve [apply (t_ParseSyntax Over any any V); side]|solve [apply (t_ParseSyntax Over any any); side]|apply (t_ParseSyntax Over any); side]. Qed.
Lemma tv_ParseEdition : Tv ParseEdition. Proof. first [solve [apply (t_ParseEdition Over any any V); side]|solve [apply (t_ParseEdition Over any any); side]|apply (t_ParseEdition Over any); side]. Qed.
Lemma tv_parseBOM : Tv parseBOM. Proof. first [solve [apply (t_parseBOM Over any any V); side]|solve [apply (t_parseBOM Over any any); side]|apply (t_parseBOM Over any); side]. Qed.
Lemma tv_scanIdent : Tv scanIdent. Proof. first [solve [apply (t_scanIdent Over any any V); side]|solve [apply (t_scanIdent Over any any); side]|apply (t_scanIdent Over any); side]. Qed.
Lemma tv_scanComment : Tv scanComment. Proof. first [solve [apply (t_scanComment Over any any V); side]|solve [apply (t_scanComment Over any any); side]|apply (t_scanComment Over any); side]. Qed.
Lemma tv_scanStrLit : Tv scanStrLit. Proof. first [solve [apply (t_scanStrLit Over any any V); side]|solve [apply (t_scanStrLit Over any any); side]|apply (t_scanStrLit Over any); side]. Qed.
Lemma tv_scanNumberLit : Tv scanNumberLit. Proof. first [solve [apply (t_scanNumberLit Over any any V); side]|solve [apply (t_scanNumberLit Over any any); side]|apply (t_scanNumberLit Over any); side]. Qed.
Lemma tv_isEOF : Tv isEOF. Proof. first [solve [apply (t_isEOF Over any any V); side]|solve [apply (t_isEOF Over any any); side]|apply (t_isEOF Over any); side]. Qed.
Lemma tv_UnNext : Tv UnNext. Proof. first [solve [apply (t_UnNext Over any any V); side]|solve [apply (t_UnNext Over any any); side]|apply (t_UnNext Over any); side]. Qed.
Lemma trv_read : Trv read (fun c => V c \/ c = eof).
Proof. intros s H. destruct (ov_read s H) as [A B]. destruct (read s) as [[c|e| |] t]; cbn [fst snd] in *; auto. Qed.
Lemma trv_peek : Trv peek (fun c => V c \/ c = eof).
Proof. intros s H. destruct (ov_peek s H) as [A B]. destruct (peek s) as [[c|e| |] t]; cbn [fst snd] in *; auto. Qed.
Lemma trv_modify f (Q : unit -> Prop) : (forall s, Over s -> Over (f s)) -> Q tt -> Trv (modify f) Q.
Proof. intros H K s Is. split; [apply H; exact Is|exact K]. Qed.

Definition number_tok (x : token * str) : Prop := fst x = TINTLIT \/ fst x = TFLOATLIT.
Definition Po {A} (m : M A) (Q : A -> Prop) : Prop := forall s, match fst (m s) with Ok a => Q a | _ => True end.
Lemma po_bind {A B} (m : M A) (f : A -> M B) Q : (forall a, Po (f a) Q) -> Po (bind m f) Q.
Proof. intros H s. unfold bind. destruct (m s) as [[a|e| |] t]; cbn [fst]; auto. apply H. Qed.
Lemma number_post : Po scanNumberLit number_tok.
Proof.
  unfold scanNumberLit. repeat match goal with
  | |- Po (bind _ _) _ => apply po_bind; intros ?
  | |- Po (let x := _ in _) _ => cbv zeta
  | |- Po (if ?b then _ else _) _ => destruct b
  | |- Po (ret _) _ => intros s; cbn; unfold number_tok; cbn; auto
  | |- Po (s_unexpected _ _) _ => intros s; exact I
  end.
Qed.
Lemma trv_number : Trv scanNumberLit number_tok.
Proof. intros s H. pose proof (number_post s) as N. pose proof (tv_scanNumberLit s H) as K. destruct (scanNumberLit s) as [[x|e| |] t]; cbn [fst] in *; auto. destruct K. auto. Qed.

Section Token.
Variable bad : token.
Hypothesis not_kw : forall x, asKeywordToken x <> bad.
Hypothesis not_misc : forall c, V c \/ c = eof -> asMiscToken c <> bad.
Hypothesis not_comment : bad = TCOMMENT -> ~ V (ch "/").
Hypothesis not_other : ~ In bad [TBOOLLIT; TFLOATLIT; TIDENT; TEOF; TILLEGAL; TSTRLIT; TINTLIT].
Definition good (x : scanned) : Prop := fst (fst (fst x)) <> bad.
Lemma tr_good t x p e : t <> bad -> Trv (ret (t, x, p, e)) good. Proof. intros H. apply tr_ret. exact H. Qed.
Ltac other := let H := fresh in intros H; apply not_other; rewrite <- H; cbn; tauto.
Lemma trv_scan n : Trv (scan n) good.
Proof.
  induction n as [|n IH]; cbn [scan]; [intros s Is; exact I|]. eapply tr_bind; [apply trv_peek|intros c Hc]. eapply tr_bind; [apply t_gets|intros p _].
  destruct (isSpace c). { eapply tr_bind; [apply trv_read|intros _ _; exact IH]. }
  eapply tr_bind; [apply tv_isEOF|intros e _]. destruct e; [apply tr_good; other|].
  destruct (_ || _).
  { eapply tr_bind; [apply tv_scanIdent|intros x _]. eapply tr_bind; [apply t_gets|intros m _].
    repeat match goal with |- context[if ?b then _ else _] => destruct b end; apply tr_good; first [apply not_kw|other]. }
  destruct (N.eqb_spec c (ch "/")) as [->|Nc].
  { eapply tr_try; [apply tv_scanComment| |]; [intros l _|intros e _; apply tr_good; other].
    eapply tr_bind; [apply (trv_modify _ (fun _ => True)); [intros s [A B C]; split; assumption|exact I]|intros _ _].
    eapply tr_bind; [apply t_gets|intros m _]. destruct (has _ _); [|exact IH]. apply tr_good. intros <-.
    apply not_comment; [reflexivity|]. destruct Hc as [Hc|Hc]; [exact Hc|discriminate]. }
  eapply tr_bind; [apply t_gets|intros m _].
  destruct (_ && _).
  { unfold or_illegal. eapply tr_try with (Q := fun x => fst x = TSTRLIT); [eapply tr_bind; [apply tv_scanStrLit|intros l _; apply tr_ret; reflexivity]| |].
    - intros [t l] Ht. cbn in Ht. subst t. apply tr_good. other.
    - intros e _. apply tr_good. other. }
  destruct (_ && _).
  { unfold or_illegal. eapply tr_try; [apply trv_number| |].
    - intros [t l] Ht. unfold number_tok in Ht. cbn in Ht. apply tr_good. destruct Ht as [-> | ->]; other.
    - intros e _. apply tr_good. other. }
  eapply tr_bind; [apply trv_read|intros d _]. apply tr_good. apply not_misc. exact Hc.
Qed.
(** after Next the current token is not [bad] *)
Definition after (s : st) : Prop := Over s /\ ltok s <> bad.
Lemma next_tok s : Over s -> match Next s with (Ok _, t) => after t | _ => True end.
Proof.
  intros H. unfold Next. pose proof (fun n => trv_scan n (set_raw [] s)) as K. unfold Scan, bind, modify, fuel_here, gets.
  specialize (K (S (List.length (rest (set_raw [] s))))). destruct (scan _ _) as [[[[[t x] p] e]|e| |] u]; auto.
  destruct K as [Ou G]; [apply ov_setraw; [exact H|constructor]|]. split; [|exact G]. destruct Ou. split; assumption.
Qed.
Lemma next_mode_tok m s : Over s -> match nextWithSpecificMode m s with (Ok _, t) => after t | _ => True end.
Proof.
  intros H. unfold nextWithSpecificMode. pose proof (next_tok (set_mode m s)) as K. unfold bind, gets, modify.
  destruct (Next (set_mode m s)) as [[[]|e| |] u]; auto. destruct K as [[A B C] G]; [destruct H; split; assumption|]. split; [split; assumption|exact G].
Qed.
End Token.

Definition Sf {A} (m : M A) : Prop := forall s, Over s -> fst (m s) <> Panic.
Lemma sf_bind {A B} (m : M A) (f : A -> M B) Q : Trv m Q -> NP m -> (forall a, Q a -> Sf (f a)) -> Sf (bind m f).
Proof. intros H N K s Is. specialize (H s Is). specialize (N s). unfold bind. destruct (m s) as [[a|e| |] t]; cbn [fst] in *; try discriminate; [|contradiction]. apply K; apply H. Qed.
Lemma sf_np {A} (m : M A) : NP m -> Sf m.
Proof. intros N s _ X. specialize (N s). rewrite X in N. exact N. Qed.
Lemma np_protoStmt perm bic n t cs : NP (protoStmt perm bic n t cs).
Proof. pose proof (np_ParseMessage perm bic n). unfold protoStmt. nps. all: try (apply np_ParseEnum || apply np_ParseService || apply np_ParseExtend || apply np_ParseImport || apply np_ParsePackage || apply np_ParseOption || apply np_ReadEmptyStatement). Qed.
Lemma sf_loop perm bic n : (forall v, Sf (MaybeScanInlineComment set_inline v)) \/ (forall n t cs, Trv (protoStmt perm bic n t cs) (fun r => non_nil (snd r))) ->
  forall body, Sf (protoBody_loop perm bic n body).
Proof.
  intros D. induction n as [|n IH]; intros body; cbn [protoBody_loop]; [intros s _; discriminate|].
  eapply sf_bind; [apply tv_ParseComments|apply np_ParseComments|intros cs _]. eapply sf_bind; [apply tv_p_IsEOF|apply np_p_IsEOF|intros e _].
  destruct e; [intros s _; discriminate|]. eapply sf_bind; [apply tv_peekKeyword|apply np_peekKeyword|intros t _].
  destruct D as [D|D].
  - eapply sf_bind; [apply tv_protoStmt|apply np_protoStmt|intros [pre v] _]. intros s Os. unfold bind. pose proof (D v s Os) as X.
    pose proof (tv_inline set_inline v s Os) as Y. destruct (MaybeScanInlineComment _ _ s) as [[w|e| |] u]; cbn [fst] in *; try discriminate; [|destruct X; reflexivity]. apply IH. apply Y.
  - eapply sf_bind; [apply D|apply np_protoStmt|intros [pre v] Nv]. eapply sf_bind; [apply tv_inline|apply np_inline; exact Nv|intros w _; apply IH].
Qed.
Lemma sf_proto perm bic n : (forall v, Sf (MaybeScanInlineComment set_inline v)) \/ (forall n t cs, Trv (protoStmt perm bic n t cs) (fun r => non_nil (snd r))) ->
  Sf (ParseProto perm bic n).
Proof.
  intros D. unfold ParseProto. eapply sf_bind; [apply tv_parseBOM|apply np_parseBOM|intros _ _].
  eapply sf_bind; [apply tv_ParseComments|apply np_ParseComments|intros cs _].
  eapply sf_bind; [apply tv_ParseSyntax|apply np_ParseSyntax|intros sy _].
  eapply sf_bind with (Q := fun _ => True).
  { destruct sy; [|apply t_ret]. eapply tr_bind; [apply tv_inline|intros ? _; apply t_ret]. }
  { destruct sy; [|apply np_ret]. apply npb; [apply np_total|intros ?; apply np_ret]. }
  intros sy' _. eapply sf_bind; [apply tv_ParseEdition|apply np_ParseEdition|intros ed _].
  eapply sf_bind with (Q := fun _ => True).
  { destruct ed; [|apply t_ret]. eapply tr_bind; [apply tv_inline|intros ? _; apply t_ret]. }
  { destruct ed; [|apply np_ret]. apply npb; [apply np_total|intros ?; apply np_ret]. }
  intros ed' _ s Os. unfold bind. pose proof (sf_loop perm bic n D [] s Os) as L. destruct (protoBody_loop perm bic n [] s) as [[b|e| |] u]; cbn [fst] in *; try discriminate. destruct L; reflexivity.
Qed.
Lemma sf_no_slash v : ~ V (ch "/") -> Sf (MaybeScanInlineComment set_inline v).
Proof.
  intros N s Os. unfold MaybeScanInlineComment, parseInlineComment, parseComment, NextComment.
  pose proof (next_mode_tok TCOMMENT LexProofs.keyword_not_comment (fun c _ => LexProofs.asMisc_not_comment c) (fun _ => N) ltac:(cbn; intuition discriminate) ScanComment s Os) as K.
  unfold bind, try, gets. destruct (nextWithSpecificMode ScanComment s) as [[[]|e| |] u] eqn:Q; cbn [fst]; try discriminate.
  - destruct K as [Ou K]. destruct (tok_eqb (ltok u) TCOMMENT) eqn:X; [destruct (ltok u); try discriminate X; contradiction|]. discriminate.
  - pose proof (np_nextWithSpecificMode ScanComment s) as Y. rewrite Q in Y. contradiction.
Qed.
Lemma protoStmt_no_semi perm bic n t cs : ~ V (ch ";") -> Trv (protoStmt perm bic n t cs) (fun r => non_nil (snd r)).
Proof.
  intros N. unfold protoStmt.
  assert (D : Trv (ReadEmptyStatement;; ret ([VEmpty (mkEmpty None)], VNil)) (fun r => non_nil (snd r))).
  { intros s Os. unfold ReadEmptyStatement.
    assert (kw : forall x, asKeywordToken x <> TSEMICOLON).
    { intros x. unfold asKeywordToken. destruct (assoc_str x keyword_table) as [t0|] eqn:A0; [|discriminate]. revert A0. unfold keyword_table. cbn [assoc_str].
      repeat match goal with |- context[if ?b then _ else _] => destruct b; [intros [= <-]; discriminate|] end. discriminate. }
    pose proof (next_tok TSEMICOLON kw (fun c H => fun E => match H with or_introl h => N (eq_ind c V h (ch ";") (Refine.misc_semi_inv c E)) | or_intror h => ltac:(subst c; discriminate) end)
      ltac:(discriminate) ltac:(cbn; intuition discriminate) s Os) as K.
    pose proof (tv_protoStmt perm bic 0 TSEMICOLON [] s Os) as Y. cbn [protoStmt] in Y. unfold ReadEmptyStatement in Y. revert Y.
    unfold bind, gets. destruct (Next s) as [[[]|e| |] u]; auto.
    destruct K as [Ou K]. destruct (tok_eqb (ltok u) TSEMICOLON) eqn:X; [destruct (ltok u); try discriminate X; contradiction|]. auto. }
  assert (G : forall {A} (m : M A) Q, Tv m -> Po m Q -> Trv m Q).
  { intros A m Q H P s Os. specialize (H s Os). specialize (P s). destruct (m s) as [[a|e| |] u]; cbn [fst] in *; auto. destruct H. auto. }
  pose proof (tv_protoStmt perm bic n t cs) as W. unfold protoStmt in W.
  destruct t; try exact D; (apply G; [exact W|apply po_bind; intros ? ?; cbn [fst ret]; apply nn_with; discriminate]).
Qed.
End Chars.

(** ** Parse *)
Lemma over_init V fn input : Forall V input -> Over V (init_st fn input).
Proof. intros H. split; cbn; auto. Qed.
Lemma not_in (c : rune) l : ~ In c l -> Forall (fun d => d <> c) l.
Proof. intros H. apply Forall_forall. intros d Hd ->. contradiction. Qed.
Theorem panic_chars opts input : Parse opts input = Panic -> In (ch ";") input /\ In (ch "/") input.
Proof.
  intros P. unfold Parse, parse_fuel in P.
  assert (X : forall c, c = ch ";" \/ c = ch "/" -> In c input).
  { intros c Hc. destruct (in_dec N.eq_dec c input) as [Y|Y]; [exact Y|]. exfalso. revert P.
    apply (sf_proto (fun d => d <> c)); [|apply over_init, not_in, Y].
    destruct Hc as [-> | ->]; [right; intros; apply protoStmt_no_semi; congruence|left; intros; apply sf_no_slash; congruence]. }
  auto.
Qed.

(** ** The exported functions of the parser *)
(** parser/parser.go: the methods of Parser that read one construct *)
Inductive method : forall A, M A -> Prop :=
| MComments : method _ ParseComments
| MSyntax : method _ ParseSyntax
| MEdition : method _ ParseEdition
| MImport : method _ ParseImport
| MPackage : method _ ParsePackage
| MOption perm : method _ (ParseOption perm)
| MField perm : method _ (ParseField perm)
| MMapField perm : method _ (ParseMapField perm)
| MOneof perm : method _ (ParseOneof perm)
| MReserved : method _ ParseReserved
| MDeclaration : method _ ParseDeclaration
| MExtensions : method _ ParseExtensions
| MEnum perm bic : method _ (ParseEnum perm bic)
| MExtend perm bic : method _ (ParseExtend perm bic)
| MService perm bic : method _ (ParseService perm bic)
| MGroup perm bic n : method _ (ParseGroupField (parseMessageBody perm bic n))
| MMessage perm bic n : method _ (ParseMessage perm bic n)
| MEOF : method _ p_IsEOF
| MInline v : v <> VNil -> method _ (MaybeScanInlineComment set_inline v).
Theorem method_calm A (m : M A) : method A m -> forall s, fst (m s) <> Panic.
Proof.
  intros H. assert (N : NP m).
  { destruct H; [apply np_ParseComments|apply np_ParseSyntax|apply np_ParseEdition|apply np_ParseImport|apply np_ParsePackage|apply np_ParseOption|
      apply np_ParseField|apply np_ParseMapField|apply np_ParseOneof|apply np_ParseReserved|apply np_ParseDeclaration|apply np_ParseExtensions|
      apply np_ParseEnum|apply np_ParseExtend|apply np_ParseService|apply np_ParseGroupField, np_parseMessageBody|apply np_ParseMessage|apply np_p_IsEOF|apply np_inline; assumption]. }
  intros s E. specialize (N s). rewrite E in N. exact N.
Qed.
(** a message with a semicolon and a comment in its body, where the file panics *)
Lemma method_case : fst (ParseMessage true false 100 (init_st [] (lit "message M { ; // c"))) <> Panic /\
  (exists b, fst (ParseMessage true false 100 (init_st [] (lit "message M { ; /* c */ }"))) = Ok b /\ List.length (b_body b) = 1%nat) /\
  Parse [] (lit "; // c") = Panic.
Proof. split; [vm_compute; discriminate|]. split; [eexists; split; vm_compute; reflexivity|vm_compute; reflexivity]. Qed.
(** a text with a group and a NUL that panics *)
Lemma chars_case : exists input, Parse [] input = Panic /\ (exists a b, input = a ++ lit "group" ++ b) /\ In 0 input.
Proof.
  exists (lit "message M { optional group G = 1 { } } package a; ; // " ++ [0]). split; [vm_compute; reflexivity|]. split; [|vm_compute; tauto].
  exists (lit "message M { optional "), (lit " G = 1 { } } package a; ; // " ++ [0]). reflexivity.
Qed.
