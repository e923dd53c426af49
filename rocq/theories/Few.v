(** How many places an error tells about: one more for every group around it. *)
From Coq Require Import List NArith ZArith Bool String Ascii Lia Arith.
From Verif Require Import Base Token Scanner Lexer Ast Parser Api LexSpec FoundSpec.
Import ListNotations.
Open Scope N_scope.
Open Scope monad_scope.

Definition few (c : nat) (e : err) : Prop := (List.length (err_found e) <= c)%nat.
Definition Few (c : nat) {A} (m : M A) : Prop := forall s, match fst (m s) with Err e => few c e | _ => True end.
Lemma f_bind {A B} c (m : M A) (f : A -> M B) : Few c m -> (forall a, Few c (f a)) -> Few c (bind m f).
Proof. intros H K s. specialize (H s). unfold bind. destruct (m s) as [[a|e| |] t]; cbn [fst] in *; auto. apply K. Qed.
Lemma f_try {A B} c d (m : M A) (f : A + err -> M B) : Few d m -> (forall a, Few c (f (inl a))) -> (forall e, few d e -> Few c (f (inr e))) -> Few c (try m f).
Proof. intros H K L s. specialize (H s). unfold try. destruct (m s) as [[a|e| |] t]; cbn [fst] in *; auto; [apply K|apply L; exact H]. Qed.
Lemma f_weak {A} c d (m : M A) : (c <= d)%nat -> Few c m -> Few d m.
Proof. intros L H s. specialize (H s). destruct (fst (m s)); auto. unfold few in *. lia. Qed.
Lemma f_ret {A} c (a : A) : Few c (ret a). Proof. intros s. exact I. Qed.
Lemma f_fail {A} c e : few c e -> Few c (@fail A e). Proof. intros H s. exact H. Qed.
Lemma f_panic {A} c : Few c (@panic A). Proof. intros s. exact I. Qed.
Lemma f_oof {A} c : Few c (@oof A). Proof. intros s. exact I. Qed.
Lemma f_gets {A} c (f : st -> A) : Few c (gets f). Proof. intros s. exact I. Qed.
Lemma f_modify c (f : st -> st) : Few c (modify f). Proof. intros s. exact I. Qed.
Lemma f_read c : Few c read.
Proof. intros s. unfold read. destruct (rest s) as [|x r]; [exact I|]. destruct (x =? eof); exact I. Qed.
Lemma f_fuel c : Few c fuel_here. Proof. apply f_gets. Qed.
Lemma few_scan p x r : few 1 (EScan p x r). Proof. unfold few. cbn. lia. Qed.
Lemma few_lex p x r : few 1 (ELex p x r). Proof. unfold few. cbn. lia. Qed.
Lemma few_parse p x r t : few 1 (EParse p x r t). Proof. unfold few. cbn. lia. Qed.
Lemma few_pair c a b : few c a -> few 1 b -> few (S c) (EPair a b).
Proof. unfold few. cbn [err_found]. rewrite app_length. lia. Qed.
Lemma f_s_unexpected {A} r x : Few 1 (@s_unexpected A r x).
Proof. unfold s_unexpected. apply f_bind; [apply f_gets|intros p; apply f_fail, few_scan]. Qed.
Lemma f_l_unexpected {A} x : Few 1 (@l_unexpected A x). Proof. intros s. apply few_lex. Qed.
Lemma f_p_unexpected {A} x : Few 1 (@p_unexpected A x). Proof. intros s. apply few_parse. Qed.
Lemma f_mk_comment p l : Few 1 (mk_comment p l).
Proof. intros s. unfold mk_comment. destruct (AdvancedBulk p (cols s) l). exact I. Qed.
Lemma f_peek c : Few c peek.
Proof. unfold peek. repeat first [apply f_bind; [|intros ?]|apply f_read|apply f_modify|apply f_ret|match goal with |- Few _ (match ?x with _ => _ end) => destruct x end]. Qed.
Lemma f_deferUnNext {A} c (k : M A) : Few c k -> Few c (deferUnNext k).
Proof.
  intros H. unfold deferUnNext. apply f_bind; [apply f_gets|intros r]. apply f_bind; [exact H|intros a]. apply f_bind; [|intros _; apply f_ret].
  unfold UnNextTo. apply f_bind; [apply f_modify|intros _; apply f_modify].
Qed.
Create HintDb fw.
#[global] Hint Resolve f_ret f_panic f_oof f_gets f_modify f_read f_peek f_fuel few_scan few_lex few_parse f_fail f_s_unexpected f_l_unexpected f_p_unexpected f_mk_comment : fw.
Ltac fw1 :=
  match goal with
  | |- Few _ (bind _ _) => apply f_bind; [|intros ?]
  | |- Few _ (try _ _) => apply (f_try _ 1); [|intros ?|intros ? ?]
  | |- Few _ (match ?x with _ => _ end) => destruct x
  | |- Few _ (let x := _ in _) => cbv zeta
  | |- Few _ (deferUnNext _) => apply f_deferUnNext
  | |- Few _ _ => solve [auto with fw]
  end.
Ltac fws := repeat fw1.
Section Leaves.
Notation T := (Few 1).
Lemma f_UnNext : T UnNext. Proof. unfold UnNext. fws. Qed.
Hint Resolve f_UnNext : fw.
Lemma f_UnNextTo r : T (UnNextTo r). Proof. unfold UnNextTo. fws. Qed.
Hint Resolve f_UnNextTo : fw.
Lemma f_unnext_all l : T (unnext_all l). Proof. induction l; cbn [unnext_all]; fws. Qed.
Hint Resolve f_unnext_all : fw.
Lemma f_isEOF  : T (isEOF ).
Proof. intros. unfold isEOF. fws. Qed.
Hint Resolve f_isEOF : fw.
Lemma f_ident_loop (n : nat) (ident : str) : T (ident_loop n ident).
Proof. intros. revert ident. induction n as [|? ?]; intros; cbn [ident_loop]; fws. Qed.
Hint Resolve f_ident_loop : fw.
Lemma f_scanIdent  : T (scanIdent ).
Proof. intros. unfold scanIdent. fws. Qed.
Hint Resolve f_scanIdent : fw.
Lemma f_line_loop (n : nat) (l : str) (c : rune) : T (line_loop n l c).
Proof. intros. revert l c. induction n as [|? ?]; intros; cbn [line_loop]; fws. Qed.
Hint Resolve f_line_loop : fw.
Lemma f_block_loop (n : nat) (l : str) (c : rune) : T (block_loop n l c).
Proof. intros. revert l c. induction n as [|? ?]; intros; cbn [block_loop]; fws. Qed.
Hint Resolve f_block_loop : fw.
Lemma f_scanComment  : T (scanComment ).
Proof. intros. unfold scanComment. fws. Qed.
Hint Resolve f_scanComment : fw.
Lemma f_digits_loop (n : nat) (cls : rune -> bool) (l : str) : T (digits_loop n cls l).
Proof. intros. revert cls l. induction n as [|? ?]; intros; cbn [digits_loop]; fws. Qed.
Hint Resolve f_digits_loop : fw.
Lemma f_scanDecimals  : T (scanDecimals ).
Proof. intros. unfold scanDecimals. fws. Qed.
Hint Resolve f_scanDecimals : fw.
Lemma f_scanExponent  : T (scanExponent ).
Proof. intros. unfold scanExponent. fws. Qed.
Hint Resolve f_scanExponent : fw.
Lemma f_scanFractionPart  : T (scanFractionPart ).
Proof. intros. unfold scanFractionPart. fws. Qed.
Hint Resolve f_scanFractionPart : fw.
Lemma f_scanFractionPartNoOmit  : T (scanFractionPartNoOmit ).
Proof. intros. unfold scanFractionPartNoOmit. fws. Qed.
Hint Resolve f_scanFractionPartNoOmit : fw.
Lemma f_scanNumberLit  : T (scanNumberLit ).
Proof. intros. unfold scanNumberLit. fws. Qed.
Hint Resolve f_scanNumberLit : fw.
Lemma f_escape_digits (k : nat) (cls : rune -> bool) (l : str) : T (escape_digits k cls l).
Proof. intros. revert cls l. induction k as [|? ?]; intros; cbn [escape_digits]; fws. Qed.
Hint Resolve f_escape_digits : fw.
Lemma f_tryScanEscape  : T (tryScanEscape ).
Proof. intros. unfold tryScanEscape. fws. Qed.
Hint Resolve f_tryScanEscape : fw.
Lemma f_scanCharValue  : T (scanCharValue ).
Proof. intros. unfold scanCharValue. fws. Qed.
Hint Resolve f_scanCharValue : fw.
Lemma f_str_loop (n : nat) (quote : rune) (l : str) (c : rune) : T (str_loop n quote l c).
Proof. intros. revert quote l c. induction n as [|? ?]; intros; cbn [str_loop]; fws. Qed.
Hint Resolve f_str_loop : fw.
Lemma f_scanStrLit  : T (scanStrLit ).
Proof. intros. unfold scanStrLit. fws. Qed.
Hint Resolve f_scanStrLit : fw.
Lemma f_or_illegal p m : T m -> T (or_illegal p m). Proof. intros. unfold or_illegal. fws. Qed.
Hint Resolve f_or_illegal : fw.
Lemma f_scan n : T (scan n). Proof. induction n as [|n IH]; cbn [scan]; fws; apply f_or_illegal; fws. Qed.
Hint Resolve f_scan : fw.
Lemma f_Next : T Next. Proof. unfold Next, Scan. fws. Qed.
Hint Resolve f_Next : fw.
Lemma f_nextWithSpecificMode m : T (nextWithSpecificMode m). Proof. unfold nextWithSpecificMode. fws. Qed.
Hint Resolve f_nextWithSpecificMode : fw.
Lemma f_nexts_raw n : forall l, T (nexts_raw n l). Proof. induction n; intros; cbn [nexts_raw]; fws. Qed.
Hint Resolve f_nexts_raw : fw.
Lemma f_PeekN n : T (PeekN n). Proof. unfold PeekN. fws. Qed.
Hint Resolve f_PeekN : fw.
Lemma f_NextN (n : nat) : T (NextN n).
Proof. intros. induction n as [|? ?]; intros; cbn [NextN]; fws. Qed.
Hint Resolve f_NextN : fw.
Lemma f_NextKeywordOrStrLit  : T (NextKeywordOrStrLit ).
Proof. intros. unfold NextKeywordOrStrLit. fws. Qed.
Hint Resolve f_NextKeywordOrStrLit : fw.
Lemma f_NextKeyword  : T (NextKeyword ).
Proof. intros. unfold NextKeyword. fws. Qed.
Hint Resolve f_NextKeyword : fw.
Lemma f_NextStrLit  : T (NextStrLit ).
Proof. intros. unfold NextStrLit. fws. Qed.
Hint Resolve f_NextStrLit : fw.
Lemma f_NextLit  : T (NextLit ).
Proof. intros. unfold NextLit. fws. Qed.
Hint Resolve f_NextLit : fw.
Lemma f_NextNumberLit  : T (NextNumberLit ).
Proof. intros. unfold NextNumberLit. fws. Qed.
Hint Resolve f_NextNumberLit : fw.
Lemma f_NextComment  : T (NextComment ).
Proof. intros. unfold NextComment. fws. Qed.
Hint Resolve f_NextComment : fw.
Lemma f_lex_IsEOF  : T (lex_IsEOF ).
Proof. intros. unfold lex_IsEOF. fws. Qed.
Hint Resolve f_lex_IsEOF : fw.
Lemma f_Peek  : T (Peek ).
Proof. intros. unfold Peek. fws. Qed.
Hint Resolve f_Peek : fw.
Lemma f_ConsumeToken (t : token) : T (ConsumeToken t).
Proof. intros. unfold ConsumeToken. fws. Qed.
Hint Resolve f_ConsumeToken : fw.
Lemma f_ReadEmptyStatement : T ReadEmptyStatement.
Proof. unfold ReadEmptyStatement. fws. Qed.
Hint Resolve f_ReadEmptyStatement : fw.
Lemma f_fullIdent_loop (n : nat) (acc : str) : T (fullIdent_loop n acc).
Proof. intros. revert acc. induction n as [|? ?]; intros; cbn [fullIdent_loop]; fws. Qed.
Hint Resolve f_fullIdent_loop : fw.
Lemma f_ReadFullIdent  : T (ReadFullIdent ).
Proof. intros. unfold ReadFullIdent. fws. Qed.
Hint Resolve f_ReadFullIdent : fw.
Lemma f_messageType_loop (n : nat) (acc : str) : T (messageType_loop n acc).
Proof. intros. revert acc. induction n as [|? ?]; intros; cbn [messageType_loop]; fws. Qed.
Hint Resolve f_messageType_loop : fw.
Lemma f_ReadMessageType  : T (ReadMessageType ).
Proof. intros. unfold ReadMessageType. fws. Qed.
Hint Resolve f_ReadMessageType : fw.
Lemma f_ReadEnumType  : T (ReadEnumType ).
Proof. intros. unfold ReadEnumType. fws. Qed.
Hint Resolve f_ReadEnumType : fw.
Lemma f_merge_loop (n : nat) (q : rune) (b : str) : T (merge_loop n q b).
Proof. intros. revert q b. induction n as [|? ?]; intros; cbn [merge_loop]; fws. Qed.
Hint Resolve f_merge_loop : fw.
Lemma f_mergeMultilineStrLit  : T (mergeMultilineStrLit ).
Proof. intros. unfold mergeMultilineStrLit. fws. Qed.
Hint Resolve f_mergeMultilineStrLit : fw.
Lemma f_ReadConstant (permissive : bool) : T (ReadConstant permissive).
Proof. unfold ReadConstant. fws. Qed.
Hint Resolve f_ReadConstant : fw.
Lemma f_expect (t : token) (expected : string) : T (expect t expected).
Proof. intros. unfold expect. fws. Qed.
Hint Resolve f_expect : fw.
Lemma f_p_IsEOF  : T (p_IsEOF ).
Proof. intros. unfold p_IsEOF. fws. Qed.
Hint Resolve f_p_IsEOF : fw.
Lemma f_peekKeyword  : T (peekKeyword ).
Proof. intros. unfold peekKeyword. fws. Qed.
Hint Resolve f_peekKeyword : fw.
Lemma f_parseComment : T parseComment.
Proof.
  unfold parseComment. apply f_bind; [auto with fw|intros _]. apply f_bind; [apply f_gets|intros t]. destruct (tok_eqb t TCOMMENT); [fws|]. intros s. cbv zeta.
  assert (X : Few 1 (UnNext;; @fail comment (EParse (lpos s) "comment" (ltext s) (ltok s)))) by fws. exact (X s).
Qed.
Hint Resolve f_parseComment : fw.
Lemma f_parseComments_loop (n : nat) (acc : list comment) : T (parseComments_loop n acc).
Proof. intros. revert acc. induction n as [|? ?]; intros; cbn [parseComments_loop]; fws. Qed.
Hint Resolve f_parseComments_loop : fw.
Lemma f_ParseComments  : T (ParseComments ).
Proof. intros. unfold ParseComments. fws. Qed.
Hint Resolve f_ParseComments : fw.
Lemma f_mk_comments (l : list text) : T (mk_comments l).
Proof. intros. induction l as [|? ?]; intros; cbn [mk_comments]; fws. Qed.
Hint Resolve f_mk_comments : fw.
Lemma f_findEmbeddedComments (from to : mpos) : T (findEmbeddedComments from to).
Proof. intros. unfold findEmbeddedComments. fws. Qed.
Hint Resolve f_findEmbeddedComments : fw.
Lemma f_parseInlineComment  : T (parseInlineComment ).
Proof. intros. unfold parseInlineComment. fws. Qed.
Hint Resolve f_parseInlineComment : fw.
Lemma f_MaybeScanInlineComment {A} (set : comment -> A -> option A) (x : A) : T (MaybeScanInlineComment set x).
Proof. intros. unfold MaybeScanInlineComment. fws. Qed.
Hint Resolve f_MaybeScanInlineComment : fw.
Lemma f_parseParenName (perm : bool) (name : str) : T (parseParenName perm name).
Proof. intros. unfold parseParenName. fws. Qed.
Hint Resolve f_parseParenName : fw.
Lemma f_optionName_loop (perm : bool) (n : nat) (name : str) : T (optionName_loop perm n name).
Proof. intros. revert name. induction n as [|? ?]; intros; cbn [optionName_loop]; fws. Qed.
Hint Resolve f_optionName_loop : fw.
Lemma f_parseOptionName (perm : bool) : T (parseOptionName perm).
Proof. intros. unfold parseOptionName. fws. Qed.
Hint Resolve f_parseOptionName : fw.
Lemma f_cloud_loop (perm : bool) (pc : M str) (n : nat) (r : str) : T pc -> T (cloud_loop perm pc n r).
Proof. intros. revert r. induction n as [|? ?]; intros; cbn [cloud_loop]; fws. Qed.
Hint Resolve f_cloud_loop : fw.
Lemma f_parseCloudEndpointsOptionConstant (perm : bool) (pc : M str) (n : nat) : T pc -> T (parseCloudEndpointsOptionConstant perm pc n).
Proof. intros. unfold parseCloudEndpointsOptionConstant. fws. Qed.
Hint Resolve f_parseCloudEndpointsOptionConstant : fw.
Lemma f_constants_loop (pc : M str) (n : nat) (opts : list str) : T pc -> T (constants_loop pc n opts).
Proof. intros. revert opts. induction n as [|? ?]; intros; cbn [constants_loop]; fws. Qed.
Hint Resolve f_constants_loop : fw.
Lemma f_parseOptionConstants (pc : M str) (n : nat) : T pc -> T (parseOptionConstants pc n).
Proof. intros. unfold parseOptionConstants. fws. Qed.
Hint Resolve f_parseOptionConstants : fw.
Lemma f_parseOptionConstant (perm : bool) (n : nat) : T (parseOptionConstant perm n).
Proof. intros. induction n as [|? ?]; intros; cbn [parseOptionConstant]; fws. Qed.
Hint Resolve f_parseOptionConstant : fw.
Lemma f_parseConstant (perm : bool) : T (parseConstant perm).
Proof. intros. unfold parseConstant. fws. Qed.
Hint Resolve f_parseConstant : fw.
Lemma f_ParseOption (perm : bool) : T (ParseOption perm).
Proof. intros. unfold ParseOption. fws. Qed.
Hint Resolve f_ParseOption : fw.
Lemma f_ParseSyntax  : T (ParseSyntax ).
Proof. intros. unfold ParseSyntax. fws. Qed.
Hint Resolve f_ParseSyntax : fw.
Lemma f_ParseEdition  : T (ParseEdition ).
Proof. intros. unfold ParseEdition. fws. Qed.
Hint Resolve f_ParseEdition : fw.
Lemma f_ParseImport  : T (ParseImport ).
Proof. intros. unfold ParseImport. fws. Qed.
Hint Resolve f_ParseImport : fw.
Lemma f_or_unexpected {A} (m : M A) (expected : string) : T m -> T (or_unexpected m expected).
Proof. intros. unfold or_unexpected. fws. Qed.
Hint Resolve f_or_unexpected : fw.
Lemma f_ParsePackage  : T (ParsePackage ).
Proof. intros. unfold ParsePackage. fws. Qed.
Hint Resolve f_ParsePackage : fw.
Lemma f_parseType  : T (parseType ).
Proof. intros. unfold parseType. fws. Qed.
Hint Resolve f_parseType : fw.
Lemma f_parseFieldNumber  : T (parseFieldNumber ).
Proof. intros. unfold parseFieldNumber. fws. Qed.
Hint Resolve f_parseFieldNumber : fw.
Lemma f_parseFieldOption (perm : bool) : T (parseFieldOption perm).
Proof. intros. unfold parseFieldOption. fws. Qed.
Hint Resolve f_parseFieldOption : fw.
Lemma f_fieldOptions_loop (perm : bool) (n : nat) (opts : list fieldOption) : T (fieldOptions_loop perm n opts).
Proof. intros. revert opts. induction n as [|? ?]; intros; cbn [fieldOptions_loop]; fws. Qed.
Hint Resolve f_fieldOptions_loop : fw.
Lemma f_parseFieldOptions (perm : bool) : T (parseFieldOptions perm).
Proof. intros. unfold parseFieldOptions. fws. Qed.
Hint Resolve f_parseFieldOptions : fw.
Lemma f_parseFieldOptionsOption (perm : bool) : T (parseFieldOptionsOption perm).
Proof. intros. unfold parseFieldOptionsOption. fws. Qed.
Hint Resolve f_parseFieldOptionsOption : fw.
Lemma f_parseLabel  : T (parseLabel ).
Proof. intros. unfold parseLabel. fws. Qed.
Hint Resolve f_parseLabel : fw.
Lemma f_ParseField (perm : bool) : T (ParseField perm).
Proof. intros. unfold ParseField. fws. Qed.
Hint Resolve f_ParseField : fw.
Lemma f_parseKeyType  : T (parseKeyType ).
Proof. intros. unfold parseKeyType. fws. Qed.
Hint Resolve f_parseKeyType : fw.
Lemma f_ParseMapField (perm : bool) : T (ParseMapField perm).
Proof. intros. unfold ParseMapField. fws. Qed.
Hint Resolve f_ParseMapField : fw.
Lemma f_peekIsGroup_tail  : T (peekIsGroup_tail ).
Proof. intros. unfold peekIsGroup_tail. fws. Qed.
Hint Resolve f_peekIsGroup_tail : fw.
Lemma f_peekIsGroup  : T (peekIsGroup ).
Proof. intros. unfold peekIsGroup. fws. Qed.
Hint Resolve f_peekIsGroup : fw.
Lemma f_blockEnd (perm : bool) : T (blockEnd perm).
Proof. intros. unfold blockEnd. fws. Qed.
Hint Resolve f_blockEnd : fw.
Lemma f_parseOneofField (perm : bool) : T (parseOneofField perm).
Proof. intros. unfold parseOneofField. fws. Qed.
Hint Resolve f_parseOneofField : fw.
Lemma f_oneof_loop (perm : bool) (n : nat) (fields : list oneofField) (options : list option_) : T (oneof_loop perm n fields options).
Proof. intros. revert fields options. induction n as [|? ?]; intros; cbn [oneof_loop]; fws. Qed.
Hint Resolve f_oneof_loop : fw.
Lemma f_ParseOneof (perm : bool) : T (ParseOneof perm).
Proof. intros. unfold ParseOneof. fws. Qed.
Hint Resolve f_ParseOneof : fw.
Lemma f_parseRange  : T (parseRange ).
Proof. intros. unfold parseRange. fws. Qed.
Hint Resolve f_parseRange : fw.
Lemma f_ranges_loop (n : nat) (ranges : list range) : T (ranges_loop n ranges).
Proof. intros. revert ranges. induction n as [|? ?]; intros; cbn [ranges_loop]; fws. Qed.
Hint Resolve f_ranges_loop : fw.
Lemma f_parseRanges  : T (parseRanges ).
Proof. intros. unfold parseRanges. fws. Qed.
Hint Resolve f_parseRanges : fw.
Lemma f_parseQuotedFieldName  : T (parseQuotedFieldName ).
Proof. intros. unfold parseQuotedFieldName. fws. Qed.
Hint Resolve f_parseQuotedFieldName : fw.
Lemma f_parseFieldName  : T (parseFieldName ).
Proof. intros. unfold parseFieldName. fws. Qed.
Hint Resolve f_parseFieldName : fw.
Lemma f_fieldNames_loop (n : nat) (names : list str) : T (fieldNames_loop n names).
Proof. intros. revert names. induction n as [|? ?]; intros; cbn [fieldNames_loop]; fws. Qed.
Hint Resolve f_fieldNames_loop : fw.
Lemma f_parseFieldNames  : T (parseFieldNames ).
Proof. intros. unfold parseFieldNames. fws. Qed.
Hint Resolve f_parseFieldNames : fw.
Lemma f_declaration_loop (n : nat) (v : decl_vars) : T (declaration_loop n v).
Proof. intros. revert v. induction n as [|? ?]; intros; cbn [declaration_loop]; fws. Qed.
Hint Resolve f_declaration_loop : fw.
Lemma f_ParseDeclaration  : T (ParseDeclaration ).
Proof. intros. unfold ParseDeclaration. fws. Qed.
Hint Resolve f_ParseDeclaration : fw.
Lemma f_declarations_loop (n : nat) (ds : list declaration) : T (declarations_loop n ds).
Proof. intros. revert ds. induction n as [|? ?]; intros; cbn [declarations_loop]; fws. Qed.
Hint Resolve f_declarations_loop : fw.
Lemma f_parseDeclarations  : T (parseDeclarations ).
Proof. intros. unfold parseDeclarations. fws. Qed.
Hint Resolve f_parseDeclarations : fw.
Lemma f_ParseExtensions  : T (ParseExtensions ).
Proof. intros. unfold ParseExtensions. fws. Qed.
Hint Resolve f_ParseExtensions : fw.
Lemma f_parseEnumValueOption (perm : bool) : T (parseEnumValueOption perm).
Proof. intros. unfold parseEnumValueOption. fws. Qed.
Hint Resolve f_parseEnumValueOption : fw.
Lemma f_enumValueOptions_loop (perm : bool) (n : nat) (opts : list enumValueOption) : T (enumValueOptions_loop perm n opts).
Proof. intros. revert opts. induction n as [|? ?]; intros; cbn [enumValueOptions_loop]; fws. Qed.
Hint Resolve f_enumValueOptions_loop : fw.
Lemma f_parseEnumValueOptions (perm : bool) : T (parseEnumValueOptions perm).
Proof. intros. unfold parseEnumValueOptions. fws. Qed.
Hint Resolve f_parseEnumValueOptions : fw.
Lemma f_parseEnumField (perm : bool) : T (parseEnumField perm).
Proof. intros. unfold parseEnumField. fws. Qed.
Hint Resolve f_parseEnumField : fw.
End Leaves.
#[global] Hint Resolve f_isEOF f_ident_loop f_scanIdent f_line_loop f_block_loop f_scanComment f_digits_loop f_scanDecimals f_scanExponent f_scanFractionPart f_scanFractionPartNoOmit f_scanNumberLit f_escape_digits f_tryScanEscape f_scanCharValue f_str_loop f_scanStrLit f_NextN f_NextKeywordOrStrLit f_NextKeyword f_NextStrLit f_NextLit f_NextNumberLit f_NextComment f_lex_IsEOF f_Peek f_ConsumeToken f_fullIdent_loop f_ReadFullIdent f_messageType_loop f_ReadMessageType f_ReadEnumType f_merge_loop f_mergeMultilineStrLit f_expect f_p_IsEOF f_peekKeyword f_parseComments_loop f_ParseComments f_mk_comments f_findEmbeddedComments f_parseInlineComment f_MaybeScanInlineComment f_parseParenName f_optionName_loop f_parseOptionName f_cloud_loop f_parseCloudEndpointsOptionConstant f_constants_loop f_parseOptionConstants f_parseOptionConstant f_parseConstant f_ParseOption f_ParseSyntax f_ParseEdition f_ParseImport f_or_unexpected f_ParsePackage f_parseType f_parseFieldNumber f_parseFieldOption f_fieldOptions_loop f_parseFieldOptions f_parseFieldOptionsOption f_parseLabel f_ParseField f_parseKeyType f_ParseMapField f_peekIsGroup_tail f_peekIsGroup f_blockEnd f_parseOneofField f_oneof_loop f_ParseOneof f_parseRange f_ranges_loop f_parseRanges f_parseQuotedFieldName f_parseFieldName f_fieldNames_loop f_parseFieldNames f_declaration_loop f_ParseDeclaration f_declarations_loop f_parseDeclarations f_ParseExtensions f_parseEnumValueOption f_enumValueOptions_loop f_parseEnumValueOptions f_parseEnumField f_ReadEmptyStatement f_ReadConstant f_parseComment f_PeekN f_nextWithSpecificMode f_Next f_UnNext f_UnNextTo : fw.

(** ** Statements with recovery *)
Lemma f_two {A} c (m : M A) : Few 1 m -> Few (S c) m. Proof. apply f_weak. lia. Qed.
#[global] Hint Resolve f_two few_pair : fw.
Section Two.
Variable c : nat.
Notation T := (Few (S (S c))).
Lemma f_recoverEmpty k (ferr : err) : few k ferr -> Few (S k) (recoverEmpty ferr).
Proof. intros H. unfold recoverEmpty. fws. Qed.
Hint Resolve f_recoverEmpty : fw.
Lemma few_up k e : few k e -> few (S k) e. Proof. unfold few. lia. Qed.
Lemma few_one e : few 1 e -> few (S c) e. Proof. unfold few. lia. Qed.
Hint Resolve few_one : fw.
Lemma f_ParseReserved  : T (ParseReserved ).
Proof. intros. unfold ParseReserved. fws. Qed.
Hint Resolve f_ParseReserved : fw.
Lemma f_enumBody_loop (perm bic : bool) (ilc : option comment) (n : nat) (stmts : list visitee) : T (enumBody_loop perm bic ilc n stmts).
Proof. intros. revert stmts. induction n as [|? ?]; intros; cbn [enumBody_loop]; fws. Qed.
Hint Resolve f_enumBody_loop : fw.
Lemma f_parseEnumBody (perm bic : bool) : T (parseEnumBody perm bic).
Proof. intros. unfold parseEnumBody. fws. Qed.
Hint Resolve f_parseEnumBody : fw.
Lemma f_ParseEnum (perm bic : bool) : T (ParseEnum perm bic).
Proof. intros. unfold ParseEnum. fws. Qed.
Hint Resolve f_ParseEnum : fw.
Lemma f_emptyBody (perm : bool) : T (emptyBody perm).
Proof. intros. unfold emptyBody. fws. Qed.
Hint Resolve f_emptyBody : fw.
Lemma f_extendBody_loop (perm bic : bool) (ilc : option comment) (n : nat) (stmts : list visitee) : T (extendBody_loop perm bic ilc n stmts).
Proof. intros. revert stmts. induction n as [|? ?]; intros; cbn [extendBody_loop]; fws. Qed.
Hint Resolve f_extendBody_loop : fw.
Lemma f_parseExtendBody (perm bic : bool) : T (parseExtendBody perm bic).
Proof. intros. unfold parseExtendBody. fws. Qed.
Hint Resolve f_parseExtendBody : fw.
Lemma f_ParseExtend (perm bic : bool) : T (ParseExtend perm bic).
Proof. intros. unfold ParseExtend. fws. Qed.
Hint Resolve f_ParseExtend : fw.
Lemma f_rpcOptions_loop (perm : bool) (n : nat) (options : list option_) : T (rpcOptions_loop perm n options).
Proof. intros. revert options. induction n as [|? ?]; intros; cbn [rpcOptions_loop]; fws. Qed.
Hint Resolve f_rpcOptions_loop : fw.
Lemma f_parseRPCOptions (perm : bool) : T (parseRPCOptions perm).
Proof. intros. unfold parseRPCOptions. fws. Qed.
Hint Resolve f_parseRPCOptions : fw.
Lemma f_parseRPCParam  : T (parseRPCParam ).
Proof. intros. unfold parseRPCParam. fws. Qed.
Hint Resolve f_parseRPCParam : fw.
Lemma f_parseRPC (perm : bool) : T (parseRPC perm).
Proof. intros. unfold parseRPC. fws. Qed.
Hint Resolve f_parseRPC : fw.
Lemma f_serviceBody_loop (perm bic : bool) (ilc : option comment) (n : nat) (stmts : list visitee) : T (serviceBody_loop perm bic ilc n stmts).
Proof. intros. revert stmts. induction n as [|? ?]; intros; cbn [serviceBody_loop]; fws. Qed.
Hint Resolve f_serviceBody_loop : fw.
Lemma f_parseServiceBody (perm bic : bool) : T (parseServiceBody perm bic).
Proof. intros. unfold parseServiceBody. fws. Qed.
Hint Resolve f_parseServiceBody : fw.
Lemma f_ParseService (perm bic : bool) : T (ParseService perm bic).
Proof. intros. unfold ParseService. fws. Qed.
Hint Resolve f_ParseService : fw.
Lemma f_parseBOM  : T (parseBOM ).
Proof. intros. unfold parseBOM. fws. Qed.
Hint Resolve f_parseBOM : fw.
End Two.

(** ** Messages *)
#[global] Hint Resolve f_ParseReserved f_ParseEnum f_emptyBody f_ParseExtend f_ParseService f_parseBOM : fw.
Lemma f_messageBody_loop c perm bic mb ilc n : Few (S c) mb -> forall stmts, Few (S (S c)) (messageBody_loop perm bic mb ilc n stmts).
Proof.
  intros H. assert (S1 : forall token comments, Few (S (S c)) (messageStmt perm bic mb token comments)).
  { assert (M1 : Few (S (S c)) mb) by (eapply f_weak; [|exact H]; lia).
    assert (G : forall comments, Few (S (S c)) (b <- peekIsGroup;; if b then try (ParseGroupField mb) (fun r => match r with inl g => ret (with_comments comments (VGroupField g)) | inr e => recoverEmpty e end)
      else try (ParseField perm) (fun r => match r with inl f => ret (with_comments comments (VField f)) | inr e => recoverEmpty e end))).
    { intros comments. apply f_bind; [auto with fw|intros b]. destruct b.
      - apply (f_try _ (S c)); [|intros; apply f_ret|intros e He; apply f_recoverEmpty; exact He]. unfold ParseGroupField. fws.
      - apply (f_try _ 1); [auto with fw|intros; apply f_ret|intros e He; apply f_recoverEmpty; unfold few in *; lia]. }
    intros token comments. unfold messageStmt. destruct token; try apply G; clear G; unfold ParseMessage_; fws. }
  induction n as [|n IH]; intros stmts; cbn [messageBody_loop]; [auto with fw|].
  apply f_bind; [auto with fw|intros cs]. apply f_bind; [auto with fw|intros t].
  assert (D : Few (S (S c)) (stmt <- messageStmt perm bic mb t cs;; stmt <- MaybeScanInlineComment set_inline stmt;; messageBody_loop perm bic mb ilc n (stmts ++ [stmt]))).
  { apply f_bind; [apply S1|intros stmt]. apply f_bind; [auto with fw|intros stmt']. apply IH. }
  destruct t; try exact D. fws.
Qed.
Lemma f_parseMessageBody perm bic n : Few (S n) (parseMessageBody perm bic n).
Proof.
  induction n as [|n IH]; cbn [parseMessageBody]; [apply f_oof|]. fws. apply f_messageBody_loop, IH.
Qed.
Lemma f_protoStmt perm bic n token comments : Few (S (S n)) (protoStmt perm bic n token comments).
Proof.
  assert (B : Few (S (S n)) (parseMessageBody perm bic n)) by (eapply f_weak; [|apply f_parseMessageBody]; lia).
  unfold protoStmt. destruct token; unfold ParseMessage, ParseMessage_; fws.
Qed.
Lemma f_protoBody_loop perm bic n : forall body, Few (S (S n)) (protoBody_loop perm bic n body).
Proof.
  induction n as [|n IH]; intros body; cbn [protoBody_loop]; [apply f_oof|].
  assert (P : forall t cs, Few (S (S (S n))) (protoStmt perm bic n t cs)) by (intros; eapply f_weak; [|apply f_protoStmt]; lia).
  assert (L : forall b, Few (S (S (S n))) (protoBody_loop perm bic n b)) by (intros; eapply f_weak; [|apply IH]; lia).
  repeat fw1; try apply P; try apply L; fws.
Qed.
Lemma f_ParseProto perm bic n : Few (S (S n)) (ParseProto perm bic n).
Proof. unfold ParseProto. pose proof (f_protoBody_loop perm bic n) as L. fws. Qed.
Theorem error_places opts input e : Parse opts input = Err e -> (List.length (err_found e) <= List.length input + 4)%nat.
Proof.
  intros E. unfold Parse, parse_fuel in E. pose proof (f_ParseProto (cfg_permissive (config_of opts)) (cfg_bodyIncludingComments (config_of opts)) (S (S (List.length input)))
    (init_st (cfg_filename (config_of opts)) input)) as H. cbv zeta in E. rewrite E in H. unfold few in H. lia.
Qed.
