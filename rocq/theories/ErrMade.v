(** Which errors Parse returns: those built by the lexer and the parser, never
    one of the scanner. *)
From Coq Require Import List NArith ZArith Bool String Ascii Lia Arith.
From Verif Require Import Base Token Scanner Lexer Ast Parser Api.
Import ListNotations.
Open Scope N_scope.
Open Scope monad_scope.

Create HintDb ne.
Section Errors.
Variable E : err -> Prop.
Hypothesis E_lex : forall p x t, E (ELex p x t).
Hypothesis E_parse : forall p x t k, E (EParse p x t k).
Hypothesis E_pair : forall a b, E a -> E b -> E (EPair a b).
(** the errors of [m] satisfy [E] *)
Definition NE {A} (m : M A) : Prop := forall s, match fst (m s) with Err e => E e | _ => True end.
Lemma neb {A B} (m : M A) (f : A -> M B) : NE m -> (forall a, NE (f a)) -> NE (bind m f).
Proof. intros H K s. specialize (H s). unfold bind. destruct (m s) as [[a|e| |] t]; cbn [fst] in *; auto. apply K. Qed.
Lemma net {A B} (m : M A) (f : A + err -> M B) : NE m -> (forall a, NE (f (inl a))) -> (forall e, E e -> NE (f (inr e))) -> NE (try m f).
Proof. intros H K L s. specialize (H s). unfold try. destruct (m s) as [[a|e| |] t]; cbn [fst] in *; auto; [apply K|apply L; exact H]. Qed.
Lemma ne_ret {A} (a : A) : NE (ret a). Proof. intros s. exact I. Qed.
Lemma ne_fail {A} e : E e -> NE (@fail A e). Proof. intros H s. exact H. Qed.
Lemma ne_panic {A} : NE (@panic A). Proof. intros s. exact I. Qed.
Lemma ne_oof {A} : NE (@oof A). Proof. intros s. exact I. Qed.
Lemma ne_gets {A} (f : st -> A) : NE (gets f). Proof. intros s. exact I. Qed.
Lemma ne_modify (f : st -> st) : NE (modify f). Proof. intros s. exact I. Qed.
Lemma ne_read : NE read.
Proof. intros s. unfold read. destruct (rest s) as [|x r]; [exact I|]. destruct (x =? eof); exact I. Qed.
Lemma ne_fuel : NE fuel_here. Proof. apply ne_gets. Qed.
Lemma ne_l_unexpected {A} x : NE (@l_unexpected A x). Proof. intros s. apply E_lex. Qed.
Lemma ne_p_unexpected {A} x : NE (@p_unexpected A x). Proof. intros s. apply E_parse. Qed.
Lemma ne_mk_comment p l : NE (mk_comment p l).
Proof. intros s. unfold mk_comment. destruct (AdvancedBulk p (cols s) l). exact I. Qed.
Lemma ne_peek : NE peek.
Proof. unfold peek. repeat first [apply neb; [|intros ?]|apply ne_read|apply ne_modify|apply ne_ret|match goal with |- NE (match ?x with _ => _ end) => destruct x end]. Qed.
Lemma ne_deferUnNext {A} (k : M A) : NE k -> NE (deferUnNext k).
Proof.
  intros H. unfold deferUnNext. apply neb; [apply ne_gets|intros r]. apply neb; [exact H|intros a]. apply neb; [|intros _; apply ne_ret].
  unfold UnNextTo. apply neb; [apply ne_modify|intros _; apply ne_modify].
Qed.
Local Hint Resolve ne_ret ne_oof ne_gets ne_modify ne_read ne_peek ne_fuel ne_fail ne_panic ne_l_unexpected ne_p_unexpected ne_mk_comment E_pair : ne.
Ltac ne1 :=
  match goal with
  | |- NE (bind _ _) => apply neb; [|intros ?]
  | |- NE (try _ _) => apply net; [|intros ?|intros ? ?]
  | |- NE (match ?x with _ => _ end) => destruct x
  | |- NE (let x := _ in _) => cbv zeta
  | |- NE (deferUnNext _) => apply ne_deferUnNext
  | |- NE _ => solve [auto with ne]
  end.
Ltac nes := repeat ne1.
Notation T := NE.
Lemma ne_UnNext : T UnNext. Proof. unfold UnNext. nes. Qed.
Hint Resolve ne_UnNext : ne.
Lemma ne_UnNextTo r : T (UnNextTo r). Proof. unfold UnNextTo. nes. Qed.
Hint Resolve ne_UnNextTo : ne.
Lemma ne_unnext_all l : T (unnext_all l). Proof. induction l; cbn [unnext_all]; nes. Qed.
Hint Resolve ne_unnext_all : ne.
Lemma ne_isEOF  : T (isEOF ).
Proof. intros. unfold isEOF. nes. Qed.
Hint Resolve ne_isEOF : ne.
Lemma ne_ident_loop (n : nat) (ident : str) : T (ident_loop n ident).
Proof. intros. revert ident. induction n as [|? ?]; intros; cbn [ident_loop]; nes. Qed.
Hint Resolve ne_ident_loop : ne.
Lemma ne_scanIdent  : T (scanIdent ).
Proof. intros. unfold scanIdent. nes. Qed.
Hint Resolve ne_scanIdent : ne.
Lemma ne_line_loop (n : nat) (l : str) (c : rune) : T (line_loop n l c).
Proof. intros. revert l c. induction n as [|? ?]; intros; cbn [line_loop]; nes. Qed.
Hint Resolve ne_line_loop : ne.
Lemma ne_digits_loop (n : nat) (cls : rune -> bool) (l : str) : T (digits_loop n cls l).
Proof. intros. revert cls l. induction n as [|? ?]; intros; cbn [digits_loop]; nes. Qed.
Hint Resolve ne_digits_loop : ne.
Lemma ne_escape_digits (k : nat) (cls : rune -> bool) (l : str) : T (escape_digits k cls l).
Proof. intros. revert cls l. induction k as [|? ?]; intros; cbn [escape_digits]; nes. Qed.
Hint Resolve ne_escape_digits : ne.
Lemma ne_caught {A B} (m : M A) (f : A + err -> M B) : (forall a, T (f (inl a))) -> (forall e, T (f (inr e))) -> T (try m f).
Proof. intros H K s. unfold try. destruct (m s) as [[a|e| |] u]; cbn [fst]; auto; [apply H|apply K]. Qed.
Lemma ne_scan n : T (scan n).
Proof.
  induction n as [|n IH]; cbn [scan]; [auto with ne|]. apply neb; [auto with ne|intros c]. apply neb; [auto with ne|intros p]. destruct (isSpace c); [nes|].
  apply neb; [auto with ne|intros e]. destruct e; [nes|]. destruct (_ || _); [nes|]. destruct (_ =? _). { apply ne_caught; intros; nes. }
  apply neb; [auto with ne|intros m]. destruct (_ && _); [apply ne_caught; intros; nes|]. destruct (_ && _); [apply ne_caught; intros; nes|]. nes.
Qed.
Hint Resolve ne_scan : ne.
Lemma ne_Next : T Next. Proof. unfold Next, Scan. nes. Qed.
Hint Resolve ne_Next : ne.
Lemma ne_nextWithSpecificMode m : T (nextWithSpecificMode m). Proof. unfold nextWithSpecificMode. nes. Qed.
Hint Resolve ne_nextWithSpecificMode : ne.
Lemma ne_nexts_raw n : forall l, T (nexts_raw n l). Proof. induction n; intros; cbn [nexts_raw]; nes. Qed.
Hint Resolve ne_nexts_raw : ne.
Lemma ne_PeekN n : T (PeekN n). Proof. unfold PeekN. nes. Qed.
Hint Resolve ne_PeekN : ne.
Lemma ne_NextN (n : nat) : T (NextN n).
Proof. intros. induction n as [|? ?]; intros; cbn [NextN]; nes. Qed.
Hint Resolve ne_NextN : ne.
Lemma ne_NextKeywordOrStrLit  : T (NextKeywordOrStrLit ).
Proof. intros. unfold NextKeywordOrStrLit. nes. Qed.
Hint Resolve ne_NextKeywordOrStrLit : ne.
Lemma ne_NextKeyword  : T (NextKeyword ).
Proof. intros. unfold NextKeyword. nes. Qed.
Hint Resolve ne_NextKeyword : ne.
Lemma ne_NextStrLit  : T (NextStrLit ).
Proof. intros. unfold NextStrLit. nes. Qed.
Hint Resolve ne_NextStrLit : ne.
Lemma ne_NextLit  : T (NextLit ).
Proof. intros. unfold NextLit. nes. Qed.
Hint Resolve ne_NextLit : ne.
Lemma ne_NextNumberLit  : T (NextNumberLit ).
Proof. intros. unfold NextNumberLit. nes. Qed.
Hint Resolve ne_NextNumberLit : ne.
Lemma ne_NextComment  : T (NextComment ).
Proof. intros. unfold NextComment. nes. Qed.
Hint Resolve ne_NextComment : ne.
Lemma ne_lex_IsEOF  : T (lex_IsEOF ).
Proof. intros. unfold lex_IsEOF. nes. Qed.
Hint Resolve ne_lex_IsEOF : ne.
Lemma ne_Peek  : T (Peek ).
Proof. intros. unfold Peek. nes. Qed.
Hint Resolve ne_Peek : ne.
Lemma ne_ConsumeToken (t : token) : T (ConsumeToken t).
Proof. intros. unfold ConsumeToken. nes. Qed.
Hint Resolve ne_ConsumeToken : ne.
Lemma ne_ReadEmptyStatement : T ReadEmptyStatement.
Proof. unfold ReadEmptyStatement. nes. Qed.
Hint Resolve ne_ReadEmptyStatement : ne.
Lemma ne_fullIdent_loop (n : nat) (acc : str) : T (fullIdent_loop n acc).
Proof. intros. revert acc. induction n as [|? ?]; intros; cbn [fullIdent_loop]; nes. Qed.
Hint Resolve ne_fullIdent_loop : ne.
Lemma ne_ReadFullIdent  : T (ReadFullIdent ).
Proof. intros. unfold ReadFullIdent. nes. Qed.
Hint Resolve ne_ReadFullIdent : ne.
Lemma ne_messageType_loop (n : nat) (acc : str) : T (messageType_loop n acc).
Proof. intros. revert acc. induction n as [|? ?]; intros; cbn [messageType_loop]; nes. Qed.
Hint Resolve ne_messageType_loop : ne.
Lemma ne_ReadMessageType  : T (ReadMessageType ).
Proof. intros. unfold ReadMessageType. nes. Qed.
Hint Resolve ne_ReadMessageType : ne.
Lemma ne_ReadEnumType  : T (ReadEnumType ).
Proof. intros. unfold ReadEnumType. nes. Qed.
Hint Resolve ne_ReadEnumType : ne.
Lemma ne_merge_loop (n : nat) (q : rune) (b : str) : T (merge_loop n q b).
Proof. intros. revert q b. induction n as [|? ?]; intros; cbn [merge_loop]; nes. Qed.
Hint Resolve ne_merge_loop : ne.
Lemma ne_mergeMultilineStrLit  : T (mergeMultilineStrLit ).
Proof. intros. unfold mergeMultilineStrLit. nes. Qed.
Hint Resolve ne_mergeMultilineStrLit : ne.
Lemma ne_ReadConstant (permissive : bool) : T (ReadConstant permissive).
Proof. unfold ReadConstant. nes. Qed.
Hint Resolve ne_ReadConstant : ne.
Lemma ne_expect (t : token) (expected : string) : T (expect t expected).
Proof. intros. unfold expect. nes. Qed.
Hint Resolve ne_expect : ne.
Lemma ne_p_IsEOF  : T (p_IsEOF ).
Proof. intros. unfold p_IsEOF. nes. Qed.
Hint Resolve ne_p_IsEOF : ne.
Lemma ne_peekKeyword  : T (peekKeyword ).
Proof. intros. unfold peekKeyword. nes. Qed.
Hint Resolve ne_peekKeyword : ne.
Lemma ne_parseComment : T parseComment.
Proof.
  unfold parseComment. apply neb; [auto with ne|intros _]. apply neb; [apply ne_gets|intros t]. destruct (tok_eqb t TCOMMENT); [nes|]. intros s. cbv zeta.
  assert (X : T (UnNext;; @fail comment (EParse (lpos s) "comment" (ltext s) (ltok s)))) by nes. exact (X s).
Qed.
Hint Resolve ne_parseComment : ne.
Lemma ne_parseComments_loop (n : nat) (acc : list comment) : T (parseComments_loop n acc).
Proof. intros. revert acc. induction n as [|? ?]; intros; cbn [parseComments_loop]; nes. Qed.
Hint Resolve ne_parseComments_loop : ne.
Lemma ne_ParseComments  : T (ParseComments ).
Proof. intros. unfold ParseComments. nes. Qed.
Hint Resolve ne_ParseComments : ne.
Lemma ne_mk_comments (l : list text) : T (mk_comments l).
Proof. intros. induction l as [|? ?]; intros; cbn [mk_comments]; nes. Qed.
Hint Resolve ne_mk_comments : ne.
Lemma ne_findEmbeddedComments (from to : mpos) : T (findEmbeddedComments from to).
Proof. intros. unfold findEmbeddedComments. nes. Qed.
Hint Resolve ne_findEmbeddedComments : ne.
Lemma ne_parseInlineComment  : T (parseInlineComment ).
Proof. intros. unfold parseInlineComment. nes. Qed.
Hint Resolve ne_parseInlineComment : ne.
Lemma ne_MaybeScanInlineComment {A} (set : comment -> A -> option A) (x : A) : T (MaybeScanInlineComment set x).
Proof. unfold MaybeScanInlineComment. nes. Qed.
Hint Resolve ne_MaybeScanInlineComment : ne.
Lemma ne_parseParenName (perm : bool) (name : str) : T (parseParenName perm name).
Proof. intros. unfold parseParenName. nes. Qed.
Hint Resolve ne_parseParenName : ne.
Lemma ne_optionName_loop (perm : bool) (n : nat) (name : str) : T (optionName_loop perm n name).
Proof. intros. revert name. induction n as [|? ?]; intros; cbn [optionName_loop]; nes. Qed.
Hint Resolve ne_optionName_loop : ne.
Lemma ne_parseOptionName (perm : bool) : T (parseOptionName perm).
Proof. intros. unfold parseOptionName. nes. Qed.
Hint Resolve ne_parseOptionName : ne.
Lemma ne_cloud_loop (perm : bool) (pc : M str) (n : nat) (r : str) : T pc -> T (cloud_loop perm pc n r).
Proof. intros. revert r. induction n as [|? ?]; intros; cbn [cloud_loop]; nes. Qed.
Hint Resolve ne_cloud_loop : ne.
Lemma ne_parseCloudEndpointsOptionConstant (perm : bool) (pc : M str) (n : nat) : T pc -> T (parseCloudEndpointsOptionConstant perm pc n).
Proof. intros. unfold parseCloudEndpointsOptionConstant. nes. Qed.
Hint Resolve ne_parseCloudEndpointsOptionConstant : ne.
Lemma ne_constants_loop (pc : M str) (n : nat) (opts : list str) : T pc -> T (constants_loop pc n opts).
Proof. intros. revert opts. induction n as [|? ?]; intros; cbn [constants_loop]; nes. Qed.
Hint Resolve ne_constants_loop : ne.
Lemma ne_parseOptionConstants (pc : M str) (n : nat) : T pc -> T (parseOptionConstants pc n).
Proof. intros. unfold parseOptionConstants. nes. Qed.
Hint Resolve ne_parseOptionConstants : ne.
Lemma ne_parseOptionConstant (perm : bool) (n : nat) : T (parseOptionConstant perm n).
Proof. intros. induction n as [|? ?]; intros; cbn [parseOptionConstant]; nes. Qed.
Hint Resolve ne_parseOptionConstant : ne.
Lemma ne_parseConstant (perm : bool) : T (parseConstant perm).
Proof. intros. unfold parseConstant. nes. Qed.
Hint Resolve ne_parseConstant : ne.
Lemma ne_ParseOption (perm : bool) : T (ParseOption perm).
Proof. intros. unfold ParseOption. nes. Qed.
Hint Resolve ne_ParseOption : ne.
Lemma ne_ParseSyntax  : T (ParseSyntax ).
Proof. intros. unfold ParseSyntax. nes. Qed.
Hint Resolve ne_ParseSyntax : ne.
Lemma ne_ParseEdition  : T (ParseEdition ).
Proof. intros. unfold ParseEdition. nes. Qed.
Hint Resolve ne_ParseEdition : ne.
Lemma ne_ParseImport  : T (ParseImport ).
Proof. intros. unfold ParseImport. nes. Qed.
Hint Resolve ne_ParseImport : ne.
Lemma ne_or_unexpected {A} (m : M A) (expected : string) : T m -> T (or_unexpected m expected).
Proof. intros. unfold or_unexpected. nes. Qed.
Hint Resolve ne_or_unexpected : ne.
Lemma ne_ParsePackage  : T (ParsePackage ).
Proof. intros. unfold ParsePackage. nes. Qed.
Hint Resolve ne_ParsePackage : ne.
Lemma ne_parseType  : T (parseType ).
Proof. intros. unfold parseType. nes. Qed.
Hint Resolve ne_parseType : ne.
Lemma ne_parseFieldNumber  : T (parseFieldNumber ).
Proof. intros. unfold parseFieldNumber. nes. Qed.
Hint Resolve ne_parseFieldNumber : ne.
Lemma ne_parseFieldOption (perm : bool) : T (parseFieldOption perm).
Proof. intros. unfold parseFieldOption. nes. Qed.
Hint Resolve ne_parseFieldOption : ne.
Lemma ne_fieldOptions_loop (perm : bool) (n : nat) (opts : list fieldOption) : T (fieldOptions_loop perm n opts).
Proof. intros. revert opts. induction n as [|? ?]; intros; cbn [fieldOptions_loop]; nes. Qed.
Hint Resolve ne_fieldOptions_loop : ne.
Lemma ne_parseFieldOptions (perm : bool) : T (parseFieldOptions perm).
Proof. intros. unfold parseFieldOptions. nes. Qed.
Hint Resolve ne_parseFieldOptions : ne.
Lemma ne_parseFieldOptionsOption (perm : bool) : T (parseFieldOptionsOption perm).
Proof. intros. unfold parseFieldOptionsOption. nes. Qed.
Hint Resolve ne_parseFieldOptionsOption : ne.
Lemma ne_parseLabel  : T (parseLabel ).
Proof. intros. unfold parseLabel. nes. Qed.
Hint Resolve ne_parseLabel : ne.
Lemma ne_ParseField (perm : bool) : T (ParseField perm).
Proof. intros. unfold ParseField. nes. Qed.
Hint Resolve ne_ParseField : ne.
Lemma ne_parseKeyType  : T (parseKeyType ).
Proof. intros. unfold parseKeyType. nes. Qed.
Hint Resolve ne_parseKeyType : ne.
Lemma ne_ParseMapField (perm : bool) : T (ParseMapField perm).
Proof. intros. unfold ParseMapField. nes. Qed.
Hint Resolve ne_ParseMapField : ne.
Lemma ne_peekIsGroup_tail  : T (peekIsGroup_tail ).
Proof. intros. unfold peekIsGroup_tail. nes. Qed.
Hint Resolve ne_peekIsGroup_tail : ne.
Lemma ne_peekIsGroup  : T (peekIsGroup ).
Proof. intros. unfold peekIsGroup. nes. Qed.
Hint Resolve ne_peekIsGroup : ne.
Lemma ne_blockEnd (perm : bool) : T (blockEnd perm).
Proof. intros. unfold blockEnd. nes. Qed.
Hint Resolve ne_blockEnd : ne.
Lemma ne_parseOneofField (perm : bool) : T (parseOneofField perm).
Proof. intros. unfold parseOneofField. nes. Qed.
Hint Resolve ne_parseOneofField : ne.
Lemma ne_oneof_loop (perm : bool) (n : nat) (fields : list oneofField) (options : list option_) : T (oneof_loop perm n fields options).
Proof. intros. revert fields options. induction n as [|? ?]; intros; cbn [oneof_loop]; nes. Qed.
Hint Resolve ne_oneof_loop : ne.
Lemma ne_ParseOneof (perm : bool) : T (ParseOneof perm).
Proof. intros. unfold ParseOneof. nes. Qed.
Hint Resolve ne_ParseOneof : ne.
Lemma ne_parseRange  : T (parseRange ).
Proof. intros. unfold parseRange. nes. Qed.
Hint Resolve ne_parseRange : ne.
Lemma ne_ranges_loop (n : nat) (ranges : list range) : T (ranges_loop n ranges).
Proof. intros. revert ranges. induction n as [|? ?]; intros; cbn [ranges_loop]; nes. Qed.
Hint Resolve ne_ranges_loop : ne.
Lemma ne_parseRanges  : T (parseRanges ).
Proof. intros. unfold parseRanges. nes. Qed.
Hint Resolve ne_parseRanges : ne.
Lemma ne_parseQuotedFieldName  : T (parseQuotedFieldName ).
Proof. intros. unfold parseQuotedFieldName. nes. Qed.
Hint Resolve ne_parseQuotedFieldName : ne.
Lemma ne_parseFieldName  : T (parseFieldName ).
Proof. intros. unfold parseFieldName. nes. Qed.
Hint Resolve ne_parseFieldName : ne.
Lemma ne_fieldNames_loop (n : nat) (names : list str) : T (fieldNames_loop n names).
Proof. intros. revert names. induction n as [|? ?]; intros; cbn [fieldNames_loop]; nes. Qed.
Hint Resolve ne_fieldNames_loop : ne.
Lemma ne_parseFieldNames  : T (parseFieldNames ).
Proof. intros. unfold parseFieldNames. nes. Qed.
Hint Resolve ne_parseFieldNames : ne.
Lemma ne_declaration_loop (n : nat) (v : decl_vars) : T (declaration_loop n v).
Proof. intros. revert v. induction n as [|? ?]; intros; cbn [declaration_loop]; nes. Qed.
Hint Resolve ne_declaration_loop : ne.
Lemma ne_ParseDeclaration  : T (ParseDeclaration ).
Proof. intros. unfold ParseDeclaration. nes. Qed.
Hint Resolve ne_ParseDeclaration : ne.
Lemma ne_declarations_loop (n : nat) (ds : list declaration) : T (declarations_loop n ds).
Proof. intros. revert ds. induction n as [|? ?]; intros; cbn [declarations_loop]; nes. Qed.
Hint Resolve ne_declarations_loop : ne.
Lemma ne_parseDeclarations  : T (parseDeclarations ).
Proof. intros. unfold parseDeclarations. nes. Qed.
Hint Resolve ne_parseDeclarations : ne.
Lemma ne_ParseExtensions  : T (ParseExtensions ).
Proof. intros. unfold ParseExtensions. nes. Qed.
Hint Resolve ne_ParseExtensions : ne.
Lemma ne_parseEnumValueOption (perm : bool) : T (parseEnumValueOption perm).
Proof. intros. unfold parseEnumValueOption. nes. Qed.
Hint Resolve ne_parseEnumValueOption : ne.
Lemma ne_enumValueOptions_loop (perm : bool) (n : nat) (opts : list enumValueOption) : T (enumValueOptions_loop perm n opts).
Proof. intros. revert opts. induction n as [|? ?]; intros; cbn [enumValueOptions_loop]; nes. Qed.
Hint Resolve ne_enumValueOptions_loop : ne.
Lemma ne_parseEnumValueOptions (perm : bool) : T (parseEnumValueOptions perm).
Proof. intros. unfold parseEnumValueOptions. nes. Qed.
Hint Resolve ne_parseEnumValueOptions : ne.
Lemma ne_parseEnumField (perm : bool) : T (parseEnumField perm).
Proof. intros. unfold parseEnumField. nes. Qed.
Hint Resolve ne_parseEnumField : ne.
Lemma ne_ParseReserved  : T (ParseReserved ).
Proof. intros. unfold ParseReserved. nes. Qed.
Hint Resolve ne_ParseReserved : ne.
Lemma ne_emptyBody (perm : bool) : T (emptyBody perm).
Proof. intros. unfold emptyBody. nes. Qed.
Hint Resolve ne_emptyBody : ne.
Lemma ne_rpcOptions_loop (perm : bool) (n : nat) (options : list option_) : T (rpcOptions_loop perm n options).
Proof. intros. revert options. induction n as [|? ?]; intros; cbn [rpcOptions_loop]; nes. Qed.
Hint Resolve ne_rpcOptions_loop : ne.
Lemma ne_parseRPCOptions (perm : bool) : T (parseRPCOptions perm).
Proof. intros. unfold parseRPCOptions. nes. Qed.
Hint Resolve ne_parseRPCOptions : ne.
Lemma ne_parseRPCParam  : T (parseRPCParam ).
Proof. intros. unfold parseRPCParam. nes. Qed.
Hint Resolve ne_parseRPCParam : ne.
Lemma ne_parseRPC (perm : bool) : T (parseRPC perm).
Proof. intros. unfold parseRPC. nes. Qed.
Hint Resolve ne_parseRPC : ne.
Lemma ne_parseBOM  : T (parseBOM ).
Proof. intros. unfold parseBOM. nes. Qed.
Hint Resolve ne_parseBOM : ne.


Lemma ne_recoverEmpty e : E e -> T (recoverEmpty e).
Proof. intros H. unfold recoverEmpty. apply neb; [auto with ne|intros _]. apply net; [auto with ne|intros a; auto with ne|intros e' He]. apply ne_fail. apply E_pair; assumption. Qed.
Hint Resolve ne_recoverEmpty : ne.
Lemma ne_enumBody_loop perm bic ilc n : forall stmts, T (enumBody_loop perm bic ilc n stmts).
Proof. induction n as [|n IH]; intros stmts; cbn [enumBody_loop]; [auto with ne|]. pose proof IH. nes. Qed.
Hint Resolve ne_enumBody_loop : ne.
Lemma ne_ParseEnum perm bic : T (ParseEnum perm bic).
Proof. unfold ParseEnum, parseEnumBody. nes. Qed.
Hint Resolve ne_ParseEnum : ne.
Lemma ne_extendBody_loop perm bic ilc n : forall stmts, T (extendBody_loop perm bic ilc n stmts).
Proof. induction n as [|n IH]; intros stmts; cbn [extendBody_loop]; [auto with ne|]. nes. Qed.
Hint Resolve ne_extendBody_loop : ne.
Lemma ne_ParseExtend perm bic : T (ParseExtend perm bic).
Proof. unfold ParseExtend, parseExtendBody. nes. Qed.
Hint Resolve ne_ParseExtend : ne.
Lemma ne_serviceBody_loop perm bic ilc n : forall stmts, T (serviceBody_loop perm bic ilc n stmts).
Proof. induction n as [|n IH]; intros stmts; cbn [serviceBody_loop]; [auto with ne|]. nes. Qed.
Hint Resolve ne_serviceBody_loop : ne.
Lemma ne_ParseService perm bic : T (ParseService perm bic).
Proof. unfold ParseService, parseServiceBody. nes. Qed.
Hint Resolve ne_ParseService : ne.
Lemma ne_ParseGroupField mb : T mb -> T (ParseGroupField mb).
Proof. intros H. unfold ParseGroupField. nes. Qed.
Lemma ne_ParseMessage_ mb : T mb -> T (ParseMessage_ mb).
Proof. intros H. unfold ParseMessage_. nes. Qed.
Hint Resolve ne_ParseGroupField ne_ParseMessage_ : ne.
Lemma ne_messageBody_loop perm bic mb ilc n : T mb -> forall stmts, T (messageBody_loop perm bic mb ilc n stmts).
Proof. intros H. induction n as [|n IH]; intros stmts; cbn [messageBody_loop]; [auto with ne|]. unfold messageStmt. nes. Qed.
Lemma ne_parseMessageBody perm bic n : T (parseMessageBody perm bic n).
Proof. induction n as [|n IH]; cbn [parseMessageBody]; [apply ne_oof|]. nes. apply ne_messageBody_loop. exact IH. Qed.
Hint Resolve ne_parseMessageBody : ne.
Lemma ne_ParseMessage perm bic n : T (ParseMessage perm bic n).
Proof. unfold ParseMessage. auto with ne. Qed.
Hint Resolve ne_ParseMessage : ne.
Lemma ne_protoStmt perm bic n t cs : T (protoStmt perm bic n t cs).
Proof. unfold protoStmt. nes. Qed.
Hint Resolve ne_protoStmt : ne.
Lemma ne_protoBody_loop perm bic n : forall body, T (protoBody_loop perm bic n body).
Proof. induction n as [|n IH]; intros; cbn [protoBody_loop]; [auto with ne|]. nes. Qed.
Hint Resolve ne_protoBody_loop : ne.
Lemma ne_ParseProto perm bic n : T (ParseProto perm bic n).
Proof. unfold ParseProto. nes. Qed.
End Errors.

(** an error built by the lexer or the parser, or a pair of such *)
Inductive Made : err -> Prop :=
| made_lex p x t : Made (ELex p x t)
| made_parse p x t k : Made (EParse p x t k)
| made_pair a b : Made a -> Made b -> Made (EPair a b).
Theorem errors_made opts input e : Parse opts input = Err e -> Made e.
Proof.
  intros H. unfold Parse, parse_fuel in H. pose proof (ne_ParseProto Made made_lex made_parse made_pair) as N.
  match type of H with fst (ParseProto ?a ?b ?n ?s) = _ => specialize (N a b n s) end. rewrite H in N. exact N.
Qed.
