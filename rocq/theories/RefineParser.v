(** The model's parse functions compute those of the pure parser. *)
From Coq Require Import List NArith ZArith Bool String Ascii Lia.
From Verif Require Import Base Token Scanner Lexer Ast Parser Lexing ScanRefine LexFacts LexSpec LexProofs
  ScanFacts LexerFacts ScanProps Cursor Pure Refine RefineRules Strict.
Import ListNotations.
Open Scope N_scope.
Open Scope pure_scope.

(** One rule, chosen by the shape of the goal *)
Ltac rfailing := (apply failing_p || apply failing_l || (apply failing_fail; cbn [err_ok]; solve [auto])).
Ltac rstep :=
  cbv beta;
  match goal with
  | |- R _ _ (At _ _) (bind Next (fun _ => bind (expect _ _) _)) _ => apply R_nexte; intro
  | |- R _ _ (At _ _) (bind (nextWithSpecificMode _) (fun _ => bind (expect _ _) _)) _ => apply R_nextme; intro
  | |- R _ _ (At _ _) (bind Next _) _ => apply R_next; intro
  | |- R _ _ (At _ _) (bind (nextWithSpecificMode _) _) _ => apply R_nextm; intro
  | |- R _ _ (At _ _) (bind Peek _) _ => apply R_peek; intro
  | |- R _ _ (At _ _) (bind peekKeyword _) _ => apply R_peekk; intro
  | |- R _ _ (At _ _) (bind p_IsEOF _) _ => apply R_peekeof; intro
  | |- R _ _ (At _ _) (bind (PeekN 2) _) _ => apply R_peek2; intro
  | |- R _ _ (At _ _) (bind fuel_here _) _ => apply R_fuel; intro
  | |- R _ _ (AtT _ _ _) (bind fuel_here _) _ => apply R_fuelT; intro
  | |- R _ _ (AtT _ _ _) (bind (gets ltok) _) _ => apply R_ltok
  | |- R _ _ (AtT _ _ _) (bind (gets ltext) _) _ => apply R_ltext
  | |- R _ _ (AtT _ _ _) (bind (gets lpos) _) _ => apply R_lpos
  | |- R _ _ (AtT _ _ _) (bind lex_IsEOF _) _ => apply R_iseof
  | |- R _ _ (AtT _ _ _) (gets ltext) _ => apply R_gtext
  | |- R _ _ (AtT _ _ _) (gets lpos) _ => apply R_gpos
  | |- R _ _ (AtT _ _ _) (bind UnNext _) (pbal _) => apply R_bal; rfailing
  | |- R _ _ (AtT _ _ _) (bind UnNext _) _ => apply R_unnext
  | |- R _ _ (AtT _ _ _) UnNext _ => apply R_unnext1
  | |- R _ _ (AtT _ _ _) (p_unexpected _) _ => apply R_err
  | |- R _ _ (AtT _ _ _) (l_unexpected _) _ => apply R_lerr
  | |- R _ _ (AtT _ _ _) (deferUnNext _) _ => apply R_defer
  | |- R _ _ (AtU _ _ _) (p_unexpected _) _ => apply R_balu; rfailing
  | |- R _ _ (At _ _) (ret _) _ => apply R_ret
  | |- R _ _ (At _ _) oof _ => apply R_oof
  | |- R _ _ (At _ _) panic _ => apply R_panic
  | |- R _ _ (At _ _) (try parseFieldNumber _) _ => apply R_trynum; intros
  | |- R _ _ (At _ _) (try ReadEmptyStatement _) _ => apply R_tryempty
  | |- R _ _ (At _ _) (try _ _) (precover _ _ _) => apply R_recover
  | |- R _ _ (At _ _) (try _ _) (ptry _ _) => apply R_try; intros
  | |- R _ _ (At _ _) (try _ _) (pbind _ _) => apply R_trybind; [|intros|intros; rfailing]
  | |- R _ _ (At _ _) (or_unexpected _ _) _ => apply R_or
  | |- R _ _ (At _ _) (bind (ConsumeToken _) _) _ => apply R_consume
  | |- R _ _ _ (let x := ?v in _) _ => cbv zeta
  | |- R _ _ _ (if ?b then _ else _) _ => destruct b eqn:?
  | |- R _ _ _ (match ?b with _ => _ end) _ => destruct b eqn:?
  | |- R _ _ (At _ _) (bind (gets lpos) _) _ => apply R_last'; intro
  | |- R _ _ (At _ _) (bind _ _) _ => apply R_bind; [|intros]
  | |- R _ _ (AtT _ _ _) _ _ => apply R_weak
  | |- R _ _ (AtU _ _ _) _ _ => apply R_weaku
  | |- keeps (pret _) => apply keeps_ret
  | |- keeps (pbind (ptok _ _) _) => apply keeps_tok
  | |- keeps (if ?b then _ else _) => destruct b
  end.

Create HintDb rl.
Opaque R.
Section P.
Variable full : fctx.
Variable p0 : mpos.
Notation At := (At full p0).
Notation AtT := (AtT full p0).
Notation AtU := (AtU full p0).
Notation R := (R full p0).

Ltac rgo := intros; unfold NextKeywordOrStrLit, NextKeyword, NextStrLit, NextLit, NextNumberLit, NextComment in *; repeat first [solve [auto 2 with rl nocore] | rstep].

(** ** Lexer *)
Lemma r_empty : R At ReadEmptyStatement (qReadEmptyStatement p0).
Proof. unfold ReadEmptyStatement, qReadEmptyStatement. rgo. Qed.
Hint Resolve r_empty : rl.

(** [Next], then a test of the token with the error first *)
Lemma R_nexti {A} T (m : M A) me q : (forall t, R (AtT t) m (q t)) -> (forall t, R (AtT t) me (perr t)) ->
  R At (Next;; t <- gets ltok;; if negb (tok_eqb t T) then me else m)%monad (t <-- pexpect p0 0 T;; q t).
Proof.
  intros H E. eapply R_qext; [|apply (R_next full p0 _ (fun z => if negb (tok_eqb (tk z) T) then perr z else q z))].
  - intros k. unfold pexpect, pbind, ptok. destruct (lexc p0 0 k) as [t k']. destruct (tok_eqb (tk t) T); reflexivity.
  - intros z. rstep. destruct (negb (tok_eqb (tk z) T)); auto.
Qed.
Lemma r_fi_loop n : forall acc y, R (AtT y) (fullIdent_loop n acc) (qFullIdent_loop p0 n acc y).
Proof.
  induction n as [|n IH]; intros acc y; cbn [fullIdent_loop qFullIdent_loop]; [rgo|].
  rstep. rstep; [rgo|]. rstep. rstep; [rgo|]. apply R_weak. apply R_nexti; rgo.
Qed.
Hint Resolve r_fi_loop : rl.
Lemma r_fullIdent : R At ReadFullIdent (qReadFullIdent p0).
Proof.
  unfold ReadFullIdent, qReadFullIdent. apply R_nexti; [|rgo]. intros t. do 5 rstep. apply R_bind; rgo.
Qed.
Hint Resolve r_fullIdent : rl.
Lemma r_mt_loop n : forall acc y, R (AtT y) (messageType_loop n acc) (qMessageType_loop p0 n acc y).
Proof. induction n as [|n IH]; intros acc y; cbn [messageType_loop qMessageType_loop]; rgo. Qed.
Hint Resolve r_mt_loop : rl.
Lemma r_messageType : R At ReadMessageType (qReadMessageType p0).
Proof.
  unfold ReadMessageType, qReadMessageType. do 3 rstep. apply R_bind; [rgo|]. intros acc. rstep. rstep.
  apply R_bind; rgo.
Qed.
Hint Resolve r_messageType : rl.
Lemma r_merge_loop {A} n q : forall b y (f : str -> M A) g, (forall b y', R (AtT y') (f b) (g (b, y'))) ->
  R (AtT y) (bind (merge_loop n q b) f) (pbind (qMerge_loop p0 n q b y) g).
Proof.
  induction n as [|n IH]; intros b y f g H; cbn [merge_loop qMerge_loop].
  - apply R_intro. intros k s X. exists s. reflexivity.
  - apply R_assoc. rstep. destruct (tok_eqb (tk y) TSTRLIT).
    + apply R_assoc. rstep. apply R_assoc. rstep.
      eapply R_qext; [|apply (R_nextm full p0 ScanLit _ (fun y' => pbind (qMerge_loop p0 n q (b ++ trim q (tx y)) y') g))].
      * intros k. unfold pbind, ptok. destruct (lexc p0 ScanLit k). reflexivity.
      * intros y'. apply IH. exact H.
    + apply R_intro. intros k s X. rewrite bind_ret. apply (R_elim _ _ _ _ _ (H b y)). exact X.
Qed.
Lemma r_merge x : R (AtT x) mergeMultilineStrLit (qMerge p0 x).
Proof.
  unfold mergeMultilineStrLit, qMerge. rstep. cbv zeta. apply R_fuelT. intros n. apply r_merge_loop. intros b y. rgo.
Qed.
Hint Resolve r_merge : rl.
Lemma r_constant perm : R At (ReadConstant perm) (qReadConstant p0 perm).
Proof.
  unfold ReadConstant, qReadConstant, NextLit. do 4 rstep.
  assert (D : R (AtT t) (if str_eqb (tx t) (lit "-") || str_eqb (tx t) (lit "+")
     then nextWithSpecificMode ScanLit;; t2 <- gets ltok;;
       match t2 with TINTLIT | TFLOATLIT => x <- gets ltext;; ret (tx t ++ x, tp t) | _ => l_unexpected "TINTLIT or TFLOATLIT" end
     else l_unexpected "constant")%monad
    (if str_eqb (tx t) (lit "-") || str_eqb (tx t) (lit "+") then
      y <-- ptok p0 ScanLit;;
      match tk y with
      | TINTLIT | TFLOATLIT => pret (tx t ++ tx y, tp t)
      | _ => perr y
      end
    else perr t)).
  { rgo. }
  destruct (tk t); try exact D; try (rgo; fail).
  destruct perm; [|rgo]. apply R_bind; rgo.
Qed.
Hint Resolve r_constant : rl.

(** ** Comments *)
Lemma r_comments_loop n : forall acc, R At (parseComments_loop n acc) (qComments_loop p0 n acc).
Proof.
  induction n as [|n IH]; intros acc; cbn [parseComments_loop qComments_loop]; [rgo|].
  apply R_comment; rgo.
Qed.
Hint Resolve r_comments_loop : rl.
Lemma r_comments : R At ParseComments (qParseComments p0).
Proof. unfold ParseComments, qParseComments. rgo. Qed.
Hint Resolve r_comments : rl.

Lemma inline_at k s : At k s -> let '(t, k') := lexc p0 ScanComment k in
  if tok_eqb (tk t) TCOMMENT && (Line (lp k) =? Line (tp t))%Z
  then exists s', parseInlineComment s = (Ok (Some (qcomment (tp t) (tx t))), s') /\ AtT t k' s'
  else exists s', parseInlineComment s = (Ok None, s') /\ AtU t (kb t) s'.
Proof.
  intros X. pose proof (parseComment_at _ _ k s X) as P. unfold parseInlineComment. rewrite bind_gets, (at_lpos _ _ _ _ X).
  destruct (lexc p0 ScanComment k) as [t k'] eqn:E. unfold try. destruct (tok_eqb (tk t) TCOMMENT); cbn [andb].
  - destruct P as (s' & Q & T). rewrite Q. cbn [qcomment c_meta Pos]. destruct (Line (lp k) =? Line (tp t))%Z; cbn [negb].
    + exists s'. split; [reflexivity|exact T].
    + destruct (UnNext_at _ _ _ _ _ T) as (s2 & Q2 & U). rwb Q2. exists s2. split; [reflexivity|exact U].
  - destruct P as (e & s' & Q & U). rewrite Q. exists s'. split; [reflexivity|exact U].
Qed.
Lemma r_inline : R At parseInlineComment (qInline p0).
Proof.
  apply R_intro. intros k s X. pose proof (inline_at k s X) as P. unfold qInline, pbind, plast, ptok.
  destruct (lexc p0 ScanComment k) as [t k']. destruct (_ && _).
  - destruct P as (s' & Q & T). exists s'. split; [exact Q|apply T].
  - destruct P as (s' & Q & U). exists s'. split; [exact Q|apply U].
Qed.
Hint Resolve r_inline : rl.
Lemma r_inline_err {A} (m : option comment -> M A) : (forall o, failing full p0 True (m o)) ->
  R At (x <- parseInlineComment;; m x)%monad (qInlineErr p0).
Proof.
  intros F. apply R_intro. intros k s X. pose proof (inline_at k s X) as P. unfold qInlineErr, pbind, plast, ptok.
  destruct (lexc p0 ScanComment k) as [t k']. destruct (_ && _).
  - destruct P as (s' & Q & T). rwb Q. destruct (F (Some (qcomment (tp t) (tx t))) s') as (e & E & G). rewrite E. unfold perr.
    exists e, s'. split; [reflexivity|]. split; [apply T|]. rewrite (att_raw _ _ _ _ _ T). split; [apply T|]. split; [apply T|]. apply G; [exact I|apply T].
  - destruct P as (s' & Q & U). rwb Q. destruct (F None s') as (e & E & G). rewrite E. unfold pbal.
    exists e, s'. split; [reflexivity|]. split; [apply U|]. split; [apply U|]. split; [exact (atu_rest _ _ _ _ _ U)|]. split; [apply U|]. apply G; [exact I|apply U].
Qed.
Lemma r_maybe {A} set (x : A) : R At (MaybeScanInlineComment set x) (qMaybeInline p0 set x).
Proof. unfold MaybeScanInlineComment, qMaybeInline. rgo. Qed.
Hint Resolve r_maybe : rl.

(** ** Options *)
Lemma r_parenName perm name : R At (parseParenName perm name) (qParenName p0 perm name).
Proof. unfold parseParenName, qParenName. rgo. Qed.
Hint Resolve r_parenName : rl.
Lemma r_optionName_loop perm n : forall name, R At (optionName_loop perm n name) (qOptionName_loop p0 perm n name).
Proof.
  induction n as [|n IH]; intros name; cbn [optionName_loop qOptionName_loop]; rgo.
Qed.
Hint Resolve r_optionName_loop : rl.
Lemma r_optionName perm : R At (parseOptionName perm) (qOptionName p0 perm).
Proof.
  unfold parseOptionName, qOptionName. do 3 rstep. apply R_bind; rgo.
Qed.
Hint Resolve r_optionName : rl.
Lemma r_cloud_loop perm pc qc : R At pc qc -> forall n r, R At (cloud_loop perm pc n r) (qCloud_loop p0 perm qc n r).
Proof.
  intros H. induction n as [|n IH]; intros r; cbn [cloud_loop qCloud_loop]; [rgo|].
  rstep. rstep. cbv zeta. rstep. rstep. rstep. apply R_bind.
  - destruct (tk t0); destruct perm; rgo.
  - intros [r1 semi]. apply R_bind; [exact H|]. intros c. cbv zeta. rstep. rstep.
    assert (D : forall r0 t3, R (AtT t3) (t4 <- gets ltok;; x3 <- gets ltext;;
      match t4 with
      | TCOMMA | TSEMICOLON =>
        pk <- Peek;;
        if tok_eqb pk TRIGHTCURLY && perm then Next;; x4 <- gets ltext;; ret ((r0 ++ x3) ++ x4)
        else cloud_loop perm pc n (r0 ++ x3)
      | TRIGHTCURLY => ret (r0 ++ x3)
      | _ => UnNext;; cloud_loop perm pc n (r0 ++ [NL])
      end)%monad
      match tk t3 with
      | TCOMMA | TSEMICOLON =>
        pk <-- ppeek p0 0;;
        if tok_eqb (tk pk) TRIGHTCURLY && perm
        then t4 <-- ptok p0 0;; pret ((r0 ++ tx t3) ++ tx t4)
        else qCloud_loop p0 perm qc n (r0 ++ tx t3)
      | TRIGHTCURLY => pret (r0 ++ tx t3)
      | _ => pback t3;;; qCloud_loop p0 perm qc n (r0 ++ [NL])
      end).
    { intros r0 t3. rstep. rstep. destruct (tk t3); rgo. }
    destruct (tok_eqb (tk t1) TSEMICOLON && semi && perm).
    + apply R_assoc. rstep. apply R_assoc. apply R_weak.
      eapply R_qext; [|apply R_next; intros t3; eapply R_ext; [intros s; apply bind_ret|]; apply (D ((r1 ++ c) ++ tx t1) t3)].
      intros k. unfold pbind, ptok. destruct (lexc p0 0 k). reflexivity.
    + eapply R_ext; [intros s; apply bind_ret|]. eapply R_qext; [|apply (D (r1 ++ c) t1)]. intros k. reflexivity.
Qed.
Lemma r_cloud perm pc qc n : R At pc qc -> R At (parseCloudEndpointsOptionConstant perm pc n) (qCloud p0 perm qc n).
Proof. intros H. unfold parseCloudEndpointsOptionConstant, qCloud. pose proof (r_cloud_loop perm pc qc H n). rgo. Qed.
Hint Resolve r_cloud : rl.
Lemma r_constants_loop pc qc : R At pc qc -> forall n o, R At (constants_loop pc n o) (qConstants_loop p0 qc n o).
Proof. intros H. induction n as [|n IH]; intros o; cbn [constants_loop qConstants_loop]; rgo. Qed.
Lemma r_constants pc qc n : R At pc qc -> R At (parseOptionConstants pc n) (qConstants p0 qc n).
Proof. intros H. unfold parseOptionConstants, qConstants. pose proof (r_constants_loop pc qc H n). rgo. Qed.
Hint Resolve r_constants : rl.
Lemma r_optionConstant perm n : R At (parseOptionConstant perm n) (qOptionConstant p0 perm n).
Proof.
  induction n as [|n IH]; cbn [parseOptionConstant qOptionConstant]; [rgo|]. rstep.
  assert (D : R (AtU t) (c <- ReadConstant perm;; ret (fst c))%monad (c <-- qReadConstant p0 perm;; pret (fst c))) by rgo.
  destruct (tk t); try exact D.
  - destruct (negb perm); [rgo|]. rstep. rstep. rstep; [|rgo].
    cbn [NextN]. apply R_assoc. rstep. apply R_assoc. rstep. rstep.
    eapply R_ext; [intros s; apply bind_ret|]. rgo.
  - destruct (negb perm); [rgo|]. rgo.
Qed.
Hint Resolve r_optionConstant : rl.
Lemma r_pconstant perm : R At (parseConstant perm) (qConstant p0 perm).
Proof. unfold parseConstant, qConstant. rgo. Qed.
Hint Resolve r_pconstant : rl.
Lemma r_option perm : R At (ParseOption perm) (qParseOption p0 perm).
Proof. unfold ParseOption, qParseOption. rgo. Qed.
Hint Resolve r_option : rl.

(** ** Syntax, edition, import, package *)
Lemma r_syntax : R At ParseSyntax (qParseSyntax p0).
Proof. unfold ParseSyntax, qParseSyntax. rgo. Qed.
Lemma r_edition : R At ParseEdition (qParseEdition p0).
Proof. unfold ParseEdition, qParseEdition. rgo. Qed.
Lemma r_import : R At ParseImport (qParseImport p0).
Proof.
  unfold ParseImport, qParseImport, NextKeywordOrStrLit, NextKeyword, NextStrLit. rstep. rstep. rstep. rstep. rstep.
  apply R_bind; [|rgo]. destruct (tk t0); rgo.
Qed.
Lemma r_package : R At ParsePackage (qParsePackage p0).
Proof. unfold ParsePackage, qParsePackage. rgo. Qed.
Hint Resolve r_syntax r_edition r_import r_package : rl.

(** ** Fields *)
Lemma r_type : R At parseType (qType p0).
Proof. unfold parseType, qType. rgo. Qed.
Lemma r_fieldNumber : R At parseFieldNumber (qFieldNumber p0).
Proof. unfold parseFieldNumber, qFieldNumber. rgo. Qed.
Lemma r_fieldOption perm : R At (parseFieldOption perm) (qFieldOption p0 perm).
Proof. unfold parseFieldOption, qFieldOption. rgo. Qed.
Hint Resolve r_type r_fieldNumber r_fieldOption : rl.
Lemma r_fieldOptions_loop perm n : forall o, R At (fieldOptions_loop perm n o) (qFieldOptions_loop p0 perm n o).
Proof. induction n as [|n IH]; intros o; cbn [fieldOptions_loop qFieldOptions_loop]; rgo. Qed.
Hint Resolve r_fieldOptions_loop : rl.
Lemma r_fieldOptions perm : R At (parseFieldOptions perm) (qFieldOptions p0 perm).
Proof. unfold parseFieldOptions, qFieldOptions. rgo. Qed.
Hint Resolve r_fieldOptions : rl.
Lemma r_fieldOptionsOption perm : R At (parseFieldOptionsOption perm) (qFieldOptionsOption p0 perm).
Proof. unfold parseFieldOptionsOption, qFieldOptionsOption. rgo. Qed.
Hint Resolve r_fieldOptionsOption : rl.
Lemma r_label : R At parseLabel (qLabel p0).
Proof. unfold parseLabel, qLabel, NextKeyword. rstep. rstep. rstep. destruct (tk t); rgo. Qed.
Hint Resolve r_label : rl.
Lemma r_field perm : R At (ParseField perm) (qParseField p0 perm).
Proof. unfold ParseField, qParseField. rgo. Qed.
Lemma r_keyType : R At parseKeyType (qKeyType p0).
Proof. unfold parseKeyType, qKeyType. rgo. Qed.
Hint Resolve r_field r_keyType : rl.
Lemma r_mapField perm : R At (ParseMapField perm) (qParseMapField p0 perm).
Proof. unfold ParseMapField, qParseMapField. rgo. Qed.
Hint Resolve r_mapField : rl.

Lemma r_isGroup_tail : R At peekIsGroup_tail (qIsGroup_tail p0).
Proof.
  unfold peekIsGroup_tail, qIsGroup_tail, NextKeyword.
  rstep. rstep; [rgo|]. rstep. rstep; [rgo|]. rstep. rstep. rstep; [rgo|]. rstep. rstep. rstep; [rgo|]. rstep; [rgo|].
  rstep. rstep. rstep; [rgo|]. rstep. rstep; [rgo|]. rstep. rstep.
  - rewrite H. cbn [negb]. rgo.
  - rewrite H. cbn [negb]. rgo.
Qed.
Hint Resolve r_isGroup_tail : rl.
Lemma keeps_isGroup_tail : keeps (qIsGroup_tail p0).
Proof. apply keeps_tok. Qed.
Lemma r_isGroup : R At peekIsGroup (qIsGroup p0).
Proof.
  unfold peekIsGroup, qIsGroup, NextKeyword. rstep. rstep. pose proof keeps_isGroup_tail. destruct (tk t); rgo.
Qed.
Hint Resolve r_isGroup : rl.
Lemma r_blockEnd perm : R At (blockEnd perm) (qBlockEnd p0 perm).
Proof.
  apply R_intro. intros k s X. unfold blockEnd, qBlockEnd. rewrite bind_gets, (at_lpos _ _ _ _ X). unfold plast. unfold pbind at 1.
  destruct perm; [|exists s; split; [reflexivity|exact X]].
  destruct (Next_at0 _ _ _ _ X) as (s1 & Q & T). unfold ConsumeToken. rewrite bind_assoc. rwb Q.
  rewrite bind_assoc, bind_gets, (att_tok _ _ _ _ _ T). unfold pbind, ptok, pback, pret.
  destruct (lexc p0 0 k) as [t k']. cbn [fst snd] in *. destruct (tok_eqb (tk t) TSEMICOLON) eqn:E.
  - rewrite bind_ret, bind_gets, (att_tok _ _ _ _ _ T), E. exists s1. unfold gets. rewrite (att_pos _ _ _ _ _ T).
    split; [reflexivity|apply T].
  - destruct (UnNext_at _ _ _ _ _ T) as (s2 & Q2 & U). rwb Q2. rewrite bind_gets, (atu_tok _ _ _ _ _ U). exists s2.
    split; [reflexivity|apply U].
Qed.
Hint Resolve r_blockEnd : rl.

(** ** Oneof *)
Lemma r_oneofField perm : R At (parseOneofField perm) (qOneofField p0 perm).
Proof. unfold parseOneofField, qOneofField. rgo. Qed.
Hint Resolve r_oneofField : rl.
Lemma r_oneof_loop perm n : forall f o, R At (oneof_loop perm n f o) (qOneof_loop p0 perm n f o).
Proof.
  induction n as [|n IH]; intros f o; cbn [oneof_loop qOneof_loop]; [rgo|].
  rstep; [rgo|]. rstep; [rgo|]. rstep. rstep. apply R_bind; [rgo|]. intros [f1 o1]. rgo.
Qed.
Hint Resolve r_oneof_loop : rl.
Lemma r_oneof perm : R At (ParseOneof perm) (qParseOneof p0 perm).
Proof. unfold ParseOneof, qParseOneof. rgo. Qed.
Hint Resolve r_oneof : rl.

(** ** Reserved and extensions *)
Lemma r_range : R At parseRange (qRange p0).
Proof. unfold parseRange, qRange. rgo. Qed.
Hint Resolve r_range : rl.
Lemma r_ranges_loop n : forall l, R At (ranges_loop n l) (qRanges_loop p0 n l).
Proof. induction n as [|n IH]; intros l; cbn [ranges_loop qRanges_loop]; rgo. Qed.
Hint Resolve r_ranges_loop : rl.
Lemma r_ranges : R At parseRanges (qRanges p0).
Proof. unfold parseRanges, qRanges. rgo. Qed.
Hint Resolve r_ranges : rl.
Lemma r_fieldName : R At parseFieldName (qFieldName p0).
Proof.
  apply R_intro. intros k s X. unfold parseFieldName, parseQuotedFieldName, qFieldName, NextStrLit, try.
  destruct (NextM_at _ _ ScanStrLit _ _ X) as (s1 & Q & T). rwb Q. rewrite bind_gets, (att_tok _ _ _ _ _ T).
  unfold ptok at 1. unfold pbind at 1. destruct (lexc p0 ScanStrLit k) as [t k']. cbn [fst snd] in *.
  destruct (tok_eqb (tk t) TSTRLIT) eqn:E; cbn [negb].
  - unfold gets. rewrite (att_txt _ _ _ _ _ T). exists s1. split; [reflexivity|apply T].
  - destruct (UnNext_at _ _ _ _ _ T) as (s2 & Q2 & U). rwb Q2. cbn [p_unexpected]. unfold p_unexpected. unfold pback, pbind at 1.
    refine (R_elim _ _ _ _ _ _ (kb t) s2 (atu_at _ _ _ _ _ U)). rgo.
Qed.
Hint Resolve r_fieldName : rl.
Lemma r_fieldNames_loop n : forall l, R At (fieldNames_loop n l) (qFieldNames_loop p0 n l).
Proof. induction n as [|n IH]; intros l; cbn [fieldNames_loop qFieldNames_loop]; rgo. Qed.
Hint Resolve r_fieldNames_loop : rl.
Lemma r_fieldNames : R At parseFieldNames (qFieldNames p0).
Proof. unfold parseFieldNames, qFieldNames. rgo. Qed.
Hint Resolve r_fieldNames : rl.
Lemma r_reserved : R At ParseReserved (qParseReserved p0).
Proof. unfold ParseReserved, qParseReserved. rgo. Qed.
Hint Resolve r_reserved : rl.

Lemma r_declaration_loop n : forall v, R At (declaration_loop n v) (qDeclaration_loop p0 n v).
Proof.
  induction n as [|n IH]; intros v; cbn [declaration_loop qDeclaration_loop]; [rgo|].
  rstep. rstep. rstep; [rgo|]. apply R_bind; [rgo|]. intros _. unfold NextKeyword. rstep. rstep. apply R_bind; [|rgo].
  destruct (tk t0); rgo.
Qed.
Hint Resolve r_declaration_loop : rl.
Lemma r_declaration : R At ParseDeclaration (qParseDeclaration p0).
Proof.
  unfold ParseDeclaration, qParseDeclaration, NextKeyword. rgo.
Qed.
Hint Resolve r_declaration : rl.
Lemma r_declarations_loop n : forall l, R At (declarations_loop n l) (qDeclarations_loop p0 n l).
Proof.
  induction n as [|n IH]; intros l; cbn [declarations_loop qDeclarations_loop]; [rgo|].
  rstep; [rgo|]. rstep; [rgo|]. cbv zeta. rstep. rstep. rstep.
  destruct (tok_eqb (tk t) TRIGHTSQUARE); [rgo|]. destruct (negb (tok_eqb (tk t) TCOMMA)); [|rgo].
  apply r_inline_err. intros o. rfailing.
Qed.
Hint Resolve r_declarations_loop : rl.
Lemma r_declarations : R At parseDeclarations (qDeclarations p0).
Proof. unfold parseDeclarations, qDeclarations. rgo. Qed.
Hint Resolve r_declarations : rl.
Lemma r_extensions : R At ParseExtensions (qParseExtensions p0).
Proof. unfold ParseExtensions, qParseExtensions. rgo. Qed.
Hint Resolve r_extensions : rl.

(** ** Bodies *)
Lemma r_enumValueOption perm : R At (parseEnumValueOption perm) (qEnumValueOption p0 perm).
Proof. unfold parseEnumValueOption, qEnumValueOption. rgo. Qed.
Hint Resolve r_enumValueOption : rl.
Lemma r_enumValueOptions_loop perm n : forall o, R At (enumValueOptions_loop perm n o) (qEnumValueOptions_loop p0 perm n o).
Proof. induction n as [|n IH]; intros o; cbn [enumValueOptions_loop qEnumValueOptions_loop]; rgo. Qed.
Hint Resolve r_enumValueOptions_loop : rl.
Lemma r_enumValueOptions perm : R At (parseEnumValueOptions perm) (qEnumValueOptions p0 perm).
Proof. unfold parseEnumValueOptions, qEnumValueOptions. rgo. Qed.
Hint Resolve r_enumValueOptions : rl.
Lemma r_enumField perm : R At (parseEnumField perm) (qEnumField p0 perm).
Proof. unfold parseEnumField, qEnumField. rgo. Qed.
Hint Resolve r_enumField : rl.
Lemma r_bodyEnd perm bic ilc stmts comments : R At
  (Next;; lastPos <- blockEnd perm;; ret (stmts ++ body_comments bic comments, ilc, lastPos))%monad
  (qBodyEnd p0 perm bic ilc stmts comments).
Proof. unfold qBodyEnd. rgo. Qed.
Hint Resolve r_bodyEnd : rl.
Lemma r_enumBody_loop perm bic ilc n : forall l, R At (enumBody_loop perm bic ilc n l) (qEnumBody_loop p0 perm bic ilc n l).
Proof.
  induction n as [|n IH]; intros l; cbn [enumBody_loop qEnumBody_loop]; [rgo|].
  rstep; [rgo|]. rstep. apply R_weaku.
  assert (D : R At (try (parseEnumField perm) (fun r => match r with
                  | inl f => ret (with_comments a (VEnumField f))
                  | inr e => recoverEmpty e
                  end)) (precover p0 (qEnumField p0 perm) (fun f => with_comments a (VEnumField f)))) by rgo.
  destruct (tk t); try (apply R_bind; [exact D|rgo]); rgo.
Qed.
Hint Resolve r_enumBody_loop : rl.
Lemma r_enumBody perm bic : R At (parseEnumBody perm bic) (qEnumBody p0 perm bic).
Proof. unfold parseEnumBody, qEnumBody. rgo. Qed.
Hint Resolve r_enumBody : rl.
Lemma r_enum perm bic : R At (ParseEnum perm bic) (qParseEnum p0 perm bic).
Proof. unfold ParseEnum, qParseEnum. rgo. Qed.
Hint Resolve r_enum : rl.
Lemma r_emptyBody perm : R At (emptyBody perm) (qEmptyBody p0 perm).
Proof. unfold emptyBody, qEmptyBody. rgo. Qed.
Hint Resolve r_emptyBody : rl.
Lemma r_extendBody_loop perm bic ilc n : forall l, R At (extendBody_loop perm bic ilc n l) (qExtendBody_loop p0 perm bic ilc n l).
Proof.
  induction n as [|n IH]; intros l; cbn [extendBody_loop qExtendBody_loop]; [rgo|].
  rstep; [rgo|]. rstep. apply R_weaku.
  assert (D : R At (stmt <- try (ParseField perm) (fun r => match r with
                  | inl f => ret (with_comments a (VField f))
                  | inr e => recoverEmpty e
                  end);; stmt <- MaybeScanInlineComment set_inline stmt;;
      extendBody_loop perm bic ilc n (l ++ [stmt]))%monad
    (stmt <-- precover p0 (qParseField p0 perm) (fun f => with_comments a (VField f));; 
     stmt <-- qMaybeInline p0 set_inline stmt;; qExtendBody_loop p0 perm bic ilc n (l ++ [stmt]))) by rgo.
  destruct (tk t); try exact D; rgo.
Qed.
Hint Resolve r_extendBody_loop : rl.
Lemma r_extendBody perm bic : R At (parseExtendBody perm bic) (qExtendBody p0 perm bic).
Proof. unfold parseExtendBody, qExtendBody. rgo. Qed.
Hint Resolve r_extendBody : rl.
Lemma r_extend perm bic : R At (ParseExtend perm bic) (qParseExtend p0 perm bic).
Proof. unfold ParseExtend, qParseExtend. rgo. Qed.
Hint Resolve r_extend : rl.
Lemma r_groupField mb qb : R At mb qb -> R At (ParseGroupField mb) (qParseGroupField p0 qb).
Proof. intros H. unfold ParseGroupField, qParseGroupField. rgo. Qed.
Lemma r_message_ mb qb : R At mb qb -> R At (ParseMessage_ mb) (qParseMessage_ p0 qb).
Proof. intros H. unfold ParseMessage_, qParseMessage_. rgo. Qed.
Hint Resolve r_groupField r_message_ : rl.
Lemma r_messageStmt perm bic mb qb t c : R At mb qb -> R At (messageStmt perm bic mb t c) (qMessageStmt p0 perm bic qb t c).
Proof.
  intros H. unfold messageStmt, qMessageStmt.
  assert (D : R At (isGroup <- peekIsGroup;;
    if isGroup then
      try (ParseGroupField mb) (fun r =>
        match r with
        | inl g => ret (with_comments c (VGroupField g))
        | inr e => recoverEmpty e
        end)
    else
      try (ParseField perm) (fun r =>
        match r with
        | inl f => ret (with_comments c (VField f))
        | inr e => recoverEmpty e
        end))%monad (isGroup <-- qIsGroup p0;;
    if isGroup then precover p0 (qParseGroupField p0 qb) (fun g => with_comments c (VGroupField g))
    else precover p0 (qParseField p0 perm) (fun f => with_comments c (VField f)))) by rgo.
  destruct t; try exact D; rgo.
Qed.
Hint Resolve r_messageStmt : rl.
Lemma r_messageBody_loop perm bic mb qb ilc : R At mb qb -> forall n l,
  R At (messageBody_loop perm bic mb ilc n l) (qMessageBody_loop p0 perm bic qb ilc n l).
Proof.
  intros H. induction n as [|n IH]; intros l; cbn [messageBody_loop qMessageBody_loop]; [rgo|].
  rstep; [rgo|]. rstep. apply R_weaku.
  assert (D : R At (stmt <- messageStmt perm bic mb (tk t) a;; stmt <- MaybeScanInlineComment set_inline stmt;;
      messageBody_loop perm bic mb ilc n (l ++ [stmt]))%monad
    (stmt <-- qMessageStmt p0 perm bic qb (tk t) a;;
     stmt <-- qMaybeInline p0 set_inline stmt;; qMessageBody_loop p0 perm bic qb ilc n (l ++ [stmt]))) by rgo.
  destruct (tk t); try exact D; rgo.
Qed.
Hint Resolve r_messageBody_loop : rl.
Lemma r_messageBody perm bic n : R At (parseMessageBody perm bic n) (qMessageBody p0 perm bic n).
Proof. induction n as [|n IH]; cbn [parseMessageBody qMessageBody]; rgo. Qed.
Hint Resolve r_messageBody : rl.
Lemma r_message perm bic n : R At (ParseMessage perm bic n) (qParseMessage p0 perm bic n).
Proof. unfold ParseMessage, qParseMessage. rgo. Qed.
Hint Resolve r_message : rl.
(** without the recovery behind a failed group *)
Lemma r_messageStmt' perm bic mb qb t c : R At mb qb -> R At (messageStmt' perm bic mb t c) (qMessageStmt' p0 perm bic qb t c).
Proof.
  intros H. unfold messageStmt', qMessageStmt'.
  assert (D : R At (isGroup <- peekIsGroup;;
    if isGroup then g <- ParseGroupField mb;; ret (with_comments c (VGroupField g))
    else
      try (ParseField perm) (fun r =>
        match r with
        | inl f => ret (with_comments c (VField f))
        | inr e => recoverEmpty e
        end))%monad (isGroup <-- qIsGroup p0;;
    if isGroup then g <-- qParseGroupField p0 qb;; pret (with_comments c (VGroupField g))
    else precover p0 (qParseField p0 perm) (fun f => with_comments c (VField f)))) by rgo.
  destruct t; try exact D; rgo.
Qed.
Hint Resolve r_messageStmt' : rl.
Lemma r_messageBody_loop' perm bic mb qb ilc : R At mb qb -> forall n l,
  R At (messageBody_loop' perm bic mb ilc n l) (qMessageBody_loop' p0 perm bic qb ilc n l).
Proof.
  intros H. induction n as [|n IH]; intros l; cbn [messageBody_loop' qMessageBody_loop']; [rgo|].
  rstep; [rgo|]. rstep. apply R_weaku.
  assert (D : R At (stmt <- messageStmt' perm bic mb (tk t) a;; stmt <- MaybeScanInlineComment set_inline stmt;;
      messageBody_loop' perm bic mb ilc n (l ++ [stmt]))%monad
    (stmt <-- qMessageStmt' p0 perm bic qb (tk t) a;;
     stmt <-- qMaybeInline p0 set_inline stmt;; qMessageBody_loop' p0 perm bic qb ilc n (l ++ [stmt]))) by rgo.
  destruct (tk t); try exact D; rgo.
Qed.
Hint Resolve r_messageBody_loop' : rl.
Lemma r_messageBody' perm bic n : R At (parseMessageBody' perm bic n) (qMessageBody' p0 perm bic n).
Proof. induction n as [|n IH]; cbn [parseMessageBody' qMessageBody']; rgo. Qed.
End P.
