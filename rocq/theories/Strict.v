(** The parser with one change: an error inside a group is not taken for an empty
    statement.  A device for proofs: texts that this parser accepts are those in
    which the recovery behind a failed group plays no part. *)
From Coq Require Import List NArith ZArith Bool String Ascii.
From Verif Require Import Base Token Scanner Lexer Ast Parser Cursor Pure.
Import ListNotations.
Open Scope N_scope.

Section Imperative.
Open Scope monad_scope.
Definition messageStmt' (perm bic : bool) (mb : M body_result) (token : token) (comments : list comment) : M visitee :=
  match token with
  | TENUM => e <- ParseEnum perm bic;; ret (with_comments comments (VEnum e))
  | TMESSAGE => m <- ParseMessage_ mb;; ret (with_comments comments (VMessage m))
  | TOPTION => o <- ParseOption perm;; ret (with_comments comments (VOption o))
  | TONEOF => o <- ParseOneof perm;; ret (with_comments comments (VOneof o))
  | TMAP => m <- ParseMapField perm;; ret (with_comments comments (VMapField m))
  | TEXTEND => x <- ParseExtend perm bic;; ret (with_comments comments (VExtend x))
  | TRESERVED => r <- ParseReserved;; ret (with_comments comments (VReserved r))
  | TEXTENSIONS => x <- ParseExtensions;; ret (with_comments comments (VExtensions x))
  | _ =>
    isGroup <- peekIsGroup;;
    if isGroup then g <- ParseGroupField mb;; ret (with_comments comments (VGroupField g))
    else
      try (ParseField perm) (fun r =>
        match r with
        | inl f => ret (with_comments comments (VField f))
        | inr e => recoverEmpty e
        end)
  end.
Fixpoint messageBody_loop' (perm bic : bool) (mb : M body_result) (ilc : option comment) (n : nat)
         (stmts : list visitee) : M body_result :=
  match n with
  | O => oof
  | S n' =>
    comments <- ParseComments;;
    token <- peekKeyword;;
    match token with
    | TRIGHTCURLY =>
      Next;;
      lastPos <- blockEnd perm;;
      ret (stmts ++ body_comments bic comments, ilc, lastPos)
    | _ =>
      stmt <- messageStmt' perm bic mb token comments;;
      stmt <- MaybeScanInlineComment set_inline stmt;;
      messageBody_loop' perm bic mb ilc n' (stmts ++ [stmt])
    end
  end.
Fixpoint parseMessageBody' (perm bic : bool) (n : nat) : M body_result :=
  match n with
  | O => oof
  | S n' =>
    Next;; expect TLEFTCURLY "{";;
    inlineLeftCurly <- parseInlineComment;;
    eb <- emptyBody perm;;
    match eb with
    | Some lastPos => ret ([], None, lastPos)
    | None => messageBody_loop' perm bic (parseMessageBody' perm bic n') inlineLeftCurly n' []
    end
  end.
Definition protoStmt' (perm bic : bool) (n : nat) (token : token) (comments : list comment)
  : M (list visitee * visitee) :=
  match token with
  | TIMPORT => i <- ParseImport;; ret ([], with_comments comments (VImport i))
  | TPACKAGE => p <- ParsePackage;; ret ([], with_comments comments (VPackage p))
  | TOPTION => o <- ParseOption perm;; ret ([], with_comments comments (VOption o))
  | TMESSAGE => m <- ParseMessage_ (parseMessageBody' perm bic n);; ret ([], with_comments comments (VMessage m))
  | TENUM => e <- ParseEnum perm bic;; ret ([], with_comments comments (VEnum e))
  | TSERVICE => s <- ParseService perm bic;; ret ([], with_comments comments (VService s))
  | TEXTEND => x <- ParseExtend perm bic;; ret ([], with_comments comments (VExtend x))
  | _ => ReadEmptyStatement;; ret ([VEmpty (mkEmpty None)], VNil)
  end.
Fixpoint protoBody_loop' (perm bic : bool) (n : nat) (body : list visitee) : M (list visitee) :=
  match n with
  | O => oof
  | S n' =>
    comments <- ParseComments;;
    e <- p_IsEOF;;
    if e then ret (body ++ body_comments bic comments)
    else
      token <- peekKeyword;;
      '(pre, stmt) <- protoStmt' perm bic n' token comments;;
      stmt <- MaybeScanInlineComment set_inline stmt;;
      protoBody_loop' perm bic n' (body ++ pre ++ [stmt])
  end.
Definition protoRest (loop : M (list visitee)) : M proto :=
  parseBOM;;
  comments <- ParseComments;;
  syntax <- ParseSyntax;;
  syntax <- match syntax with
            | None => ret None
            | Some x =>
              x <- MaybeScanInlineComment (total_set set_sy_inline)
                     (mkSyntax (sy_version x) (sy_versionQuote x) comments (sy_inline x) (sy_meta x));;
              ret (Some x)
            end;;
  edition <- ParseEdition;;
  edition <- match edition with
             | None => ret None
             | Some x =>
               x <- MaybeScanInlineComment (total_set set_ed_inline)
                      (mkEdition (ed_edition x) (ed_editionQuote x) comments (ed_inline x) (ed_meta x));;
               ret (Some x)
             end;;
  body <- loop;;
  filename <- gets (fun s => Filename (lpos s));;
  ret (mkProto syntax edition body filename).
Definition ParseProto' (perm bic : bool) (n : nat) : M proto := protoRest (protoBody_loop' perm bic n []).
Lemma ParseProto_rest perm bic n : ParseProto perm bic n = protoRest (protoBody_loop perm bic n []).
Proof. reflexivity. Qed.
End Imperative.

Section Pure.
Open Scope pure_scope.
Variable p0 : mpos.
Definition qMessageStmt' (perm bic : bool) (mb : PM body_result) (token : token) (comments : list comment) : PM visitee :=
  match token with
  | TENUM => e <-- qParseEnum p0 perm bic;; pret (with_comments comments (VEnum e))
  | TMESSAGE => m <-- qParseMessage_ p0 mb;; pret (with_comments comments (VMessage m))
  | TOPTION => o <-- qParseOption p0 perm;; pret (with_comments comments (VOption o))
  | TONEOF => o <-- qParseOneof p0 perm;; pret (with_comments comments (VOneof o))
  | TMAP => m <-- qParseMapField p0 perm;; pret (with_comments comments (VMapField m))
  | TEXTEND => x <-- qParseExtend p0 perm bic;; pret (with_comments comments (VExtend x))
  | TRESERVED => r <-- qParseReserved p0;; pret (with_comments comments (VReserved r))
  | TEXTENSIONS => x <-- qParseExtensions p0;; pret (with_comments comments (VExtensions x))
  | _ =>
    isGroup <-- qIsGroup p0;;
    if isGroup then g <-- qParseGroupField p0 mb;; pret (with_comments comments (VGroupField g))
    else precover p0 (qParseField p0 perm) (fun f => with_comments comments (VField f))
  end.
Fixpoint qMessageBody_loop' (perm bic : bool) (mb : PM body_result) (ilc : option comment) (n : nat)
         (stmts : list visitee) : PM body_result :=
  match n with
  | O => poof
  | S n' =>
    comments <-- qParseComments p0;;
    t <-- ppeek p0 ScanKeyword;;
    match tk t with
    | TRIGHTCURLY => qBodyEnd p0 perm bic ilc stmts comments
    | _ =>
      stmt <-- qMessageStmt' perm bic mb (tk t) comments;;
      stmt <-- qMaybeInline p0 set_inline stmt;;
      qMessageBody_loop' perm bic mb ilc n' (stmts ++ [stmt])
    end
  end.
Fixpoint qMessageBody' (perm bic : bool) (n : nat) : PM body_result :=
  match n with
  | O => poof
  | S n' =>
    pexpect p0 0 TLEFTCURLY;;;
    inlineLeftCurly <-- qInline p0;;
    eb <-- qEmptyBody p0 perm;;
    match eb with
    | Some lastPos => pret ([], None, lastPos)
    | None => qMessageBody_loop' perm bic (qMessageBody' perm bic n') inlineLeftCurly n' []
    end
  end.
Definition qProtoStmt' (perm bic : bool) (n : nat) (token : token) (comments : list comment)
  : PM (list visitee * visitee) :=
  match token with
  | TIMPORT => i <-- qParseImport p0;; pret ([], with_comments comments (VImport i))
  | TPACKAGE => p <-- qParsePackage p0;; pret ([], with_comments comments (VPackage p))
  | TOPTION => o <-- qParseOption p0 perm;; pret ([], with_comments comments (VOption o))
  | TMESSAGE => m <-- qParseMessage_ p0 (qMessageBody' perm bic n);; pret ([], with_comments comments (VMessage m))
  | TENUM => e <-- qParseEnum p0 perm bic;; pret ([], with_comments comments (VEnum e))
  | TSERVICE => s <-- qParseService p0 perm bic;; pret ([], with_comments comments (VService s))
  | TEXTEND => x <-- qParseExtend p0 perm bic;; pret ([], with_comments comments (VExtend x))
  | _ => qReadEmptyStatement p0;;; pret ([VEmpty (mkEmpty None)], VNil)
  end.
Fixpoint qProtoBody_loop' (perm bic : bool) (n : nat) (body : list visitee) : PM (list visitee) :=
  match n with
  | O => poof
  | S n' =>
    comments <-- qParseComments p0;;
    e <-- ppeek p0 0;;
    if tok_eqb (tk e) TEOF then pret (body ++ body_comments bic comments)
    else
      t <-- ppeek p0 ScanKeyword;;
      '(pre, stmt) <-- qProtoStmt' perm bic n' (tk t) comments;;
      stmt <-- qMaybeInline p0 set_inline stmt;;
      qProtoBody_loop' perm bic n' (body ++ pre ++ [stmt])
  end.
Definition qProtoRest (loop : PM (list visitee)) : PM proto :=
  qBOM p0;;;
  comments <-- qParseComments p0;;
  syntax <-- qParseSyntax p0;;
  syntax <-- match syntax with
             | None => pret None
             | Some x =>
               x <-- qMaybeInline p0 (total_set set_sy_inline)
                      (mkSyntax (sy_version x) (sy_versionQuote x) comments (sy_inline x) (sy_meta x));;
               pret (Some x)
             end;;
  edition <-- qParseEdition p0;;
  edition <-- match edition with
              | None => pret None
              | Some x =>
                x <-- qMaybeInline p0 (total_set set_ed_inline)
                       (mkEdition (ed_edition x) (ed_editionQuote x) comments (ed_inline x) (ed_meta x));;
                pret (Some x)
              end;;
  body <-- loop;;
  p <-- plast;;
  pret (mkProto syntax edition body (Filename p)).
Definition qParseProto' (perm bic : bool) (n : nat) : PM proto := qProtoRest (qProtoBody_loop' perm bic n []).
Lemma qParseProto_rest perm bic n : qParseProto p0 perm bic n = qProtoRest (qProtoBody_loop p0 perm bic n []).
Proof. reflexivity. Qed.

(** ** What the strict parser accepts, the other accepts with the same result *)
Definition Sub {A} (q q' : PM A) : Prop := forall k a k', q' k = POk a k' -> q k = POk a k'.
Lemma Sub_refl {A} (q : PM A) : Sub q q. Proof. intros k a k' H. exact H. Qed.
Lemma Sub_bind {A B} (q q' : PM A) (f f' : A -> PM B) : Sub q q' -> (forall a, Sub (f a) (f' a)) -> Sub (pbind q f) (pbind q' f').
Proof.
  intros H F k b k' E. unfold pbind in *. destruct (q' k) as [a k1|? ?|? ?| | | |] eqn:E1; try discriminate E. rewrite (H _ _ _ E1). apply F. exact E.
Qed.
Lemma Sub_group {A} (q q' : PM A) ok : Sub q q' -> Sub (precover p0 q ok) (pbind q' (fun g => pret (ok g))).
Proof.
  intros H k b k' E. unfold pbind, precover in *. destruct (q' k) as [a k1|? ?|? ?| | | |] eqn:E1; try discriminate E. rewrite (H _ _ _ E1). exact E.
Qed.
Ltac sub := repeat first [exact (Sub_refl _) | assumption | apply Sub_bind; [|intros] | apply Sub_group].
Lemma sub_groupField mb mb' : Sub mb mb' -> Sub (qParseGroupField p0 mb) (qParseGroupField p0 mb').
Proof.
  intros H. unfold qParseGroupField. apply Sub_bind; [apply Sub_refl|]. intros (p & ((a & b) & c)). sub. destruct (negb _); sub.
Qed.
Lemma sub_message_ mb mb' : Sub mb mb' -> Sub (qParseMessage_ p0 mb) (qParseMessage_ p0 mb').
Proof. intros H. unfold qParseMessage_. sub. Qed.
Lemma sub_messageStmt perm bic mb mb' t cs : Sub mb mb' -> Sub (qMessageStmt p0 perm bic mb t cs) (qMessageStmt' perm bic mb' t cs).
Proof.
  intros H. unfold qMessageStmt, qMessageStmt'.
  assert (D : Sub (isGroup <-- qIsGroup p0;; if isGroup then precover p0 (qParseGroupField p0 mb) (fun g => with_comments cs (VGroupField g)) else precover p0 (qParseField p0 perm) (fun f => with_comments cs (VField f)))
    (isGroup <-- qIsGroup p0;; if isGroup then g <-- qParseGroupField p0 mb';; pret (with_comments cs (VGroupField g)) else precover p0 (qParseField p0 perm) (fun f => with_comments cs (VField f)))).
  { apply Sub_bind; [apply Sub_refl|]. intros []; [|apply Sub_refl]. apply Sub_group, sub_groupField, H. }
  destruct t; try exact D; try exact (Sub_refl _). apply Sub_bind; [apply sub_message_; exact H|]. intros. apply Sub_refl.
Qed.
Lemma sub_messageBody_loop perm bic mb mb' ilc : Sub mb mb' -> forall n l, Sub (qMessageBody_loop p0 perm bic mb ilc n l) (qMessageBody_loop' perm bic mb' ilc n l).
Proof.
  intros H. induction n as [|n IH]; intros l; cbn [qMessageBody_loop qMessageBody_loop']; [apply Sub_refl|].
  apply Sub_bind; [apply Sub_refl|]. intros cs. apply Sub_bind; [apply Sub_refl|]. intros t.
  assert (D : Sub (stmt <-- qMessageStmt p0 perm bic mb (tk t) cs;; stmt <-- qMaybeInline p0 set_inline stmt;; qMessageBody_loop p0 perm bic mb ilc n (l ++ [stmt]))
    (stmt <-- qMessageStmt' perm bic mb' (tk t) cs;; stmt <-- qMaybeInline p0 set_inline stmt;; qMessageBody_loop' perm bic mb' ilc n (l ++ [stmt]))).
  { apply Sub_bind; [apply sub_messageStmt; exact H|]. intros v. apply Sub_bind; [apply Sub_refl|]. intros v'. apply IH. }
  destruct (tk t); try exact D. apply Sub_refl.
Qed.
Lemma sub_messageBody perm bic n : Sub (qMessageBody p0 perm bic n) (qMessageBody' perm bic n).
Proof.
  induction n as [|n IH]; cbn [qMessageBody qMessageBody']; [apply Sub_refl|]. apply Sub_bind; [apply Sub_refl|]. intros _. apply Sub_bind; [apply Sub_refl|]. intros lc.
  apply Sub_bind; [apply Sub_refl|]. intros [q|]; [apply Sub_refl|]. apply sub_messageBody_loop. exact IH.
Qed.
Lemma sub_protoStmt perm bic n t cs : Sub (qProtoStmt p0 perm bic n t cs) (qProtoStmt' perm bic n t cs).
Proof.
  unfold qProtoStmt, qProtoStmt'. destruct t; try exact (Sub_refl _). apply Sub_bind; [apply sub_message_, sub_messageBody|]. intros. apply Sub_refl.
Qed.
Lemma sub_protoBody_loop perm bic n : forall l, Sub (qProtoBody_loop p0 perm bic n l) (qProtoBody_loop' perm bic n l).
Proof.
  induction n as [|n IH]; intros l; cbn [qProtoBody_loop qProtoBody_loop']; [apply Sub_refl|].
  apply Sub_bind; [apply Sub_refl|]. intros cs. apply Sub_bind; [apply Sub_refl|]. intros e. destruct (tok_eqb _ _); [apply Sub_refl|].
  apply Sub_bind; [apply Sub_refl|]. intros t. apply Sub_bind; [apply sub_protoStmt|]. intros [pre v]. apply Sub_bind; [apply Sub_refl|]. intros v'. apply IH.
Qed.
Lemma sub_proto perm bic n : Sub (qParseProto p0 perm bic n) (qParseProto' perm bic n).
Proof.
  rewrite qParseProto_rest. unfold qParseProto', qProtoRest. do 6 (apply Sub_bind; [apply Sub_refl|intros]). apply Sub_bind; [apply sub_protoBody_loop|]. intros. apply Sub_refl.
Qed.
End Pure.
