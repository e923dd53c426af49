(** An input on which Parse does not return.

    Inside two nested groups the error of parseDeclarations (extensions.go) leaves
    the scanner with a line comment un-read.  The two enclosing bodies each un-read
    the same text again, which opens and closes a block comment over the copies
    and exposes a [;] that was inside the line comment.  The second recovery
    succeeds, and the text left is the one of the loop's start with one more
    newline. *)
From Coq Require Import List NArith ZArith Bool String Ascii Lia Arith.
From Verif Require Import Base Token Scanner Lexer Ast Parser Api Lexing ScanRefine LexFacts LexSpec LexProofs
  ScanFacts LexerFacts ScanProps Cursor Pure Refine RefineRules RefineParser.
Import ListNotations.
Open Scope N_scope.
Open Scope monad_scope.

Definition grp : list rune := lit "group A=1{group B=1{extensions 1[declaration={}x".
Definition loop_input : list rune := lit "message M{" ++ grp ++ NL :: lit "//*/;" ++ grp ++ NL :: lit "/*".

(** the text un-read by the recoveries in round [k] *)
Definition wk (k : nat) : list rune := repeat NL (S k) ++ lit "//*/;" ++ grp ++ [NL].
(** the text left at the head of the loop in round [k] *)
Definition fam (k : nat) : list rune := grp ++ wk k ++ lit "/*".

(** ** States by their text only *)
Definition Z_ (r : list rune) (s : st) : Prop := rest s = r /\ mode s = 0 /\ nonul r.
Definition fresh (s : st) : cur := mkCur [] (rest s) (comments s) (lpos s).
Lemma Z_at r s : Z_ r s -> At (mkF false (rest s)) (pos s) (fresh s) s.
Proof.
  intros (R0 & M & N). split; cbn; try reflexivity; try assumption.
  - intros a b E. destruct a; discriminate.
  - rewrite R0. exact N.
  - discriminate.
Qed.
Lemma at_Z full p k s : At full p k s -> Z_ (cr k) s.
Proof.
  intros X. split; [apply (at_rest _ _ _ _ X)|]. split; [apply (at_mode _ _ _ _ X)|].
  pose proof (at_nonul _ _ _ _ X) as N. apply nonul_app in N. tauto.
Qed.
Lemma run {A} (m : M A) (q : mpos -> PM A) r s (P : A -> Prop) r' : Z_ r s ->
  (forall full p0, R full p0 (At full p0) m (q p0)) ->
  (forall p0 c l, exists a k', q p0 (mkCur [] r c l) = POk a k' /\ cr k' = r' /\ P a) ->
  exists a s', m s = (Ok a, s') /\ Z_ r' s' /\ P a.
Proof.
  intros Z H Q. pose proof (R_elim _ _ _ _ _ (H _ (pos s)) _ _ (Z_at _ _ Z)) as O. unfold fresh in O. destruct Z as (Z1 & _ & _).
  rewrite Z1 in O. destruct (Q (pos s) (comments s) (lpos s)) as (a & k' & E & R' & Pa). rewrite E in O.
  destruct O as (s' & O & X). exists a, s'. split; [exact O|]. split; [|exact Pa]. rewrite <- R'. eapply at_Z. exact X.
Qed.
Lemma run_next (m : smode) T e r s r' : Z_ r s -> lx_tok (lex m r) = T -> lx_rest (lex m r) = r' ->
  exists s', (bind (nextWithSpecificMode m) (fun _ => expect T e)) s = (Ok tt, s') /\ Z_ r' s' /\ ltext s' = lx_txt (lex m r).
Proof.
  intros Z E1 E2. pose proof Z as (Z1 & _ & _). destruct (NextM_at _ _ m _ _ (Z_at _ _ Z)) as (s1 & Q & T1).
  unfold lexc in T1. cbn [fst snd] in T1. rwb Q. exists s1. split.
  - unfold expect. rewrite bind_gets, (att_tok _ _ _ _ _ T1). lcbn. unfold fresh. lcbn. rewrite Z1, E1. unfold tok_eqb. destruct (token_eq_dec T T); [reflexivity|congruence].
  - pose proof (at_Z _ _ _ _ (att_at _ _ _ _ _ T1)) as Z'. unfold fresh in Z'. cbn [cr cc cm lp] in Z'. rewrite Z1, E2 in Z'. split; [exact Z'|].
    rewrite (att_txt _ _ _ _ _ T1). unfold fresh. lcbn. rewrite Z1. reflexivity.
Qed.
Lemma run_next0 T e r s r' : Z_ r s -> lx_tok (lex 0 r) = T -> lx_rest (lex 0 r) = r' ->
  exists s', (bind Next (fun _ => expect T e)) s = (Ok tt, s') /\ Z_ r' s' /\ ltext s' = lx_txt (lex 0 r).
Proof.
  intros Z E1 E2. pose proof Z as (Z1 & _ & _). destruct (Next_at0 _ _ _ _ (Z_at _ _ Z)) as (s1 & Q & T1).
  unfold lexc in T1. cbn [fst snd] in T1. rwb Q. exists s1. split.
  - unfold expect. rewrite bind_gets, (att_tok _ _ _ _ _ T1). lcbn. unfold fresh. lcbn. rewrite Z1, E1. unfold tok_eqb. destruct (token_eq_dec T T); [reflexivity|congruence].
  - pose proof (at_Z _ _ _ _ (att_at _ _ _ _ _ T1)) as Z'. unfold fresh in Z'. cbn [cr cc cm lp] in Z'. rewrite Z1, E2 in Z'. split; [exact Z'|].
    rewrite (att_txt _ _ _ _ _ T1). unfold fresh. lcbn. rewrite Z1. reflexivity.
Qed.

(** ** Pieces of the text *)
Lemma lex_newlines m k r : lex m (repeat NL k ++ r) = skip (repeat NL k) [] (lex m r).
Proof.
  induction k as [|k IH]; cbn [repeat app]; [rewrite skip_nil; reflexivity|].
  rewrite lex_space by reflexivity. rewrite IH, skip_skip. reflexivity.
Qed.
Lemma find_close_newlines k r : find_close (repeat NL k ++ lit "//*/" ++ r) = Some (repeat NL k ++ lit "//*/", r).
Proof. induction k as [|k IH]; [reflexivity|]. cbn [repeat app]. cbn [find_close]. change (NL =? ch "*") with false. cbn [andb]. rewrite IH. reflexivity. Qed.
Lemma grp_line : ~ In NL (lit "*/;" ++ grp).
Proof. intros H. vm_compute in H. repeat (destruct H as [H|H]; [discriminate|]). exact H. Qed.
Lemma nonul_lit x : forallb (fun c => negb (c =? 0)) (lit x) = true -> nonul (lit x).
Proof. intros H. apply Forall_forall. intros c I. rewrite forallb_forall in H. specialize (H c I). intros ->. discriminate. Qed.
Lemma nonul_newlines k : nonul (repeat NL k).
Proof. induction k as [|k IH]; [constructor|]. constructor; [discriminate|exact IH]. Qed.
Lemma nonul_wk k : nonul (wk k).
Proof.
  unfold wk, grp. repeat (apply nonul_app; split); try (apply nonul_lit; reflexivity); [apply nonul_newlines|].
  constructor; [discriminate|constructor].
Qed.
Lemma Gap_wk k : exists cs, Gap (wk k) cs.
Proof.
  assert (G1 : Gap (repeat NL (S k)) []).
  { induction (S k) as [|n IH]; [constructor|]. cbn [repeat]. apply (gap_space NL _ []); [reflexivity|exact IH]. }
  pose proof (Gap_line1 _ (is_line_intro _ grp_line)) as G2.
  eexists. unfold wk. eapply Gap_app; [exact G1|].
  replace (lit "//*/;" ++ grp ++ [NL]) with ((lit "//" ++ lit "*/;" ++ grp) ++ [NL]) by (rewrite <- !app_assoc; reflexivity).
  exact G2.
Qed.
(** first recovery: the un-read text with an unterminated comment behind it *)
Lemma lex_open k : lx_tok (lex 0 (wk k ++ wk k ++ lit "/*")) = TILLEGAL /\
  lx_all (lex 0 (wk k ++ wk k ++ lit "/*")) = wk k ++ wk k ++ lit "/*".
Proof.
  destruct (Gap_wk k) as [cs G]. rewrite !(lex_gap 0 (wk k) _ _ eq_refl G).
  change (lex 0 (lit "/*")) with (mkLexed [] [] TILLEGAL [] (lit "/*") []). unfold lx_all. cbn [skip lx_gap lx_raw lx_rest lx_tok lx_txt lx_cms].
  rewrite <- !app_assoc. split; reflexivity.
Qed.
(** second recovery: the comment closes and the semicolon shows *)
Lemma lex_semi k r : lx_tok (lex 0 (wk k ++ wk k ++ lit "/*" ++ wk k ++ r)) = TSEMICOLON /\
  lx_rest (lex 0 (wk k ++ wk k ++ lit "/*" ++ wk k ++ r)) = grp ++ NL :: r.
Proof.
  destruct (Gap_wk k) as [cs G]. rewrite !(lex_gap 0 (wk k) _ _ eq_refl G). cbn [skip lx_tok lx_rest].
  assert (E : lit "/*" ++ wk k ++ r = ch "/" :: ch "*" :: repeat NL (S k) ++ lit "//*/" ++ (ch ";" :: grp ++ NL :: r)).
  { unfold wk. rewrite <- !app_assoc. reflexivity. }
  rewrite E, lex_cons. change (isSpace (ch "/")) with false. change (identStart (ch "/")) with false.
  cbn [head_is N.eqb Pos.eqb]. change (ch "/" =? ch "/") with true. change (ch "*" =? ch "/") with false. change (ch "*" =? ch "*") with true.
  cbv iota. rewrite find_close_newlines. change (has 0 ScanComment) with false. cbv iota. cbn [skip lx_tok lx_rest].
  rewrite lex_cons. split; reflexivity.
Qed.
(** the comment read behind the declaration *)
Lemma lex_behind k : lex ScanComment (wk k ++ lit "/*") =
  mkLexed (repeat NL (S k)) [(repeat NL (S k), lit "//*/;" ++ grp)] TCOMMENT (lit "//*/;" ++ grp) (lit "//*/;" ++ grp ++ [NL]) (lit "/*").
Proof.
  unfold wk. rewrite <- !app_assoc, lex_newlines.
  change (lex ScanComment (lit "//*/;" ++ grp ++ [NL] ++ lit "/*")) with
    (comment_token (lit "//*/;" ++ grp) (lit "//*/;" ++ grp ++ [NL]) (lit "/*")).
  unfold comment_token, skip. cbn [lx_gap lx_cms lx_tok lx_txt lx_raw lx_rest map app fst snd]. rewrite !app_nil_r. reflexivity.
Qed.
Lemma inlineErr_fam {A} p0 k c l : forall lp0, Line lp0 = Line (posat p0 c) ->
  exists k', @qInlineErr p0 A (mkCur c (wk k ++ lit "/*") l lp0) = PBal k' (wk k) /\ cr k' = wk k ++ lit "/*".
Proof.
  intros lp0 HL. unfold qInlineErr, plast, ptok, pbind, lexc. lcbn. rewrite lex_behind. cbn [lx_gap lx_raw lx_tok lx_txt lx_rest lx_cms]. lcbn.
  change (tok_eqb TCOMMENT TCOMMENT) with true. cbn [andb].
  assert (E : (Line lp0 =? Line (posat p0 (c ++ repeat NL (S k))))%Z = false).
  { apply Z.eqb_neq. unfold posat. rewrite posafter_app, !posafter_line_eq. unfold posat in HL. rewrite posafter_line_eq in HL.
    rewrite HL. cbn [repeat]. rewrite newlines_cons. destruct (N.eq_dec NL NL); [|congruence].
    pose proof (newlines_nonneg (repeat NL k)). lia. }
  rewrite E. unfold pbal. lcbn. eexists. split; [reflexivity|]. reflexivity.
Qed.
Definition extx : list rune := lit "extensions 1[declaration={}x".
Lemma wk_cons k : wk k ++ lit "/*" = NL :: (repeat NL k ++ lit "//*/;" ++ grp ++ NL :: lit "/*").
Proof. unfold wk. cbn [repeat]. rewrite <- !app_assoc. reflexivity. Qed.
Lemma pbind_eq {A B} (m : PM A) (f : A -> PM B) k a k' : m k = POk a k' -> pbind m f k = f a k'.
Proof. unfold pbind. intros ->. reflexivity. Qed.
Lemma pbind_bal {A B} (m : PM A) (f : A -> PM B) k k' w : m k = PBal k' w -> pbind m f k = PBal k' w.
Proof. unfold pbind. intros ->. reflexivity. Qed.
Ltac pstep1 := match goal with |- pbind ?m ?f ?k = _ =>
  let r := eval lazy -[posafter app] in (m k) in
  match r with POk ?a ?k' =>
    rewrite (pbind_eq m f k a k') by (lazy -[posafter app]; reflexivity); cbv beta iota end end.
Lemma ext_pure p0 k c l : exists k', qParseExtensions p0 (mkCur [] (extx ++ wk k ++ lit "/*") c l) = PBal k' (wk k) /\ cr k' = wk k ++ lit "/*".
Proof.
  assert (E : exists q lp0 c', Line lp0 = Line (posat p0 c') /\ 
   forall K W, @qInlineErr p0 (list declaration) (mkCur c' (wk k ++ lit "/*") q lp0) = PBal K W ->
   qParseExtensions p0 (mkCur [] (extx ++ wk k ++ lit "/*") c l) = PBal K W).
  { rewrite wk_cons. generalize (repeat NL k ++ lit "//*/;" ++ grp ++ NL :: lit "/*"). intros T.
    change (extx ++ NL :: T) with (ltac:(let x := eval vm_compute in (extx ++ [NL]) in
      let rec go l := match l with ?a :: ?m => let y := go m in constr:(a :: y) | [] => constr:(T) end in let y := go x in exact y)).
    do 3 eexists. split; cycle 1. 
    - intros K W H. unfold qParseExtensions. pstep1. pstep1. apply pbind_bal.
      unfold qDeclarations. pstep1. 
      match goal with |- context[if ?b then _ else _] => change b with false end. cbv iota. do 2 pstep1. apply pbind_bal.
      match goal with |- qDeclarations_loop _ ?n _ _ = _ => change n with (S (List.length (lit "declaration={}x" ++ [NL] ++ T))) end.
      cbn [qDeclarations_loop]. do 3 pstep1.
      match goal with |- context[tok_eqb ?a ?b] => change (tok_eqb a b) with false end. cbv iota. 
      match goal with |- context[tok_eqb ?a ?b] => change (tok_eqb a b) with false end. cbn [negb]. cbv iota. exact H.
    - unfold posat. rewrite !posafter_line_eq. reflexivity. }
  destruct E as (q & lp0 & c' & HL & E). destruct (@inlineErr_fam (list declaration) p0 k c' q lp0 HL) as (k' & E1 & E2).
  exists k'. split; [apply E; exact E1|exact E2].
Qed.
Lemma ext_fails k s : Z_ (extx ++ wk k ++ lit "/*") s ->
  exists e s', ParseExtensions s = (Err e, s') /\ Z_ (wk k ++ lit "/*") s' /\ raw s' = wk k.
Proof.
  intros Z. pose proof (R_elim _ _ _ _ _ (r_extensions _ (pos s)) _ _ (Z_at _ _ Z)) as O. unfold fresh in O.
  destruct Z as (Z1 & _ & _). rewrite Z1 in O. destruct (ext_pure (pos s) k (comments s) (lpos s)) as (k' & E1 & E2).
  rewrite E1 in O. cbn [out] in O. destruct O as (e & s' & Q & X & W & _). exists e, s'. split; [exact Q|]. split; [|exact W].
  rewrite <- E2. eapply at_Z. exact X.
Qed.

(** ** The two recoveries *)
Lemma recover_fails k e s : Z_ (wk k ++ lit "/*") s -> raw s = wk k ->
  exists e' s', recoverEmpty e s = (Err e', s') /\ Z_ (wk k ++ wk k ++ lit "/*") s' /\ raw s' = wk k ++ wk k ++ lit "/*".
Proof.
  intros (R0 & M & N) W. destruct (UnNext_rest s) as (s1 & Q & A & B & C). unfold recoverEmpty. rwb Q.
  rewrite W, R0 in A. destruct (lex_open k) as [T1 T2].
  assert (N1 : nonul (rest s1)). { rewrite A. apply nonul_app. split; [apply nonul_wk|exact N]. }
  destruct (ReadEmpty_fails s1 N1) as (e2 & s2 & Q2 & R2 & W2 & M2).
  { congruence. }
  { rewrite A, T1. discriminate. }
  unfold try. rewrite Q2. do 2 eexists. split; [reflexivity|]. rewrite A in R2, W2, N1. split; [|rewrite W2; exact T2].
  split; [exact R2|]. split; assumption.
Qed.
Lemma recover_works k e s : Z_ (wk k ++ wk k ++ lit "/*") s -> raw s = wk k ++ wk k ++ lit "/*" ->
  exists s', recoverEmpty e s = (Ok (VEmpty (mkEmpty None)), s') /\ Z_ (fam (S k)) s'.
Proof.
  intros (R0 & M & N) W. destruct (UnNext_rest s) as (s1 & Q & A & B & C). unfold recoverEmpty. rwb Q.
  rewrite W, R0 in A. rewrite <- !app_assoc in A. pose proof (lex_semi k (wk k ++ lit "/*")) as [T1 T2].
  assert (Z1 : Z_ (wk k ++ wk k ++ lit "/*" ++ wk k ++ wk k ++ lit "/*") s1).
  { split; [exact A|]. split; [congruence|]. rewrite !nonul_app. pose proof (nonul_wk k). assert (nonul (lit "/*")) by (apply nonul_lit; reflexivity). tauto. }
  destruct (Next_at0 _ _ _ _ (Z_at _ _ Z1)) as (s2 & Q2 & X). unfold lexc in X. cbn [fst snd] in X. unfold fresh in X. cbn [cr cc cm lp] in X.
  rewrite A in X. unfold try, ReadEmptyStatement. rwb Q2. rewrite bind_gets, (att_tok _ _ _ _ _ X). lcbn. rewrite T1.
  change (tok_eqb TSEMICOLON TSEMICOLON) with true. cbv iota. eexists. split; [reflexivity|].
  pose proof (at_Z _ _ _ _ (att_at _ _ _ _ _ X)) as Z2. cbn [cr] in Z2. rewrite T2 in Z2. exact Z2.
Qed.

(** ** Entering a group *)
Lemma group_split mb b0 g s s1 : ParseGroupField (ret b0) s = (Ok g, s1) -> exists f, ParseGroupField mb s = bind mb f s1.
Proof.
  destruct b0 as [[b1 b2] b3]. unfold ParseGroupField, bind. destruct (parseLabel s) as [[[p [[x y] z]]|e| |] s0]; try discriminate.
  repeat match goal with
  | |- context[match ?m with (_, _) => _ end] => 
     lazymatch m with context[match _ with _ => _ end] => fail | context[mb] => fail | context[b1] => fail | _ => destruct m as [[?|?| |] ?]; try discriminate end
  | |- context[if ?b then _ else _] => destruct b; try discriminate
  end.
  unfold ret at 1. cbv beta iota. intros E. injection E as E1 <-.
  eexists. destruct (mb _) as [[?|?| |] ?]; reflexivity.
Qed.

Lemma bind_retr {A} (m : M A) s : bind m ret s = m s.
Proof. unfold bind, ret. destruct (m s) as [[?|?| |] ?]; reflexivity. Qed.

Lemma r_peekk full p0 : R full p0 (At full p0) peekKeyword (pbind (ppeek p0 ScanKeyword) (fun t => pret (tk t))).
Proof. eapply R_ext; [intros s0; symmetry; apply bind_retr|]. apply R_peekk. intros t. apply R_weaku, R_ret. Qed.

Section Group.
Variables perm bic : bool.
Ltac peval := intros; do 2 eexists; split; [lazy -[posafter]; reflexivity|]; split; [reflexivity|]; try exact I; try reflexivity.

Lemma group_enter (name : list rune) U c U' s :
  (name = lit "A" \/ name = lit "B") -> U = c ++ U' -> (c = lit "group " \/ c = lit "extensions " \/ c = lit "int32 a=") ->
  Z_ (lit "group " ++ name ++ lit "=1{" ++ U) s ->
  exists s4, Z_ (lit "{" ++ U) s4 /\ forall mb ilc j stmts,
    (forall e s2, mb s4 = (Err e, s2) -> messageBody_loop perm bic mb ilc (S j) stmts s =
      (stmt <- recoverEmpty e;;
       stmt <- MaybeScanInlineComment set_inline stmt;;
       messageBody_loop perm bic mb ilc j (stmts ++ [stmt])) s2) /\
    (forall s2, mb s4 = (Fuel, s2) -> messageBody_loop perm bic mb ilc (S j) stmts s = (Fuel, s2)).
Proof.
  intros HN HU HC Z.
  assert (H1 : exists a s1, ParseComments s = (Ok a, s1) /\ Z_ (lit "group " ++ name ++ lit "=1{" ++ U) s1 /\ True).
  { eapply run; [exact Z|intros full p0; apply r_comments|]. subst U. destruct HN as [-> | ->], HC as [-> | [-> | ->]]; peval. }
  destruct H1 as (cs & s1 & Q1 & Z1 & _).
  assert (H2 : exists a s2, peekKeyword s1 = (Ok a, s2) /\ Z_ (lit "group " ++ name ++ lit "=1{" ++ U) s2 /\ a = TGROUP).
  { subst U. destruct HN as [-> | ->], HC as [-> | [-> | ->]].
    all: eapply (run peekKeyword (fun p0 => pbind (ppeek p0 ScanKeyword) (fun t => pret (tk t)))); [exact Z1|apply r_peekk|peval]. }
  destruct H2 as (t & s2 & Q2 & Z2 & ->).
  assert (H3 : exists a s3, peekIsGroup s2 = (Ok a, s3) /\ Z_ (lit "group " ++ name ++ lit "=1{" ++ U) s3 /\ a = true).
  { eapply run; [exact Z2|intros full p0; apply r_isGroup|]. subst U. destruct HN as [-> | ->], HC as [-> | [-> | ->]]; peval. }
  destruct H3 as (t & s3 & Q3 & Z3 & ->).
  set (b0 := ([], None, zero_pos) : body_result).
  assert (H4 : exists a s4, ParseGroupField (ret b0) s3 = (Ok a, s4) /\ Z_ (lit "{" ++ U) s4 /\ True).
  { eapply (run _ (fun p0 => qParseGroupField p0 (pret b0))); [exact Z3|intros full p0; apply r_groupField; apply R_ret|].
    subst U. destruct HN as [-> | ->], HC as [-> | [-> | ->]]; peval. }
  destruct H4 as (g & s4 & Q4 & Z4 & _). exists s4. split; [exact Z4|]. intros mb ilc j stmts.
  destruct (group_split mb _ _ _ _ Q4) as (f & Q5). split.
  - intros e s8 B. cbn [messageBody_loop]. rwb Q1. rwb Q2. cbv iota.
    assert (E : messageStmt perm bic mb TGROUP cs s2 = recoverEmpty e s8).
    { unfold messageStmt. rwb Q3. cbv iota. unfold try. rewrite Q5. rwe B. reflexivity. }
    unfold bind. rewrite E. reflexivity.
  - intros s8 B. cbn [messageBody_loop]. rwb Q1. rwb Q2. cbv iota.
    assert (E : messageStmt perm bic mb TGROUP cs s2 = (Fuel, s8)).
    { unfold messageStmt. rwb Q3. cbv iota. unfold try. rewrite Q5. unfold bind. rewrite B. reflexivity. }
    unfold bind. rewrite E. reflexivity.
Qed.
Lemma body_enter U c U' s : U = c ++ U' -> (c = lit "group " \/ c = lit "extensions " \/ c = lit "int32 a=") -> Z_ (lit "{" ++ U) s ->
  exists s1, Z_ U s1 /\ forall m, parseMessageBody perm bic (S m) s = messageBody_loop perm bic (parseMessageBody perm bic m) None m [] s1.
Proof.
  intros HU HC Z4.
  destruct (run_next0 TLEFTCURLY "{" _ _ U Z4) as (s5 & Q6 & Z5 & _); [reflexivity|reflexivity|].
  assert (H7 : exists a s6, parseInlineComment s5 = (Ok a, s6) /\ Z_ U s6 /\ a = None).
  { eapply run; [exact Z5|intros full p0; apply r_inline|]. subst U. destruct HC as [-> | [-> | ->]]; peval. }
  destruct H7 as (o & s6 & Q7 & Z6 & ->).
  assert (H8 : exists a s7, emptyBody perm s6 = (Ok a, s7) /\ Z_ U s7 /\ a = None).
  { eapply run; [exact Z6|intros full p0; apply r_emptyBody|]. subst U. destruct HC as [-> | [-> | ->]]; peval. }
  destruct H8 as (o & s7 & Q8 & Z7 & ->).
  exists s7. split; [exact Z7|]. intros m. cbn [parseMessageBody]. rewrite <- bind_assoc. rwb Q6. rwb Q7. rwb Q8. reflexivity.
Qed.

(** ** One round of the loop *)
Lemma ext_enter k s : Z_ (extx ++ wk k ++ lit "/*") s -> forall mb ilc j stmts,
  exists e s', messageBody_loop perm bic mb ilc (S j) stmts s = (Err e, s') /\ Z_ (wk k ++ lit "/*") s' /\ raw s' = wk k.
Proof.
  intros Z mb ilc j stmts.
  assert (H1 : exists a s1, ParseComments s = (Ok a, s1) /\ Z_ (extx ++ wk k ++ lit "/*") s1 /\ True).
  { eapply run; [exact Z|intros full p0; apply r_comments|]. generalize (wk k ++ lit "/*"). intros T. peval. }
  destruct H1 as (cs & s1 & Q1 & Z1 & _).
  assert (H2 : exists a s2, peekKeyword s1 = (Ok a, s2) /\ Z_ (extx ++ wk k ++ lit "/*") s2 /\ a = TEXTENSIONS).
  { eapply (run peekKeyword (fun p0 => pbind (ppeek p0 ScanKeyword) (fun t => pret (tk t)))); [exact Z1|apply r_peekk|].
    generalize (wk k ++ lit "/*"). intros T. peval. }
  destruct H2 as (t & s2 & Q2 & Z2 & ->). destruct (ext_fails k s2 Z2) as (e & s3 & Q3 & Z3 & W).
  exists e, s3. split; [|auto]. cbn [messageBody_loop]. rwb Q1. rwb Q2. cbv iota. unfold messageStmt, bind. rewrite Q3. reflexivity.
Qed.
(** a round either lacks the fuel for the nested bodies or comes back to the head
    of the loop, in the next state of the family *)
Lemma round_fuel k m ilc j stmts s : (m < 3)%nat -> Z_ (fam k) s ->
  exists s', messageBody_loop perm bic (parseMessageBody perm bic m) ilc (S j) stmts s = (Fuel, s').
Proof.
  intros Hm Z.
  destruct (group_enter (lit "A") (lit "group B=1{" ++ extx ++ wk k ++ lit "/*") (lit "group ") (lit "B=1{" ++ extx ++ wk k ++ lit "/*") s)
    as (s1 & Z1 & L1); [auto|reflexivity|auto|exact Z|].
  destruct (L1 (parseMessageBody perm bic m) ilc j stmts) as [_ F1]. clear L1.
  destruct m as [|m]. { exists s1. apply F1. reflexivity. }
  destruct (body_enter _ (lit "group ") (lit "B=1{" ++ extx ++ wk k ++ lit "/*") s1 eq_refl (or_introl eq_refl) Z1) as (s2 & Z2 & B2).
  destruct m as [|m]. { exists s2. apply F1. rewrite B2. reflexivity. }
  destruct (group_enter (lit "B") (extx ++ wk k ++ lit "/*") (lit "extensions ") (lit "1[declaration={}x" ++ wk k ++ lit "/*") s2)
    as (s3 & Z3 & L3); [auto|reflexivity|auto|exact Z2|].
  destruct (L3 (parseMessageBody perm bic (S m)) None m []) as [_ F3].
  destruct (body_enter _ (lit "extensions ") (lit "1[declaration={}x" ++ wk k ++ lit "/*") s3 eq_refl (or_intror (or_introl eq_refl)) Z3) as (s4 & Z4 & B4).
  destruct m as [|m]; [|lia]. exists s4. apply F1. rewrite B2. apply F3. rewrite B4. reflexivity.
Qed.
Lemma round k m ilc j stmts s : Z_ (fam k) s ->
  exists s', Z_ (fam (S k)) s' /\
    messageBody_loop perm bic (parseMessageBody perm bic (S (S (S m)))) ilc (S j) stmts s =
    messageBody_loop perm bic (parseMessageBody perm bic (S (S (S m)))) ilc j (stmts ++ [VEmpty (mkEmpty None)]) s'.
Proof.
  intros Z.
  destruct (group_enter (lit "A") (lit "group B=1{" ++ extx ++ wk k ++ lit "/*") (lit "group ") (lit "B=1{" ++ extx ++ wk k ++ lit "/*") s)
    as (s1 & Z1 & L1); [auto|reflexivity|auto|exact Z|].
  destruct (L1 (parseMessageBody perm bic (S (S (S m)))) ilc j stmts) as [E1 _]. clear L1.
  destruct (body_enter _ (lit "group ") (lit "B=1{" ++ extx ++ wk k ++ lit "/*") s1 eq_refl (or_introl eq_refl) Z1) as (s2 & Z2 & B2).
  destruct (group_enter (lit "B") (extx ++ wk k ++ lit "/*") (lit "extensions ") (lit "1[declaration={}x" ++ wk k ++ lit "/*") s2)
    as (s3 & Z3 & L3); [auto|reflexivity|auto|exact Z2|].
  destruct (L3 (parseMessageBody perm bic (S (S m))) None (S m) []) as [E3 _].
  destruct (body_enter _ (lit "extensions ") (lit "1[declaration={}x" ++ wk k ++ lit "/*") s3 eq_refl (or_intror (or_introl eq_refl)) Z3) as (s4 & Z4 & B4).
  destruct (ext_enter k s4 Z4 (parseMessageBody perm bic (S m)) None m []) as (e & s5 & Q5 & Z5 & W5).
  rewrite <- B4 in Q5. specialize (E3 _ _ Q5).
  destruct (recover_fails k e s5 Z5 W5) as (e' & s6 & Q6 & Z6 & W6). rewrite (bind_err _ _ _ _ _ Q6) in E3.
  rewrite <- B2 in E3. specialize (E1 _ _ E3).
  destruct (recover_works k e' s6 Z6 W6) as (s7 & Q7 & Z7). rewrite (bind_eq _ _ _ _ _ Q7) in E1. cbv beta in E1.
  assert (H : exists a s8, MaybeScanInlineComment set_inline (VEmpty (mkEmpty None)) s7 = (Ok a, s8) /\ Z_ (fam (S k)) s8 /\ a = VEmpty (mkEmpty None)).
  { eapply run; [exact Z7|intros full p0; apply r_maybe|]. unfold fam. generalize (wk (S k) ++ lit "/*"). intros T. peval. }
  destruct H as (a & s8 & Q8 & Z8 & ->). rewrite (bind_eq _ _ _ _ _ Q8) in E1. exists s8. split; [exact Z8|exact E1].
Qed.
Lemma loop_forever m ilc : forall j k stmts s, Z_ (fam k) s ->
  exists s', messageBody_loop perm bic (parseMessageBody perm bic m) ilc j stmts s = (Fuel, s').
Proof.
  induction j as [|j IH]; intros k stmts s Z; [exists s; reflexivity|].
  destruct m as [|[|[|m]]]; try (apply (round_fuel k); [lia|exact Z]).
  destruct (round k m ilc j stmts s Z) as (s' & Z' & E). rewrite E. apply (IH (S k)). exact Z'.
Qed.

(** ** The whole parse *)
Lemma r_bom full p0 : R full p0 (At full p0) parseBOM (qBOM p0).
Proof. unfold parseBOM, qBOM. repeat rstep. Qed.
Lemma message_split mb b0 g s s1 : ParseMessage_ (ret b0) s = (Ok g, s1) -> exists f, ParseMessage_ mb s = bind mb f s1.
Proof.
  destruct b0 as [[b1 b2] b3]. unfold ParseMessage_, bind.
  repeat match goal with
  | |- context[match ?m with (_, _) => _ end] => 
     lazymatch m with context[match _ with _ => _ end] => fail | context[mb] => fail | context[b1] => fail | _ => destruct m as [[?|?| |] ?]; try discriminate end
  end.
  unfold ret at 1. cbv beta iota. intros E. injection E as E1 <-.
  eexists. destruct (mb _) as [[?|?| |] ?]; reflexivity.
Qed.
Theorem never_returns n fn : exists s, ParseProto perm bic n (init_st fn loop_input) = (Fuel, s).
Proof.
  assert (Z0 : Z_ loop_input (init_st fn loop_input)).
  { split; [reflexivity|]. split; [reflexivity|]. apply Forall_forall. intros c I. vm_compute in I.
    repeat (destruct I as [<-|I]; [discriminate|]). destruct I. }
  unfold ParseProto.
  destruct (run parseBOM qBOM _ _ (fun _ => True) loop_input Z0 r_bom ltac:(peval)) as (b & s1 & Q1 & Z1 & _). rwb Q1.
  destruct (run ParseComments qParseComments _ _ (fun _ => True) loop_input Z1 r_comments ltac:(peval)) as (cs & s2 & Q2 & Z2 & _). rwb Q2.
  destruct (run ParseSyntax qParseSyntax _ _ (fun x => x = None) loop_input Z2 r_syntax ltac:(peval)) as (x & s3 & Q3 & Z3 & ->). rwb Q3.
  cbv iota. rewrite bind_ret.
  destruct (run ParseEdition qParseEdition _ _ (fun x => x = None) loop_input Z3 r_edition ltac:(peval)) as (x & s4 & Q4 & Z4 & ->). rwb Q4.
  cbv iota. rewrite bind_ret.
  enough (H : exists s, protoBody_loop perm bic n [] s4 = (Fuel, s)) by (destruct H as (s & H); exists s; unfold bind; rewrite H; reflexivity).
  destruct n as [|n]; [exists s4; reflexivity|]. cbn [protoBody_loop].
  destruct (run ParseComments qParseComments _ _ (fun _ => True) loop_input Z4 r_comments ltac:(peval)) as (cs' & s5 & Q5 & Z5 & _). rwb Q5.
  assert (RE : forall full p0, R full p0 (At full p0) p_IsEOF (pbind (ppeek p0 0) (fun t => pret (tok_eqb (tk t) TEOF)))).
  { intros full p0. eapply R_ext; [intros s0; symmetry; apply bind_retr|]. apply R_peekeof. intros t. apply R_weaku, R_ret. }
  destruct (run _ _ _ _ (fun x => x = false) loop_input Z5 RE ltac:(peval)) as (x & s6 & Q6 & Z6 & ->). rwb Q6. cbv iota.
  destruct (run _ _ _ _ (fun x => x = TMESSAGE) loop_input Z6 r_peekk ltac:(peval)) as (x & s7 & Q7 & Z7 & ->). rwb Q7.
  set (b0 := ([], None, zero_pos) : body_result).
  destruct (run _ (fun p0 => qParseMessage_ p0 (pret b0)) _ _ (fun x => True) (lit "{" ++ fam 0) Z7
     (fun full p0 => r_message_ full p0 _ _ (R_ret full p0 b0)) ltac:(peval)) as (x & s8 & Q8 & Z8 & _).
  destruct (message_split (parseMessageBody perm bic n) _ _ _ _ Q8) as (f & E).
  enough (H : exists s, parseMessageBody perm bic n s8 = (Fuel, s)).
  { destruct H as (s & H). exists s. unfold protoStmt, ParseMessage. unfold bind at 1 2. rewrite E. unfold bind. rewrite H. reflexivity. }
  destruct n as [|n]; [exists s8; reflexivity|].
  destruct (body_enter _ (lit "group ") (lit "A=1{group B=1{" ++ extx ++ wk 0 ++ lit "/*") s8 eq_refl (or_introl eq_refl) Z8) as (s9 & Z9 & B9).
  rewrite B9. apply (loop_forever n None n 0 [] s9). exact Z9.
Qed.
End Group.

Theorem diverges : exists input, forall n opts, parse_fuel n opts input = Fuel.
Proof.
  exists loop_input. intros n opts. unfold parse_fuel. destruct (never_returns (cfg_permissive (config_of opts)) (cfg_bodyIncludingComments (config_of opts)) n
    (cfg_filename (config_of opts))) as (s & E). rewrite E. reflexivity.
Qed.
(** the states at the head of the loop *)
Definition loop_state (k : nat) (s : st) : Prop :=
  rest s = lit "group A=1{group B=1{extensions 1[declaration={}x" ++ repeat NL (S k) ++
           lit "//*/;group A=1{group B=1{extensions 1[declaration={}x" ++ NL :: lit "/*" /\ mode s = 0.
Lemma loop_state_Z k s : loop_state k s <-> Z_ (fam k) s.
Proof.
  unfold loop_state, Z_. replace (lit "group A=1{group B=1{extensions 1[declaration={}x" ++ repeat NL (S k) ++
           lit "//*/;group A=1{group B=1{extensions 1[declaration={}x" ++ NL :: lit "/*") with (fam k).
  - split; [intros [A B]|tauto]. repeat (split; [assumption|]). unfold fam, grp. rewrite !nonul_app. pose proof (nonul_wk k).
    assert (nonul (lit "/*")) by (apply nonul_lit; reflexivity).
    assert (nonul (lit "group A=1{group B=1{extensions 1[declaration={}x")) by (apply nonul_lit; reflexivity). tauto.
  - unfold fam, wk. rewrite <- !app_assoc. reflexivity.
Qed.
Theorem loop_grows : forall perm bic k m ilc j stmts s, loop_state k s ->
  exists s', loop_state (S k) s' /\ List.length (rest s') = S (List.length (rest s)) /\
    messageBody_loop perm bic (parseMessageBody perm bic (S (S (S m)))) ilc (S j) stmts s =
    messageBody_loop perm bic (parseMessageBody perm bic (S (S (S m)))) ilc j (stmts ++ [VEmpty (mkEmpty None)]) s'.
Proof.
  intros perm bic k m ilc j stmts s H. pose proof H as [R0 _]. apply loop_state_Z in H.
  destruct (round perm bic k m ilc j stmts s H) as (s' & Z' & E). exists s'. apply loop_state_Z in Z'. split; [exact Z'|]. split; [|exact E].
  destruct Z' as [R1 _]. rewrite R0, R1, !app_length, !repeat_length. lia.
Qed.
