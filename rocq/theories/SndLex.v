(** From what the pure lexer reads to a layout: the items of a text. *)
From Coq Require Import List NArith ZArith Bool String Ascii Lia Sorted.
From Verif Require Import Base Token Scanner Lexing ScanRefine LexFacts LexSpec LexProofs ScanFacts ScanProps Ast Cursor Term
  Grammar GramLex GramRules.
Import ListNotations.
Open Scope N_scope.

(** ** Gap and core: a text is a gap and a core, whatever the mode *)
Definition core (r : list rune) : Prop :=
  match r with
  | [] => True
  | c :: l => isSpace c = false /\
    (c = ch "/" -> match l with [] => True | d :: b => d <> ch "/" /\ (d = ch "*" -> find_close b = None) end)
  end.

Lemma core_lex m r : core r -> lx_gap (lex m r) = [] /\ lx_cms (lex m r) = [] /\ lx_tok (lex m r) <> TCOMMENT.
Proof.
  destruct r as [|c r]; [intros _; rewrite lex_nil; repeat split; discriminate|]. intros [S H]. rewrite lex_cons, S.
  destruct (identStart c). { destruct (span identChar r). repeat split. apply identToken_not_comment. }
  destruct (N.eqb_spec c (ch "/")) as [->|].
  { specialize (H eq_refl). destruct r as [|d b]; [repeat split; discriminate|]. destruct H as [H1 H2]. cbn [head_is].
    destruct (N.eqb_spec d (ch "/")); [congruence|]. destruct (N.eqb_spec d (ch "*")) as [->|]; [|repeat split; discriminate].
    rewrite H2 by reflexivity. repeat split; discriminate. }
  destruct (isQuote c && has m ScanStrLit). { unfold lit_token. destruct (cons_out _ _) as [[[] w] l]; repeat split; discriminate. }
  destruct ((isDecimalDigit c || (c =? ch ".")) && has m ScanNumberLit).
  { pose proof (pnum_tok c r) as K. destruct (pnum c r) as [t [[[] w] l]]; repeat split; try discriminate. cbn in *. destruct K; subst; discriminate. }
  repeat split. apply asMisc_not_comment.
Qed.

Lemma gap_core r : exists g cs r1, r = g ++ r1 /\ (Gap g cs \/ (EndGap g cs /\ r1 = [])) /\ core r1 /\
  forall m, has m ScanComment = false -> lex m r = skip g cs (lex m r1).
Proof.
  induction r as [r IH] using len_ind. destruct r as [|c r].
  { exists [], [], []. split; [reflexivity|]. split; [left; constructor|]. split; [exact I|]. intros m _. rewrite skip_nil. reflexivity. }
  assert (ST : core (c :: r) -> exists g cs r1, c :: r = g ++ r1 /\ (Gap g cs \/ (EndGap g cs /\ r1 = [])) /\ core r1 /\
    forall m, has m ScanComment = false -> lex m (c :: r) = skip g cs (lex m r1)).
  { intros K. exists [], [], (c :: r). split; [reflexivity|]. split; [left; constructor|]. split; [exact K|]. intros m _. rewrite skip_nil. reflexivity. }
  assert (SK : forall w ws r', Gap w ws -> c :: r = w ++ r' -> (List.length r' < List.length (c :: r))%nat ->
    exists g cs r1, c :: r = g ++ r1 /\ (Gap g cs \/ (EndGap g cs /\ r1 = [])) /\ core r1 /\
    forall m, has m ScanComment = false -> lex m (c :: r) = skip g cs (lex m r1)).
  { intros w ws r' GW E L. destruct (IH r' L) as (g & cs & r1 & E1 & D & C & F). exists (w ++ g), (ws ++ shift w cs), r1.
    split; [rewrite E, E1; apply app_assoc|]. split.
    { destruct D as [D|[D ->]]; [left; apply Gap_app; assumption|right; split; [apply EndGap_app; assumption|reflexivity]]. }
    split; [exact C|]. intros m M. rewrite E, (lex_gap m w ws r' M GW), (F m M). apply skip_skip. }
  destruct (isSpace c) eqn:Hs.
  { apply (SK [c] [] r); [apply Gap_space1; exact Hs|reflexivity|cbn; lia]. }
  destruct (N.eqb_spec c (ch "/")) as [->|NE]; [|apply ST; split; [exact Hs|intros; congruence]].
  destruct r as [|d r]; [apply ST; split; [exact Hs|intros _; exact I]|].
  destruct (N.eqb_spec d (ch "/")) as [->|ND].
  { destruct (span (fun d => negb (d =? NL)) r) as [b r2] eqn:E. apply span_spec in E. destruct E as (-> & F & Hd).
    assert (L : is_line_comment (lit "//" ++ b)) by (exists b; split; [reflexivity|apply neg_NL; exact F]).
    destruct r2 as [|e r2].
    - exists (lit "//" ++ b), [([], lit "//" ++ b)], []. rewrite !app_nil_r. split; [reflexivity|]. split.
      { right. split; [|reflexivity]. apply (egap_line [] [] (lit "//" ++ b)); [constructor|exact L]. }
      split; [exact I|]. intros m M. change (ch "/" :: ch "/" :: b) with (lit "//" ++ b). rewrite (lex_line_eof m b M) by (apply neg_NL; exact F). rewrite lex_nil. unfold skip. cbn. rewrite ?app_nil_r. reflexivity.
    - cbn in Hd. apply negb_false_iff, N.eqb_eq in Hd. subst e.
      apply (SK ((lit "//" ++ b) ++ [NL]) [([], lit "//" ++ b)] r2); [apply Gap_line1; exact L|cbn; rewrite <- app_assoc; reflexivity|].
      cbn. rewrite app_length. cbn. lia. }
  destruct (N.eqb_spec d (ch "*")) as [->|NS].
  { destruct (find_close r) as [[b r3]|] eqn:E.
    - destruct (find_close_body _ _ _ E) as (w & -> & W). pose proof E as E0. apply find_close_spec in E. destruct E as [-> _].
      apply (SK (lit "/*" ++ w ++ lit "*/") [([], lit "/*" ++ w ++ lit "*/")] r3); [apply Gap_block1; exists w; auto| |].
      + cbn. rewrite <- !app_assoc. reflexivity.
      + cbn. rewrite !app_length. lia.
    - apply ST. split; [exact Hs|]. intros _. split; [exact ND|auto]. }
  apply ST. split; [exact Hs|]. intros _. split; [exact ND|]. intros; congruence.
Qed.

Lemma lex_raw0 m r : core r -> r = lx_raw (lex m r) ++ lx_rest (lex m r).
Proof. intros C. pose proof (lex_app m r) as A. unfold lexed_app in A. destruct (core_lex m r C) as (G & _). rewrite G in A. exact A. Qed.

(** the raw text of a token, as an item *)
Lemma core_token m c l : core (c :: l) ->
  token_at false (lx_raw (lex m (c :: l))) (lx_rest (lex m (c :: l))).
Proof.
  intros C. pose proof (lex_raw0 m _ C) as A. pose proof (lex_consumes m c l) as NE.
  destruct (core_lex m _ C) as (G & _). rewrite G in NE. cbn [app] in NE.
  destruct (lx_raw (lex m (c :: l))) as [|c' x] eqn:R; [congruence|]. cbn [app] in A. injection A as <- A.
  destruct C as [S H]. cbn [token_at]. split.
  - cbn [token_start]. split; [exact S|]. intros ->. specialize (H eq_refl). rewrite lex_cons in R |- *. destruct slash_class as [C1 C2].
    rewrite C1, C2 in *. rewrite N.eqb_refl in *. destruct l as [|d b].
    { cbn [head_is] in *. injection R as <-. reflexivity. }
    destruct H as [H1 H2]. cbn [head_is] in *. destruct (N.eqb_spec d (ch "/")); [congruence|].
    destruct (N.eqb_spec d (ch "*")) as [->|ND].
    + rewrite H2 in * by reflexivity. cbn [lx_raw lx_rest] in *. injection R as <-. split; [exact H1|]. intros _. split; [reflexivity|].
      intros (a & b' & E). exact (find_close_none _ (H2 eq_refl) _ _ E).
    + cbn [lx_raw lx_rest] in *. injection R as <-. split; [exact H1|]. intros; congruence.
  - intros (c' & l' & E & IS & F). injection E as <- <-. apply ident_start_iff in IS.
    rewrite lex_cons, S, IS in R |- *. destruct (span identChar l) as [y r1] eqn:SP. apply span_spec in SP. destruct SP as (-> & _ & Hd).
    cbn [lx_rest]. destruct r1 as [|d r1]; [exact I|]. cbn in *. intros K. apply ident_char_iff in K. congruence.
Qed.
Lemma token_core x r : token_at false x r -> core (x ++ r).
Proof.
  intros [H _]. destruct x as [|c l]; [destruct H|]. cbn [app core token_start] in *. destruct H as [S H]. split; [exact S|].
  intros E. specialize (H E). destruct l as [|d b]; [subst r; exact I|]. cbn [app]. destruct H as [H1 H2]. split; [exact H1|].
  intros E2. destruct (H2 E2) as [-> NB]. rewrite app_nil_r. destruct (find_close b) as [[a r']|] eqn:F; [|reflexivity].
  exfalso. apply NB. apply find_close_spec in F. destruct F as (-> & w & ->). exists w, r'. rewrite <- app_assoc. reflexivity.
Qed.

(** modes without comments differ in tokens, not in gaps *)
Lemma lex_gap_modes m r : has m ScanComment = false -> lx_gap (lex m r) = lx_gap (lex 0 r) /\ lx_cms (lex m r) = lx_cms (lex 0 r).
Proof.
  intros M. destruct (gap_core r) as (g & cs & r1 & _ & _ & C & F). rewrite (F m M), (F 0 eq_refl).
  destruct (core_lex m r1 C) as (A & B & _). destruct (core_lex 0 r1 C) as (A' & B' & _). unfold skip. cbn [lx_gap lx_cms].
  rewrite A, B, A', B'. auto.
Qed.
(** tokens that the next mode cannot make longer, and single digits *)
Definition steady (t : token) (x : str) : bool :=
  match t, x with TIDENT, _ | TLEFTCURLY, _ | TEQUALS, _ => true | TILLEGAL, [c] => isDecimalDigit c | _, _ => false end.
Definition stable (r : list rune) : bool := steady (lx_tok (lex 0 r)) (lx_txt (lex 0 r)).
Lemma misc_curly c : asMiscToken c = TLEFTCURLY -> c = ch "{".
Proof.
  unfold asMiscToken. repeat match goal with |- context[c =? ?b] => destruct (N.eqb_spec c b); [subst; intros H; discriminate H || reflexivity|] end.
  intros H. discriminate H.
Qed.
Lemma misc_equals c : asMiscToken c = TEQUALS -> c = ch "=".
Proof.
  unfold asMiscToken. repeat match goal with |- context[c =? ?b] => destruct (N.eqb_spec c b); [subst; intros H; discriminate H || reflexivity|] end.
  intros H. discriminate H.
Qed.
Lemma digit_facts c : isDecimalDigit c = true -> isSpace c = false /\ identStart c = false /\ (c =? ch "/") = false /\ isQuote c = false /\
  asMiscToken c = TILLEGAL /\ identChar c = true.
Proof.
  unfold isDecimalDigit. intros H. apply andb_true_iff in H. rewrite !N.leb_le in H. chars. unfold identChar, identStart.
  assert (X : exists n, c = 48 + n /\ n < 10) by (exists (c - 48); lia). destruct X as (n & -> & L).
  assert (Y : In n [0;1;2;3;4;5;6;7;8;9]) by (destruct (N.lt_ge_cases n 5); cbn [In]; lia). clear H L.
  cbn [In] in Y. repeat (destruct Y as [<-|Y]; [repeat split; reflexivity|]). destruct Y.
Qed.
Lemma lex_digit m c l : isDecimalDigit c = true -> has m ScanNumberLit = false -> lex m (c :: l) = mkLexed [] [] TILLEGAL [c] [c] l.
Proof. intros D M. destruct (digit_facts c D) as (A1 & A2 & A3 & A4 & A5 & _). rewrite lex_cons, A1, A2, A3, A4, D, M, A5. reflexivity. Qed.
Lemma lex_number m c l : isDecimalDigit c = true -> has m ScanNumberLit = true -> lex m (c :: l) = let '(t, o) := pnum c l in lit_token t o.
Proof. intros D M. destruct (digit_facts c D) as (A1 & A2 & A3 & A4 & A5 & _). rewrite lex_cons, A1, A2, A3, A4, D, M. reflexivity. Qed.
Lemma lex_stable m r : has m ScanComment = false -> stable r = true ->
  (lx_raw (lex m r) = lx_raw (lex 0 r) /\ lx_rest (lex m r) = lx_rest (lex 0 r) /\ lx_tok (lex m r) <> TINTLIT) \/
  (exists c l, r = lx_gap (lex 0 r) ++ c :: l /\ isDecimalDigit c = true /\ has m ScanNumberLit = true /\ core (c :: l) /\
     lx_raw (lex m r) = lx_raw (lex m (c :: l)) /\ lx_rest (lex m r) = lx_rest (lex m (c :: l)) /\ lx_tok (lex m r) = lx_tok (lex m (c :: l)) /\
     lx_raw (lex 0 r) = [c] /\ lx_rest (lex 0 r) = l).
Proof.
  intros M. unfold stable. destruct (gap_core r) as (g & cs & r1 & E & _ & C & F). rewrite (F m M), (F 0 eq_refl). destruct (core_lex 0 r1 C) as (G0 & _).
  unfold skip. cbn [lx_tok lx_raw lx_rest lx_gap lx_txt]. rewrite G0, app_nil_r. destruct r1 as [|c l]; [rewrite lex_nil; discriminate|]. pose proof C as [S H].
  destruct (isDecimalDigit c) eqn:D.
  { rewrite (lex_digit 0 c l D eq_refl). cbn [lx_tok lx_txt lx_raw lx_rest]. intros _. destruct (has m ScanNumberLit) eqn:MN.
    - right. exists c, l. auto 12.
    - left. rewrite (lex_digit m c l D MN). repeat split; discriminate. }
  clear F. rewrite !lex_cons, S. destruct (identStart c). { destruct (span identChar l). intros _. left. repeat split. cbn [lx_tok]. apply identToken_not. }
  destruct (N.eqb_spec c (ch "/")) as [->|].
  { specialize (H eq_refl). destruct l as [|d b]; [cbn; discriminate|]. destruct H as [H1 H2]. cbn [head_is].
    destruct (N.eqb_spec d (ch "/")); [congruence|]. destruct (N.eqb_spec d (ch "*")) as [->|]; [|discriminate].
    rewrite H2 by reflexivity. discriminate. }
  change (has 0 ScanStrLit) with false. change (has 0 ScanNumberLit) with false. rewrite !andb_false_r. cbn [lx_tok lx_txt].
  intros T. left. assert (c = ch "{" \/ c = ch "=") as X.
  { unfold steady in T. destruct (asMiscToken c) eqn:E1; try discriminate T; [congruence| | |].
    - exfalso. destruct (misc_tokens c) as (_ & _ & _ & _ & K & _). congruence.
    - right. apply misc_equals; exact E1.
    - left. apply misc_curly; exact E1. }
  destruct X as [-> | ->]; cbn; repeat split; discriminate.
Qed.

(** the runes of a number *)
Definition number_char (c : rune) : Prop := identChar c = true \/ c = ch "." \/ c = ch "+" \/ c = ch "-".
Lemma dec_char c : isDecimalDigit c = true -> number_char c.
Proof. intros H. left. apply digit_facts. exact H. Qed.
Lemma letter_char c : isLetter c = true -> number_char c.
Proof. intros H. left. unfold identChar. rewrite H. reflexivity. Qed.
Lemma span_chars p l a b : (forall c, p c = true -> number_char c) -> span p l = (a, b) -> Forall number_char a.
Proof. intros F H. apply span_spec in H. destruct H as (_ & H & _). revert H. apply Forall_impl. exact F. Qed.
Lemma is_e_char c : is_e c = true -> number_char c.
Proof. unfold is_e. rewrite orb_true_iff, !N.eqb_eq. intros [->| ->]; left; reflexivity. Qed.
Definition chars_out (o : lout) : Prop := Forall number_char (snd (fst o)).
Lemma pexp_chars l : head_is is_e l = true -> chars_out (pexp l).
Proof.
  destruct l as [|e l]; [discriminate|]. cbn [head_is]. intros E. apply is_e_char in E. unfold pexp, chars_out. destruct (head_is _ l) eqn:H.
  - destruct l as [|s l]; [discriminate|]. cbn [head_is] in H. rewrite orb_true_iff, !N.eqb_eq in H. destruct (span isDecimalDigit l) as [d r] eqn:SP. cbn [fst snd].
    constructor; [exact E|]. constructor; [destruct H as [->| ->]; unfold number_char; auto|]. eapply span_chars; [|exact SP]. exact dec_char.
  - destruct (span isDecimalDigit l) as [d r] eqn:SP. cbn [fst snd]. constructor; [exact E|]. eapply span_chars; [|exact SP]. exact dec_char.
Qed.
Lemma popt_chars d l : Forall number_char d -> chars_out (popt_exp d l).
Proof.
  intros H. unfold popt_exp. destruct (head_is is_e l) eqn:E; [|exact H]. pose proof (pexp_chars l E) as X. destruct (pexp l) as [[ok x] l2]. unfold chars_out in *. cbn [fst snd] in *.
  apply Forall_app. auto.
Qed.
Lemma pfrac_chars l : chars_out (pfrac l).
Proof. unfold pfrac. destruct (span isDecimalDigit l) as [d r] eqn:SP. apply popt_chars. eapply span_chars; [|exact SP]. exact dec_char. Qed.
Lemma cons_chars w o : Forall number_char w -> chars_out o -> chars_out (cons_out w o).
Proof. destruct o as [[ok x] l]. unfold chars_out. cbn. intros. apply Forall_app. auto. Qed.
Lemma hex_char c : isHexDigit c = true -> identChar c = true.
Proof.
  intros H. apply hex_iff in H. apply ident_char_iff. destruct H as [H|[H|H]]; [right; left; exact H| |]; left; unfold letter; chars; lia.
Qed.
Lemma octal_char c : isOctalDigit c = true -> isDecimalDigit c = true.
Proof. unfold isOctalDigit, isDecimalDigit. rewrite !andb_true_iff, !N.leb_le. chars. lia. Qed.
Lemma pnum_chars c l : isDecimalDigit c = true -> chars_out (snd (pnum c l)) /\
  (forall w r, pnum c l = (TINTLIT, (true, w, r)) -> Forall (fun d => identChar d = true) w).
Proof.
  intros D. pose proof (dec_char c D) as DC. pose proof (proj2 (proj2 (proj2 (proj2 (proj2 (digit_facts c D)))))) as IC. unfold pnum. destruct ((c =? ch "0") && head_is _ l) eqn:E1.
  { destruct l as [|x l1]; [apply andb_true_iff in E1; destruct E1; discriminate|]. apply andb_true_iff in E1. destruct E1 as [_ E1]. cbn [head_is] in E1.
    assert (IX : identChar x = true). { rewrite orb_true_iff, !N.eqb_eq in E1. destruct E1 as [->| ->]; reflexivity. }
    destruct (span isHexDigit l1) as [h l2] eqn:E. apply span_spec in E. destruct E as (_ & E & _).
    assert (HX : Forall (fun d => identChar d = true) (c :: x :: h)). { constructor; [exact IC|]. constructor; [exact IX|]. revert E. apply Forall_impl. exact hex_char. }
    split; [unfold chars_out; cbn [fst snd]; revert HX; apply Forall_impl; intros a A; left; exact A|]. intros w r H. injection H as _ <- _. exact HX. }
  clear E1. destruct (N.eqb_spec c (ch ".")) as [->|_]; [discriminate D|].
  destruct (head_is (fun c => c =? ch ".") l) eqn:E2.
  { destruct l as [|d l1]; [discriminate|]. cbn [head_is] in E2. apply N.eqb_eq in E2. subst d. split; [|intros; discriminate].
    cbn [snd]. apply (cons_chars [c; ch "."]); [|apply pfrac_chars]. constructor; [exact DC|]. constructor; [right; auto|constructor]. }
  destruct (head_is is_e l) eqn:E3.
  { split; [|intros; discriminate]. cbn [snd]. apply cons_chars; [constructor; [exact DC|constructor]|]. apply pexp_chars. exact E3. }
  destruct (c =? ch "0").
  { destruct (span isOctalDigit l) as [d l1] eqn:E. apply span_spec in E. destruct E as (_ & E & _).
    assert (HX : Forall (fun d => identChar d = true) (c :: d)). { constructor; [exact IC|]. revert E. apply Forall_impl. intros a A. apply digit_facts, octal_char, A. }
    split; [unfold chars_out; cbn [fst snd]; revert HX; apply Forall_impl; intros a A; left; exact A|]. intros w r H. injection H as <- _. exact HX. }
  destruct (span isDecimalDigit l) as [d l1] eqn:E. apply span_spec in E. destruct E as (_ & E & _).
  assert (HX : Forall (fun d => identChar d = true) (c :: d)). { constructor; [exact IC|]. revert E. apply Forall_impl. intros a A. apply digit_facts, A. }
  assert (HN : Forall number_char (c :: d)) by (revert HX; apply Forall_impl; intros a A; left; exact A).
  destruct (head_is (fun c => c =? ch ".") l1) eqn:E4.
  { destruct l1 as [|dt l2]; [discriminate|]. cbn [head_is] in E4. apply N.eqb_eq in E4. subst dt. split; [|intros; discriminate].
    cbn [snd]. apply cons_chars; [|apply pfrac_chars]. change (c :: d ++ [ch "."]) with ((c :: d) ++ [ch "."]). apply Forall_app. split; [exact HN|]. constructor; [right; auto|constructor]. }
  destruct (head_is is_e l1) eqn:E5.
  { split; [|intros; discriminate]. cbn [snd]. apply cons_chars; [exact HN|]. apply pexp_chars. exact E5. }
  split; [exact HN|]. intros w r H. injection H as <- _. exact HX.
Qed.
Lemma number_raw m c l : isDecimalDigit c = true -> has m ScanNumberLit = true ->
  Forall number_char (lx_raw (lex m (c :: l))) /\ (lx_tok (lex m (c :: l)) = TINTLIT -> Forall (fun d => identChar d = true) (lx_raw (lex m (c :: l)))).
Proof.
  intros D M. rewrite (lex_number m c l D M). destruct (pnum_chars c l D) as [A B]. destruct (pnum c l) as [t [[ok w] r]]. unfold lit_token. cbn [snd fst] in *.
  destruct ok; cbn [lx_raw lx_tok]; [|split; [exact A|discriminate]]. split; [exact A|]. intros ->. eapply B. reflexivity.
Qed.

(** ** Layouts *)
Lemma lay_split s p r its p' r' : Lay s p r its p' r' -> exists w, r = w ++ r' /\ p' = posafter p w.
Proof.
  induction 1 as [|p sp x r its p' r' S TA L IH|p sp x r its p' r' S C L IH|p sp x S C|p sp x r its p' r' S C L IH].
  - exists []. auto.
  - destruct IH as (w & -> & ->). exists ((sp ++ x) ++ w). rewrite <- !app_assoc, <- posafter_app, <- !app_assoc. auto.
  - destruct IH as (w & -> & ->). exists ((sp ++ x ++ [NL]) ++ w). rewrite <- posafter_app, <- !app_assoc. auto.
  - exists (sp ++ x). rewrite app_nil_r. auto.
  - destruct IH as (w & -> & ->). exists ((sp ++ x) ++ w). rewrite <- !app_assoc, <- posafter_app, <- !app_assoc. auto.
Qed.
Lemma lay_none s p r p' r' : Lay s p r [] p' r' -> p' = p /\ r' = r.
Proof. intros H. inversion H; subst. auto. Qed.
Lemma lay_from_nil s p its p' r' : Lay s p [] its p' r' -> its = [].
Proof.
  intros H. remember [] as r eqn:E. destruct H as [|p sp x r its p' r' S TA L|p sp x r its p' r' S C L|p sp x S C|p sp x r its p' r' S C L]; [reflexivity| | | |].
  - exfalso. apply app_eq_nil in E. destruct E as [_ E]. apply app_eq_nil in E. destruct E as [-> _]. eapply token_nonempty; [exact TA|reflexivity].
  - exfalso. apply app_eq_nil in E. destruct E as [_ E]. apply app_eq_nil in E. destruct E as [_ E]. discriminate.
  - exfalso. apply app_eq_nil in E. destruct E as [_ E]. destruct C as (b & -> & _). discriminate.
  - exfalso. apply app_eq_nil in E. destruct E as [_ E]. apply app_eq_nil in E. destruct E as [E _]. destruct C as (b & -> & _). discriminate.
Qed.
Lemma lay_app s p r a p1 r1 b p2 r2 : Lay s p r a p1 r1 -> Lay s p1 r1 b p2 r2 -> Lay s p r (a ++ b) p2 r2.
Proof.
  induction 1 as [|p sp x r its p' r' S TA L IH|p sp x r its p' r' S C L IH|p sp x S C|p sp x r its p' r' S C L IH]; intros H; cbn [app].
  - exact H.
  - apply lay_tok; auto.
  - apply lay_line; auto.
  - pose proof (lay_from_nil _ _ _ _ _ H). subst b. inversion H; subst. apply lay_line_end; assumption.
  - apply lay_block; auto.
Qed.
Lemma lay_pre s p sp r its p' r' : Spaces sp -> its <> [] -> Lay s (posafter p sp) r its p' r' -> Lay s p (sp ++ r) its p' r'.
Proof.
  intros SP NE H. remember (posafter p sp) as q eqn:Q.
  destruct H as [q r|q s1 x r its p' r' S TA L|q s1 x r its p' r' S C L|q s1 x S C|q s1 x r its p' r' S C L]; [congruence| | | |]; subst q.
  - rewrite <- posafter_app in *. rewrite app_assoc in *. apply lay_tok; [apply Forall_app; auto|exact TA|exact L].
  - rewrite <- posafter_app in *. rewrite app_assoc in *. apply lay_line; [apply Forall_app; auto|exact C|]. exact L.
  - rewrite <- !posafter_app. rewrite !app_assoc. apply lay_line_end; [apply Forall_app; auto|exact C].
  - rewrite <- posafter_app in *. rewrite app_assoc in *. apply lay_block; [apply Forall_app; auto|exact C|exact L].
Qed.

(** the comments of a gap with their positions *)
Definition cmsof (p : mpos) (cs : list (list rune * str)) : list (str * mpos) := map (fun pc => (snd pc, posafter p (fst pc))) cs.
Lemma place_cmsof p cs : place p cs = texts (cmsof p cs).
Proof. unfold place, texts, cmsof. rewrite map_map. reflexivity. Qed.
Lemma cmsof_shift p w cs : cmsof p (shift w cs) = cmsof (posafter p w) cs.
Proof. unfold cmsof, shift. rewrite map_map. apply map_ext. intros [a b]. cbn [fst snd]. rewrite posafter_app. reflexivity. Qed.
Lemma cmsof_app p a b : cmsof p (a ++ b) = cmsof p a ++ cmsof p b.
Proof. apply map_app. Qed.
Lemma gap_lay s p g cs r : Gap g cs -> exists sp p', Spaces sp /\ Lay s p (g ++ r) (coms (cmsof p cs)) p' (sp ++ r) /\ posafter p' sp = posafter p g.
Proof.
  intros G. revert p. induction G as [|c g cs Hc H IH|x g cs Hx H IH|x g cs Hx H IH]; intros p.
  - exists [], p. split; [constructor|]. split; [constructor|reflexivity].
  - destruct (IH (posafter p [c])) as (sp & p' & SP & L & E). rewrite cmsof_shift. rewrite <- posafter_app in E. cbn [app] in *.
    destruct (cmsof (posafter p [c]) cs) as [|d l] eqn:C.
    + destruct cs; [|discriminate C]. apply lay_none in L. destruct L as [-> L]. exists (c :: g), p. split.
      { constructor; [exact Hc|]. apply app_inv_tail in L. subst. exact SP. } split; [constructor|]. reflexivity.
    + exists sp, p'. split; [exact SP|]. split; [|exact E]. apply (lay_pre s p [c]); [constructor; [exact Hc|constructor]|discriminate|exact L].
  - destruct (IH (posafter p (x ++ [NL]))) as (sp & p' & SP & L & E). exists sp, p'. split; [exact SP|]. split.
    + cbn [cmsof map fst snd coms]. fold (cmsof p (shift (x ++ [NL]) cs)). rewrite cmsof_shift.
      rewrite <- !app_assoc. change ([NL] ++ g ++ r) with (NL :: (g ++ r)). apply (lay_line s p [] x); [constructor|exact Hx|exact L].
    + rewrite E, <- posafter_app, <- app_assoc. reflexivity.
  - destruct (IH (posafter p x)) as (sp & p' & SP & L & E). exists sp, p'. split; [exact SP|]. split.
    + cbn [cmsof map fst snd coms]. fold (cmsof p (shift x cs)). rewrite cmsof_shift.
      rewrite <- !app_assoc. apply (lay_block s p [] x); [constructor|exact Hx|exact L].
    + rewrite E, <- posafter_app. reflexivity.
Qed.
Lemma endgap_lay s p g cs : EndGap g cs -> exists sp p', Spaces sp /\ Lay s p g (coms (cmsof p cs)) p' sp /\ posafter p' sp = posafter p g.
Proof.
  intros [g' cs' G|g' cs' x G X].
  - destruct (gap_lay s p g' cs' [] G) as (sp & p' & S & L & E). rewrite !app_nil_r in L. eauto.
  - destruct (gap_lay s p g' cs' x G) as (sp & p' & S & L & E). exists [], (posafter p (g' ++ x)). split; [constructor|].
    split; [|reflexivity]. rewrite cmsof_app. unfold coms. rewrite map_app. eapply lay_app; [exact L|].
    cbn [cmsof map fst snd]. rewrite <- E. replace (posafter p (g' ++ x)) with (posafter p' (sp ++ x)) by (rewrite !posafter_app, E; reflexivity).
    apply lay_line_end; assumption.
Qed.
(** a token with the comments in front of it *)
Lemma token_lay m p r : has m ScanComment = false -> lx_tok (lex m r) <> TEOF ->
  Lay false p r (coms (cmsof p (lx_cms (lex m r))) ++ [Tok (lx_raw (lex m r)) (posafter p (lx_gap (lex m r)))])
    (posafter p (lx_gap (lex m r) ++ lx_raw (lex m r))) (lx_rest (lex m r)).
Proof.
  intros M NE. destruct (gap_core r) as (g & cs & r1 & E & D & C & F). pose proof (F m M) as X. rewrite X in *.
  destruct (core_lex m r1 C) as (A & B & _). pose proof (lex_raw0 m r1 C) as AP. unfold skip in *. cbn [lx_tok lx_gap lx_cms lx_raw lx_rest] in *. rewrite A, B. cbn [map]. rewrite !app_nil_r.
  assert (r1 <> []) as R1. { intros ->. rewrite lex_nil in NE. apply NE. reflexivity. }
  assert (G : Gap g cs) by (destruct D as [D|[_ D]]; [exact D|congruence]).
  destruct (gap_lay false p g cs r1 G) as (sp & p' & S & L & PE). rewrite E. eapply lay_app; [exact L|].
  rewrite <- PE. replace (posafter p (g ++ lx_raw (lex m r1))) with (posafter p' (sp ++ lx_raw (lex m r1))) by (rewrite !posafter_app, PE; reflexivity).
  rewrite AP at 1. apply lay_tok; [exact S| |constructor]. destruct r1 as [|c l]; [congruence|]. apply core_token. exact C.
Qed.
Lemma eof_lay m p r : has m ScanComment = false -> lx_tok (lex m r) = TEOF ->
  lx_raw (lex m r) = [] /\ lx_rest (lex m r) = [] /\ lx_gap (lex m r) = r /\
  exists sp p', Spaces sp /\ Lay false p r (coms (cmsof p (lx_cms (lex m r)))) p' sp.
Proof.
  intros M T. pose proof (lex_gap_ok m r) as GO. unfold gap_ok in GO. rewrite M, T in GO. pose proof (lex_app m r) as A. unfold lexed_app in A.
  destruct (lex_eof _ _ T) as (X1 & X2 & X3). rewrite X2, X3, app_nil_r in A.
  split; [exact X2|]. split; [exact X3|]. split; [symmetry; rewrite A at 1; cbn; rewrite ?app_nil_r; reflexivity|]. destruct (endgap_lay false p _ _ GO) as (sp & p' & S & L & _).
  exists sp, p'. split; [exact S|]. rewrite A at 1. cbn. rewrite ?app_nil_r. exact L.
Qed.

(** ** Comments *)
Lemma comment_lay r p : lx_tok (lex ScanComment r) = TCOMMENT ->
  let x := lex ScanComment r in
  Lay false p r [Com (lx_txt x) (posafter p (lx_gap x))] (posafter p (lx_gap x ++ lx_raw x)) (lx_rest x) /\
  lx_cms x = [(lx_gap x, lx_txt x)] /\ Spaces (lx_gap x) /\ lx_raw x <> [] /\
  forall m, has m ScanComment = false -> lex m r = skip (lx_gap x ++ lx_raw x) [(lx_gap x, lx_txt x)] (lex m (lx_rest x)).
Proof.
  intros T x. pose proof (lex_gap_ok ScanComment r) as GO. unfold gap_ok in GO. change (has ScanComment ScanComment) with true in GO. cbv iota in GO.
  fold x in GO, T. rewrite T in GO. destruct GO as [S C]. pose proof (lex_app ScanComment r) as A. unfold lexed_app in A. fold x in A.
  destruct (lex_raw_cases ScanComment r) as [[H _]|[[H _]|(_ & _ & H)]]; fold x in H; [congruence|congruence|].
  destruct H as [[L [R|[R E]]]|[L R]]; rewrite R in *.
  - split.
    { rewrite A at 1. rewrite <- (app_assoc (lx_txt x)). cbn [app]. apply lay_line; [exact S|exact L|constructor]. }
    split; [exact C|]. split; [exact S|]. split; [destruct (lx_txt x); discriminate|]. intros m M. rewrite A at 1. rewrite app_assoc.
    apply lex_gap; [exact M|]. replace [(lx_gap x, lx_txt x)] with ([] ++ shift (lx_gap x) [([], lx_txt x)]) by (cbn; rewrite app_nil_r; reflexivity).
    apply Gap_app; [apply Gap_spaces; exact S|]. apply Gap_line1; exact L.
  - split.
    { rewrite A at 1. rewrite E, app_nil_r. apply lay_line_end; assumption. }
    split; [exact C|]. split; [exact S|]. split; [destruct L as (b & -> & _); discriminate|]. intros m M. rewrite A at 1. rewrite E, !app_nil_r, lex_nil.
    rewrite (lex_gap m (lx_gap x) [] _ M) by (apply Gap_spaces; exact S). destruct L as (b & -> & NB). rewrite (lex_line_eof m b M NB).
    unfold skip. cbn. rewrite !app_nil_r. reflexivity.
  - split. { rewrite A at 1. apply lay_block; [exact S|exact L|constructor]. }
    split; [exact C|]. split; [exact S|]. split; [destruct L as (b & -> & _); discriminate|]. intros m M. rewrite A at 1. rewrite app_assoc.
    apply lex_gap; [exact M|]. replace [(lx_gap x, lx_txt x)] with ([] ++ shift (lx_gap x) [([], lx_txt x)]) by (cbn; rewrite app_nil_r; reflexivity).
    apply Gap_app; [apply Gap_spaces; exact S|]. apply Gap_block1; exact L.
Qed.
Lemma nocom_cms r : lx_tok (lex ScanComment r) <> TCOMMENT -> lx_cms (lex ScanComment r) = [].
Proof.
  intros T. pose proof (lex_gap_ok ScanComment r) as GO. unfold gap_ok in GO. change (has ScanComment ScanComment) with true in GO. cbv iota in GO.
  destruct GO as [_ ->]. destruct (lx_tok _); congruence.
Qed.
Lemma lay_com_first s p r c q its p' r' : Lay s p r (Com c q :: its) p' r' ->
  lx_tok (lex ScanComment r) = TCOMMENT /\ q = posafter p (lx_gap (lex ScanComment r)).
Proof.
  intros L. assert (PS : forall sp0 y z r0, Spaces sp0 -> lex ScanComment y = comment_token c z r0 ->
      lex ScanComment (sp0 ++ y) = mkLexed sp0 [(sp0, c)] TCOMMENT c z r0).
  { intros sp0 y z r0 SS E. rewrite (lex_gap_in ScanComment sp0 []) by (split; auto). rewrite E. unfold skip, comment_token.
    cbn [app map fst snd lx_gap lx_cms lx_tok lx_txt lx_raw lx_rest]. rewrite !app_nil_r. reflexivity. }
  inversion L as [|?|? sp0 ? r0 ? ? ? Sp0 LC L0|? sp0 ? Sp0 LC|? sp0 ? r0 ? ? ? Sp0 LC L0]; subst; destruct LC as (b & -> & NB).
  - rewrite (PS sp0 _ _ _ Sp0 (lex_c_line ScanComment b r0 eq_refl NB)). auto.
  - rewrite (PS sp0 _ _ _ Sp0 (lex_c_end ScanComment b eq_refl NB)). auto.
  - rewrite (PS sp0 _ _ _ Sp0 (lex_c_block ScanComment b r0 eq_refl NB)). auto.
Qed.

(** ** The first token of a layout *)
Lemma first_split ts x q : first_tok ts = Some (x, q) -> exists cs its, ts = coms cs ++ Tok x q :: its.
Proof.
  induction ts as [|[y p|y p] ts IH]; cbn; [discriminate| |].
  - intros H. injection H as -> ->. exists [], ts. reflexivity.
  - intros H. destruct (IH H) as (cs & its & ->). exists ((y, p) :: cs), its. reflexivity.
Qed.
Lemma first_next ts x : next_tok ts = Some x -> exists q, first_tok ts = Some (x, q).
Proof. induction ts as [|[y p|y p] ts IH]; cbn; [discriminate| |exact IH]. intros H. injection H as ->. eauto. Qed.
Lemma lay_tok_first p r its p' r' x q m : Lay false p r its p' r' -> first_tok its = Some (x, q) -> has m ScanComment = false ->
  posafter p (lx_gap (lex m r)) = q /\ (is_ident x -> lx_tok (lex m r) = identToken m x /\ lx_txt (lex m r) = x).
Proof.
  intros L F M. apply first_split in F. destruct F as (cs & its' & ->). apply lay_coms in L. destruct L as (g & gcs & r1 & -> & G & _ & -> & TA & _).
  rewrite (lex_gap m g gcs _ M G). destruct (core_lex m (x ++ r1) (token_core _ _ TA)) as (A & _). unfold skip. cbn [lx_gap lx_tok lx_txt].
  rewrite A, app_nil_r. split; [reflexivity|]. intros I. destruct TA as [_ N]. rewrite (lex_ident_at m x r1 I (N I)). auto.
Qed.
