(** The pure lexer meets the lexical specification. *)
From Coq Require Import List NArith ZArith Bool String Ascii Lia.
From Verif Require Import Base Token Scanner Lexing ScanRefine LexFacts LexSpec.
Import ListNotations.
Open Scope N_scope.

(** ** Character classes *)
Ltac chars := unfold isLetter, isDecimalDigit, isOctalDigit, isHexDigit, letter, digit, octal_digit, hex_digit,
   ident_start, ident_char, underscore, identStart, identChar, digit, ch, is_e, isQuote, SQ, DQ, NL, backslash, BSL in *;
   cbn [N_of_ascii N_of_digits] in *;
   change (if Ascii.eqb "a" "a" then true else false) with true in *.
Ltac cls :=
  repeat match goal with
   | |- context[?a <? ?b] => destruct (N.ltb_spec a b)
   | |- context[?a <=? ?b] => destruct (N.leb_spec a b)
   | |- context[?a =? ?b] => destruct (N.eqb_spec a b)
   end; cbn [andb orb negb] in *; try (split; intros; try discriminate; try reflexivity; try lia).

Lemma letter_iff c : isLetter c = true <-> letter c. Proof. chars. cls. Qed.
Lemma digit_iff c : isDecimalDigit c = true <-> digit c. Proof. chars. cls. Qed.
Lemma octal_iff c : isOctalDigit c = true <-> octal_digit c. Proof. chars. cls. Qed.
Lemma hex_iff c : isHexDigit c = true <-> hex_digit c. Proof. chars. cls. Qed.
Lemma ident_start_iff c : identStart c = true <-> ident_start c.
Proof. unfold identStart, ident_start. rewrite orb_true_iff, letter_iff, N.eqb_eq. reflexivity. Qed.
Lemma ident_char_iff c : identChar c = true <-> ident_char c.
Proof. unfold identChar, ident_char. rewrite !orb_true_iff, letter_iff, digit_iff, N.eqb_eq. unfold underscore. tauto. Qed.
Lemma Forall_iff {A} (P Q : A -> Prop) l : (forall x, P x <-> Q x) -> Forall P l <-> Forall Q l.
Proof. intros H. split; apply Forall_impl; intros; apply H; assumption. Qed.
Lemma quote_iff c : isQuote c = true <-> c = SQ \/ c = DQ.
Proof. unfold isQuote. rewrite orb_true_iff, !N.eqb_eq. reflexivity. Qed.

(** ** Decomposition *)
Lemma span_app p l a b : span p l = (a, b) -> l = a ++ b.
Proof. intros H. apply span_spec in H. tauto. Qed.
Lemma pexp_app l : let '(_, w, r) := pexp l in l = w ++ r.
Proof.
  unfold pexp. destruct l as [|e l1]; [reflexivity|].
  destruct (head_is _ l1).
  - destruct l1 as [|sg l2]; [reflexivity|]. destruct (span isDecimalDigit l2) as [x y] eqn:E.
    apply span_app in E. subst l2. reflexivity.
  - destruct (span isDecimalDigit l1) as [x y] eqn:E. apply span_app in E. subst l1. reflexivity.
Qed.
Lemma popt_exp_app d l : let '(_, w, r) := popt_exp d l in d ++ l = w ++ r.
Proof.
  unfold popt_exp. destruct (head_is is_e l); [|reflexivity].
  pose proof (pexp_app l) as H. destruct (pexp l) as [[ok x] r]. rewrite H at 1. rewrite app_assoc. reflexivity.
Qed.
Lemma pfrac_app l : let '(_, w, r) := pfrac l in l = w ++ r.
Proof.
  unfold pfrac. destruct (span isDecimalDigit l) as [d l1] eqn:E. apply span_app in E. subst l. apply popt_exp_app.
Qed.
Lemma pfracno_app l : let '(_, w, r) := pfracno l in l = w ++ r.
Proof.
  unfold pfracno. destruct (span isDecimalDigit l) as [d l1] eqn:E. apply span_app in E. subst l.
  destruct d as [|x d]; [reflexivity|]. apply popt_exp_app.
Qed.
Definition out_app (l : list rune) (o : lout) : Prop := let '(_, w, r) := o in l = w ++ r.
Lemma cons_out_app w l o : out_app l o -> out_app (w ++ l) (cons_out w o).
Proof. unfold out_app, cons_out. destruct o as [[ok x] r]. intros ->. rewrite app_assoc. reflexivity. Qed.
Lemma pnum_app c0 l : out_app (c0 :: l) (snd (pnum c0 l)).
Proof.
  unfold pnum. destruct ((c0 =? ch "0") && head_is _ l) eqn:E1.
  { destruct l as [|x l1]; [apply andb_true_iff in E1; destruct E1; discriminate|].
    destruct (span isHexDigit l1) as [h l2] eqn:E. apply span_app in E. subst l1. reflexivity. }
  destruct (c0 =? ch "."). { apply (cons_out_app [c0]). apply pfracno_app. }
  destruct (head_is (fun c => c =? ch ".") l) eqn:E2.
  { destruct l as [|d l1]; [discriminate|]. apply (cons_out_app [c0; d] l1). apply pfrac_app. }
  destruct (head_is is_e l). { apply (cons_out_app [c0]). apply pexp_app. }
  destruct (c0 =? ch "0").
  { destruct (span isOctalDigit l) as [d l1] eqn:E. apply span_app in E. subst l. reflexivity. }
  destruct (span isDecimalDigit l) as [d l1] eqn:E. apply span_app in E. subst l.
  destruct (head_is (fun c => c =? ch ".") l1) eqn:E3.
  { destruct l1 as [|dt l2]; [discriminate|]. cbn [snd].
    replace (c0 :: d ++ dt :: l2) with ((c0 :: d ++ [dt]) ++ l2) by (cbn; rewrite <- app_assoc; reflexivity).
    apply cons_out_app. apply pfrac_app. }
  destruct (head_is is_e l1); [|reflexivity].
  apply (cons_out_app (c0 :: d)). apply pexp_app.
Qed.
Lemma pstr_app n q l : out_app l (pstr n q l).
Proof.
  revert l. induction n as [|n IH]; intros l; cbn [pstr]; [reflexivity|].
  destruct l as [|c l]; [reflexivity|].
  destruct (c =? q); [reflexivity|]. destruct (c =? NL); [reflexivity|].
  destruct (c =? BSL).
  - destruct (pesc l) as [a b] eqn:E. apply pesc_app in E. subst l. apply (cons_out_app (c :: a) b). apply IH.
  - apply (cons_out_app [c] l). apply IH.
Qed.

Definition lexed_app (r : list rune) (x : lexed) : Prop := r = lx_gap x ++ lx_raw x ++ lx_rest x.
Lemma lit_token_app t l o : out_app l o -> lexed_app l (lit_token t o).
Proof. unfold out_app, lexed_app, lit_token. destruct o as [[[] w] r]; auto. Qed.
Lemma skip_app w cm r x : lexed_app r x -> lexed_app (w ++ r) (skip w cm x).
Proof. unfold lexed_app. intros ->. cbn. rewrite <- app_assoc. reflexivity. Qed.

(** Induction on the text as the lexer consumes it *)
Lemma len_ind (P : list rune -> Prop) :
  (forall r, (forall r', (List.length r' < List.length r)%nat -> P r') -> P r) -> forall r, P r.
Proof.
  intros H r. remember (List.length r) as n. revert r Heqn.
  induction n as [n IH] using lt_wf_ind. intros r ->. apply H. intros r' L. apply (IH _ L r' eq_refl).
Qed.

Lemma after_first r : first_rune r ++ after_nl r = r. Proof. destruct r; reflexivity. Qed.

Lemma lex_app m r : lexed_app r (lex m r).
Proof.
  induction r as [r IH] using len_ind. destruct r as [|c r]; [reflexivity|].
  rewrite lex_cons.
  destruct (isSpace c). { apply (skip_app [c] []). apply IH. cbn. lia. }
  destruct (identStart c).
  { destruct (span identChar r) as [x r1] eqn:E. apply span_app in E. subst r. reflexivity. }
  destruct (c =? ch "/").
  { destruct (head_is (fun d => d =? ch "/") r).
    - destruct (span _ r) as [b r2] eqn:E. apply span_app in E. subst r.
      assert (F : c :: b ++ r2 = (c :: b ++ first_rune r2) ++ after_nl r2).
      { cbn. rewrite <- app_assoc, after_first. reflexivity. }
      destruct (has m ScanComment).
      + exact F.
      + rewrite F. apply skip_app. apply IH. cbn. rewrite app_length. destruct r2; cbn; lia.
    - destruct (head_is (fun d => d =? ch "*") r) eqn:H2.
      + destruct r as [|d r2]; [discriminate|]. destruct (find_close r2) as [[b r3]|] eqn:E.
        * apply find_close_spec in E. destruct E as [-> _]. destruct (has m ScanComment); [reflexivity|].
          apply (skip_app (c :: d :: b)). apply IH. cbn. rewrite app_length. lia.
        * unfold lexed_app. cbn. rewrite app_nil_r. reflexivity.
      + destruct r; reflexivity. }
  destruct (isQuote c && has m ScanStrLit).
  { apply lit_token_app. apply (cons_out_app [c]). apply pstr_app. }
  destruct ((isDecimalDigit c || (c =? ch ".")) && has m ScanNumberLit); [|reflexivity].
  pose proof (pnum_app c r) as X. destruct (pnum c r) as [t o]. apply lit_token_app. exact X.
Qed.

(** ** Gaps *)
Lemma is_line_intro b : ~ In NL b -> is_line_comment (lit "//" ++ b).
Proof. exists b. auto. Qed.
Lemma shift_nil cs : shift [] cs = cs.
Proof. unfold shift. rewrite <- map_id. apply map_ext. intros [a b]. reflexivity. Qed.
Lemma shift_shift a b cs : shift a (shift b cs) = shift (a ++ b) cs.
Proof. unfold shift. rewrite map_map. apply map_ext. intros [x y]. cbn. rewrite app_assoc. reflexivity. Qed.
Lemma shift_app w a b : shift w (a ++ b) = shift w a ++ shift w b.
Proof. apply map_app. Qed.

Lemma Gap_app g cs g' cs' : Gap g cs -> Gap g' cs' -> Gap (g ++ g') (cs ++ shift g cs').
Proof.
  intros H H'. induction H as [|c g cs Hc H IH|x g cs Hx H IH|x g cs Hx H IH].
  - cbn [app]. rewrite shift_nil. exact H'.
  - cbn [app]. change (c :: g) with ([c] ++ g). rewrite <- shift_shift, <- shift_app. apply gap_space; assumption.
  - rewrite <- !app_assoc. cbn [app]. rewrite <- (app_assoc x [NL] g) || idtac.
    replace (shift (x ++ NL :: g) cs') with (shift (x ++ [NL]) (shift g cs')) by (rewrite shift_shift, <- app_assoc; reflexivity).
    rewrite <- shift_app. apply (gap_line x); assumption.
  - rewrite <- !app_assoc. cbn [app].
    rewrite <- shift_shift, <- shift_app. apply gap_block; assumption.
Qed.

Lemma skip_skip w cm w' cm' x : skip w cm (skip w' cm' x) = skip (w ++ w') (cm ++ shift w cm') x.
Proof.
  unfold skip. cbn. f_equal.
  - rewrite app_assoc. reflexivity.
  - rewrite map_app. unfold shift. rewrite map_map. cbn. rewrite <- app_assoc. f_equal. f_equal.
    apply map_ext. intros [a b]. cbn. rewrite app_assoc. reflexivity.
Qed.
Lemma skip_nil x : skip [] [] x = x.
Proof.
  unfold skip. destruct x as [g c t tx rw re]. cbn. f_equal.
  rewrite <- (map_id c) at 2. apply map_ext. intros [a b]. reflexivity.
Qed.

(** A gap in front of a text is skipped. *)
Lemma lex_gap m g cs r : has m ScanComment = false -> Gap g cs -> lex m (g ++ r) = skip g cs (lex m r).
Proof.
  intros M H. induction H as [|c g cs Hc H IH|x g cs Hx H IH|x g cs Hx H IH].
  - rewrite skip_nil. reflexivity.
  - cbn [app]. rewrite lex_space by exact Hc. rewrite IH, skip_skip. reflexivity.
  - destruct Hx as (b & -> & Hb).
    replace (((lit "//" ++ b) ++ [NL] ++ g) ++ r) with (lit "//" ++ b ++ NL :: (g ++ r))
      by (rewrite <- !app_assoc; reflexivity).
    rewrite lex_line by assumption. rewrite IH, skip_skip. rewrite <- !app_assoc. reflexivity.
  - destruct Hx as (b & -> & Hb).
    replace (((lit "/*" ++ b ++ lit "*/") ++ g) ++ r) with (lit "/*" ++ b ++ lit "*/" ++ (g ++ r))
      by (rewrite <- !app_assoc; reflexivity).
    rewrite lex_block by assumption. rewrite IH, skip_skip. rewrite <- !app_assoc. reflexivity.
Qed.
Lemma lex_endgap m g cs : has m ScanComment = false -> EndGap g cs ->
  lex m g = mkLexed g cs TEOF [] [] [].
Proof.
  intros M [g' cs' H | g' cs' x H Hx].
  - rewrite <- (app_nil_r g'). rewrite (lex_gap m g' cs') by assumption. rewrite lex_nil. unfold skip. cbn.
    rewrite !app_nil_r. reflexivity.
  - rewrite (lex_gap m g' cs') by assumption. destruct Hx as (b & -> & Hb).
    rewrite lex_line_eof by assumption. unfold skip. cbn. rewrite app_nil_r. reflexivity.
Qed.

(** Conversely, what the lexer skips is a gap. *)
Definition gap_ok (m : smode) (x : lexed) : Prop :=
  if has m ScanComment then
    Spaces (lx_gap x) /\
    lx_cms x = match lx_tok x with TCOMMENT => [(lx_gap x, lx_txt x)] | _ => [] end
  else match lx_tok x with
       | TEOF => EndGap (lx_gap x) (lx_cms x)
       | _ => Gap (lx_gap x) (lx_cms x)
       end.

Lemma EndGap_app g cs g' cs' : Gap g cs -> EndGap g' cs' -> EndGap (g ++ g') (cs ++ shift g cs').
Proof.
  intros H [g1 c1 H1 | g1 c1 x H1 Hx].
  - apply egap_gap, Gap_app; assumption.
  - rewrite shift_app. unfold shift at 2. cbn [map fst snd]. rewrite !app_assoc. apply egap_line; [|assumption].
    apply Gap_app; assumption.
Qed.
Lemma find_close_body l b r : find_close l = Some (b, r) -> exists w, b = w ++ lit "*/" /\ block_body w.
Proof.
  intros H. destruct (find_close_spec _ _ _ H) as (-> & w & ->). exists w. split; [reflexivity|].
  intros x y E. pose proof (find_close_first _ _ _ H x (y ++ r)) as L.
  rewrite E in L. rewrite !app_length in L. rewrite <- !app_assoc in L. specialize (L eq_refl).
  destruct y; [reflexivity|]. cbn in L. lia.
Qed.
Lemma Gap_space1 c : isSpace c = true -> Gap [c] [].
Proof. intros H. apply (gap_space c [] []); [exact H|constructor]. Qed.
Lemma Gap_line1 x : is_line_comment x -> Gap (x ++ [NL]) [([], x)].
Proof. intros H. apply (gap_line x [] []); [exact H|constructor]. Qed.
Lemma Gap_block1 x : is_block_comment x -> Gap x [([], x)].
Proof. intros H. rewrite <- (app_nil_r x) at 1. apply (gap_block x [] []); [exact H|constructor]. Qed.
Lemma gap_ok_skip m w cm x : has m ScanComment = false -> Gap w cm -> gap_ok m x -> gap_ok m (skip w cm x).
Proof.
  unfold gap_ok. intros -> H G. cbn [skip lx_tok lx_gap lx_cms].
  destruct (lx_tok x); try (apply Gap_app; assumption). apply EndGap_app; assumption.
Qed.
Lemma gap_ok_nil m t x r r' : t <> TCOMMENT -> gap_ok m (mkLexed [] [] t x r r').
Proof.
  intros H. unfold gap_ok. cbn. destruct (has m ScanComment).
  - split; [constructor|]. destruct t; try reflexivity. congruence.
  - destruct t; repeat constructor.
Qed.
Lemma gap_ok_lit m t o : t <> TCOMMENT -> gap_ok m (lit_token t o).
Proof. intros H. unfold lit_token. destruct o as [[[] w] r]; apply gap_ok_nil; congruence. Qed.
Lemma asMisc_not_comment c : asMiscToken c <> TCOMMENT.
Proof. unfold asMiscToken. repeat (match goal with |- context[?a =? ?b] => destruct (a =? b) end; [discriminate|]). discriminate. Qed.
Lemma str_eqb_eq a b : str_eqb a b = true <-> a = b.
Proof.
  revert b. induction a as [|x a IH]; destruct b as [|y b]; cbn; try (split; [discriminate|discriminate]); [tauto|].
  rewrite andb_true_iff, N.eqb_eq, IH. split; [intros [-> ->]; reflexivity|intros H; injection H; auto].
Qed.
Lemma assoc_in k l t : assoc_str k l = Some t -> In (k, t) l.
Proof.
  induction l as [|[k' v] l IH]; cbn; [discriminate|]. destruct (str_eqb k k') eqn:E.
  - intros H. injection H as ->. apply str_eqb_eq in E. subst. auto.
  - auto.
Qed.
Lemma keyword_spec x t : t <> TILLEGAL ->
  (asKeywordToken x = t <-> exists name, x = lit name /\ In (name, t) keywords).
Proof.
  intros Ht. split.
  - unfold asKeywordToken. destruct (assoc_str x keyword_table) as [t'|] eqn:E; [|congruence]. intros ->.
    apply assoc_in in E. change keyword_table with (map (fun nt => (lit (fst nt), snd nt)) keywords) in E.
    apply in_map_iff in E. destruct E as ([n t'] & E & I). injection E as <- <-. eauto.
  - intros (n & -> & I). unfold keywords in I. cbn [In] in I.
    repeat (destruct I as [I|I]; [injection I as <- <-; reflexivity|]). destruct I.
Qed.
Lemma keyword_illegal x : asKeywordToken x = TILLEGAL <-> ~ exists name t, x = lit name /\ In (name, t) keywords.
Proof.
  split.
  - intros E (n & t & -> & I). unfold keywords in I. cbn [In] in I.
    repeat (destruct I as [I|I]; [injection I as <- <-; discriminate|]). destruct I.
  - intros H. destruct (token_eq_dec (asKeywordToken x) TILLEGAL) as [|N]; [assumption|].
    exfalso. apply H. apply (proj1 (keyword_spec x _ N)) in N as (n & E & I) || idtac.
    destruct (proj1 (keyword_spec x _ N) eq_refl) as (n & E & I). eauto.
Qed.
Lemma keyword_not_comment x : asKeywordToken x <> TCOMMENT.
Proof.
  intros E. apply keyword_spec in E; [|discriminate]. destruct E as (n & _ & I). unfold keywords in I. cbn [In] in I.
  repeat (destruct I as [I|I]; [discriminate|]). destruct I.
Qed.
Lemma identToken_not_comment m x : identToken m x <> TCOMMENT.
Proof.
  unfold identToken. destruct (_ && _); [discriminate|]. destruct (_ && _); [discriminate|].
  destruct (_ && _); [|discriminate]. apply keyword_not_comment.
Qed.
Lemma pnum_tok c r : fst (pnum c r) = TINTLIT \/ fst (pnum c r) = TFLOATLIT.
Proof.
  unfold pnum.
  repeat match goal with
  | |- context [if ?b then _ else _] => destruct b
  | |- context [match ?l with [] => _ | _ :: _ => _ end] => destruct l
  | |- context [let '(_, _) := ?l in _] => destruct l
  end; cbn; auto.
Qed.
Lemma comment_gap_ok m l w r : has m ScanComment = true -> gap_ok m (comment_token l w r).
Proof. intros H. unfold gap_ok. rewrite H. cbn. split; [constructor|reflexivity]. Qed.
Lemma neg_NL b : Forall (fun d => negb (d =? NL) = true) b -> ~ In NL b.
Proof. intros F I. rewrite Forall_forall in F. apply F in I. discriminate. Qed.
Lemma head_slash a r : head_is (fun d => d =? a) r = true -> exists r', r = a :: r'.
Proof. destruct r as [|c r]; cbn; [discriminate|]. intros H. apply N.eqb_eq in H. subst. eauto. Qed.

Lemma lex_gap_ok m r : gap_ok m (lex m r).
Proof.
  induction r as [r IH] using len_ind. destruct r as [|c r].
  { rewrite lex_nil. apply gap_ok_nil. discriminate. }
  rewrite lex_cons. destruct (isSpace c) eqn:Hs.
  { destruct (has m ScanComment) eqn:M.
    - assert (G : gap_ok m (lex m r)) by (apply IH; cbn; lia).
      unfold gap_ok in *. rewrite M in *. destruct G as [G1 G2]. cbn [skip lx_gap lx_cms lx_tok lx_txt].
      split; [constructor; assumption|]. rewrite G2. destruct (lx_tok (lex m r)); reflexivity.
    - apply gap_ok_skip; [assumption|apply Gap_space1; assumption|]. apply IH. cbn. lia. }
  destruct (identStart c). { destruct (span identChar r). apply gap_ok_nil, identToken_not_comment. }
  destruct (N.eqb_spec c (ch "/")) as [->|].
  { destruct (head_is (fun d => d =? ch "/") r) eqn:H1.
    - destruct (span _ r) as [b r2] eqn:E. apply span_spec in E. destruct E as (-> & F & Hd).
      destruct (has m ScanComment) eqn:M; [apply comment_gap_ok; assumption|].
      assert (L : is_line_comment (ch "/" :: b)).
      { destruct b as [|b0 b].
        { destruct r2; cbn in *; [discriminate|]. apply N.eqb_eq in H1. subst. discriminate. }
        cbn in H1. apply N.eqb_eq in H1. subst b0. exists b. split; [reflexivity|].
        inversion F; subst. apply neg_NL. assumption. }
      destruct r2 as [|d r2].
      + cbn [first_rune after_nl]. rewrite lex_nil, app_nil_r. unfold gap_ok, skip. rewrite M. cbn.
        rewrite app_nil_r. apply (egap_line [] [] (ch "/" :: b)); [constructor|assumption].
      + cbn in Hd. apply negb_false_iff, N.eqb_eq in Hd. subst d. cbn [first_rune after_nl].
        apply (gap_ok_skip m ((ch "/" :: b) ++ [NL])); [assumption|apply Gap_line1; assumption|].
        apply IH. cbn. rewrite app_length. cbn. lia.
    - destruct (head_is (fun d => d =? ch "*") r) eqn:H2.
      + apply head_slash in H2. destruct H2 as (r2 & ->).
        destruct (find_close r2) as [[b r3]|] eqn:E; [|apply gap_ok_nil; discriminate].
        destruct (has m ScanComment) eqn:M; [apply comment_gap_ok; assumption|].
        apply gap_ok_skip; [assumption| |].
        * apply Gap_block1. destruct (find_close_body _ _ _ E) as (w & -> & W). exists w. auto.
        * apply IH. apply find_close_spec in E. destruct E as [-> _]. cbn. rewrite app_length. lia.
      + destruct r; apply gap_ok_nil; discriminate. }
  destruct (isQuote c && has m ScanStrLit). { apply gap_ok_lit. discriminate. }
  destruct ((isDecimalDigit c || (c =? ch ".")) && has m ScanNumberLit).
  { pose proof (pnum_tok c r). destruct (pnum c r) as [t o]. apply gap_ok_lit. cbn in H. destruct H; subst; discriminate. }
  apply gap_ok_nil, asMisc_not_comment.
Qed.

(** ** Numbers *)
Lemma span_decimal l d r : span isDecimalDigit l = (d, r) ->
  l = d ++ r /\ Forall digit d /\ head_is isDecimalDigit r = false.
Proof.
  intros H. apply span_spec in H. destruct H as (E & F & G). repeat split; try assumption.
  revert F. apply Forall_impl. intros a. apply digit_iff.
Qed.
Lemma is_e_iff c : is_e c = true <-> c = ch "e" \/ c = ch "E".
Proof. unfold is_e. rewrite orb_true_iff, !N.eqb_eq. reflexivity. Qed.
Lemma pexp_sound l w r : head_is is_e l = true -> pexp l = (true, w, r) -> exponent w.
Proof.
  destruct l as [|e l1]; [discriminate|]. cbn [head_is]. intros He. apply is_e_iff in He.
  unfold pexp. destruct (head_is _ l1) eqn:Hs.
  - destruct l1 as [|sg l2]; [discriminate|]. cbn in Hs. destruct (span isDecimalDigit l2) as [d l3] eqn:E.
    apply span_decimal in E. destruct E as (_ & F & _). intros H. destruct d as [|d0 d]; [discriminate|].
    injection H as <- <-. exists e, [sg], (d0 :: d). repeat split; try assumption; [|discriminate].
    apply orb_true_iff in Hs. rewrite !N.eqb_eq in Hs. destruct Hs as [->| ->]; auto.
  - destruct (span isDecimalDigit l1) as [d l3] eqn:E.
    apply span_decimal in E. destruct E as (_ & F & _). intros H. destruct d as [|d0 d]; [discriminate|].
    injection H as <- <-. exists e, [], (d0 :: d). repeat split; try assumption; [auto|discriminate].
Qed.
Lemma popt_exp_sound d l w r : popt_exp d l = (true, w, r) -> exists e, w = d ++ e /\ opt exponent e.
Proof.
  unfold popt_exp. destruct (head_is is_e l) eqn:He.
  - destruct (pexp l) as [[ok x] l2] eqn:E. intros H. injection H as -> <- <-. exists x. split; [reflexivity|].
    right. eapply pexp_sound; eassumption.
  - intros H. injection H as <- <-. exists []. rewrite app_nil_r. split; [reflexivity|left; reflexivity].
Qed.
Lemma pfrac_sound l w r : pfrac l = (true, w, r) -> exists b e, w = b ++ e /\ opt decimals b /\ opt exponent e.
Proof.
  unfold pfrac. destruct (span isDecimalDigit l) as [d l1] eqn:E. apply span_decimal in E. destruct E as (_ & F & _).
  intros H. apply popt_exp_sound in H. destruct H as (e & -> & X). exists d, e. repeat split; try assumption.
  destruct d; [left; reflexivity|right; split; [discriminate|assumption]].
Qed.
Lemma pfracno_sound l w r : pfracno l = (true, w, r) -> exists b e, w = b ++ e /\ decimals b /\ opt exponent e.
Proof.
  unfold pfracno. destruct (span isDecimalDigit l) as [d l1] eqn:E. apply span_decimal in E. destruct E as (_ & F & _).
  destruct d as [|d0 d]; [discriminate|].
  intros H. apply popt_exp_sound in H. destruct H as (e & -> & X). exists (d0 :: d), e. repeat split; try assumption. discriminate.
Qed.
Lemma cons_out_true w o x r : cons_out w o = (true, x, r) -> exists y, o = (true, y, r) /\ x = w ++ y.
Proof. destruct o as [[ok y] r']. cbn. intros H. injection H as -> <- <-. eauto. Qed.

Definition num_kind (t : token) (w : str) : Prop :=
  (t = TINTLIT /\ is_int w) \/ (t = TFLOATLIT /\ is_plain_float w).
Lemma pnum_sound c0 l t w r : (digit c0 \/ c0 = ch ".") -> pnum c0 l = (t, (true, w, r)) -> num_kind t w.
Proof.
  intros Hc. unfold pnum. destruct ((c0 =? ch "0") && head_is _ l) eqn:E1.
  { apply andb_true_iff in E1. destruct E1 as [H1 H2]. apply N.eqb_eq in H1. subst c0.
    destruct l as [|x l1]; [discriminate|]. cbn in H2. destruct (span isHexDigit l1) as [h l2] eqn:E.
    apply span_spec in E. destruct E as (_ & F & _). intros H. destruct h as [|h0 h]; [discriminate|].
    injection H as <- <- <-. left. split; [reflexivity|]. right. right. exists x, (h0 :: h).
    repeat split; [|discriminate|].
    - apply orb_true_iff in H2. rewrite !N.eqb_eq in H2. exact H2.
    - revert F. apply Forall_impl. intros a. apply hex_iff. }
  clear E1. destruct (N.eqb_spec c0 (ch ".")) as [->|Nd].
  { intros H. injection H as <- H. apply cons_out_true in H. destruct H as (y & H & ->).
    apply pfracno_sound in H. destruct H as (b & e & -> & B & X). right. split; [reflexivity|]. apply pfloat_frac; assumption. }
  destruct Hc as [Hc|]; [|contradiction].
  assert (D1 : plain_decimals [c0]).
  { destruct (N.eqb_spec c0 (ch "0")) as [->|N1]; [left; reflexivity|]. right. exists c0, []. split; [reflexivity|]. split; [|constructor].
    unfold digit in Hc. change (ch "0") with 48 in N1. lia. }
  destruct (head_is (fun c => c =? ch ".") l) eqn:E2.
  { apply head_slash in E2. destruct E2 as (l1 & ->).
    intros H. injection H as <- H. apply cons_out_true in H. destruct H as (y & H & ->).
    apply pfrac_sound in H. destruct H as (b & e & -> & B & X). right. split; [reflexivity|].
    apply (pfloat_point [c0]); assumption. }
  destruct (head_is is_e l) eqn:E3.
  { intros H. injection H as <- H. apply cons_out_true in H. destruct H as (y & H & ->).
    apply pexp_sound in H; [|assumption]. right. split; [reflexivity|]. apply (pfloat_exp [c0]); assumption. }
  destruct (N.eqb_spec c0 (ch "0")) as [->|N0].
  { destruct (span isOctalDigit l) as [d l1] eqn:E. apply span_spec in E. destruct E as (_ & F & _).
    intros H. injection H as <- <- <-. left. split; [reflexivity|]. right. left. exists d. split; [reflexivity|].
    revert F. apply Forall_impl. intros a. apply octal_iff. }
  destruct (span isDecimalDigit l) as [d l1] eqn:E. apply span_decimal in E. destruct E as (_ & F & _).
  assert (D2 : plain_decimals (c0 :: d)).
  { right. exists c0, d. split; [reflexivity|]. split; [|assumption]. unfold digit in Hc. change (ch "0") with 48 in N0. lia. }
  destruct (head_is (fun c => c =? ch ".") l1) eqn:E4.
  { apply head_slash in E4. destruct E4 as (l2 & ->).
    intros H. injection H as <- H. apply cons_out_true in H. destruct H as (y & H & ->).
    apply pfrac_sound in H. destruct H as (b & e & -> & B & X). right. split; [reflexivity|].
    change (is_plain_float (((c0 :: d) ++ lit ".") ++ b ++ e)). rewrite <- app_assoc.
    apply pfloat_point; assumption. }
  destruct (head_is is_e l1) eqn:E5.
  { intros H. injection H as <- H. apply cons_out_true in H. destruct H as (y & H & ->).
    apply pexp_sound in H; [|assumption]. right. split; [reflexivity|]. apply (pfloat_exp (c0 :: d)); assumption. }
  intros H. injection H as <- <- <-. left. split; [reflexivity|]. left. exists c0, d. repeat split; try assumption.
  - unfold digit in Hc. change (ch "0") with 48 in N0. lia.
  - unfold digit in Hc. lia.
Qed.

Lemma delim_class r p : delimited r -> (forall c, p c = true -> ident_char c \/ c = ch ".") -> head_is p r = false.
Proof.
  destruct r as [|c r]; [reflexivity|]. cbn. intros [A B] H. destruct (p c) eqn:E; [|reflexivity].
  apply H in E. tauto.
Qed.
Lemma head_app p a b : a <> [] -> head_is p (a ++ b) = head_is p a.
Proof. destruct a; [congruence|reflexivity]. Qed.
Lemma head_not p a b : Forall (fun c => p c = false) a -> head_is p b = false -> head_is p (a ++ b) = false.
Proof. intros F H. destruct a; [exact H|]. inversion F; assumption. Qed.
Lemma digit_not_x d : digit d -> ((d =? ch "x") || (d =? ch "X")) = false /\ (d =? ch ".") = false /\ is_e d = false.
Proof. unfold digit, is_e. intros H. rewrite !orb_false_iff, !N.eqb_neq. chars. lia. Qed.
Lemma octal_digit_digit d : octal_digit d -> digit d. Proof. unfold octal_digit, digit. lia. Qed.
Lemma dot_delim : forall c : rune, (c =? ch ".") = true -> ident_char c \/ c = ch ".".
Proof. intros c H. apply N.eqb_eq in H. auto. Qed.
Lemma e_delim : forall c, is_e c = true -> ident_char c \/ c = ch ".".
Proof. intros c H. apply is_e_iff in H. left. left. unfold letter. destruct H as [->| ->]; chars; lia. Qed.
Lemma x_delim : forall c : rune, ((c =? ch "x") || (c =? ch "X")) = true -> ident_char c \/ c = ch ".".
Proof. intros c H. apply orb_true_iff in H. rewrite !N.eqb_eq in H. left. left. unfold letter. destruct H as [->| ->]; chars; lia. Qed.
Lemma dec_delim : forall c, isDecimalDigit c = true -> ident_char c \/ c = ch ".".
Proof. intros c H. apply digit_iff in H. left. right. left. assumption. Qed.
Lemma oct_delim : forall c, isOctalDigit c = true -> ident_char c \/ c = ch ".".
Proof. intros c H. apply octal_iff in H. left. right. left. apply octal_digit_digit. assumption. Qed.
Lemma hex_delim : forall c, isHexDigit c = true -> ident_char c \/ c = ch ".".
Proof. intros c H. apply hex_iff in H. left. unfold hex_digit, digit in H. unfold ident_char, letter, digit. lia. Qed.

Lemma span_dec d r : Forall digit d -> head_is isDecimalDigit r = false -> span isDecimalDigit (d ++ r) = (d, r).
Proof. intros F H. apply span_exact; [|exact H]. revert F. apply Forall_impl. intros a. apply digit_iff. Qed.

Lemma pnum_int x r : is_int x -> delimited r ->
  exists c l, x = c :: l /\ digit c /\ pnum c (l ++ r) = (TINTLIT, (true, x, r)).
Proof.
  intros H D. destruct H as [(c & l & -> & Hc & F)|[(l & -> & F)|(e & l & -> & He & Hl & F)]].
  - exists c, l. assert (Dc : digit c) by (unfold digit; lia). split; [reflexivity|]. split; [exact Dc|].
    unfold pnum. replace (c =? ch "0") with false by (symmetry; apply N.eqb_neq; chars; lia). cbn [andb].
    destruct (digit_not_x c Dc) as (_ & -> & _).
    rewrite head_not; [|revert F; apply Forall_impl; intros a A; apply (digit_not_x a A)|apply delim_class; [exact D|apply dot_delim]].
    rewrite head_not; [|revert F; apply Forall_impl; intros a A; apply (digit_not_x a A)|apply delim_class; [exact D|apply e_delim]].
    rewrite span_dec; [|exact F|apply delim_class; [exact D|apply dec_delim]].
    rewrite (delim_class r _ D dot_delim), (delim_class r _ D e_delim). reflexivity.
  - exists (ch "0"), l. split; [reflexivity|]. split; [unfold digit; chars; lia|].
    assert (F' : Forall digit l) by (revert F; apply Forall_impl; exact octal_digit_digit).
    unfold pnum. rewrite N.eqb_refl. cbn [andb].
    rewrite head_not; [|revert F'; apply Forall_impl; intros a A; apply (digit_not_x a A)|apply delim_class; [exact D|apply x_delim]].
    change (ch "0" =? ch ".") with false. cbn iota.
    rewrite head_not; [|revert F'; apply Forall_impl; intros a A; apply (digit_not_x a A)|apply delim_class; [exact D|apply dot_delim]].
    rewrite head_not; [|revert F'; apply Forall_impl; intros a A; apply (digit_not_x a A)|apply delim_class; [exact D|apply e_delim]].
    rewrite span_exact; [reflexivity| |apply delim_class; [exact D|apply oct_delim]].
    revert F. apply Forall_impl. intros a. apply octal_iff.
  - exists (ch "0"), (e :: l). split; [reflexivity|]. split; [unfold digit; chars; lia|].
    unfold pnum. rewrite N.eqb_refl. cbn [andb app head_is].
    replace ((e =? ch "x") || (e =? ch "X")) with true by (destruct He as [->| ->]; reflexivity).
    rewrite span_exact; [| |apply delim_class; [exact D|apply hex_delim]].
    + destruct l; [congruence|reflexivity].
    + revert F. apply Forall_impl. intros a. apply hex_iff.
Qed.

Lemma pexp_complete e r : exponent e -> head_is isDecimalDigit r = false -> pexp (e ++ r) = (true, e, r).
Proof.
  intros (c & sg & d & -> & Hc & Hs & Hd & F) D. unfold pexp. cbn [app].
  destruct d as [|d0 d]; [congruence|].
  assert (Hd0 : (d0 =? ch "+") || (d0 =? ch "-") = false).
  { inversion F; subst. match goal with H : digit d0 |- _ => unfold digit in H end. rewrite orb_false_iff, !N.eqb_neq. chars. lia. }
  destruct Hs as [->|[->| ->]]; cbn [app lit head_is].
  - rewrite Hd0. change (d0 :: d ++ r) with ((d0 :: d) ++ r). rewrite (span_dec (d0 :: d)); [reflexivity|exact F|exact D].
  - change ((N_of_ascii "+" =? ch "+") || (N_of_ascii "+" =? ch "-")) with true. cbn iota.
    change (d0 :: d ++ r) with ((d0 :: d) ++ r). rewrite (span_dec (d0 :: d)); [reflexivity|exact F|exact D].
  - change ((N_of_ascii "-" =? ch "+") || (N_of_ascii "-" =? ch "-")) with true. cbn iota.
    change (d0 :: d ++ r) with ((d0 :: d) ++ r). rewrite (span_dec (d0 :: d)); [reflexivity|exact F|exact D].
Qed.
Lemma exponent_head e r : exponent e -> head_is is_e (e ++ r) = true.
Proof. intros (c & sg & d & -> & Hc & _). cbn. apply is_e_iff. exact Hc. Qed.
Lemma exponent_not_dec e r : exponent e -> head_is isDecimalDigit (e ++ r) = false /\ head_is (fun c => c =? ch ".") (e ++ r) = false
  /\ head_is (fun c => (c =? ch "x") || (c =? ch "X")) (e ++ r) = false.
Proof. intros (c & sg & d & -> & Hc & _). cbn. destruct Hc as [->| ->]; auto. Qed.
Lemma popt_exp_complete d e r : opt exponent e -> delimited r -> popt_exp d (e ++ r) = (true, d ++ e, r).
Proof.
  intros [->|X] D; unfold popt_exp.
  - cbn [app]. rewrite (delim_class r _ D e_delim), app_nil_r. reflexivity.
  - rewrite (exponent_head e r X), (pexp_complete e r X); [reflexivity|]. apply (delim_class r _ D dec_delim).
Qed.
Lemma opt_exp_not_dec e r : opt exponent e -> delimited r -> head_is isDecimalDigit (e ++ r) = false.
Proof.
  intros [->|X] D; [apply (delim_class r _ D dec_delim)|apply (exponent_not_dec e r X)].
Qed.
Lemma pfrac_complete b e r : opt decimals b -> opt exponent e -> delimited r -> pfrac ((b ++ e) ++ r) = (true, b ++ e, r).
Proof.
  intros B X D. unfold pfrac. rewrite <- app_assoc. rewrite (span_dec b (e ++ r)); [apply popt_exp_complete; assumption| |apply opt_exp_not_dec; assumption].
  destruct B as [->|[_ F]]; [constructor|exact F].
Qed.
Lemma pfracno_complete b e r : decimals b -> opt exponent e -> delimited r -> pfracno ((b ++ e) ++ r) = (true, b ++ e, r).
Proof.
  intros [B F] X D. unfold pfracno. rewrite <- app_assoc. rewrite (span_dec b (e ++ r)); [|exact F|apply opt_exp_not_dec; assumption].
  destruct b; [congruence|]. apply popt_exp_complete; assumption.
Qed.
Lemma Forall_not_digit p d : (forall c, digit c -> p c = false) -> Forall digit d -> Forall (fun c => p c = false) d.
Proof. intros H. apply Forall_impl. exact H. Qed.

Lemma pnum_float x r : is_plain_float x -> delimited r ->
  (exists c l, x = c :: l /\ (digit c \/ c = ch ".") /\ pnum c (l ++ r) = (TFLOATLIT, (true, x, r)))
  \/ x = lit "inf" \/ x = lit "nan".
Proof.
  intros H D. destruct H as [a b e A B X|a e A X|b e B X| |]; auto; left.
  - destruct A as [->|(c & l & -> & Hc & F)].
    + exists (ch "0"), (lit "." ++ b ++ e). split; [reflexivity|]. split; [left; unfold digit; chars; lia|].
      unfold pnum. cbn [lit app head_is andb].
      change (ch "0" =? ch "0") with true. change ((N_of_ascii "." =? ch "x") || (N_of_ascii "." =? ch "X")) with false.
      change (ch "0" =? ch ".") with false. change (N_of_ascii "." =? ch ".") with true. cbn [andb].
      rewrite pfrac_complete by assumption. reflexivity.
    + assert (Dc : digit c) by (unfold digit; lia). exists c, (l ++ lit "." ++ b ++ e). split; [reflexivity|]. split; [auto|].
      unfold pnum. replace (c =? ch "0") with false by (symmetry; apply N.eqb_neq; chars; lia). cbn [andb].
      destruct (digit_not_x c Dc) as (_ & -> & _).
      destruct l as [|d0 l].
      * cbn [lit app head_is]. change (N_of_ascii "." =? ch ".") with true. cbn iota.
        rewrite pfrac_complete by assumption. reflexivity.
      * assert (Dd : digit d0) by (inversion F; assumption). rewrite <- app_assoc.
        rewrite (head_app _ (d0 :: l)) by discriminate. cbn [head_is]. destruct (digit_not_x d0 Dd) as (_ & -> & _).
        rewrite (head_app _ (d0 :: l)) by discriminate. cbn [head_is]. destruct (digit_not_x d0 Dd) as (_ & _ & ->).
        rewrite (span_dec (d0 :: l)); [|exact F|reflexivity].
        cbn [lit app head_is]. change (N_of_ascii "." =? ch ".") with true. cbn iota.
        rewrite pfrac_complete by assumption. unfold cons_out. cbn [app]. rewrite <- app_assoc. reflexivity.
  - assert (Hr := delim_class r _ D dec_delim).
    destruct A as [->|(c & l & -> & Hc & F)].
    + exists (ch "0"), e. split; [reflexivity|]. split; [left; unfold digit; chars; lia|].
      destruct (exponent_not_dec e r X) as (_ & E2 & E3).
      unfold pnum. rewrite E3, E2, (exponent_head e r X), (pexp_complete e r X Hr). reflexivity.
    + assert (Dc : digit c) by (unfold digit; lia). exists c, (l ++ e). split; [reflexivity|]. split; [auto|].
      unfold pnum. replace (c =? ch "0") with false by (symmetry; apply N.eqb_neq; chars; lia). cbn [andb].
      destruct (digit_not_x c Dc) as (_ & -> & _).
      destruct (exponent_not_dec e r X) as (E1 & E2 & E3).
      destruct l as [|d0 l].
      * cbn [app]. rewrite E2, (exponent_head e r X), (pexp_complete e r X Hr). reflexivity.
      * assert (Dd : digit d0) by (inversion F; assumption). rewrite <- app_assoc.
        rewrite (head_app _ (d0 :: l)) by discriminate. cbn [head_is]. destruct (digit_not_x d0 Dd) as (_ & -> & _).
        rewrite (head_app _ (d0 :: l)) by discriminate. cbn [head_is]. destruct (digit_not_x d0 Dd) as (_ & _ & ->).
        rewrite (span_dec (d0 :: l)); [|exact F|exact E1].
        rewrite E2, (exponent_head e r X), (pexp_complete e r X Hr). reflexivity.
  - exists (ch "."), (b ++ e). split; [reflexivity|]. split; [auto|].
    unfold pnum. change (ch "." =? ch "0") with false. change (ch "." =? ch ".") with true. cbn [andb].
    rewrite pfracno_complete by assumption. reflexivity.
Qed.

(** ** Strings *)
Lemma upto_spec k p l a b : upto k p l = (a, b) -> l = a ++ b /\ Forall (fun c => p c = true) a.
Proof.
  revert l a b. induction k as [|k IH]; intros l a b; cbn [upto].
  - intros H. injection H as <- <-. auto.
  - destruct l as [|c l]; [intros H; injection H as <- <-; auto|].
    destruct (p c) eqn:E; [|intros H; injection H as <- <-; auto].
    destruct (upto k p l) as [x y] eqn:U. intros H. injection H as <- <-.
    destruct (IH _ _ _ U) as (-> & F). cbn. auto.
Qed.
Lemma hex_plain q c : (q = SQ \/ q = DQ) -> isHexDigit c = true -> c <> q /\ c <> backslash /\ c <> NL /\ c <> 0.
Proof. intros Q H. apply hex_iff in H. unfold hex_digit, digit in H. unfold SQ, DQ, backslash, NL in *. lia. Qed.
Lemma oct_plain q c : (q = SQ \/ q = DQ) -> isOctalDigit c = true -> c <> q /\ c <> backslash /\ c <> NL /\ c <> 0.
Proof. intros Q H. apply octal_iff in H. unfold octal_digit in H. unfold SQ, DQ, backslash, NL in *. lia. Qed.
Lemma plain_app q a b : Forall (fun c => c <> q /\ c <> backslash /\ c <> NL /\ c <> 0) a -> str_body q b -> str_body q (a ++ b).
Proof.
  intros F H. induction F as [|c a (A & B & C & D) F IH]; [exact H|]. cbn. apply sb_plain; assumption.
Qed.
Lemma charEscape_iff c : isCharEscape c = true <-> char_escape c.
Proof.
  unfold isCharEscape, char_escape. rewrite existsb_exists. split.
  - intros (x & I & E). apply N.eqb_eq in E. subst x. exact I.
  - intros I. exists c. split; [exact I|apply N.eqb_refl].
Qed.
Lemma charEscape_ok c : isCharEscape c = true -> c <> NL /\ c <> 0.
Proof.
  intros H. apply charEscape_iff in H. unfold char_escape in H. cbn in H.
  repeat (destruct H as [H|H]; [subst c; split; discriminate|]). destruct H.
Qed.
(** the body of a string literal ends with the quote: [w = b ++ [q]] *)
Lemma pstr_sound n q : (q = SQ \/ q = DQ) -> forall l w r, nonul l -> pstr n q l = (true, w, r) ->
  exists b, w = b ++ [q] /\ str_body q b.
Proof.
  intros Q. induction n as [|n IH]; intros l w r N H; cbn [pstr] in H; [discriminate|].
  destruct l as [|c l]; [discriminate|]. apply nonul_cons in N. destruct N as [Nc N].
  destruct (N.eqb_spec c q) as [->|Hq].
  { injection H as <- <-. exists []. split; [reflexivity|constructor]. }
  destruct (N.eqb_spec c NL) as [->|Hn]; [discriminate|].
  destruct (N.eqb_spec c BSL) as [->|Hb].
  - destruct (pesc l) as [a l'] eqn:E. apply cons_out_true in H. destruct H as (y & H & ->).
    pose proof (pesc_app _ _ _ E) as A. subst l. apply nonul_app in N. destruct N as [Na N].
    destruct (IH _ _ _ N H) as (b & -> & B). 
    assert (K : (a <> [] -> str_body q (BSL :: a ++ b)) /\ (a = [] -> match l' with c :: _ => isCharEscape c = false | [] => True end)).
    { unfold pesc in E. destruct (a ++ l') as [|c l] eqn:Eal.
      { injection E as <- <-. split; [congruence|trivial]. }
      destruct ((c =? ch "x") || (c =? ch "X")) eqn:X.
      { destruct (upto 2 isHexDigit l) as [u v] eqn:U. injection E as <- <-. split; [|discriminate]. intros _.
        apply upto_spec in U. destruct U as (_ & F). cbn [app]. apply sb_esc.
        - intros ->. discriminate.
        - intros ->. discriminate.
        - apply plain_app; [|exact B]. revert F. apply Forall_impl. intros d. apply hex_plain. exact Q. }
      destruct (isOctalDigit c) eqn:O.
      { destruct (upto 3 isOctalDigit (c :: l)) as [u v] eqn:U. injection E as <- <-.
        assert (Hu : exists u', u = c :: u').
        { change (upto 3 isOctalDigit (c :: l)) with
            (if isOctalDigit c then let '(a, b) := upto 2 isOctalDigit l in (c :: a, b) else ([], c :: l)) in U.
          rewrite O in U. destruct (upto 2 isOctalDigit l). injection U as <- <-. eauto. }
        destruct Hu as (u' & ->). split; [|discriminate]. intros _.
        apply upto_spec in U. destruct U as (_ & F). inversion F; subst. cbn [app]. apply sb_esc.
        - apply (oct_plain q c Q O).
        - apply (oct_plain q c Q O).
        - apply plain_app; [|exact B]. revert H3. apply Forall_impl. intros d. apply oct_plain. exact Q. }
      destruct (isCharEscape c) eqn:C.
      { injection E as <- <-. split; [|discriminate]. intros _. cbn [app]. destruct (charEscape_ok c C). apply sb_esc; assumption. }
      injection E as <- <-. split; [congruence|]. intros _. exact C. }
    destruct K as [K1 K2]. destruct a as [|a0 a].
    2:{ exists (BSL :: (a0 :: a) ++ b). split; [cbn [app]; rewrite <- app_assoc; reflexivity|]. apply K1. discriminate. }
    clear K1. specialize (K2 eq_refl). cbn [app].
    (* a backslash in front of a character that is no escape *)
    destruct n as [|n]; [discriminate|]. cbn [pstr] in H. destruct l' as [|c l']; [discriminate|].
    exists (BSL :: b). split; [reflexivity|].
    destruct (N.eqb_spec c q) as [->|Hq'].
    { exfalso. destruct Q as [-> | ->]; discriminate. }
    destruct (N.eqb_spec c NL) as [->|Hn']; [discriminate|].
    destruct (N.eqb_spec c BSL) as [->|Hb']; [discriminate|].
    apply cons_out_true in H. destruct H as (y & H & Ey).
    destruct b as [|b0 b]; [exfalso; injection Ey as E0 _; congruence|].
    injection Ey as -> _. apply nonul_cons in N. inversion B; subst.
    + apply sb_esc; tauto.
    + exfalso; apply Hb'; reflexivity.
  - apply cons_out_true in H. destruct H as (y & H & ->). destruct (IH _ _ _ N H) as (b & -> & B).
    exists (c :: b). split; [reflexivity|]. apply sb_plain; assumption.
Qed.

Lemma upto_body k p q b r a l' : p q = false -> p backslash = false -> str_body q b ->
  upto k p (b ++ q :: r) = (a, l') -> exists b2, l' = b2 ++ q :: r /\ b = a ++ b2 /\ str_body q b2.
Proof.
  intros Pq Pb. revert b a l'. induction k as [|k IH]; intros b a l' B H; cbn [upto] in H.
  { destruct b as [|b0 b]; cbn in H; injection H as <- <-; [exists []|exists (b0 :: b)]; auto. }
  destruct B as [|c b H1 H2 H3 H4 B|c b H1 H2 B]; cbn [app upto] in H.
  - rewrite Pq in H. injection H as <- <-. exists []. repeat constructor.
  - destruct (p c).
    + destruct (upto k p (b ++ q :: r)) as [x y] eqn:U. injection H as <- <-.
      destruct (IH _ _ _ B U) as (b2 & -> & -> & B2). eauto.
    + injection H as <- <-. exists (c :: b). repeat split. apply sb_plain; assumption.
  - rewrite Pb in H. injection H as <- <-. exists (backslash :: c :: b). repeat split. apply sb_esc; assumption.
Qed.

Lemma pstr_complete q : (q = SQ \/ q = DQ) -> forall n b r, str_body q b -> (List.length b < n)%nat ->
  pstr n q (b ++ q :: r) = (true, b ++ [q], r).
Proof.
  intros Q. induction n as [|n IH]; intros b r B L; [lia|]. cbn [pstr].
  destruct B as [|c b H1 H2 H3 H4 B|c b H1 H2 B]; cbn [app].
  - rewrite N.eqb_refl. reflexivity.
  - apply N.eqb_neq in H1, H2, H3. rewrite H1, H3. change backslash with BSL in H2. rewrite H2.
    rewrite IH by (assumption || (cbn in L; lia)). reflexivity.
  - replace (backslash =? q) with false by (destruct Q as [-> | ->]; reflexivity).
    change (backslash =? NL) with false. change (backslash =? BSL) with true. cbn iota.
    cbn in L. cbn [pesc].
    destruct ((c =? ch "x") || (c =? ch "X")).
    { destruct (upto 2 isHexDigit (b ++ q :: r)) as [x y] eqn:U.
      apply upto_body in U; [|destruct Q as [-> | ->]; reflexivity|reflexivity|exact B].
      destruct U as (b2 & -> & -> & B2). rewrite IH; [|exact B2|rewrite app_length in L; lia].
      cbn [cons_out app]. rewrite <- app_assoc. reflexivity. }
    destruct (isOctalDigit c) eqn:O.
    { change (upto 3 isOctalDigit (c :: b ++ q :: r)) with
        (if isOctalDigit c then let '(a, b) := upto 2 isOctalDigit (b ++ q :: r) in (c :: a, b) else ([], c :: b ++ q :: r)).
      rewrite O. destruct (upto 2 isOctalDigit (b ++ q :: r)) as [x y] eqn:U.
      apply upto_body in U; [|destruct Q as [-> | ->]; reflexivity|reflexivity|exact B].
      destruct U as (b2 & -> & -> & B2). rewrite IH; [|exact B2|rewrite app_length in L; lia].
      cbn [cons_out app]. rewrite <- app_assoc. reflexivity. }
    destruct (isCharEscape c) eqn:C.
    { rewrite IH; [|exact B|lia]. reflexivity. }
    assert (Hq : c <> q) by (intros ->; destruct Q as [-> | ->]; discriminate).
    assert (Hb : c <> backslash) by (intros ->; discriminate).
    change (c :: b ++ q :: r) with ((c :: b) ++ q :: r). rewrite IH; [reflexivity| |cbn; lia].
    apply sb_plain; assumption.
Qed.
Lemma doc_str_body q b : (q = SQ \/ q = DQ) -> doc_body q b -> str_body q b.
Proof.
  intros Q. induction 1 as [|c b H1 H2 H3 H4 B IH|x d1 d2 b X D1 D2 B IH|d1 d2 d3 b D1 D2 D3 B IH|c b C B IH].
  - constructor.
  - apply sb_plain; assumption.
  - apply hex_iff in D1, D2. apply sb_esc.
    + destruct X as [-> | ->]; discriminate.
    + destruct X as [-> | ->]; discriminate.
    + apply (plain_app q [d1; d2]); [|exact IH]. repeat constructor; eapply hex_plain; eassumption.
  - apply octal_iff in D1, D2, D3. apply sb_esc.
    + eapply (oct_plain q); eassumption.
    + eapply (oct_plain q); eassumption.
    + apply (plain_app q [d2; d3]); [|exact IH]. repeat constructor; eapply oct_plain; eassumption.
  - apply charEscape_iff in C. destruct (charEscape_ok c C). apply sb_esc; assumption.
Qed.
Lemma doc_str_str x : is_doc_str x -> is_str x.
Proof. intros (q & b & Q & -> & B). exists q, b. auto using doc_str_body. Qed.
