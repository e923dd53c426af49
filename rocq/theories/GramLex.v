(** From a layout to what the pure lexer reads. *)
From Coq Require Import List NArith ZArith Bool String Ascii Lia Sorted.
From Verif Require Import Base Token Scanner Lexing ScanRefine LexFacts LexSpec LexProofs ScanFacts ScanProps Ast Cursor Grammar.
Import ListNotations.
Open Scope N_scope.

(** ** Tokens in a mode *)
Inductive hit (m : smode) : str -> token -> Prop :=
| hit_ident x : is_ident x -> hit m x (identToken m x)
| hit_int x : is_int x -> has m ScanNumberLit = true -> hit m x TINTLIT
| hit_float x : is_plain_float x -> ~ is_ident x -> has m ScanNumberLit = true -> hit m x TFLOATLIT
| hit_str x : is_str x -> has m ScanStrLit = true -> hit m x TSTRLIT
| hit_punct c : In c puncts -> (c = DQ \/ c = SQ -> has m ScanStrLit = false) ->
    (c = ch "." -> has m ScanNumberLit = false) -> hit m [c] (asMiscToken c).
Inductive miss (m : smode) : str -> token -> Prop :=
| miss_num c x : is_int (c :: x) \/ is_plain_float (c :: x) -> ~ is_ident (c :: x) -> has m ScanNumberLit = false ->
    miss m (c :: x) (asMiscToken c)
| miss_str x : is_str x -> has m ScanStrLit = false -> miss m x TQUOTE.

Lemma lex_ident_at m x r : is_ident x -> no_ident_char r ->
  lex m (x ++ r) = mkLexed [] [] (identToken m x) x x r.
Proof.
  intros (c & l & -> & Hc & F) N. cbn [app]. rewrite lex_ident by (apply ident_start_iff; exact Hc).
  rewrite (span_exact identChar l r); [reflexivity| |].
  - revert F. apply Forall_impl. intros a. apply ident_char_iff.
  - destruct r as [|d r]; [reflexivity|]. cbn in *. destruct (identChar d) eqn:E; [|reflexivity]. apply ident_char_iff in E. tauto.
Qed.
Lemma lex_int_at m x r : is_int x -> delimited r -> has m ScanNumberLit = true ->
  lex m (x ++ r) = mkLexed [] [] TINTLIT x x r.
Proof.
  intros X D M. destruct (pnum_int x r X D) as (c & l & -> & Hc & P). cbn [app]. rewrite lex_cons.
  destruct (digit_class c Hc) as (-> & -> & -> & ->). cbn [andb].
  assert (isDecimalDigit c = true) as -> by (apply digit_iff; exact Hc). rewrite M. cbn [orb andb]. rewrite P. reflexivity.
Qed.
Lemma lex_float_at m x r : is_plain_float x -> ~ is_ident x -> delimited r -> has m ScanNumberLit = true ->
  lex m (x ++ r) = mkLexed [] [] TFLOATLIT x x r.
Proof.
  intros X NI D M. destruct (pnum_float x r X D) as [(c & l & -> & Hc & P)|K].
  - cbn [app]. rewrite lex_cons.
    assert (NS : isSpace c = false /\ identStart c = false /\ (c =? ch "/") = false /\ isQuote c = false).
    { destruct Hc as [Hc| ->]; [exact (digit_class c Hc)|repeat split]. }
    destruct NS as (-> & -> & -> & ->). cbn [andb].
    assert ((isDecimalDigit c || (c =? ch ".")) = true) as -> by (apply orb_true_iff; rewrite digit_iff, N.eqb_eq; exact Hc).
    rewrite M. cbn [andb]. rewrite P. reflexivity.
  - exfalso. apply NI. destruct K as [->| ->]; apply identb_iff; reflexivity.
Qed.
Lemma lex_str_at m x r : is_str x -> has m ScanStrLit = true -> lex m (x ++ r) = mkLexed [] [] TSTRLIT x x r.
Proof.
  intros (q & b & Qq & -> & B) M. cbn [app]. rewrite <- app_assoc. cbn [app]. rewrite lex_cons.
  assert (NS : isSpace q = false /\ identStart q = false /\ (q =? ch "/") = false /\ isQuote q = true).
  { destruct Qq as [->| ->]; repeat split. }
  destruct NS as (-> & -> & -> & ->). rewrite M. cbn [andb].
  rewrite pstr_complete; [reflexivity|exact Qq|exact B|]. rewrite app_length. cbn. lia.
Qed.
Lemma punct_class c : In c puncts -> isSpace c = false /\ identStart c = false /\ (c =? ch "/") = false /\
  (isQuote c = true <-> c = DQ \/ c = SQ) /\ isDecimalDigit c = false.
Proof.
  intros H. unfold puncts in H. cbn in H.
  repeat (destruct H as [<-|H]; [repeat split; try (intros [K|K]; discriminate K); try discriminate; auto|]). destruct H.
Qed.
Lemma lex_punct_at m c r : In c puncts -> (c = DQ \/ c = SQ -> has m ScanStrLit = false) ->
  (c = ch "." -> has m ScanNumberLit = false) -> lex m (c :: r) = mkLexed [] [] (asMiscToken c) [c] [c] r.
Proof.
  intros H Q D. rewrite lex_cons. destruct (punct_class c H) as (-> & -> & -> & IQ & ->).
  replace (isQuote c && has m ScanStrLit) with false.
  - destruct (N.eqb_spec c (ch ".")) as [E|E]; [rewrite (D E); reflexivity|reflexivity].
  - destruct (isQuote c); [|reflexivity]. rewrite Q; [reflexivity|]. apply IQ. reflexivity.
Qed.
Lemma int_head x : is_int x -> exists c l, x = c :: l /\ digit c.
Proof.
  intros [(c & l & -> & H & _)|[(l & -> & _)|(e & l & -> & _)]]; eexists _, _; (split; [reflexivity|]); unfold digit; cbn; lia.
Qed.
Lemma plain_head a : plain_decimals a -> exists c l, a = c :: l /\ digit c.
Proof. intros [->|(c & l & -> & H & _)]; eexists _, _; (split; [reflexivity|]); unfold digit; cbn; lia. Qed.
Lemma float_head x : is_plain_float x -> ~ is_ident x -> exists c l, x = c :: l /\ (digit c \/ c = ch ".").
Proof.
  intros [a b e A B E|a e A E|b e B E| |] NI.
  - destruct (plain_head a A) as (c & l & -> & H). cbn. eauto.
  - destruct (plain_head a A) as (c & l & -> & H). cbn. eauto.
  - cbn. eauto.
  - exfalso. apply NI. apply identb_iff. reflexivity.
  - exfalso. apply NI. apply identb_iff. reflexivity.
Qed.
Lemma lex_num_miss m c x r : is_int (c :: x) \/ is_plain_float (c :: x) -> ~ is_ident (c :: x) -> has m ScanNumberLit = false ->
  lex m (c :: r) = mkLexed [] [] (asMiscToken c) [c] [c] r.
Proof.
  intros H NI M. assert (K : digit c \/ c = ch ".").
  { destruct H as [H|H]; [apply int_head in H; destruct H as (d & l & E & H)|apply float_head in H; [destruct H as (d & l & E & H)|exact NI]]; injection E as -> ->; auto. }
  rewrite lex_cons. assert (NS : isSpace c = false /\ identStart c = false /\ (c =? ch "/") = false /\ isQuote c = false).
  { destruct K as [K| ->]; [exact (digit_class c K)|repeat split]. }
  destruct NS as (-> & -> & -> & ->). rewrite M, andb_false_r. reflexivity.
Qed.
Lemma delim_no_ident r : delimited r -> no_ident_char r.
Proof. destruct r; cbn; tauto. Qed.
Lemma str_head x : is_str x -> exists q b, (q = SQ \/ q = DQ) /\ x = q :: b /\ b <> [].
Proof. intros (q & b & H & -> & _). exists q, (b ++ [q]). repeat split; [exact H|]. destruct b; discriminate. Qed.
Lemma ident_not_str x : is_ident x -> is_str x -> False.
Proof. intros (c & l & -> & H & _) K. destruct (str_head _ K) as (q & b & Q & E & _). injection E as -> ->.
  apply ident_start_iff in H. destruct Q as [->| ->]; discriminate. Qed.
Lemma ident_not_punct c : is_ident [c] -> In c puncts -> False.
Proof. intros (d & l & E & H & _) K. injection E as <- _. apply punct_class in K. apply ident_start_iff in H. destruct K as (_ & K & _). congruence. Qed.
Lemma num_not_str x : is_int x \/ is_plain_float x -> is_str x -> False.
Proof.
  intros H K. destruct (str_head _ K) as (q & b & Q & -> & _).
  assert (digit q \/ q = ch ".").
  { destruct H as [H|H]; [apply int_head in H; destruct H as (d & l & E & H)|apply float_head in H; [destruct H as (d & l & E & H)|intros I; exact (ident_not_str _ I K)]]; injection E as -> ->; auto. }
  destruct Q as [->| ->]; (destruct H0 as [H0|H0]; [apply digit_iff in H0; discriminate|discriminate]).
Qed.
Lemma frac_not_dot b e : decimals b -> lit "." ++ b ++ e <> [ch "."].
Proof. intros [H _]. destruct b; [congruence|]. discriminate. Qed.
Lemma num_not_punct c : is_int [c] \/ is_plain_float [c] -> In c puncts -> False.
Proof.
  intros H K. apply punct_class in K. destruct K as (_ & K & _ & _ & D).
  assert (ND : ~ digit c) by (rewrite <- digit_iff; congruence).
  assert (NI : ~ is_ident [c]). { intros (d & l & E & I & _). injection E as <- _. apply ident_start_iff in I. congruence. }
  destruct H as [H|H].
  - apply int_head in H. destruct H as (d & l & E & H). injection E as -> _. tauto.
  - remember [c] as x eqn:X. destruct H as [a b e A B E|a e A E|b e B E| |]; try discriminate.
    + destruct (plain_head a A) as (d & l & -> & H). injection X as -> _. tauto.
    + destruct (plain_head a A) as (d & l & -> & H). injection X as -> _. tauto.
    + apply (frac_not_dot b e B). rewrite X. cbn in X. destruct b; [destruct B; congruence|discriminate].
Qed.

Lemma token_hit m x r t : token_at true x r -> hit m x t -> lex m (x ++ r) = mkLexed [] [] t x x r.
Proof.
  intros A H. cbn in A. destruct H as [x I|x I M|x I NI M|x I M|c I Q D].
  - apply lex_ident_at; [exact I|]. destruct A as [[_ A]|[[_ A]|[A|(c & -> & P & _)]]].
    + exact A.
    + apply delim_no_ident. exact A.
    + exfalso. eapply ident_not_str; eassumption.
    + exfalso. eapply ident_not_punct; eassumption.
  - apply lex_int_at; try assumption. destruct A as [[A _]|[[_ A]|[A|(c & -> & P & _)]]].
    + exfalso. eapply int_not_ident; eassumption.
    + exact A.
    + exfalso. eapply num_not_str; [left; exact I|exact A].
    + exfalso. eapply num_not_punct; [left; exact I|exact P].
  - apply lex_float_at; try assumption. destruct A as [[A _]|[[_ A]|[A|(c & -> & P & _)]]].
    + tauto.
    + exact A.
    + exfalso. eapply num_not_str; [right; exact I|exact A].
    + exfalso. eapply num_not_punct; [right; exact I|exact P].
  - apply lex_str_at; assumption.
  - cbn [app]. apply lex_punct_at; assumption.
Qed.
Lemma token_miss m x r t : token_at true x r -> miss m x t ->
  exists c y, x = c :: y /\ lex m (x ++ r) = mkLexed [] [] t [c] [c] (y ++ r).
Proof.
  intros A H. destruct H as [c x I NI M|x I M].
  - exists c, x. split; [reflexivity|]. cbn [app]. eapply lex_num_miss; eassumption.
  - destruct (str_head _ I) as (q & b & Q & -> & _). exists q, b. split; [reflexivity|]. cbn [app].
    rewrite lex_punct_at.
    + destruct Q as [->| ->]; reflexivity.
    + destruct Q as [->| ->]; vm_compute; tauto.
    + auto.
    + destruct Q as [->| ->]; discriminate.
Qed.

(** ** Comments in front of a token *)
Lemma Gap_spaces sp : Spaces sp -> Gap sp [].
Proof. induction 1 as [|c sp H F IH]; [constructor|]. apply (gap_space c sp []) in H; [exact H|exact IH]. Qed.
Lemma place_app p a b : place p (a ++ b) = place p a ++ place p b.
Proof. apply map_app. Qed.
Definition texts (cs : list (str * mpos)) : list text := map (fun c => mkText (fst c) (snd c)) cs.

(** the comments in front of a token *)
Lemma lay_coms strict p r cs x q its p' r' : Lay strict p r (coms cs ++ Tok x q :: its) p' r' ->
  exists g gcs r1, r = g ++ x ++ r1 /\ Gap g gcs /\ place p gcs = texts cs /\ q = posafter p g /\
    token_at strict x r1 /\ Lay strict (posafter p (g ++ x)) r1 its p' r'.
Proof.
  revert p r. induction cs as [|[c cp] cs IH]; cbn [coms map app fst snd]; intros p r H.
  - inversion H; subst. exists sp, [], r0. repeat split; auto. apply Gap_spaces. assumption.
  - change (map (fun c => Com (fst c) (snd c)) cs) with (coms cs) in H. inversion H; subst.
    + match goal with H : Lay _ _ _ (coms cs ++ _) _ _ |- _ => apply IH in H; destruct H as (g & gcs & r1 & -> & G & P & -> & TA & L) end.
      exists (sp ++ (c ++ [NL]) ++ g), ([] ++ shift sp ([([], c)] ++ shift (c ++ [NL]) gcs)), r1.
      split; [rewrite <- !app_assoc; reflexivity|]. split.
      { apply Gap_app; [apply Gap_spaces; assumption|]. apply Gap_app; [apply Gap_line1; assumption|exact G]. }
      split. { cbn [app]. unfold shift at 1. rewrite place_skip. cbn [place map fst snd texts]. f_equal.
        etransitivity; [apply (place_skip _ (c ++ [NL]))|]. rewrite <- posafter_app. etransitivity; [|exact P]. rewrite ?app_assoc. reflexivity. }
      split; [rewrite <- posafter_app; f_equal; rewrite <- !app_assoc; reflexivity|]. split; [exact TA|].
      rewrite <- posafter_app in L. rewrite <- !app_assoc in *. exact L.
    + match goal with H : _ = coms cs ++ _ |- _ => destruct cs; discriminate end.
    + match goal with H : Lay _ _ _ (coms cs ++ _) _ _ |- _ => apply IH in H; destruct H as (g & gcs & r1 & -> & G & P & -> & TA & L) end.
      exists (sp ++ c ++ g), ([] ++ shift sp ([([], c)] ++ shift c gcs)), r1.
      split; [rewrite <- !app_assoc; reflexivity|]. split.
      { apply Gap_app; [apply Gap_spaces; assumption|]. apply Gap_app; [apply Gap_block1; assumption|exact G]. }
      split. { cbn [app]. unfold shift at 1. rewrite place_skip. cbn [place map fst snd texts]. f_equal.
        etransitivity; [apply (place_skip _ c)|]. rewrite <- posafter_app. etransitivity; [|exact P]. rewrite ?app_assoc. reflexivity. }
      split; [rewrite <- posafter_app; f_equal; rewrite <- !app_assoc; reflexivity|]. split; [exact TA|].
      rewrite <- posafter_app in L. rewrite <- !app_assoc in *. exact L.
Qed.
(** only comments left *)
Lemma lay_end strict p r cs p' sp : Lay strict p r (coms cs) p' sp -> Spaces sp ->
  exists gcs, EndGap r gcs /\ place p gcs = texts cs.
Proof.
  revert p r. induction cs as [|[c cp] cs IH]; cbn [coms map app fst snd]; intros p r H S.
  - inversion H; subst. exists []. split; [|reflexivity]. constructor. apply Gap_spaces. assumption.
  - change (map (fun c => Com (fst c) (snd c)) cs) with (coms cs) in H. inversion H; subst.
    + match goal with H : Lay _ _ _ (coms cs) _ _ |- _ => apply IH in H; [|assumption]; destruct H as (gcs & G & P) end.
      exists ([] ++ shift sp0 ([([], c)] ++ shift (c ++ [NL]) gcs)). split.
      { apply EndGap_app; [apply Gap_spaces; assumption|].
        replace (c ++ NL :: r0) with ((c ++ [NL]) ++ r0) by (rewrite <- app_assoc; reflexivity).
        apply EndGap_app; [apply Gap_line1; assumption|exact G]. }
      cbn [app]. unfold shift at 1. rewrite place_skip. cbn [place map fst snd texts]. f_equal.
      etransitivity; [apply (place_skip _ (c ++ [NL]))|]. rewrite <- posafter_app. etransitivity; [|exact P]. rewrite ?app_assoc. reflexivity.
    + match goal with H : [] = coms cs |- _ => destruct cs; [|discriminate] end.
      exists ([] ++ shift sp0 ([] ++ [([], c)])). split.
      { apply EndGap_app; [apply Gap_spaces; assumption|]. apply (egap_line [] [] c); [constructor|assumption]. }
      cbn. rewrite app_nil_r. reflexivity.
    + match goal with H : Lay _ _ _ (coms cs) _ _ |- _ => apply IH in H; [|assumption]; destruct H as (gcs & G & P) end.
      exists ([] ++ shift sp0 ([([], c)] ++ shift c gcs)). split.
      { apply EndGap_app; [apply Gap_spaces; assumption|]. apply EndGap_app; [apply Gap_block1; assumption|exact G]. }
      cbn [app]. unfold shift at 1. rewrite place_skip. cbn [place map fst snd texts]. f_equal.
      etransitivity; [apply (place_skip _ c)|]. rewrite <- posafter_app. etransitivity; [|exact P]. rewrite ?app_assoc. reflexivity.
Qed.

(** ** Comment mode *)
Lemma lex_c_block m b r : has m ScanComment = true -> block_body b ->
  lex m ((lit "/*" ++ b ++ lit "*/") ++ r) = comment_token (lit "/*" ++ b ++ lit "*/") (lit "/*" ++ b ++ lit "*/") r.
Proof.
  intros M B. change ((lit "/*" ++ b ++ lit "*/") ++ r) with (ch "/" :: ch "*" :: (b ++ lit "*/") ++ r). rewrite <- app_assoc, lex_cons.
  destruct slash_class as [-> ->]. rewrite N.eqb_refl. cbn [head_is]. change (ch "*" =? ch "/") with false. rewrite N.eqb_refl. cbv iota.
  rewrite (find_close_exact b r B), M. reflexivity.
Qed.
Lemma lex_c_line m b r : has m ScanComment = true -> ~ In NL b ->
  lex m ((lit "//" ++ b) ++ NL :: r) = comment_token (lit "//" ++ b) ((lit "//" ++ b) ++ [NL]) r.
Proof.
  intros M B. change ((lit "//" ++ b) ++ NL :: r) with (ch "/" :: ((ch "/" :: b) ++ NL :: r)). rewrite lex_cons.
  destruct slash_class as [-> ->]. rewrite N.eqb_refl. cbn [head_is app]. rewrite N.eqb_refl. cbv iota.
  change (ch "/" :: b ++ NL :: r) with ((ch "/" :: b) ++ NL :: r). rewrite span_exact, M; [reflexivity| |reflexivity].
  constructor; [reflexivity|]. apply Forall_forall. intros d Hd. apply negb_true_iff, N.eqb_neq. congruence.
Qed.
Lemma lex_c_end m b : has m ScanComment = true -> ~ In NL b ->
  lex m (lit "//" ++ b) = comment_token (lit "//" ++ b) (lit "//" ++ b) [].
Proof.
  intros M B. change (lit "//" ++ b) with (ch "/" :: (ch "/" :: b)). rewrite lex_cons.
  destruct slash_class as [-> ->]. rewrite N.eqb_refl. cbn [head_is app]. rewrite N.eqb_refl. cbv iota.
  assert (SP : span (fun d => negb (d =? NL)) (ch "/" :: b) = (ch "/" :: b, [])).
  { rewrite <- (app_nil_r (ch "/" :: b)) at 1. apply span_exact; [|reflexivity].
    constructor; [reflexivity|]. apply Forall_forall. intros d Hd. apply negb_true_iff, N.eqb_neq. congruence. }
  rewrite SP, M, app_nil_r. reflexivity.
Qed.
Lemma token_not_slash x r : token_at true x r -> exists c y, x = c :: y /\ isSpace c = false /\ (c =? ch "/") = false.
Proof.
  intros [[(c & l & -> & H & _) _]|[[H _]|[H|(c & -> & H & _)]]].
  - exists c, l. split; [reflexivity|]. apply ident_start_iff in H. destruct (identStart_class c H) as (A & B & _). auto.
  - assert (K : exists c y, x = c :: y /\ (digit c \/ ident_start c \/ c = ch ".")).
    { destruct H as [H|H].
      - apply int_head in H. destruct H as (c & l & -> & H). exists c, l. split; [reflexivity|tauto].
      - destruct (identb x) eqn:E.
        + apply identb_iff in E. destruct E as (c & l & -> & E & _). exists c, l. split; [reflexivity|tauto].
        + destruct (float_head x H) as (c & l & -> & K); [rewrite <- identb_iff; congruence|]. exists c, l. split; [reflexivity|tauto]. }
    destruct K as (c & y & -> & K). exists c, y. split; [reflexivity|]. destruct K as [K|[K| ->]].
    + destruct (digit_class c K) as (A & _ & B & _). auto.
    + apply ident_start_iff in K. destruct (identStart_class c K) as (A & B & _). auto.
    + auto.
  - destruct (str_head x H) as (q & b & Q & -> & _). exists q, b. split; [reflexivity|]. destruct Q as [->| ->]; auto.
  - destruct (punct_class c H) as (A & _ & B & _). eauto.
Qed.
Lemma lex_not_comment m c r : isSpace c = false -> (c =? ch "/") = false ->
  lx_tok (lex m (c :: r)) <> TCOMMENT /\ lx_cms (lex m (c :: r)) = [].
Proof.
  intros S C. rewrite lex_cons, S. destruct (identStart c).
  { destruct (span identChar r). cbn. split; [apply identToken_not|reflexivity]. }
  rewrite C. destruct (_ && _).
  { unfold lit_token. destruct (cons_out _ _) as [[[] w] r']; split; reflexivity || discriminate. }
  destruct (_ && _).
  { destruct (pnum c r) as [t o] eqn:P. unfold lit_token. destruct o as [[[] w] r']; [|split; [discriminate|reflexivity]]. cbn.
    pose proof (pnum_tok c r) as K. rewrite P in K. cbn in K. split; [destruct K as [->| ->]; discriminate|reflexivity]. }
  cbn. split; [apply misc_tokens|reflexivity].
Qed.

(** ** Items are laid out in ascending order *)
Definition ipos (i : item) : mpos := match i with Tok _ p | Com _ p => p end.
Definition before (a b : item) : Prop := (Offset (ipos a) < Offset (ipos b))%Z.
Lemma rune_len_pos c : valid_rune c -> (0 < rune_len c)%Z.
Proof.
  unfold valid_rune. intros H. unfold rune_len. destruct (_ <? _)%N; [lia|]. destruct (_ <? _)%N; [lia|].
  destruct (_ && _) eqn:E; [apply andb_true_iff in E; destruct E as [A B]; apply N.leb_le in A, B; lia|].
  destruct (_ <? _)%N; [lia|]. destruct (N.leb_spec c 0x10FFFF); lia.
Qed.
Lemma lens_nonneg w : Forall valid_rune w -> (0 <= lens w)%Z.
Proof. induction 1 as [|c w V H IH]; cbn [lens fold_right]; [lia|]. fold (lens w). pose proof (rune_len_pos c V). lia. Qed.
Lemma offset_le p x : Forall valid_rune x -> (Offset p <= Offset (posafter p x))%Z.
Proof. intros V. rewrite posafter_offset_lens. pose proof (lens_nonneg x V). lia. Qed.
Lemma offset_lt p x : Forall valid_rune x -> x <> [] -> (Offset p < Offset (posafter p x))%Z.
Proof.
  intros V. destruct V as [|c x V1 V2]; [congruence|]. intros _. rewrite posafter_offset_lens. cbn [lens fold_right]. fold (lens x).
  pose proof (lens_nonneg x V2). pose proof (rune_len_pos c V1). lia.
Qed.
Lemma token_nonempty s x r : token_at s x r -> x <> [].
Proof.
  destruct s; [|intros [H _]; destruct x; [destruct H|discriminate]]. intros H. apply token_not_slash in H. destruct H as (c & y & -> & _). discriminate.
Qed.
Lemma lay_above strict p r its p' r' : Lay strict p r its p' r' -> Forall valid_rune r -> Forall (fun i => (Offset p <= Offset (ipos i))%Z) its.
Proof.
  induction 1 as [|p sp x r its p' r' S TA L IH|p sp x r its p' r' S C L IH|p sp x S C|p sp x r its p' r' S C L IH]; intros V; constructor;
    rewrite ?Forall_app in V; try (apply offset_le; tauto); try exact (Forall_nil _).
  - destruct V as (V1 & V2 & V3). specialize (IH V3). revert IH. apply Forall_impl; intros i H; etransitivity; [|exact H]; apply offset_le. apply Forall_app. tauto.
  - destruct V as (V1 & V2 & V3). inversion V3; subst. assert (V4 : Forall valid_rune r) by assumption. specialize (IH V4). revert IH.
    apply Forall_impl; intros i H'; etransitivity; [|exact H']; apply offset_le. rewrite !Forall_app. repeat split; try tauto. constructor; [assumption|constructor].
  - destruct V as (V1 & V2 & V3). specialize (IH V3). revert IH. apply Forall_impl; intros i H; etransitivity; [|exact H]; apply offset_le. apply Forall_app. tauto.
Qed.
Lemma lay_sorted strict p r its p' r' : Lay strict p r its p' r' -> Forall valid_rune r -> StronglySorted before its.
Proof.
  induction 1 as [|p sp x r its p' r' S TA L IH|p sp x r its p' r' S C L IH|p sp x S C|p sp x r its p' r' S C L IH]; intros V; constructor;
    rewrite ?Forall_app in V; try exact (Forall_nil _); try constructor.
  - apply IH. tauto.
  - apply lay_above in L; [|tauto]. revert L. apply Forall_impl; intros i H; unfold before; cbn [ipos]; (eapply Z.lt_le_trans; [|exact H]).
    rewrite posafter_app. apply offset_lt; [tauto|]. eapply token_nonempty; exact TA.
  - apply IH. destruct V as (_ & _ & V). inversion V; assumption.
  - assert (V4 : Forall valid_rune r) by (destruct V as (_ & _ & V); inversion V; assumption).
    apply lay_above in L; [|exact V4]. revert L. apply Forall_impl; intros i H; unfold before; cbn [ipos]; (eapply Z.lt_le_trans; [|exact H]).
    rewrite posafter_app. apply offset_lt; [|destruct C as (b & -> & _); discriminate].
    rewrite Forall_app. split; [tauto|]. destruct V as (_ & _ & V); inversion V; subst. constructor; [assumption|constructor].
  - apply IH. tauto.
  - apply lay_above in L; [|tauto]. revert L. apply Forall_impl; intros i H; unfold before; cbn [ipos]; (eapply Z.lt_le_trans; [|exact H]).
    rewrite posafter_app. apply offset_lt; [tauto|]. destruct C as (b & -> & _). discriminate.
Qed.
