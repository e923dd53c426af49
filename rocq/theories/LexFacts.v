(** Facts about the pure lexer. *)
From Coq Require Import List NArith ZArith Bool String Ascii Lia.
From Verif Require Import Base Token Scanner Lexing ScanRefine.
Import ListNotations.
Open Scope N_scope.

(** ** Spans *)
Lemma span_spec p l a b : span p l = (a, b) ->
  l = a ++ b /\ Forall (fun c => p c = true) a /\ head_is p b = false.
Proof.
  revert a b. induction l as [|c l IH]; cbn; intros a b H.
  - injection H as <- <-. auto.
  - destruct (p c) eqn:E.
    + destruct (span p l) as [x y]. injection H as <- <-.
      destruct (IH x y eq_refl) as (-> & F & G). cbn. auto.
    + injection H as <- <-. cbn. auto.
Qed.
Lemma span_exact p a b : Forall (fun c => p c = true) a -> head_is p b = false -> span p (a ++ b) = (a, b).
Proof.
  intros F H. induction F as [|c a Hc F IH]; cbn.
  - destruct b as [|d b]; cbn in *; [reflexivity|]. rewrite H. reflexivity.
  - rewrite Hc, IH. reflexivity.
Qed.
Lemma span_len p l a b : span p l = (a, b) -> (List.length b <= List.length l)%nat.
Proof. intros H. apply span_spec in H. destruct H as (-> & _). rewrite app_length. lia. Qed.

Lemma find_close_spec l b r : find_close l = Some (b, r) ->
  l = b ++ r /\ (exists w, b = w ++ lit "*/").
Proof.
  revert b r. induction l as [|c l IH]; intros b r H; [discriminate|].
  cbn [find_close] in H. destruct (c =? ch "*") eqn:E; cbn [andb] in H.
  - destruct l as [|d l].
    + discriminate.
    + destruct (d =? ch "/") eqn:E2.
      * injection H as <- <-. split; [reflexivity|]. exists []. apply N.eqb_eq in E, E2. subst. reflexivity.
      * destruct (find_close (d :: l)) as [[b' r']|]; [|discriminate]. injection H as <- <-.
        destruct (IH _ _ eq_refl) as (-> & w & ->). split; [reflexivity|]. exists (c :: w). reflexivity.
  - destruct (find_close l) as [[b' r']|]; [|discriminate]. injection H as <- <-.
    destruct (IH _ _ eq_refl) as (-> & w & ->). split; [reflexivity|]. exists (c :: w). reflexivity.
Qed.
(** the closing [*/] is the first one *)
Lemma find_close_first l b r : find_close l = Some (b, r) ->
  forall x y, l = x ++ lit "*/" ++ y -> (List.length b <= List.length x + 2)%nat.
Proof.
  revert b r. induction l as [|c l IH]; intros b r H x y E; [discriminate|].
  cbn [find_close] in H. destruct ((c =? ch "*") && _) eqn:K.
  - destruct l as [|d l]; [discriminate|]. injection H as <- <-. cbn. lia.
  - destruct (find_close l) as [[b' r']|] eqn:F; [|discriminate]. injection H as <- <-.
    destruct x as [|x0 x].
    + cbn in E. injection E as -> ->. cbn in K. discriminate.
    + injection E as _ E. cbn. specialize (IH _ _ eq_refl x y E). lia.
Qed.
Lemma find_close_none l : find_close l = None -> forall x y, l <> x ++ lit "*/" ++ y.
Proof.
  induction l as [|c l IH]; intros H x y E.
  - destruct x; discriminate.
  - cbn [find_close] in H. destruct ((c =? ch "*") && _) eqn:K.
    + destruct l; [|discriminate]. apply andb_true_iff in K. destruct K as [_ K]. discriminate.
    + destruct (find_close l) as [[b' r']|] eqn:F; [discriminate|].
      destruct x as [|x0 x].
      * cbn in E. injection E as -> ->. cbn in K. discriminate.
      * injection E as _ E. exact (IH eq_refl x y E).
Qed.
Lemma find_close_exact b r :
  (forall x y, b ++ lit "*/" = x ++ lit "*/" ++ y -> y = []) ->
  find_close (b ++ lit "*/" ++ r) = Some (b ++ lit "*/", r).
Proof.
  induction b as [|c b IH]; intros H.
  - reflexivity.
  - cbn [app find_close].
    assert (K : (c =? ch "*") && match b ++ lit "*/" ++ r with d :: _ => d =? ch "/" | [] => false end = false).
    { destruct (N.eqb_spec c (ch "*")) as [->|]; [|reflexivity]. cbn [andb].
      destruct b as [|d b]; [reflexivity|]. cbn [app]. destruct (N.eqb_spec d (ch "/")) as [->|]; [|reflexivity].
      exfalso. specialize (H [] (b ++ lit "*/") eq_refl). destruct b; discriminate. }
    rewrite K. rewrite IH; [reflexivity|].
    intros x y E. apply (H (c :: x) y). cbn [app]. f_equal. exact E.
Qed.

(** ** Fuel *)
Definition after_nl (l : list rune) : list rune := match l with _ :: r => r | [] => [] end.
Definition first_rune (l : list rune) : list rune := match l with c :: _ => [c] | [] => [] end.

Lemma plex_fuel : forall n n' m r, (List.length r < n)%nat -> (List.length r < n')%nat -> plex n m r = plex n' m r.
Proof.
  induction n as [|n IH]; intros n' m r H H'; [lia|]. destruct n' as [|n']; [lia|].
  cbn [plex]. destruct r as [|c r]; [reflexivity|]. cbn in H, H'.
  destruct (isSpace c); [f_equal; apply IH; lia|].
  destruct (identStart c); [reflexivity|].
  destruct (c =? ch "/"); [|reflexivity].
  destruct (head_is (fun d => d =? ch "/") r).
  - destruct (span _ r) as [b r2] eqn:E. apply span_len in E.
    destruct (has m ScanComment); [reflexivity|]. f_equal. apply IH; destruct r2; cbn in *; lia.
  - destruct (head_is _ r); [|reflexivity]. destruct r as [|d r]; [reflexivity|].
    destruct (find_close r) as [[b r3]|] eqn:E; [|reflexivity].
    apply find_close_spec in E. destruct E as [-> _]. cbn in *. rewrite app_length in *.
    destruct (has m ScanComment); [reflexivity|]. f_equal. apply IH; lia.
Qed.
Lemma plex_lex n m r : (List.length r < n)%nat -> plex n m r = lex m r.
Proof. intros H. apply plex_fuel; lia. Qed.

(** ** Unfolding *)
Lemma lex_nil m : lex m [] = mkLexed [] [] TEOF [] [] []. Proof. reflexivity. Qed.
Lemma lex_cons m c r' : lex m (c :: r') =
      if isSpace c then skip [c] [] (lex m r')
      else if identStart c then
        let '(x, r1) := span identChar r' in
        mkLexed [] [] (identToken m (c :: x)) (c :: x) (c :: x) r1
      else if c =? ch "/" then
        if head_is (fun d => d =? ch "/") r' then
          let '(b, r2) := span (fun d => negb (d =? NL)) r' in
          if has m ScanComment then comment_token (c :: b) (c :: b ++ first_rune r2) (after_nl r2)
          else skip (c :: b ++ first_rune r2) [([], c :: b)] (lex m (after_nl r2))
        else if head_is (fun d => d =? ch "*") r' then
          match r' with
          | d :: r2 =>
            match find_close r2 with
            | Some (b, r3) =>
              if has m ScanComment then comment_token (c :: d :: b) (c :: d :: b) r3
              else skip (c :: d :: b) [([], c :: d :: b)] (lex m r3)
            | None => mkLexed [] [] TILLEGAL [] (c :: r') []
            end
          | [] => mkLexed [] [] TILLEGAL [] (c :: r') []
          end
        else match r' with
             | d :: r2 => mkLexed [] [] TILLEGAL [] [c; d] r2
             | [] => mkLexed [] [] TILLEGAL [] [c] []
             end
      else if isQuote c && has m ScanStrLit then
        lit_token TSTRLIT (cons_out [c] (pstr (S (List.length r')) c r'))
      else if (isDecimalDigit c || (c =? ch ".")) && has m ScanNumberLit then
        let '(t, o) := pnum c r' in lit_token t o
      else mkLexed [] [] (asMiscToken c) [c] [c] r'.
Proof.
  unfold lex at 1. cbn [List.length]. change (plex (S (S (List.length r'))) m (c :: r')) with
    (match c :: r' with
    | [] => mkLexed [] [] TEOF [] [] []
    | c :: r' =>
      if isSpace c then skip [c] [] (plex (S (List.length r')) m r')
      else if identStart c then
        let '(x, r1) := span identChar r' in
        mkLexed [] [] (identToken m (c :: x)) (c :: x) (c :: x) r1
      else if c =? ch "/" then
        if head_is (fun d => d =? ch "/") r' then
          let '(b, r2) := span (fun d => negb (d =? NL)) r' in
          let nl := match r2 with d :: _ => [d] | [] => [] end in
          let r3 := match r2 with _ :: r3 => r3 | [] => [] end in
          if has m ScanComment then comment_token (c :: b) (c :: b ++ nl) r3
          else skip (c :: b ++ nl) [([], c :: b)] (plex (S (List.length r')) m r3)
        else if head_is (fun d => d =? ch "*") r' then
          match r' with
          | d :: r2 =>
            match find_close r2 with
            | Some (b, r3) =>
              if has m ScanComment then comment_token (c :: d :: b) (c :: d :: b) r3
              else skip (c :: d :: b) [([], c :: d :: b)] (plex (S (List.length r')) m r3)
            | None => mkLexed [] [] TILLEGAL [] (c :: r') []
            end
          | [] => mkLexed [] [] TILLEGAL [] (c :: r') []
          end
        else match r' with
             | d :: r2 => mkLexed [] [] TILLEGAL [] [c; d] r2
             | [] => mkLexed [] [] TILLEGAL [] [c] []
             end
      else if isQuote c && has m ScanStrLit then
        lit_token TSTRLIT (cons_out [c] (pstr (S (List.length r')) c r'))
      else if (isDecimalDigit c || (c =? ch ".")) && has m ScanNumberLit then
        let '(t, o) := pnum c r' in lit_token t o
      else mkLexed [] [] (asMiscToken c) [c] [c] r'
    end). cbv beta iota zeta.
  rewrite (plex_lex _ m r') by lia.
  destruct (isSpace c); [reflexivity|]. destruct (identStart c); [reflexivity|].
  destruct (c =? ch "/"); [|reflexivity].
  destruct (head_is (fun d => d =? ch "/") r').
  - destruct (span _ r') as [b r2] eqn:E. apply span_len in E.
    rewrite (plex_lex _ m (match r2 with _ :: r3 => r3 | [] => [] end)); [reflexivity|].
    destruct r2; cbn in *; lia.
  - destruct (head_is _ r'); [|reflexivity]. destruct r' as [|d r2]; [reflexivity|].
    destruct (find_close r2) as [[b r3]|] eqn:E; [|reflexivity].
    apply find_close_spec in E. destruct E as [-> _].
    rewrite (plex_lex _ m r3); [reflexivity|]. cbn. rewrite app_length. lia.
Qed.
Lemma lex_space m c r : isSpace c = true -> lex m (c :: r) = skip [c] [] (lex m r).
Proof. intros H. rewrite lex_cons, H. reflexivity. Qed.
Lemma identStart_class c : identStart c = true -> isSpace c = false /\ (c =? ch "/") = false /\ isQuote c = false
   /\ (isDecimalDigit c || (c =? ch ".")) = false.
Proof.
  unfold identStart, isLetter, isSpace, isQuote, isDecimalDigit, ch, SQ, DQ. cbn [N_of_ascii N_of_digits].
  intros H.
  repeat (match goal with
   | H : context[?a <? ?b] |- _ => destruct (N.ltb_spec a b); try discriminate
   | H : context[?a =? ?b] |- _ => destruct (N.eqb_spec a b); try discriminate
   end; cbn [andb orb] in * );
  repeat split; repeat (rewrite ?orb_false_iff, ?andb_false_iff); rewrite ?N.eqb_neq, ?N.leb_gt; lia.
Qed.
Lemma lex_ident m c r : identStart c = true ->
  lex m (c :: r) = let '(x, r1) := span identChar r in mkLexed [] [] (identToken m (c :: x)) (c :: x) (c :: x) r1.
Proof.
  intros H. destruct (identStart_class c H) as (S & _). rewrite lex_cons, S, H. reflexivity.
Qed.
Lemma slash_class : isSpace (ch "/") = false /\ identStart (ch "/") = false. Proof. split; reflexivity. Qed.
Lemma lex_line m b r : has m ScanComment = false -> ~ In NL b ->
  lex m (lit "//" ++ b ++ NL :: r) = skip (lit "//" ++ b ++ [NL]) [([], lit "//" ++ b)] (lex m r).
Proof.
  intros M H. change (lit "//" ++ b ++ NL :: r) with (ch "/" :: ch "/" :: b ++ NL :: r).
  rewrite lex_cons. destruct slash_class as [-> ->]. rewrite N.eqb_refl.
  cbn [head_is]. rewrite N.eqb_refl.
  change (ch "/" :: b ++ NL :: r) with ((ch "/" :: b) ++ NL :: r).
  rewrite (span_exact (fun d => negb (d =? NL)) (ch "/" :: b) (NL :: r)); [| |reflexivity].
  - rewrite M. reflexivity.
  - constructor; [reflexivity|].
    apply Forall_forall. intros x Hx. apply negb_true_iff, N.eqb_neq. intros ->. auto.
Qed.
Lemma lex_line_eof m b : has m ScanComment = false -> ~ In NL b ->
  lex m (lit "//" ++ b) = mkLexed (lit "//" ++ b) [([], lit "//" ++ b)] TEOF [] [] [].
Proof.
  intros M H. change (lit "//" ++ b) with (ch "/" :: ch "/" :: b).
  rewrite lex_cons. destruct slash_class as [-> ->]. rewrite N.eqb_refl.
  cbn [head_is]. rewrite N.eqb_refl.
  replace (ch "/" :: b) with ((ch "/" :: b) ++ []) at 1 by apply app_nil_r.
  rewrite (span_exact (fun d => negb (d =? NL)) (ch "/" :: b) []); [| |reflexivity].
  - rewrite M. cbn [first_rune after_nl]. rewrite lex_nil, app_nil_r. unfold skip. cbn [lx_gap lx_cms lx_tok lx_txt lx_raw lx_rest map].
    rewrite !app_nil_r. reflexivity.
  - constructor; [reflexivity|].
    apply Forall_forall. intros x Hx. apply negb_true_iff, N.eqb_neq. intros ->. auto.
Qed.
Lemma lex_block m b r : has m ScanComment = false ->
  (forall x y, b ++ lit "*/" = x ++ lit "*/" ++ y -> y = []) ->
  lex m (lit "/*" ++ b ++ lit "*/" ++ r) = skip (lit "/*" ++ b ++ lit "*/") [([], lit "/*" ++ b ++ lit "*/")] (lex m r).
Proof.
  intros M H. change (lit "/*" ++ b ++ lit "*/" ++ r) with (ch "/" :: ch "*" :: b ++ lit "*/" ++ r).
  rewrite lex_cons. destruct slash_class as [-> ->]. rewrite N.eqb_refl.
  cbn [head_is]. change (ch "*" =? ch "/") with false. cbn iota.
  rewrite N.eqb_refl. rewrite find_close_exact by exact H.
  rewrite M. reflexivity.
Qed.
