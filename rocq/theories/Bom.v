(** A byte order mark in front of a text. *)
From Coq Require Import List NArith ZArith Bool String Ascii Lia.
From Verif Require Import Base Token Scanner Lexer Ast Parser Api AstMap Simul Lexing ScanRefine LexFacts LexSpec LexProofs LexerFacts SimSpec SimCases FuelMono.
Import ListNotations.
Open Scope N_scope.
Open Scope monad_scope.

(** ** The comments in front of a token, one by one and all at once *)
Lemma plex_comments : forall n r, (List.length r < n)%nat ->
  if tok_eqb (lx_tok (plex n ScanComment r)) TCOMMENT
  then exists g l w r', r = (g ++ w) ++ r' /\ w <> [] /\ lx_gap (plex n ScanComment r) = g /\ lx_raw (plex n ScanComment r) = w /\ lx_rest (plex n ScanComment r) = r' /\
         lx_cms (plex n ScanComment r) = [(g, l)] /\ lx_cms (plex n 0 r) = (g, l) :: map (fun pc => ((g ++ w) ++ fst pc, snd pc)) (lx_cms (lex 0 r'))
  else lx_cms (plex n ScanComment r) = [] /\ lx_cms (plex n 0 r) = [].
Proof.
  induction n as [|n IH]; intros r L; [lia|]. destruct r as [|c r]; [cbn; auto|]. cbn [List.length] in L. cbn [plex].
  destruct (isSpace c) eqn:SP.
  { specialize (IH r ltac:(lia)). unfold skip. cbn [lx_tok lx_gap lx_cms lx_raw lx_rest]. destruct (tok_eqb _ TCOMMENT).
    - destruct IH as (g & l & w & r' & E & W & H1 & H2 & H3 & H4 & H5). exists (c :: g), l, w, r'. rewrite H1, H2, H3, H4, H5. subst r. repeat split; auto.
      cbn [app map fst snd]. f_equal. rewrite map_map. reflexivity.
    - destruct IH as [H1 H2]. rewrite H1, H2. auto. }
  destruct (identStart c). { destruct (span identChar r) as [x r1]. cbn [lx_tok lx_cms]. change (identToken ScanComment (c :: x)) with TIDENT. cbn. auto. }
  destruct (c =? ch "/").
  { destruct (head_is _ r).
    - destruct (span _ r) as [b r2] eqn:SPN. cbn [has]. change (has ScanComment ScanComment) with true. change (has 0 ScanComment) with false. cbn [comment_token lx_tok lx_gap lx_raw lx_rest lx_cms tok_eqb skip].
      exists [], (c :: b), (c :: b ++ match r2 with d :: _ => [d] | [] => [] end), (match r2 with _ :: r3 => r3 | [] => [] end). apply span_app in SPN.
      assert (E : (b ++ match r2 with d :: _ => [d] | [] => [] end) ++ match r2 with _ :: r3 => r3 | [] => [] end = r). { subst r. destruct r2; cbn; rewrite ?app_nil_r, <- ?app_assoc; reflexivity. }
      repeat split; auto; [cbn; rewrite E; reflexivity|discriminate|].
      cbn [app]. f_equal. rewrite plex_lex; [reflexivity|]. rewrite <- E, app_length in L. lia.
    - destruct (head_is _ r).
      + destruct r as [|d r2]; [cbn; auto|]. destruct (find_close r2) as [[b r3]|] eqn:FC; [|cbn; auto]. change (has ScanComment ScanComment) with true. change (has 0 ScanComment) with false. cbn [comment_token lx_tok lx_gap lx_raw lx_rest lx_cms tok_eqb skip].
        apply find_close_app in FC. exists [], (c :: d :: b), (c :: d :: b), r3. repeat split; auto; [cbn; rewrite FC; reflexivity|discriminate|].
        cbn [app]. f_equal. rewrite plex_lex; [reflexivity|]. cbn [List.length] in L. rewrite FC, app_length in L. lia.
      + destruct r; cbn; auto. }
  change (has ScanComment ScanStrLit) with false. change (has ScanComment ScanNumberLit) with false. change (has 0 ScanStrLit) with false. change (has 0 ScanNumberLit) with false. rewrite !andb_false_r.
  cbn [lx_tok lx_cms]. replace (tok_eqb (asMiscToken c) TCOMMENT) with false; [auto|]. unfold asMiscToken. repeat match goal with |- context [if ?b then _ else _] => destruct b end; reflexivity.
Qed.
Lemma lex_comments r :
  if tok_eqb (lx_tok (lex ScanComment r)) TCOMMENT
  then exists g l w r', r = (g ++ w) ++ r' /\ w <> [] /\ lx_gap (lex ScanComment r) = g /\ lx_raw (lex ScanComment r) = w /\ lx_rest (lex ScanComment r) = r' /\
         lx_cms (lex ScanComment r) = [(g, l)] /\ lx_cms (lex 0 r) = (g, l) :: map (fun pc => ((g ++ w) ++ fst pc, snd pc)) (lx_cms (lex 0 r'))
  else lx_cms (lex ScanComment r) = [] /\ lx_cms (lex 0 r) = [].
Proof. apply plex_comments. lia. Qed.

Lemma NextComment_spec s : nonul (rest s) -> mode s = 0 -> exists s1, NextComment s = (Ok tt, s1) /\ nexted (set_mode ScanComment s) (set_mode ScanComment s1) /\ mode s1 = 0.
Proof.
  intros N M. destruct (Next_spec (set_mode ScanComment s) N) as (s1 & Q & X). unfold NextComment, nextWithSpecificMode, bind, gets, modify. rewrite Q. eexists. split; [reflexivity|]. split; [|exact M].
  destruct X. split; assumption || reflexivity.
Qed.
Lemma UnScan_comments s : comments (UnScan s) = comments s.
Proof. unfold UnScan. generalize (rev (raw s)) as l. intros l. revert s. induction l as [|c l IH]; intros s; [reflexivity|]. cbn [fold_left]. rewrite IH. reflexivity. Qed.

Lemma comments_loop : forall n s l o s', nonul (rest s) -> mode s = 0 -> parseComments_loop n l s = (Ok o, s') ->
  comments s' = comments s ++ place (pos s) (lx_cms (lex 0 (rest s))).
Proof.
  induction n as [|n IH]; intros s l o s' N M H; cbn [parseComments_loop] in H; [discriminate H|].
  destruct (NextComment_spec s N M) as (s1 & Q & X & M1). unfold parseComment in H. rewrite (try_bind _ _ _ _ _ _ Q) in H. unfold try, bind at 1, gets at 1 in H.
  destruct X as [X1 X2 X3 X4 X5 X6 X7 X8 X9 X10 X11]. unfold lexs in *. cbn [mode rest pos comments ltok set_mode] in *. rewrite X7 in H. pose proof (lex_comments (rest s)) as C.
  destruct (tok_eqb (lx_tok (lex ScanComment (rest s))) TCOMMENT).
  - destruct C as (g & t & w & r' & E & W & H1 & H2 & H3 & H4 & H5). unfold bind, gets, mk_comment in H. destruct (AdvancedBulk (lpos s1) (cols s1) (ltext s1)) as [lp cl]. rewrite H3 in X1.
    apply IH in H; [|cbn; rewrite X1; rewrite E in N; apply nonul_app in N; tauto|exact M1]. cbn [comments pos rest set_pc set_raw fst snd] in H. rewrite H, X6, H4, H5, <- app_assoc, X1. f_equal.
    cbn [place map fst snd app]. f_equal. rewrite X3. unfold lx_all. rewrite H1, H2. symmetry. apply place_skip.
  - unfold bind, UnNext, modify, fail, ret in H. injection H as _ <-. cbn [comments set_tokpos]. rewrite UnScan_comments, X6. destruct C as [-> ->]. reflexivity.
Qed.
Lemma comments_read s o s' : nonul (rest s) -> mode s = 0 -> ParseComments s = (Ok o, s') -> comments s' = comments s ++ place (pos s) (lx_cms (lex 0 (rest s))).
Proof. intros N M H. exact (comments_loop _ _ _ _ _ N M H). Qed.

(** ** Repeated comments *)
Lemma same_refl c : same_comment c c = true.
Proof. unfold same_comment. rewrite Z.eqb_refl, (proj2 (str_eqb_eq _ _) eq_refl). reflexivity. Qed.
Lemma unique_app a : forall acc b, unique_comments acc (a ++ b) = unique_comments (unique_comments acc a) b.
Proof. induction a as [|c a IH]; intros acc b; [reflexivity|]. cbn [app unique_comments]. destruct (existsb _ acc); apply IH. Qed.
Lemma unique_keeps l : forall acc c, existsb (fun u => same_comment c u) acc = true -> existsb (fun u => same_comment c u) (unique_comments acc l) = true.
Proof. induction l as [|x l IH]; intros acc c H; [exact H|]. cbn [unique_comments]. destruct (existsb (fun u => same_comment x u) acc); apply IH; [exact H|]. rewrite existsb_app, H. reflexivity. Qed.
Lemma unique_has l : forall acc c, In c l -> existsb (fun u => same_comment c u) (unique_comments acc l) = true.
Proof.
  induction l as [|x l IH]; intros acc c H; [contradiction|]. cbn [unique_comments]. destruct H as [->|H].
  - destruct (existsb (fun u => same_comment c u) acc) eqn:E; apply unique_keeps; [exact E|]. rewrite existsb_app. cbn. rewrite same_refl. rewrite orb_true_r. reflexivity.
  - destruct (existsb (fun u => same_comment x u) acc); apply IH, H.
Qed.
Lemma unique_none l : forall acc, (forall c, In c l -> existsb (fun u => same_comment c u) acc = true) -> unique_comments acc l = acc.
Proof. induction l as [|x l IH]; intros acc H; [reflexivity|]. cbn [unique_comments]. rewrite (H x (or_introl eq_refl)). apply IH. intros c I. apply H. right. exact I. Qed.
Lemma unique_twice l : unique_comments [] (l ++ l) = unique_comments [] l.
Proof. rewrite unique_app. apply unique_none. intros c I. apply unique_has, I. Qed.

(** ** The two runs *)
Notation BPE := (PE behind plain).
Lemma bpe p p' : BPE p p' <-> Filename p' = Filename p /\ Offset p' = (Offset p + 3)%Z /\ Line p' = Line p.
Proof. unfold PE, plain, behind. split; [intros H; injection H; auto|intros (-> & -> & ->); reflexivity]. Qed.
Notation BCR := (fun _ _ : colmap => True).
Lemma b_line p p' q q' : BPE p p' -> BPE q q' -> (Line p' =? Line q')%Z = (Line p =? Line q)%Z. Proof. intros H K. apply bpe in H, K. destruct H as (_ & _ & ->), K as (_ & _ & ->). reflexivity. Qed.
Lemma b_off p p' : BPE p p' -> Offset p' = (Offset p + 3)%Z. Proof. intros H. apply bpe in H. tauto. Qed.
Lemma b_name p p' : BPE p p' -> Filename p' = Filename p. Proof. intros H. apply bpe in H. tauto. Qed.
Lemma b_adv a a' r : PCR behind plain BCR a a' -> PCR behind plain BCR (Advance a r) (Advance a' r).
Proof.
  destruct a as [p c], a' as [p' c']. intros [H _]. cbn in H. apply bpe in H. destruct H as (H1 & H2 & H3). split; [|exact I]. unfold Advance.
  destruct (r =? NL); cbn; apply bpe; cbn; repeat split; try assumption; lia.
Qed.
Lemma b_rev a a' r : PCR behind plain BCR a a' -> PCR behind plain BCR (Revert a r) (Revert a' r).
Proof.
  destruct a as [p c], a' as [p' c']. intros [H _]. cbn in H. apply bpe in H. destruct H as (H1 & H2 & H3). split; [|exact I]. unfold Revert.
  destruct (r =? NL); cbn; apply bpe; cbn; repeat split; try assumption; lia.
Qed.
Local Arguments map_body : simpl never.
Lemma b_bic bic l l' : map (map_comment plain) l' = map (map_comment behind) l -> map_body plain false (body_comments bic l') = map_body behind false (body_comments bic l).
Proof.
  destruct bic; [|reflexivity]. cbn. revert l'. induction l as [|a l IH]; intros [|a' l'] H; try discriminate H; [reflexivity|]. cbn [map] in *. pose proof (f_equal (hd (map_comment plain a)) H) as E1. pose proof (f_equal (@tl _) H) as E2. cbn [hd tl] in E1, E2. clear H.
  unfold map_body in *. cbn [map filter dropped negb map_visitee]. f_equal; [|apply IH; exact E2]. f_equal. exact E1.
Qed.
Lemma b_unique l l' : Forall2 (TR behind plain) l l' -> UC behind plain l l'.
Proof.
  intros F. enough (H : forall k k', UC behind plain k k' -> UC behind plain (k ++ l) (k' ++ l')) by (apply (H [] []); constructor).
  induction F as [|a a' l l' T F IH]; intros k k' H; [rewrite !app_nil_r; exact H|]. specialize (IH (k ++ [a]) (k' ++ [a']) (UC_snoc behind plain 3 b_off _ _ _ _ H T)). rewrite <- !app_assoc in IH. exact IH.
Qed.
Lemma first_next s : nonul (rest s) -> mode s = 0 -> exists s1 s2, Next s = (Ok tt, s1) /\ ltok s1 = lx_tok (lex 0 (rest s)) /\ UnNext s1 = (Ok tt, s2) /\
  rest s2 = rest s /\ pos s2 = pos s /\ mode s2 = 0 /\ comments s2 = comments s ++ place (pos s) (lx_cms (lex 0 (rest s))).
Proof.
  intros N M. destruct (Next_spec s N) as (s1 & Q & H). destruct (UnNext_nexted s s1 H) as (s2 & Q2 & U). exists s1, s2. destruct H, U. unfold lexs in *. rewrite M in *. repeat split; congruence.
Qed.
Lemma ParseComments_raw s : ParseComments (set_raw [] s) = ParseComments s.
Proof. reflexivity. Qed.
Theorem bom_runs perm bic n fn input : nonul input -> lx_tok (lex 0 input) <> TBOM ->
  map_res plain false (fun x => x) (fst (ParseProto perm bic n (init_st fn (BOM :: input)))) =
  map_res behind false (fun x => x) (fst (ParseProto perm bic n (init_st fn input))).
Proof.
  intros N T. destruct (first_next (init_st fn input) N eq_refl) as (s1 & s2 & Q1 & T1 & Q2 & R2 & P2 & M2 & C2). cbn [rest pos comments init_st app] in *.
  rewrite !proto_next. unfold bind at 1 2. rewrite Q1.
  assert (QB : exists t, Next (init_st fn (BOM :: input)) = (Ok tt, t) /\ ltok t = TBOM /\ rest t = input /\ pos t = mkPos fn 3 1 2 /\ mode t = 0 /\ comments t = []).
  { eexists. split; [reflexivity|]. repeat split. }
  destruct QB as (t & QB & TB & RB & PB & MB & CB). rewrite QB. unfold protoK, bind, gets. rewrite TB, T1. change ((if tok_eqb TBOM TBOM then ret tt else UnNext) t) with (@Ok unit tt, t). cbv iota beta. destruct (tok_eqb (lx_tok (lex 0 input)) TBOM) eqn:ET. { exfalso. apply T. destruct (lx_tok (lex 0 input)); try discriminate ET. reflexivity. }
  rewrite Q2.
  set (L0 := place (mkPos fn 0 1 1) (lx_cms (lex 0 input))) in *.
  set (CM := fun l l' => exists l1, l = L0 ++ l1 /\ Forall2 (TR behind plain) l1 l').
  assert (CS : forall l l' c c', CM l l' -> TR behind plain c c' -> CM (l ++ [c]) (l' ++ [c'])).
  { intros l l' c c' (l1 & E & F) HT. exists (l1 ++ [c]). split; [rewrite E, app_assoc; reflexivity|]. apply Forall2_app; [exact F|constructor; [exact HT|constructor]]. }
  assert (S : SR behind plain BCR CM (fun _ _ => True) (set_raw [] s2) (set_raw [] t)).
  { split; cbn; try congruence; try exact I.
    - apply bpe. rewrite PB, P2. repeat split; reflexivity.
    - exists []. rewrite C2, CB, app_nil_r. split; [reflexivity|constructor]. }
  assert (N2 : nonul (rest s2)) by (rewrite R2; exact N).
  destruct (NextComment_spec (set_raw [] s2) N2 M2) as (s3 & Q3 & _ & _).
  pose proof (x_comments_any behind plain BCR b_adv b_rev CM CS _ _ _ _ S Q3) as K. rewrite !ParseComments_raw in K. 
  destruct (ParseComments s2) as [[cs|e| |] u] eqn:EC, (ParseComments t) as [[cs'|e'| |] u']; try contradiction K; cbn [fst map_res]; try reflexivity.
  2: { f_equal. exact (proj1 K). }
  destruct K as [KC KS]. pose proof (comments_read s2 cs u N2 M2 EC) as CU. rewrite R2, P2, C2 in CU. cbn [pos init_st] in CU.
  assert (S3 : SR behind plain BCR (UC behind plain) (LP behind plain) u u').
  { destruct KS as [K1 K2 K3 K4 K5 K6 K7]. split; try assumption. destruct K6 as (l1 & E & F). change (place _ (lx_cms (lex 0 input))) with L0 in CU. rewrite CU in E. apply app_inv_head in E. subst l1.
    apply b_unique in F. unfold UC in *. rewrite CU, unique_twice. exact F. }
  pose proof (x_protoR behind plain false false bic bic 3 BCR (fun x => x) (fun x => x) b_line b_off b_name b_adv b_rev (b_bic bic) (UC behind plain) (UC_snoc behind plain 3 b_off) (fun _ _ h => h) perm n cs cs' KC u u' S3) as H.
  destruct (protoR perm bic n cs u) as [[a|e| |] v], (protoR perm bic n cs' u') as [[a'|e'| |] v']; try contradiction H; cbn [fst map_res]; try reflexivity; f_equal; exact (proj1 H).
Qed.
Theorem bom_fuel n opts input : nonul input -> lx_tok (lex 0 input) <> TBOM ->
  map_res plain false (fun x => x) (parse_fuel n opts (BOM :: input)) = map_res behind false (fun x => x) (parse_fuel n opts input).
Proof. intros N T. apply bom_runs; assumption. Qed.
Lemma map_res_fuel f b nm r : map_res f b nm r = Fuel -> r = Fuel. Proof. destruct r; discriminate || reflexivity. Qed.
Theorem bom_parse opts input : nonul input -> lx_tok (lex 0 input) <> TBOM -> Parse opts input <> Fuel ->
  map_res plain false (fun x => x) (Parse opts (BOM :: input)) = map_res behind false (fun x => x) (Parse opts input).
Proof.
  intros N T F. unfold Parse in *. cbn [List.length]. rewrite <- (fuel_enough (S (S (List.length input))) (S (S (S (List.length input)))) opts input) by (lia || exact F). apply bom_fuel; assumption.
Qed.

(** ** A text that starts with a byte order mark itself *)
Lemma plex_bom : forall n r, (List.length r < n)%nat -> lx_tok (plex n 0 r) = TBOM -> lx_raw (plex n 0 r) = [BOM].
Proof.
  induction n as [|n IH]; intros r L; [lia|]. destruct r as [|c r]; [discriminate|]. cbn [List.length] in L. cbn [plex].
  destruct (isSpace c); [cbn [skip lx_tok lx_raw]; apply IH; lia|].
  destruct (identStart c). { destruct (span identChar r) as [x r1]. change (identToken 0 (c :: x)) with TIDENT. discriminate. }
  destruct (c =? ch "/").
  { destruct (head_is _ r).
    - destruct (span _ r) as [b r2] eqn:SPN. change (has 0 ScanComment) with false. cbn [lx_tok lx_raw skip]. apply IH. apply span_app in SPN. subst r. rewrite app_length in L. destruct r2; cbn in *; lia.
    - destruct (head_is _ r); [|destruct r; discriminate]. destruct r as [|d r2]; [discriminate|]. destruct (find_close r2) as [[b r3]|] eqn:FC; [|discriminate]. change (has 0 ScanComment) with false. cbn [lx_tok lx_raw skip].
      apply IH. apply find_close_app in FC. subst r2. cbn in L. rewrite app_length in L. lia. }
  change (has 0 ScanStrLit) with false. change (has 0 ScanNumberLit) with false. rewrite !andb_false_r. cbn [lx_tok lx_raw].
  unfold asMiscToken. repeat match goal with |- context[c =? ?b] => destruct (N.eqb_spec c b); [subst; intros H; discriminate H || reflexivity|] end. discriminate.
Qed.
Lemma first_bom input : lx_tok (lex 0 input) = TBOM -> starts_with_bom input.
Proof.
  intros T. pose proof (lex_gap_ok 0 input) as G. pose proof (lex_app 0 input) as A. unfold lexed_app in A. rewrite (plex_bom _ _ (le_n _) T : lx_raw (lex 0 input) = _) in A. unfold gap_ok in G. rewrite T in G. cbn in G.
  exists (lx_gap (lex 0 input)), (lx_cms (lex 0 input)), (lx_rest (lex 0 input)). split; [exact G|exact A].
Qed.

Theorem bom_skipped opts input : nonul input -> ~ starts_with_bom input -> Parse opts input <> Fuel ->
  map_res plain false (fun x => x) (Parse opts (BOM :: input)) = map_res behind false (fun x => x) (Parse opts input).
Proof. intros N B. apply bom_parse; [exact N|]. intros T. apply B, first_bom, T. Qed.
