(** Proofs of the statements of PropScan.v from the lemmas about scanner and lexer. *)
From Coq Require Import List NArith ZArith Bool String Ascii Lia.
From Verif Require Import Base Token Scanner Lexer LexSpec Lexing ScanRefine LexFacts LexProofs ScanFacts LexerFacts ScanProps Utf8 ReadBuffer.
Import ListNotations.
Local Open Scope N_scope.

Ltac readable_tac := repeat constructor; vm_compute; try discriminate; try (left; reflexivity).
Lemma p_C08_refuted_double_unscan : exists text ops, readable text /\
  (Offset (pos (srun ops (init_st [] text))) < 0)%Z.
Proof. exists (lit "ab"), [OScan 0; OUnScan; OUnScan]. split; [readable_tac|vm_compute; reflexivity]. Qed.

Lemma p_C08_case :
  let text := lit "a /*" ++ [NL; 0x20AC] ++ lit "*/ b" ++ [NL] ++ lit "c" in
  let ops := [OScan 0; OScan 0; OUnScan; OScan ScanComment; OUnScan; OScan 0; OScan ScanLit] in
  readable text /\ spaced ops /\
  pos (srun ops (init_st [] text)) = mkPos [] 14 3 2 /\
  pos (srun (firstn 6 ops) (init_st [] text)) = mkPos [] 12 2 6.
Proof.
  split; [readable_tac|]. split; [|vm_compute; split; reflexivity].
  intros a b H. do 7 (destruct a as [|? a]; [discriminate|injection H as _ H]). destruct a; discriminate.
Qed.

Lemma p_C10_identifier_maximal_munch : forall s g cs c r,
  readable (rest s) -> rest s = g ++ c :: r -> gap_in (mode s) g cs -> ident_start c ->
  exists t x r' p s', c :: r = x ++ r' /\ is_ident x /\ (match r' with [] => True | d :: _ => ~ ident_char d end) /\
    Scan s = (Ok (t, x, p, None), s') /\ rest s' = r' /\ moved (pos s) g p.
Proof.
  intros s g cs c r N E G H. destruct (scan_ident s g cs c r (readable_nonul _ N) E G H) as (t & x & r' & s' & A & B & C & D & F & _).
  exists t, x, r', (posafter (pos s) g), s'. repeat split; try assumption; apply posafter_moved; rewrite E in N; apply readable_app in N; apply readable_valid; tauto.
Qed.

Lemma p_C11_sound : forall s t x p e s', nonul (rest s) -> Scan s = (Ok (t, x, p, e), s') ->
  (t = TINTLIT -> is_int x) /\ (t = TFLOATLIT -> is_float x /\ is_plain_float x).
Proof. intros. destruct (scan_sound_lits s t x p e s') as (A & B & _); [assumption|assumption|]. split; [exact A|]. intros F. split; [apply plain_float|]; auto. Qed.

Lemma p_C11_complete_int : forall s g cs x r,
  nonul (rest s) -> rest s = g ++ x ++ r -> gap_in (mode s) g cs -> has (mode s) ScanNumberLit = true ->
  is_int x -> delimited r ->
  exists p s', Scan s = (Ok (TINTLIT, x, p, None), s') /\ rest s' = r.
Proof. intros s g cs x r N E G M X D. destruct (scan_int s g cs x r N E G M X D) as (s' & H). eauto. Qed.

Lemma p_C11_complete_float_partial : forall s g cs x r,
  nonul (rest s) -> rest s = g ++ x ++ r -> gap_in (mode s) g cs -> has (mode s) ScanNumberLit = true ->
  is_plain_float x -> delimited r ->
  exists p s', Scan s = (Ok (TFLOATLIT, x, p, None), s') /\ rest s' = r.
Proof. intros s g cs x r N E G M X D. destruct (scan_float s g cs x r N E G M X D) as (s' & H). eauto. Qed.

Lemma p_C11_refuted : exists x s, is_float x /\ rest s = x /\ has (mode s) ScanNumberLit = true /\
  exists p s', Scan s = (Ok (TINTLIT, lit "01", p, None), s') /\ rest s' = lit ".5".
Proof.
  exists (lit "01.5"), (set_mode ScanLit (init_st [] (lit "01.5"))). split.
  - change (lit "01.5") with (lit "01" ++ lit "." ++ lit "5" ++ []). apply float_point.
    + split; [discriminate|]. repeat (constructor; [unfold digit; vm_compute; split; discriminate|]). constructor.
    + right. split; [discriminate|]. repeat (constructor; [unfold digit; vm_compute; split; discriminate|]). constructor.
    + left. reflexivity.
  - split; [reflexivity|]. split; [reflexivity|]. eexists _, _. split; vm_compute; reflexivity.
Qed.

Lemma p_C12_sound : forall s x p e s', nonul (rest s) -> Scan s = (Ok (TSTRLIT, x, p, e), s') -> is_str x.
Proof. intros s x p e s' N Q. destruct (scan_sound_lits s _ x p e s' N Q) as (_ & _ & H). auto. Qed.

Lemma p_C12_complete : forall s g cs x r,
  nonul (rest s) -> rest s = g ++ x ++ r -> gap_in (mode s) g cs -> has (mode s) ScanStrLit = true ->
  is_doc_str x \/ is_str x ->
  exists p s', Scan s = (Ok (TSTRLIT, x, p, None), s') /\ rest s' = r.
Proof.
  intros s g cs x r N E G M X. assert (X' : is_str x) by (destruct X; [apply doc_str_str|]; assumption).
  destruct (scan_str s g cs x r N E G M X') as (s' & H). eauto.
Qed.

Lemma p_C12_case :
  let x := [DQ] ++ lit "a'\x4F\101\n" ++ [backslash; DQ] ++ [DQ] in
  is_doc_str x /\ fst (Scan (set_mode ScanStrLit (init_st [] (x ++ lit "b")))) = Ok (TSTRLIT, x, mkPos [] 0 1 1, None).
Proof.
  split; [|reflexivity]. exists DQ, (lit "a'\x4F\101\n" ++ [backslash; DQ]). split; [auto|]. split; [reflexivity|].
  change (lit "a'\x4F\101\n" ++ [backslash; DQ]) with
    (ch "a" :: SQ :: backslash :: ch "x" :: ch "4" :: ch "F" :: backslash :: ch "1" :: ch "0" :: ch "1" :: backslash :: ch "n" :: backslash :: DQ :: []).
  do 2 (apply db_plain; try discriminate).
  apply db_hex; [auto|left; vm_compute; split; discriminate|right; left; vm_compute; split; discriminate|].
  apply db_oct; try (vm_compute; split; discriminate).
  apply db_char; [vm_compute; auto 10|]. apply db_char; [vm_compute; auto 20|]. constructor.
Qed.

Lemma p_C13_comment_token : forall s g x r,
  readable (rest s) -> has (mode s) ScanComment = true -> Spaces g ->
  (is_block_comment x /\ rest s = g ++ x ++ r \/ is_line_comment x /\ rest s = g ++ x ++ [NL] ++ r \/ is_line_comment x /\ rest s = g ++ x /\ r = []) ->
  exists p s', Scan s = (Ok (TCOMMENT, x, p, None), s') /\ rest s' = r /\ moved (pos s) g p /\
    comments s' = comments s ++ [mkText x p].
Proof.
  intros s g x r N M G H. destruct (scan_comment s g x r (readable_nonul _ N) M G H) as (s' & A & B & C).
  exists (posafter (pos s) g), s'. split; [exact A|]. split; [exact B|]. split; [|exact C].
  apply posafter_moved. destruct H as [[_ E]|[[_ E]|[_ [E _]]]]; rewrite E in N; apply readable_app in N; apply readable_valid; tauto.
Qed.

Lemma p_C13_comments_skipped : forall s s2 g cs r,
  readable (rest s) -> has (mode s) ScanComment = false -> Gap g cs ->
  rest s = g ++ r -> rest s2 = r -> mode s2 = mode s -> moved (pos s) g (pos s2) ->
  exists t x p e e2 s' s2', Scan s = (Ok (t, x, p, e), s') /\ Scan s2 = (Ok (t, x, p, e2), s2') /\
    (e = None <-> e2 = None) /\ rest s' = rest s2' /\ pos s' = pos s2' /\
    exists l0 l, comments s' = comments s ++ l0 ++ l /\ comments s2' = comments s2 ++ l /\
      Forall2 (fun gc tx => Literal tx = snd gc /\ moved (pos s) (fst gc) (TPos tx)) cs l0.
Proof.
  intros s s2 g cs r N M G E E2 M2 P. assert (V : readable g) by (rewrite E in N; apply readable_app in N; tauto).
  destruct (scan_skips s s2 g cs r (readable_nonul _ N) M G E E2 M2) as (t & x & p & e & e2 & s' & s2' & A & B & C & D & F & l & H1 & H2).
  { apply (moved_unique (pos s) g); [exact P|]. apply posafter_moved. apply readable_valid. exact V. }
  exists t, x, p, e, e2, s', s2'. repeat (split; [assumption|]). exists (place (pos s) cs), l. repeat (split; [assumption|]).
  apply place_moved. apply Gap_prefix in G. revert G. apply Forall_impl. intros [a b] (z & ->). apply readable_app in V. apply readable_valid. tauto.
Qed.

Lemma p_C13_unterminated : forall s g cs r,
  nonul (rest s) -> gap_in (mode s) g cs -> rest s = g ++ r ->
  ((exists b, r = lit "/*" ++ b /\ forall x y, b <> x ++ lit "*/" ++ y) \/
   (exists b, r = lit "/" ++ b /\ match b with c :: _ => c <> ch "/" /\ c <> ch "*" | [] => True end)) ->
  exists p e s', Scan s = (Ok (TILLEGAL, [], p, Some e), s').
Proof. intros s g cs r N G E H. destruct (scan_bad_comment s g cs r N G E H) as (e & s' & Q). eauto. Qed.

Lemma p_C15_peek : forall s, nonul (rest s) -> exists s1 s2,
  Next s = (Ok tt, s1) /\ Peek s = (Ok (ltok s1), s2) /\
  rest s2 = rest s /\ pos s2 = pos s /\ mode s2 = mode s /\
  exists s3, Next s2 = (Ok tt, s3) /\ ltok s3 = ltok s1 /\ ltext s3 = ltext s1 /\ lpos s3 = lpos s1 /\ rest s3 = rest s1 /\ pos s3 = pos s1.
Proof.
  intros s N. destruct (Peek_spec s N) as (s1 & s2 & Q & H & U & P). exists s1, s2. split; [exact Q|]. split; [exact P|].
  assert (R : rest s2 = rest s) by apply (un_rest _ _ _ U). assert (PP : pos s2 = pos s) by apply (un_pos _ _ _ U).
  assert (M : mode s2 = mode s) by (rewrite (un_mode _ _ _ U); apply (nx_mode _ _ H)).
  repeat (split; [assumption|]). destruct (Next_spec s2) as (s3 & Q3 & H3); [rewrite R; exact N|]. exists s3. split; [exact Q3|].
  assert (L : lexs s2 = lexs s) by (unfold lexs; rewrite R, M; reflexivity).
  rewrite (nx_tok _ _ H3), (nx_tok _ _ H), (nx_txt _ _ H3), (nx_txt _ _ H), (nx_lpos _ _ H3), (nx_lpos _ _ H), (nx_rest _ _ H3), (nx_rest _ _ H), (nx_pos _ _ H3), (nx_pos _ _ H), L, PP. auto.
Qed.

Lemma p_C15_peekn : forall n s, nonul (rest s) -> exists s1 s2,
  NextN n s = (Ok tt, s1) /\ PeekN n s = (Ok (ltok s1), s2) /\ rest s2 = rest s /\ pos s2 = pos s /\ mode s2 = mode s.
Proof. intros n s N. destruct (PeekN_spec n s N) as (s1 & s2 & A & B & C & D & E & _). eauto 10. Qed.

Lemma p_C16_consume : forall t s, nonul (rest s) -> exists s1 s2,
  Next s = (Ok tt, s1) /\ ConsumeToken t s = (Ok tt, s2) /\
  (ltok s1 = t -> ltok s2 = t /\ rest s2 = rest s1 /\ pos s2 = pos s1) /\
  (ltok s1 <> t -> ltok s2 = TILLEGAL /\ rest s2 = rest s /\ pos s2 = pos s).
Proof.
  intros t s N. destruct (ConsumeToken_spec t s N) as (s1 & s2 & Q & H & C & D). exists s1, s2. split; [exact Q|]. split; [exact C|].
  destruct D as [[D ->]|[D U]]; (split; [intros E; try contradiction|intros E; try contradiction]).
  - auto.
  - split; [apply (un_tok _ _ _ U)|]. split; [apply (un_rest _ _ _ U)|apply (un_pos _ _ _ U)].
Qed.

Lemma p_C16_told_apart : forall t s, nonul (rest s) -> t <> TILLEGAL -> exists s1 s2,
  Next s = (Ok tt, s1) /\ ConsumeToken t s = (Ok tt, s2) /\ (ltok s2 = t <-> ltok s1 = t).
Proof.
  intros t s N T. destruct (ConsumeToken_spec t s N) as (s1 & s2 & Q & H & C & D). exists s1, s2. split; [exact Q|]. split; [exact C|].
  destruct D as [[D ->]|[D U]]; [tauto|]. rewrite (un_tok _ _ _ U). split; [congruence|contradiction].
Qed.

Lemma p_C17_decode_encode : forall rs, Forall valid_rune rs ->
  utf8_decode (flat_map encode_rune rs) = rs.
Proof.
  intros rs V. assert (B : Forall (fun b => b < 256) (flat_map encode_rune rs)).
  { apply Forall_flat_map. revert V. apply Forall_impl. intros c H. apply encode_bytes. exact H. }
  destruct (decode_spec _ B) as (k & D). apply (Decodes_det _ _ _ D _ 0%nat). apply Decodes_encode. exact V.
Qed.

Lemma p_C17_refuted_ill_formed : exists bs s, Forall (fun b => b < 256) bs /\ s = init_st [] (utf8_decode bs) /\
  bs = [0xFF; 0x61] /\ Offset (pos (snd (Scan (snd (Scan s))))) = 4%Z.
Proof. exists [0xFF; 0x61]. eexists. split; [repeat constructor|]. split; [reflexivity|]. split; reflexivity. Qed.

Lemma p_C40_model_agrees : forall b s, agrees b s ->
  (exists s', read s = (Ok (fst (b_read b)), s') /\ agrees (snd (b_read b)) s') /\
  (forall c, agrees (b_unread c b) (unread c s)) /\ agrees (b_unscan b) (UnScan s).
Proof.
  intros b s A. split; [|split].
  - destruct (read_agrees b s A) as (s' & H & H'). exists s'. split; [|exact H']. rewrite H.
    destruct (N.eqb_spec (fst (b_read b)) eof) as [->|]; reflexivity.
  - intros c. apply unread_agrees. exact A.
  - apply unscan_agrees. exact A.
Qed.
