(** Properties of the scanner and the lexer: C06-C08, C10-C17, C40.
    The specification is in LexSpec.v ([moved], [Gap], [is_ident], ...). *)
From Coq Require Import List NArith ZArith Bool String Ascii Lia.
From Verif Require Import Base Token Scanner Lexer LexSpec Lexing ScanRefine LexFacts LexProofs ScanFacts LexerFacts ScanProps Utf8 ReadBuffer ScanThms.
Import ListNotations.
Local Open Scope N_scope.


(** C06: after Scan in any mode, UnScan restores what is read next and the position;
    scanning again gives the same token, text, position and outcome. *)
Theorem C06_unscan_restores : forall s, nonul (rest s) ->
  exists t x p e s', Scan s = (Ok (t, x, p, e), s') /\
    rest (UnScan s') = rest s /\ pos (UnScan s') = pos s /\ mode (UnScan s') = mode s /\
    exists e' s'', Scan (UnScan s') = (Ok (t, x, p, e'), s'') /\ rest s'' = rest s' /\ pos s'' = pos s' /\ (e = None <-> e' = None).
Proof. exact scan_unscan. Qed.
Print Assumptions C06_unscan_restores.
Example C06_case :
  let s := init_st [] (lit "  // c" ++ [NL] ++ lit " foo = 1") in
  nonul (rest s) /\ pos (snd (Scan s)) <> pos s /\ pos (UnScan (snd (Scan s))) = pos s.
Proof. split; [repeat constructor; discriminate|]. vm_compute. split; [discriminate|reflexivity]. Qed.

(** C07: the text of a token is the input at its position; what is skipped is
    whitespace and, outside comment mode, comments, which are recorded with their
    positions. *)
Theorem C07_token_is_source_text : forall s t x p e s',
  readable (rest s) -> Scan s = (Ok (t, x, p, e), s') ->
  exists g cs r, rest s = g ++ r /\ moved (pos s) g p /\
    (t = TEOF -> r = [] /\ rest s' = [] /\ x = [] /\ e = None) /\
    (t <> TEOF -> t <> TCOMMENT -> e = None -> r = x ++ rest s' /\ x <> []) /\
    (t = TCOMMENT -> is_comment x /\ e = None /\ has (mode s) ScanComment = true /\
         (r = x ++ rest s' \/ is_line_comment x /\ r = x ++ NL :: rest s')) /\
    (if has (mode s) ScanComment then Spaces g /\ cs = (if token_eq_dec t TCOMMENT then [(g, x)] else [])
     else if token_eq_dec t TEOF then EndGap g cs else Gap g cs) /\
    (exists l, comments s' = comments s ++ l /\ Forall2 (fun gc tx => Literal tx = snd gc /\ moved (pos s) (fst gc) (TPos tx)) cs l).
Proof. exact scan_source. Qed.
Print Assumptions C07_token_is_source_text.
Example C07_case :
  let s := init_st [] (lit " /* c */ foo = 1") in
  fst (Scan s) = Ok (TIDENT, lit "foo", mkPos [] 9 1 10, None) /\
  comments (snd (Scan s)) = [mkText (lit "/* c */") (mkPos [] 1 1 2)].
Proof. vm_compute. split; reflexivity. Qed.

(** C08: the position is a function of the consumed text, for every sequence of
    Scan (in any modes) and UnScan in which UnScan undoes a Scan. *)
Theorem C08_position_of_consumed_text : forall filename text ops,
  readable text -> spaced ops ->
  exists w, text = w ++ rest (srun ops (init_st filename text)) /\
    moved (mkPos filename 0 1 1) w (pos (srun ops (init_st filename text))).
Proof. exact positions_from_text. Qed.
Print Assumptions C08_position_of_consumed_text.
(** Whatever the sequence, bytes and lines consumed and left add up. *)
Theorem C08_balance : forall text filename ops, readable text ->
  let s := srun ops (init_st filename text) in
  (Offset (pos s) + utf8_bytes (rest s) = utf8_bytes text /\ Line (pos s) + newlines (rest s) = 1 + newlines text)%Z /\
  Filename (pos s) = filename.
Proof. exact balance. Qed.
Print Assumptions C08_balance.
(** Two UnScans in a row give the last token back twice: the position becomes negative. *)
Theorem C08_refuted_double_unscan : exists text ops, readable text /\
  (Offset (pos (srun ops (init_st [] text))) < 0)%Z.
Proof. exact p_C08_refuted_double_unscan. Qed.
Print Assumptions C08_refuted_double_unscan.
Example C08_case :
  let text := lit "a /*" ++ [NL; 0x20AC] ++ lit "*/ b" ++ [NL] ++ lit "c" in
  let ops := [OScan 0; OScan 0; OUnScan; OScan ScanComment; OUnScan; OScan 0; OScan ScanLit] in
  readable text /\ spaced ops /\
  pos (srun ops (init_st [] text)) = mkPos [] 14 3 2 /\
  pos (srun (firstn 6 ops) (init_st [] text)) = mkPos [] 12 2 6.
Proof. exact p_C08_case. Qed.

(** C10 *)
Theorem C10_identifier_maximal_munch : forall s g cs c r,
  readable (rest s) -> rest s = g ++ c :: r -> gap_in (mode s) g cs -> ident_start c ->
  exists t x r' p s', c :: r = x ++ r' /\ is_ident x /\ (match r' with [] => True | d :: _ => ~ ident_char d end) /\
    Scan s = (Ok (t, x, p, None), s') /\ rest s' = r' /\ moved (pos s) g p.
Proof. exact p_C10_identifier_maximal_munch. Qed.
Print Assumptions C10_identifier_maximal_munch.
Example C10_case :
  let s := init_st [] (lit " _a1" ++ [0xE9] ++ lit "b") in
  gap_in (mode s) (lit " ") [] /\ fst (Scan s) = Ok (TIDENT, lit "_a1", mkPos [] 1 1 2, None).
Proof. split; [apply Gap_space1; reflexivity|reflexivity]. Qed.

(** C11 *)
Theorem C11_sound : forall s t x p e s', nonul (rest s) -> Scan s = (Ok (t, x, p, e), s') ->
  (t = TINTLIT -> is_int x) /\ (t = TFLOATLIT -> is_float x /\ is_plain_float x).
Proof. exact p_C11_sound. Qed.
Print Assumptions C11_sound.
Theorem C11_complete_int : forall s g cs x r,
  nonul (rest s) -> rest s = g ++ x ++ r -> gap_in (mode s) g cs -> has (mode s) ScanNumberLit = true ->
  is_int x -> delimited r ->
  exists p s', Scan s = (Ok (TINTLIT, x, p, None), s') /\ rest s' = r.
Proof. exact p_C11_complete_int. Qed.
Print Assumptions C11_complete_int.
(** floats whose integral part has no leading zero; the others are split, see below *)
Theorem C11_complete_float_partial : forall s g cs x r,
  nonul (rest s) -> rest s = g ++ x ++ r -> gap_in (mode s) g cs -> has (mode s) ScanNumberLit = true ->
  is_plain_float x -> delimited r ->
  exists p s', Scan s = (Ok (TFLOATLIT, x, p, None), s') /\ rest s' = r.
Proof. exact p_C11_complete_float_partial. Qed.
Print Assumptions C11_complete_float_partial.
(** The float literal 01.5 of the grammar is returned as the integer 01. *)
Theorem C11_refuted : exists x s, is_float x /\ rest s = x /\ has (mode s) ScanNumberLit = true /\
  exists p s', Scan s = (Ok (TINTLIT, lit "01", p, None), s') /\ rest s' = lit ".5".
Proof. exact p_C11_refuted. Qed.
Print Assumptions C11_refuted.
Example C11_cases : map (fun x => match fst (Scan (set_mode ScanLit (init_st [] (lit x)))) with Ok (t, l, _, None) => (t, l) | _ => (TILLEGAL, []) end)
  ["0 "; "0x1Fg"; "017;"; "1.5e+10]"; ".5"; "inf,"; "0.e1"; "10"]%string =
  [(TINTLIT, lit "0"); (TINTLIT, lit "0x1F"); (TINTLIT, lit "017"); (TFLOATLIT, lit "1.5e+10"); (TFLOATLIT, lit ".5"); (TFLOATLIT, lit "inf"); (TFLOATLIT, lit "0.e1"); (TINTLIT, lit "10")].
Proof. reflexivity. Qed.

(** C12 *)
Theorem C12_sound : forall s x p e s', nonul (rest s) -> Scan s = (Ok (TSTRLIT, x, p, e), s') -> is_str x.
Proof. exact p_C12_sound. Qed.
Print Assumptions C12_sound.
Theorem C12_complete : forall s g cs x r,
  nonul (rest s) -> rest s = g ++ x ++ r -> gap_in (mode s) g cs -> has (mode s) ScanStrLit = true ->
  is_doc_str x \/ is_str x ->
  exists p s', Scan s = (Ok (TSTRLIT, x, p, None), s') /\ rest s' = r.
Proof. exact p_C12_complete. Qed.
Print Assumptions C12_complete.
Example C12_case :
  let x := [DQ] ++ lit "a'\x4F\101\n" ++ [backslash; DQ] ++ [DQ] in
  is_doc_str x /\ fst (Scan (set_mode ScanStrLit (init_st [] (x ++ lit "b")))) = Ok (TSTRLIT, x, mkPos [] 0 1 1, None).
Proof. exact p_C12_case. Qed.

(** C13 *)
Theorem C13_comment_token : forall s g x r,
  readable (rest s) -> has (mode s) ScanComment = true -> Spaces g ->
  (is_block_comment x /\ rest s = g ++ x ++ r \/ is_line_comment x /\ rest s = g ++ x ++ [NL] ++ r \/ is_line_comment x /\ rest s = g ++ x /\ r = []) ->
  exists p s', Scan s = (Ok (TCOMMENT, x, p, None), s') /\ rest s' = r /\ moved (pos s) g p /\
    comments s' = comments s ++ [mkText x p].
Proof. exact p_C13_comment_token. Qed.
Print Assumptions C13_comment_token.
Theorem C13_comments_skipped : forall s s2 g cs r,
  readable (rest s) -> has (mode s) ScanComment = false -> Gap g cs ->
  rest s = g ++ r -> rest s2 = r -> mode s2 = mode s -> moved (pos s) g (pos s2) ->
  exists t x p e e2 s' s2', Scan s = (Ok (t, x, p, e), s') /\ Scan s2 = (Ok (t, x, p, e2), s2') /\
    (e = None <-> e2 = None) /\ rest s' = rest s2' /\ pos s' = pos s2' /\
    exists l0 l, comments s' = comments s ++ l0 ++ l /\ comments s2' = comments s2 ++ l /\
      Forall2 (fun gc tx => Literal tx = snd gc /\ moved (pos s) (fst gc) (TPos tx)) cs l0.
Proof. exact p_C13_comments_skipped. Qed.
Print Assumptions C13_comments_skipped.
Theorem C13_unterminated : forall s g cs r,
  nonul (rest s) -> gap_in (mode s) g cs -> rest s = g ++ r ->
  ((exists b, r = lit "/*" ++ b /\ forall x y, b <> x ++ lit "*/" ++ y) \/
   (exists b, r = lit "/" ++ b /\ match b with c :: _ => c <> ch "/" /\ c <> ch "*" | [] => True end)) ->
  exists p e s', Scan s = (Ok (TILLEGAL, [], p, Some e), s').
Proof. exact p_C13_unterminated. Qed.
Print Assumptions C13_unterminated.
Example C13_cases :
  fst (Scan (set_mode ScanComment (init_st [] (lit "/* a // * / **/ b")))) = Ok (TCOMMENT, lit "/* a // * / **/", mkPos [] 0 1 1, None) /\
  fst (Scan (set_mode ScanComment (init_st [] (lit " // a */ b")))) = Ok (TCOMMENT, lit "// a */ b", mkPos [] 1 1 2, None) /\
  fst (Scan (init_st [] (lit "/* a */ /* // */ b"))) = Ok (TIDENT, lit "b", mkPos [] 17 1 18, None) /\
  (exists p e, fst (Scan (init_st [] (lit "/*/ a"))) = Ok (TILLEGAL, [], p, Some e)).
Proof. repeat split. eexists _, _. vm_compute. reflexivity. Qed.

(** C14 *)
Theorem C14_keywords : forall s t x p s', nonul (rest s) -> Scan s = (Ok (t, x, p, None), s') ->
  (forall k, In k (map snd keywords) -> (t = k <-> has (mode s) ScanKeyword = true /\ exists name, x = lit name /\ In (name, k) keywords)) /\
  (t = TBOOLLIT <-> has (mode s) ScanBoolLit = true /\ (x = lit "true" \/ x = lit "false")) /\
  (is_ident x -> t = TFLOATLIT <-> has (mode s) ScanNumberLit = true /\ (x = lit "inf" \/ x = lit "nan")) /\
  (t = TIDENT <-> is_ident x /\
     ~ (has (mode s) ScanBoolLit = true /\ (x = lit "true" \/ x = lit "false")) /\
     ~ (has (mode s) ScanNumberLit = true /\ (x = lit "inf" \/ x = lit "nan")) /\
     ~ (has (mode s) ScanKeyword = true /\ exists name k, x = lit name /\ In (name, k) keywords)).
Proof. exact scan_keywords. Qed.
Print Assumptions C14_keywords.
Example C14_cases : map (fun '(m, x) => match fst (Scan (set_mode m (init_st [] (lit x)))) with Ok (t, _, _, None) => t | _ => TILLEGAL end)
  [(ScanKeyword, "message"); (ScanKeyword, "messages"); (0, "message"); (ScanLit, "message"); (ScanLit, "true"); (ScanLit, "nan"); (ScanKeyword, "true"); (0, "nan")]%string =
  [TMESSAGE; TIDENT; TIDENT; TIDENT; TBOOLLIT; TFLOATLIT; TIDENT; TIDENT].
Proof. reflexivity. Qed.

(** C15 *)
Theorem C15_peek : forall s, nonul (rest s) -> exists s1 s2,
  Next s = (Ok tt, s1) /\ Peek s = (Ok (ltok s1), s2) /\
  rest s2 = rest s /\ pos s2 = pos s /\ mode s2 = mode s /\
  exists s3, Next s2 = (Ok tt, s3) /\ ltok s3 = ltok s1 /\ ltext s3 = ltext s1 /\ lpos s3 = lpos s1 /\ rest s3 = rest s1 /\ pos s3 = pos s1.
Proof. exact p_C15_peek. Qed.
Print Assumptions C15_peek.
Theorem C15_peekn : forall n s, nonul (rest s) -> exists s1 s2,
  NextN n s = (Ok tt, s1) /\ PeekN n s = (Ok (ltok s1), s2) /\ rest s2 = rest s /\ pos s2 = pos s /\ mode s2 = mode s.
Proof. exact p_C15_peekn. Qed.
Print Assumptions C15_peekn.
Example C15_case :
  let s := init_st [] (lit "a // c" ++ [NL] ++ lit " . b ( c") in
  map (fun n => match fst (PeekN n s) with Ok t => t | _ => TILLEGAL end) [1; 2; 3; 4; 5; 6]%nat =
  [TIDENT; TDOT; TIDENT; TLEFTPAREN; TIDENT; TEOF] /\ pos (snd (PeekN 5 s)) = pos s /\ rest (snd (PeekN 5 s)) = rest s.
Proof. vm_compute. repeat split. Qed.

(** C16 *)
Theorem C16_consume : forall t s, nonul (rest s) -> exists s1 s2,
  Next s = (Ok tt, s1) /\ ConsumeToken t s = (Ok tt, s2) /\
  (ltok s1 = t -> ltok s2 = t /\ rest s2 = rest s1 /\ pos s2 = pos s1) /\
  (ltok s1 <> t -> ltok s2 = TILLEGAL /\ rest s2 = rest s /\ pos s2 = pos s).
Proof. exact p_C16_consume. Qed.
Print Assumptions C16_consume.
(** for the tokens the parser asks for (not TILLEGAL) Token tells what happened *)
Theorem C16_told_apart : forall t s, nonul (rest s) -> t <> TILLEGAL -> exists s1 s2,
  Next s = (Ok tt, s1) /\ ConsumeToken t s = (Ok tt, s2) /\ (ltok s2 = t <-> ltok s1 = t).
Proof. exact p_C16_told_apart. Qed.
Print Assumptions C16_told_apart.
Example C16_case :
  let s := init_st [] (lit " ; a") in
  rest (snd (ConsumeToken TSEMICOLON s)) = lit " a" /\ rest (snd (ConsumeToken TCOMMA s)) = rest s.
Proof. split; reflexivity. Qed.

(** C17: bytes.  Well-formed UTF-8: decoding and re-encoding is the identity, and in every
    history the offset is the byte index. *)
Theorem C17_decode_encode : forall rs, Forall valid_rune rs ->
  utf8_decode (flat_map encode_rune rs) = rs.
Proof. exact p_C17_decode_encode. Qed.
Print Assumptions C17_decode_encode.
(** Any bytes: the text is decoded into scalar values; at any time the position's offset is the
    byte index plus two for every ill-formed byte passed (it counts as the three bytes of U+FFFD). *)
Theorem C17_offset : forall bs filename ops, Forall (fun b => b < 256) bs -> ~ In 0 bs -> spaced ops ->
  let s := srun ops (init_st filename (utf8_decode bs)) in
  exists before after bad, bs = before ++ after /\ rest s = utf8_decode after /\
    Offset (pos s) = (Z.of_nat (List.length before) + 2 * Z.of_nat bad)%Z /\
    ((exists rs, Forall valid_rune rs /\ bs = flat_map encode_rune rs) -> bad = 0%nat).
Proof. exact offset_bytes. Qed.
Print Assumptions C17_offset.
Theorem C17_refuted_ill_formed : exists bs s, Forall (fun b => b < 256) bs /\ s = init_st [] (utf8_decode bs) /\
  bs = [0xFF; 0x61] /\ Offset (pos (snd (Scan (snd (Scan s))))) = 4%Z.
Proof. exact p_C17_refuted_ill_formed. Qed.
Print Assumptions C17_refuted_ill_formed.
Example C17_case : let bs := [0x61; 0xC3; 0xA9; 0xE2; 0x82; 0xAC; 0xF0; 0x9F; 0x98; 0x80; 0x62] in
  Forall (fun b => b < 256) bs /\ utf8_decode bs = [0x61; 0xE9; 0x20AC; 0x1F600; 0x62] /\
  map (fun n => Offset (pos (srun (repeat (OScan 0) n) (init_st [] (utf8_decode bs))))) [1; 2; 3; 4; 5]%nat = [1; 3; 6; 10; 11]%Z.
Proof. split; [repeat constructor|]. split; reflexivity. Qed.

(** C40 *)
Theorem C40_unread_buffer_transparent : forall os b,
  fst (b_run os b) = fst (l_run os (pending b)) /\ pending (snd (b_run os b)) = snd (l_run os (pending b)).
Proof. exact b_run_spec. Qed.
Print Assumptions C40_unread_buffer_transparent.
(** the scanner model reads from that single list *)
Theorem C40_model_agrees : forall b s, agrees b s ->
  (exists s', read s = (Ok (fst (b_read b)), s') /\ agrees (snd (b_read b)) s') /\
  (forall c, agrees (b_unread c b) (unread c s)) /\ agrees (b_unscan b) (UnScan s).
Proof. exact p_C40_model_agrees. Qed.
Print Assumptions C40_model_agrees.
Example C40_case :
  fst (b_run [ORead; ORead; OUnread (ch "x"); OUnread (ch "y"); OPeek; ORead; ORead; ORead] (mkBuf [] (lit "abc") [] (mkPos [] 0 1 1, [])))
  = map (fun o => option_map ch o) [Some "a"; Some "b"; None; None; Some "y"; Some "y"; Some "x"; Some "c"]%char.
Proof. reflexivity. Qed.
