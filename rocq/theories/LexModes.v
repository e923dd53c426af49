(** Tokens read in different modes. *)
From Coq Require Import List NArith ZArith Bool String Ascii Lia.
From Verif Require Import Base Token Scanner Lexer Lexing ScanRefine Ast Parser Cursor Pure LexFacts LexSpec LexProofs Strict Term Term2.
Import ListNotations.
Open Scope N_scope.

(** ** Tokens in different modes *)
Lemma lex_past_comment r : lx_tok (lex ScanComment r) = TCOMMENT ->
  let c := lex ScanComment r in let x := lex 0 r in let y := lex 0 (lx_rest c) in
  lx_tok x = lx_tok y /\ lx_txt x = lx_txt y /\ lx_raw x = lx_raw y /\ lx_rest x = lx_rest y /\ lx_gap x = (lx_gap c ++ lx_raw c) ++ lx_gap y.
Proof.
  induction r as [r IH] using len_ind. destruct r as [|c r]; [discriminate|]. rewrite !lex_cons. change (has ScanComment ScanComment) with true. change (has 0 ScanComment) with false.
  destruct (isSpace c).
  { intros H. specialize (IH r ltac:(cbn; lia) H). cbn zeta in *. unfold skip. cbn [lx_gap lx_cms lx_txt lx_raw lx_rest lx_tok]. destruct IH as (A & B & C & D & E). rewrite A, B, C, D, E. repeat split; reflexivity. }
  destruct (identStart c). { destruct (span identChar r) as [x r1]. change (identToken ScanComment (c :: x)) with TIDENT. discriminate. }
  destruct (c =? ch "/").
  - destruct (head_is _ r); [destruct (span _ r) as [b r2]; intros _; cbn; auto|]. destruct (head_is _ r); [|destruct r; discriminate].
    destruct r as [|d r2]; [discriminate|]. destruct (find_close r2) as [[b r3]|]; [|discriminate]. intros _. cbn. auto.
  - change (has ScanComment ScanStrLit) with false. change (has ScanComment ScanNumberLit) with false. rewrite !andb_false_r. cbn [lx_tok].
    unfold asMiscToken. repeat match goal with |- context [if ?b then _ else _] => destruct b end; discriminate.
Qed.
Lemma lex_str_quote r : lx_tok (lex ScanLit r) = TSTRLIT -> lx_tok (lex 0 r) = TQUOTE.
Proof.
  induction r as [r IH] using len_ind. destruct r as [|c r]; [discriminate|]. rewrite !lex_cons. change (has ScanLit ScanComment) with false. change (has 0 ScanComment) with false.
  destruct (isSpace c). { intros H. exact (IH r ltac:(cbn; lia) H). }
  destruct (identStart c) eqn:IS.
  { destruct (span identChar r) as [x r1]. cbn [lx_tok]. intros H. exfalso. revert H. unfold identToken. change (has ScanLit ScanKeyword) with false. cbn [andb].
    repeat match goal with |- context [if ?b then _ else _] => destruct b end; discriminate. }
  destruct (c =? ch "/") eqn:CS.
  - destruct (head_is _ r).
    + destruct (span _ r) as [b r2] eqn:SP. apply span_app in SP. intros H. apply IH; [|exact H]. subst r. cbn. rewrite app_length. destruct r2; cbn; lia.
    + destruct (head_is _ r); [|destruct r; discriminate]. destruct r as [|d r2]; [discriminate|]. destruct (find_close r2) as [[b r3]|] eqn:FC; [|discriminate].
      intros H. apply IH; [|exact H]. apply find_close_app in FC. subst r2. cbn. rewrite app_length. lia.
  - change (has ScanLit ScanStrLit) with true. change (has 0 ScanStrLit) with false. change (has 0 ScanNumberLit) with false. change (has ScanLit ScanNumberLit) with true. rewrite !andb_true_r, !andb_false_r. cbn [lx_tok].
    destruct (isQuote c) eqn:Q.
    + intros _. unfold isQuote in Q. apply orb_true_iff in Q. destruct Q as [Q|Q]; apply N.eqb_eq in Q; subst c; reflexivity.
    + destruct (_ || _); [|cbn [lx_tok]; unfold asMiscToken; repeat match goal with |- context [if ?b then _ else _] => destruct b end; discriminate].
      assert (T : fst (pnum c r) = TINTLIT \/ fst (pnum c r) = TFLOATLIT).
      { unfold pnum. repeat match goal with
        | |- context [if ?b then _ else _] => destruct b
        | |- context [match ?l with [] => _ | _ :: _ => _ end] => destruct l
        | |- context [let '(_, _) := ?e in _] => destruct e as [? ?]
        end; auto. }
      destruct (pnum c r) as [t [[ok w] l]]. cbn [fst] in T. unfold lit_token. destruct ok; cbn [lx_tok]; destruct T; intros; congruence.
Qed.
Lemma lex_semi_kw r : lx_tok (lex 0 r) = TSEMICOLON -> lx_tok (lex ScanKeyword r) = TSEMICOLON.
Proof. intros H. destruct (lex_kw0 r) as (_ & _ & _ & _ & _ & [E|[E _]]); congruence. Qed.
Lemma lex_brace r : lx_tok (lex 0 r) = TRIGHTCURLY -> lx_raw (lex 0 r) = [ch "}"].
Proof.
  induction r as [r IH] using len_ind. destruct r as [|c r]; [discriminate|]. rewrite !lex_cons. change (has 0 ScanComment) with false.
  destruct (isSpace c). { intros H. exact (IH r ltac:(cbn; lia) H). }
  destruct (identStart c) eqn:IS.
  { destruct (span identChar r) as [x r1]. change (identToken 0 (c :: x)) with TIDENT. discriminate. }
  destruct (c =? ch "/") eqn:CS.
  - destruct (head_is _ r).
    + destruct (span _ r) as [b r2] eqn:SP. apply span_app in SP. intros H. apply IH; [|exact H]. subst r. cbn. rewrite app_length. destruct r2; cbn; lia.
    + destruct (head_is _ r); [|destruct r; discriminate]. destruct r as [|d r2]; [discriminate|]. destruct (find_close r2) as [[b r3]|] eqn:FC; [|discriminate].
      intros H. apply IH; [|exact H]. apply find_close_app in FC. subst r2. cbn. rewrite app_length. lia.
  - change (has 0 ScanStrLit) with false. change (has 0 ScanNumberLit) with false. rewrite !andb_false_r. cbn [lx_tok lx_raw].
    unfold asMiscToken. destruct (c =? ch "}") eqn:C; [apply N.eqb_eq in C; subst c; reflexivity|].
    repeat match goal with |- context [if ?b then _ else _] => destruct b end; discriminate.
Qed.
Lemma lex_semi r : lx_tok (lex 0 r) = TSEMICOLON -> lx_txt (lex 0 r) = [ch ";"].
Proof.
  induction r as [r IH] using len_ind. destruct r as [|c r]; [discriminate|]. rewrite !lex_cons. change (has 0 ScanComment) with false.
  destruct (isSpace c). { intros H. exact (IH r ltac:(cbn; lia) H). }
  destruct (identStart c) eqn:IS.
  { destruct (span identChar r) as [x r1]. change (identToken 0 (c :: x)) with TIDENT. discriminate. }
  destruct (c =? ch "/") eqn:CS.
  - destruct (head_is _ r).
    + destruct (span _ r) as [b r2] eqn:SP. apply span_app in SP. intros H. apply IH; [|exact H]. subst r. cbn. rewrite app_length. destruct r2; cbn; lia.
    + destruct (head_is _ r); [|destruct r; discriminate]. destruct r as [|d r2]; [discriminate|]. destruct (find_close r2) as [[b r3]|] eqn:FC; [|discriminate].
      intros H. apply IH; [|exact H]. apply find_close_app in FC. subst r2. cbn. rewrite app_length. lia.
  - change (has 0 ScanStrLit) with false. change (has 0 ScanNumberLit) with false. rewrite !andb_false_r. cbn [lx_tok lx_txt].
    unfold asMiscToken. destruct (c =? ch ";") eqn:C; [apply N.eqb_eq in C; subst c; reflexivity|].
    repeat match goal with |- context [if ?b then _ else _] => destruct b end; discriminate.
Qed.
Lemma match_rc {A} (t : token) (a b : A) : match t with TRIGHTCURLY => a | _ => b end = if tok_eqb t TRIGHTCURLY then a else b.
Proof. destruct t; reflexivity. Qed.
