(** In a text whose comments are closed, a token other than a semicolon that is un-read
    twice is one behind which no empty statement can be read. *)
From Coq Require Import List NArith ZArith Bool String Ascii Lia Arith.
From Verif Require Import Base Token Scanner Lexer Ast Parser Lexing ScanRefine LexFacts LexSpec LexProofs
  ScanFacts LexerFacts ScanProps Cursor Pure Refine GroupSpec.
Import ListNotations.
Open Scope N_scope.

Lemma closed_tail w r : comments_closed (w ++ r) -> comments_closed r.
Proof.
  intros (H1 & H2 & H3). split; [|split].
  - intros a b ->. apply (H1 (w ++ a)). rewrite <- app_assoc. reflexivity.
  - intros a b ->. apply (H2 (w ++ a)). rewrite <- app_assoc. reflexivity.
  - intros a ->. apply (H3 (w ++ a)). rewrite <- app_assoc. reflexivity.
Qed.
Lemma without_tail x w r : without x (w ++ r) -> without x r.
Proof. intros H a b ->. apply (H (w ++ a) b). rewrite <- app_assoc. reflexivity. Qed.
Lemma settled_tail w r : settled (w ++ r) -> settled r.
Proof. intros H a h b G ->. apply (H (w ++ a) h b G). rewrite <- app_assoc. reflexivity. Qed.
Lemma free_settled r : no_groups r -> settled r.
Proof. intros H a h b G E. destruct (H a h b G E). Qed.
Lemma skip_len {A} (a b : list A) : skipn (List.length a) (a ++ b) = b.
Proof. rewrite skipn_app, skipn_all, Nat.sub_diag. reflexivity. Qed.
Lemma closed_fatal r : comments_closed r -> lx_tok (lex 0 r) <> TSEMICOLON ->
  fatal (lx_all (lex 0 r)) (skipn (List.length (lx_all (lex 0 r))) r) = true.
Proof.
  intros CL NS. pose proof (lex_gap_ok 0 r) as GO. unfold gap_ok in GO. change (has 0 ScanComment) with false in GO. cbn iota in GO.
  pose proof (lex_app 0 r) as L. unfold lexed_app in L. unfold lx_all.
  destruct (token_eq_dec (lx_tok (lex 0 r)) TEOF) as [T|T].
  - pose proof (lex_eof 0 r T) as (_ & L1 & L2). rewrite T in GO. rewrite L1, L2, !app_nil_r in L. rewrite L1, app_nil_r, <- L. rewrite <- L in GO.
    remember (lx_cms (lex 0 r)) as cs eqn:E. clear E L L1 L2.
    assert (G : Gap r cs). { destruct GO as [g cs G|g cs x G (b & -> & Hb)]; [exact G|]. exfalso. apply Hb. apply (proj1 CL g). reflexivity. }
    unfold fatal. rewrite T. rewrite (lex_gap 0 r cs _ eq_refl G). rewrite skipn_all. reflexivity.
  - assert (G : Gap (lx_gap (lex 0 r)) (lx_cms (lex 0 r))) by (destruct (lx_tok (lex 0 r)); congruence || exact GO). clear GO.
    remember (lx_gap (lex 0 r)) as g eqn:Eg. remember (lx_cms (lex 0 r)) as cs eqn:Ec. clear Ec.
    rewrite <- (app_assoc g) in L || idtac. remember (lx_raw (lex 0 r)) as w eqn:Ew. remember (lx_rest (lex 0 r)) as y eqn:Ey.
    rewrite L at 1. rewrite app_assoc, skip_len. apply (f_equal (lex 0)) in L as L2. rewrite (lex_gap 0 g cs _ eq_refl G) in L2.
    rewrite L2 in NS, T, Eg, Ew, Ey. unfold skip in NS, T, Eg, Ew, Ey. cbn [lx_tok lx_gap lx_raw lx_rest] in NS, T, Eg, Ew, Ey. clear L2.
    assert (F : forall t x w', lex 0 (w) = mkLexed [] [] t x w' [] -> t <> TSEMICOLON -> t <> TEOF -> (t = TILLEGAL -> x = [] -> exists a d, w' = [a; d] /\ d <> ch "*") -> fatal (g ++ w) y = true).
    { intros t x w' E H1 H2 H3. unfold fatal. rewrite (lex_gap 0 g cs _ eq_refl G), E. unfold skip. cbn [lx_tok lx_txt lx_raw]. destruct t; try reflexivity; try congruence.
      destruct x; [|reflexivity]. destruct (H3 eq_refl eq_refl) as (a & d & -> & D). apply N.eqb_neq in D. rewrite D. reflexivity. }
    assert (EG : lx_gap (lex 0 (w ++ y)) = []).
    { apply (f_equal (@List.length _)) in Eg. rewrite app_length in Eg. destruct (lx_gap (lex 0 (w ++ y))); [reflexivity|cbn in Eg; lia]. }
    clear Eg. destruct (w ++ y) as [|c l] eqn:WY. { exfalso. apply T. reflexivity. }
    rewrite lex_cons in NS, T, Ew, Ey, EG. destruct (isSpace c) eqn:Sp. { discriminate EG. }
    destruct (identStart c) eqn:IS.
    + destruct (span identChar l) as [x r1] eqn:SPN. cbn [lx_raw lx_rest lx_tok] in *. subst w y. apply (F TIDENT (c :: x) (c :: x)); try discriminate.
      rewrite lex_cons, Sp, IS. apply span_spec in SPN. destruct SPN as (_ & FX & _).
      assert (S2 : span identChar x = (x, [])). { clear - FX. induction FX as [|a x Ha Hx IH]; [reflexivity|]. cbn. rewrite Ha, IH. reflexivity. }
      rewrite S2. reflexivity.
    + destruct (N.eqb_spec c (ch "/")) as [->|Nc].
      * change (has 0 ScanComment) with false in *. cbn iota in *.
        destruct (head_is (fun d => d =? ch "/") l) eqn:H1. { destruct (span (fun d => negb (d =? NL)) l). discriminate EG. }
        destruct (head_is (fun d => d =? ch "*") l) eqn:H2.
        -- destruct l as [|d l]; [discriminate H2|]. cbn in H2. apply N.eqb_eq in H2. subst d. destruct (find_close l) as [[b r3]|] eqn:FC; [discriminate EG|].
           exfalso. destruct CL as (_ & C2 & _). destruct (C2 g l) as (x & z & E); [exact L|]. exact (find_close_none _ FC _ _ E).
        -- destruct l as [|d l]. { exfalso. destruct CL as (_ & _ & C3). apply (C3 g). exact L. }
           cbn [lx_raw lx_rest lx_tok] in *. subst w y. cbn [head_is] in H1, H2. apply (F TILLEGAL [] [ch "/"; d]); try discriminate.
           ++ rewrite lex_cons, Sp, IS. cbn [head_is]. rewrite N.eqb_refl, H1, H2. reflexivity.
           ++ intros _ _. exists (ch "/"), d. split; [reflexivity|]. apply N.eqb_neq. exact H2.
      * change (has 0 ScanStrLit) with false in *. change (has 0 ScanNumberLit) with false in *. rewrite !andb_false_r in *. cbn [lx_raw lx_rest lx_tok] in *. subst w y.
        apply (F (asMiscToken c) [c] [c]); try assumption; try discriminate.
        apply N.eqb_neq in Nc. rewrite lex_cons, Sp, IS, Nc. change (has 0 ScanStrLit) with false. change (has 0 ScanNumberLit) with false. rewrite !andb_false_r. reflexivity.
Qed.
