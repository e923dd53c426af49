(** Concrete texts without the heading of a group. *)
From Coq Require Import List NArith ZArith Bool String Ascii Lia.
From Verif Require Import Base Token Scanner Lexing ScanRefine Lexer LexFacts LexSpec LexProofs ScanFacts ScanProps NameSpec Names Parser GroupSpec.
Import ListNotations.
Open Scope N_scope.

(** the word group with a capitalized identifier behind it *)
Definition group_here (r : list rune) : bool :=
  match r with
  | c1 :: c2 :: c3 :: c4 :: c5 :: r => str_eqb [c1; c2; c3; c4; c5] (lit "group") && tok_eqb (lx_tok (lex 0 r)) TIDENT && isCapitalized (lx_txt (lex 0 r)) && match lx_gap (lex 0 r) with [] => false | _ => true end
  | _ => false
  end.
Fixpoint group_in (r : list rune) : bool := group_here r || match r with [] => false | _ :: r => group_in r end.
Lemma space_not_ident c : isSpace c = true -> identChar c = false.
Proof.
  intros H. destruct (identChar c) eqn:E; [|reflexivity]. apply ident_char_iff in E. assert (B : 48 <= c <= 122). { unfold ident_char, letter, digit in E. cbn in E. lia. }
  unfold isSpace in H. rewrite !orb_true_iff, !andb_true_iff, !N.leb_le, !N.eqb_eq in H. lia.
Qed.
Lemma heading_here h b : GroupHeading h -> group_here (h ++ b) = true.
Proof.
  intros [g1 c1 c l g2 c2 g3 c3 num g4 c4 G1 N1 ID CP G2 G3 NU G4]. rewrite <- !app_assoc. cbn [lit app list_ascii_of_string map]. unfold group_here.
  assert (X : lex 0 (g1 ++ (c :: l) ++ g2 ++ lit "=" ++ g3 ++ num ++ g4 ++ lit "{" ++ b) = mkLexed g1 c1 TIDENT (c :: l) (c :: l) (g2 ++ lit "=" ++ g3 ++ num ++ g4 ++ lit "{" ++ b)).
  { apply gap_ident; [exact G1|]. split; [reflexivity|]. split; [exact ID|]. destruct G2 as [|d g cs S _|x g cs (y & -> & _) _|x g cs (y & -> & _) _]; cbn [app lit].
    - intros H. apply ident_char_iff in H. discriminate H.
    - intros H. apply ident_char_iff in H. rewrite (space_not_ident _ S) in H. discriminate H.
    - intros H. apply ident_char_iff in H. discriminate H.
    - intros H. apply ident_char_iff in H. discriminate H. }
  match goal with |- context[lex 0 ?r] => change r with (g1 ++ (c :: l) ++ g2 ++ lit "=" ++ g3 ++ num ++ g4 ++ lit "{" ++ b) end.
  rewrite X. cbn [lx_tok lx_txt lx_gap]. cbn [isCapitalized]. destruct CP as [A B]. apply N.leb_le in A, B. rewrite A, B. destruct g1; [congruence|reflexivity].
Qed.
Lemma group_in_free r : group_in r = false -> no_groups r.
Proof.
  intros H a h b GH E. subst r. induction a as [|d a IH]; cbn [app group_in] in H.
  - assert (X : group_in (h ++ b) = true) by (destruct (h ++ b) eqn:E; cbn [group_in]; rewrite <- E, (heading_here _ _ GH); reflexivity).
    congruence.
  - apply orb_false_iff in H. destruct H as [_ H]. exact (IH H).
Qed.
