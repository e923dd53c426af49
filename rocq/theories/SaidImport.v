(** What an import without modifier says (C45). *)
From Coq Require Import List NArith ZArith Bool String Ascii Lia.
From Verif Require Import Base Token Scanner Lexing ScanRefine Ast Parser Api LexSpec LexFacts LexProofs RefineFile Tree Grammar GramValues GramParts GramLex BareSpec Relay
  Deep PartSpec Parts SaidSpec Regular Said Refuted SndCase.
Import ListNotations.
Open Scope N_scope.

Lemma import_words junk cs il ts i : Import junk cs il ts i -> im_modifier i = ImportModifierNone -> imports (toks ts) i.
Proof.
  intros [t1 p1 t2 m t3 x p3 t4 p4 H1 H2 H3 I3 H4] E. cbn [im_modifier] in E. subst m. unfold imports. cbn [im_location].
  rewrite !toks_app, (T_toks _ _ _ H1), (T_toks _ _ _ H3), (T_toks _ _ _ H4). inversion H2 as [|? H|? H|t y q J H NW]; subst.
  - left. reflexivity.
  - right. exists y. rewrite (T_toks _ _ _ H). cbn [app]. split; [reflexivity|]. split; intros ->; apply NW; cbn; auto.
Qed.
Lemma import_span perm bic junk cs il ts i : Elem perm bic junk cs il ts (EStmt (VImport i)) -> exists x y, first_tok ts = Some (x, Pos (im_meta i)) /\ last_tok ts = Some (y, LastPos (im_meta i)).
Proof. intros HE. destruct (elem_span _ _ _ _ _ _ _ HE (im_meta i) eq_refl) as (x0 & y0 & A & _ & B & _). eauto. Qed.
Lemma import_kept opts input pr i c : c = config_of opts -> readable input -> ordinary c input pr -> Parse opts input = Ok pr -> element pr (EStmt (VImport i)) ->
  im_modifier i = ImportModifierNone ->
  exists x mid y, between (cfg_filename c) input x (Pos (im_meta i)) mid y (LastPos (im_meta i)) /\ imports (x :: toks mid ++ [y]) i.
Proof.
  intros Ec RD RG E HE EM. destruct (one_part _ _ _ _ _ Ec RD RG E HE) as (a & cs & il & ts & b & LY & EL).
  destruct (import_span _ _ _ _ _ _ _ EL) as (x & y & F & L).
  assert (HD : exists junk, Import junk cs il ts i).
  { inversion EL as [| |? ? H|? ? H|? ? H|? ? H|? ? H| | | | | | |]; subst; inversion H; subst; eauto; match goal with H : Empty _ _ _ _ _ |- _ => inversion H end. }
  destruct HD as (junk & HD). pose proof (import_words _ _ _ _ _ HD EM) as SP.
  destruct (ends_of _ _ _ _ _ F L) as (c1 & mid & c2 & ->). { destruct SP as [->|(w & -> & _)]; cbn [List.length]; lia. }
  exists x, mid, y. split; [eapply between_of; exact LY|].
  rewrite toks_app, toks_coms in SP. cbn [toks app] in SP. rewrite toks_app in SP. cbn [toks] in SP. rewrite toks_coms in SP. exact SP.
Qed.
