(** What a declaration of an extension range says (C45). *)
From Coq Require Import List NArith ZArith Bool String Ascii Lia.
From Verif Require Import Base Token Scanner Lexing ScanRefine Ast Parser Api LexSpec LexFacts LexProofs RefineFile Tree Grammar GramValues GramParts GramLex BareSpec Relay
  Deep PartSpec Parts SaidSpec Said Direct SaidDeclSpec Regular.
Import ListNotations.
Open Scope N_scope.

Section Decl.
Variable junk : bool.
Definition lits (kvs : list (string * str)) : list (str * str) := map (fun kv => (lit (fst kv), snd kv)) kvs.
Lemma toks_T ts x p : T ts x p -> toks ts = [x].
Proof. intros (cs & ->). rewrite toks_app, toks_coms. reflexivity. Qed.
Lemma toks_K ts x : K ts x -> toks ts = [lit x].
Proof. intros (p & H). exact (toks_T _ _ _ H). Qed.
Lemma fields_entries first ts kvs : DeclFields junk first ts kvs -> Given (toks ts) (lits kvs).
Proof.
  induction 1 as [first|first sep ts kv ts' kvs HS HF HR IH]; [constructor|]. rewrite !toks_app. cbn [lits map]. change (map _ kvs) with (lits kvs).
  assert (E : toks ts = [lit (fst kv); lit ":"; snd kv] /\ In (lit (fst kv)) keys).
  { destruct HF as [t1 t2 t3 x p H1 H2 H3 I|key t1 t2 t3 x p IK H1 H2 H3 I|key t1 t2 t3 x p IK H1 H2 H3 I]; rewrite !toks_app, (toks_K _ _ H1), (toks_K _ _ H2), (toks_T _ _ _ H3); (split; [reflexivity|]); cbn [fst].
    - left. reflexivity.
    - destruct IK as [<-|[<-|[]]]; [right; left; reflexivity|right; right; left; reflexivity].
    - destruct IK as [<-|[<-|[]]]; [right; right; right; left; reflexivity|right; right; right; right; left; reflexivity]. }
  destruct E as [-> I]. assert (S : toks sep = [] \/ toks sep = [lit ","]) by (destruct HS as [[H _]|[-> _]]; [right; exact (toks_K _ _ H)|left; reflexivity]).
  apply (gv_cons _ _ _ _ _ S I IH).
Qed.
Lemma value_last key kvs : Value_of (lit key) (lits kvs) (last_value key kvs) .
Proof.
  induction kvs as [|[k v] kvs IH]; cbn [last_value].
  - right. split; [reflexivity|]. intros [].
  - destruct (String.eqb_spec k key) as [->|N]; cbn [andb].
    + destruct (existsb _ kvs) eqn:E; cbn [negb].
      * destruct IH as [(a & b & E2 & NI)|[E1 NI]]; [left; exists ((lit key, v) :: a), b; split; [cbn [lits map app fst snd]; f_equal; exact E2|exact NI]|].
        exfalso. apply NI. apply existsb_exists in E. destruct E as ([k' v'] & I & Q). apply String.eqb_eq in Q. cbn [fst] in Q. subst k'. unfold lits. rewrite map_map. apply in_map_iff. exists (key, v'). auto.
      * left. exists [], (lits kvs). split; [reflexivity|]. unfold lits. rewrite map_map. intros I. apply in_map_iff in I. destruct I as ([k' v'] & Q & I). cbn [fst] in Q.
        assert (k' = key) by (apply lit_inj; exact Q). subst k'. enough (existsb (fun kv => String.eqb (fst kv) key) kvs = true) by congruence. apply existsb_exists. exists (key, v'). split; [exact I|apply String.eqb_refl].
    + destruct IH as [(a & b & E2 & NI)|[E1 NI]]; [left; exists ((lit k, v) :: a), b; split; [cbn [lits map app fst snd]; f_equal; exact E2|exact NI]|right; split; [exact E1|]].
      cbn [lits map fst snd]. intros [Q|I]; [|exact (NI I)]. apply N. apply lit_inj. exact Q.
Qed.
Lemma decl_given cs il ts d : Declaration junk cs il ts d -> Declares (toks ts) d.
Proof.
  intros [t1 p1 t2 t3 p3 lc t4 kvs t5 p5 H1 H2 H3 IN HD H5]. rewrite !toks_app, (toks_T _ _ _ H1), (toks_K _ _ H2), (toks_T _ _ _ H3), (toks_T _ _ _ H5).
  replace (toks (icom lc)) with (@nil str) by (destruct lc; reflexivity). cbn [app].
  exists (toks t4), (lits kvs), (last_value "reserved" kvs), (last_value "repeated" kvs). cbn [d_number d_fullName d_type d_reserved d_repeated].
  split; [reflexivity|]. split; [exact (fields_entries _ _ _ HD)|].
  assert (B : forall x, is_true_ x = true <-> x = lit "true") by (intros x; unfold is_true_; destruct (list_eq_dec _ _ _); split; congruence).
  repeat split; try apply value_last; apply B.
Qed.
End Decl.
Lemma declares_kept opts input pr d c : c = config_of opts -> readable input -> ordinary c input pr -> Parse opts input = Ok pr -> element pr (EDeclaration d) ->
  exists x mid y, between (cfg_filename c) input x (Pos (d_meta d)) mid y (LastPos (d_meta d)) /\ Declares (x :: toks mid ++ [y]) d.
Proof.
  intros Ec RD RG E HE. destruct (one_part _ _ _ _ _ Ec RD RG E HE) as (a & cs & il & ts & b & LY & EL).
  destruct (span_of _ _ _ _ _ _ _ _ _ EL eq_refl (or_intror eq_refl)) as (x & y & F & L).
  assert (HD : exists junk, Declaration junk cs il ts d) by (inversion EL; subst; eauto). destruct HD as (junk & HD).
  pose proof (decl_given _ _ _ _ _ HD) as SP.
  destruct (ends_of _ _ _ _ _ F L) as (c1 & mid & c2 & ->). { destruct SP as (body & kvs & r1 & r2 & -> & _). cbn [List.length app]. lia. }
  exists x, mid, y. split; [eapply between_of; exact LY|].
  rewrite toks_app, toks_coms in SP. cbn [toks app] in SP. rewrite toks_app in SP. cbn [toks] in SP. rewrite toks_coms in SP. exact SP.
Qed.
