(** Comments of the declarations of an extension range and of the options of an RPC. *)
From Coq Require Import List NArith ZArith Bool String Ascii Lia Sorted.
From Verif Require Import Base Token Scanner Lexing ScanRefine Ast LexSpec LexFacts LexProofs ScanFacts ScanProps Tree AttachSpec DeclSpec Parser Api RefineFile
  Grammar GramLex GramRules GramParts SndLex SndNames SndStmts SndFile Deep DeepText Attach AttachText Regular.
Import ListNotations.
Open Scope N_scope.

Section Items.
Variables perm bic junk : bool.
Notation Elem := (Elem perm bic junk).

Definition IDecl (its : list item) (l1 : list declaration) (d : declaration) (l2 : list declaration) : Prop :=
  exists A x q i1 i2 cs ts t z p c1 c2 rest,
    its = A ++ [Tok x q] ++ icom i1 ++ icom i2 ++ coms cs ++ ts ++ t ++ icom c1 ++ icom c2 ++ rest /\
    x = match l1 with [] => lit "[" | _ => lit "," end /\
    match l1 with [] => i2 = None /\ Inline (Line q) i1 (coms cs ++ ts) | _ => Inlines (Line q) i1 i2 (coms cs ++ ts) end /\
    Elem (nodes cs) (inode (last_some c1 c2)) ts (EDeclaration d) /\ no_com ts /\ EndsTok ts /\
    T t z p /\ z = match l2 with [] => lit "]" | _ => lit "," end /\ Inlines (Line p) c1 c2 rest.

Lemma decl_et cs il ts d : Declaration junk cs il ts d -> EndsTok ts.
Proof. intros H. destruct (elem_et perm bic junk _ _ _ _ (e_decl perm bic junk _ _ _ _ H)) as [X|[(c & X)|X]]; [discriminate|discriminate|exact X]. Qed.
Lemma inlines_head l c1 c2 a b c : EndsTok b -> Inlines l c1 c2 (a ++ b ++ c) -> Inlines l c1 c2 (a ++ b).
Proof.
  intros ET [H1 H2]. split.
  - rewrite app_assoc. eapply inline_head; [exact ET|]. rewrite <- app_assoc. exact H1.
  - destruct c1; [|exact H2]. eapply inline_head; eassumption.
Qed.
Lemma inline_ext l il a b c : EndsTok b -> Inline l il (a ++ b) -> Inline l il (a ++ b ++ c).
Proof. intros (u & y & q & ->) H. destruct il; [exact H|]. destruct a as [|[] a]; [|exact H..]. destruct u as [|[] u]; exact H. Qed.
Lemma inlines_ext l c1 c2 a b c : EndsTok b -> Inlines l c1 c2 (a ++ b) -> Inlines l c1 c2 (a ++ b ++ c).
Proof.
  intros ET [H1 H2]. split.
  - rewrite app_assoc. apply inline_ext; [exact ET|]. rewrite <- app_assoc. exact H1.
  - destruct c1; [|exact H2]. apply inline_ext; assumption.
Qed.
Lemma decls_att fol ts ds : EndsTok fol -> Declarations junk fol ts ds -> forall A B x q i1 i2 l0 l1 d l2, ds = l1 ++ d :: l2 ->
  x = match l0 with [] => lit "[" | _ => lit "," end ->
  match l0 with [] => i2 = None /\ Inline (Line q) i1 (ts ++ fol) | _ => Inlines (Line q) i1 i2 (ts ++ fol) end ->
  IDecl (A ++ [Tok x q] ++ icom i1 ++ icom i2 ++ ts ++ fol ++ B) (l0 ++ l1) d l2.
Proof.
  intros EF. induction 1 as [cs ts d0 t p c1 c2 HD NC HT IN|cs ts d0 t p c1 c2 rest ds HD NC HT IN HR IH]; intros A B x q i1 i2 l0 l1 d l2 EQ EX EI.
  - destruct l1 as [|d1 l1]; [|destruct l1; discriminate]. injection EQ as <- <-. rewrite app_nil_r.
    exists A, x, q, i1, i2, cs, ts, t, (lit "]"), p, c1, c2, (fol ++ B). split; [rewrite <- !app_assoc; reflexivity|]. split; [exact EX|]. pose proof (decl_et _ _ _ _ HD) as ET.
    split; [|split; [apply e_decl; exact HD|]; split; [exact NC|]; split; [exact ET|]; split; [exact HT|]; split; [reflexivity|apply (inlines_ext _ _ _ []); assumption]].
    rewrite <- !app_assoc in EI. destruct l0; [destruct EI as [E1 E2]; split; [exact E1|eapply inline_head; eassumption]|eapply inlines_head; eassumption].
  - pose proof (decl_et _ _ _ _ HD) as ET. destruct l1 as [|d1 l1]; cbn [app] in EQ; injection EQ as EQ1 EQ2.
    + subst d0 ds. rewrite app_nil_r.
      exists A, x, q, i1, i2, cs, ts, t, (lit ","), p, c1, c2, (rest ++ fol ++ B). split; [rewrite <- !app_assoc; reflexivity|]. split; [exact EX|].
      split; [|split; [apply e_decl; exact HD|]; split; [exact NC|]; split; [exact ET|]; split; [exact HT|]; split; [destruct l2; [inversion HR|reflexivity]|apply inlines_ext; assumption]].
      rewrite <- !app_assoc in EI. destruct l0; [destruct EI as [E1 E2]; split; [exact E1|eapply inline_head; eassumption]|eapply inlines_head; eassumption].
    + subst d1. destruct HT as (cs1 & ->).
      replace (A ++ [Tok x q] ++ icom i1 ++ icom i2 ++ (coms cs ++ ts ++ (coms cs1 ++ [Tok (lit ",") p]) ++ icom c1 ++ icom c2 ++ rest) ++ fol ++ B)
        with ((A ++ [Tok x q] ++ icom i1 ++ icom i2 ++ coms cs ++ ts ++ coms cs1) ++ [Tok (lit ",") p] ++ icom c1 ++ icom c2 ++ rest ++ fol ++ B) by (rewrite <- !app_assoc; reflexivity).
      replace (l0 ++ d0 :: l1) with ((l0 ++ [d0]) ++ l1) by (rewrite <- app_assoc; reflexivity).
      apply IH; [exact EQ2|destruct l0; reflexivity|]. destruct l0; exact IN.
Qed.
Lemma extensions_att cs il ts e : Extensions junk cs il ts e -> forall A B l1 d l2, xs_declarations e = l1 ++ d :: l2 -> IDecl (A ++ ts ++ B) l1 d l2.
Proof.
  intros [t1 p1 t2 rs t3 p3 H1 H2 H3|t1 p1 t2 rs t3 p3 lc t4 ds t5 p5 H1 H2 H3 IN HD H5] A B l1 d l2 EQ; cbn [xs_declarations] in EQ; [destruct l1; discriminate|].
  destruct H3 as (cs3 & ->).
  replace (A ++ (t1 ++ t2 ++ (coms cs3 ++ [Tok (lit "[") p3]) ++ icom lc ++ t4 ++ t5) ++ B) with ((A ++ t1 ++ t2 ++ coms cs3) ++ [Tok (lit "[") p3] ++ icom lc ++ icom None ++ t4 ++ t5 ++ B) by (rewrite <- !app_assoc; reflexivity).
  apply (decls_att _ _ _ (et_T _ _ _ H5) HD _ _ _ _ _ _ [] l1 d l2 EQ); [reflexivity|]. split; [reflexivity|exact IN].
Qed.
Lemma ext_elem_att cs il ts e : Elem cs il ts (EStmt (VExtensions e)) -> forall A B l1 d l2, xs_declarations e = l1 ++ d :: l2 -> IDecl (A ++ ts ++ B) l1 d l2.
Proof.
  intros HE. assert (X : Extensions junk cs il ts e).
  { remember (EStmt (VExtensions e)) as e0 eqn:Ee. destruct HE as [ts' s H|ts' s H|ts' v' H|ts' v' H|ts' v' H|ts' v' H|ts' v' H|ts' v' H|ts' v' H|ts' v' E1 E2 H|ts' v' H|x' q' E1 E2|E1 E2|p E1 E2]; try discriminate; injection Ee as ->; inversion H; subst; try assumption;
    match goal with H : Empty _ _ _ _ _ |- _ => inversion H end. }
  exact (extensions_att _ _ _ _ X).
Qed.
(** the options of an RPC *)
Lemma rpc_options cs il ts r : Elem cs il ts (EStmt (VRPC r)) -> Forall (fun o => op_comments o = [] /\ op_inline o = None) (r_options r).
Proof.
  intros HE. assert (X : RPC perm junk cs il ts r).
  { remember (EStmt (VRPC r)) as e0 eqn:Ee. destruct HE as [ts' s H|ts' s H|ts' v' H|ts' v' H|ts' v' H|ts' v' H|ts' v' H|ts' v' H|ts' v' H|ts' v' E1 E2 H|ts' v' H|x' q' E1 E2|E1 E2|p E1 E2]; try discriminate; injection Ee as ->; inversion H; subst; try assumption;
    match goal with H : Empty _ _ _ _ _ |- _ => inversion H end. }
  destruct X as [cs1 p1 t2 name p2 t3 rq t4 t5 rs t6 t7 os lc q H2 I H3 H4 H5 H6]. cbn [r_options]. destruct H6 as [|t1 p0 lc ts os t2' q H1 IN HB HC]; [constructor|].
  clear -HB. induction HB as [|ts o ts' os H HB IH|ts ts' os H HB IH]; [constructor| |exact IH]. constructor; [|exact IH]. destruct H. split; reflexivity.
Qed.
End Items.

(** ** From items to text *)
Lemma lay_space s p c r its p' r' : isSpace c = true -> Lay s (posafter p [c]) r its p' r' -> Spaces r' -> exists p'' r'', Lay s p (c :: r) its p'' r'' /\ Spaces r''.
Proof.
  intros C L SP. remember (posafter p [c]) as p0 eqn:E0. destruct L as [p1 r|p1 sp x r its p' r' S TA L|p1 sp x r its p' r' S X L|p1 sp x S X|p1 sp x r its p' r' S X L]; subst p1.
  - exists p, (c :: r). split; [constructor|constructor; assumption].
  - exists p', r'. split; [|exact SP]. rewrite <- posafter_app in *. change ([c] ++ sp) with (c :: sp). apply (lay_tok _ p (c :: sp)); [constructor; assumption|exact TA|exact L].
  - exists p', r'. split; [|exact SP]. rewrite <- posafter_app in *. change ([c] ++ sp) with (c :: sp). apply (lay_line _ p (c :: sp)); [constructor; assumption|exact X|exact L].
  - eexists _, []. split; [|constructor]. rewrite <- posafter_app in *. change ([c] ++ sp) with (c :: sp). apply (lay_line_end _ p (c :: sp)); [constructor; assumption|exact X].
  - exists p', r'. split; [|exact SP]. rewrite <- posafter_app in *. change ([c] ++ sp) with (c :: sp). apply (lay_block _ p (c :: sp)); [constructor; assumption|exact X|exact L].
Qed.
Lemma followed2 fn w y r c1 c2 rest p' sp : Forall valid_rune (w ++ y ++ r) -> Lay false (posafter (pos0 fn) (w ++ y)) r (icom c1 ++ icom c2 ++ rest) p' sp -> Spaces sp ->
  Inlines (Line (posafter (pos0 fn) w)) c1 c2 rest -> Followed2 fn w y r (inode (last_some c1 c2)).
Proof.
  intros V L SP [I1 I2]. pose proof (followed _ _ _ _ _ _ _ _ V L SP I1) as F1. destruct c1 as [[x q]|]; cbn [inode option_map] in F1.
  2: { subst c2. cbn. apply f2_none. exact F1. }
  cbn [icom app fst snd] in L. rewrite !Forall_app in V. destruct V as (Vw & Vy & Vr).
  assert (X : exists s r', r = s ++ x ++ r' /\ Spaces s /\ comment_head x r' /\ q = posafter (pos0 fn) (w ++ y ++ s) /\ exists p' sp, Lay false (posafter (pos0 fn) ((w ++ y ++ s) ++ x)) r' (icom c2 ++ rest) p' sp /\ Spaces sp).
  { inversion L as [| |? s x0 r0 ? ? ? S C L0|? s x0 S C E|? s x0 r0 ? ? ? S C L0]; subst; rewrite <- ?posafter_app in *.
    - exists s, (NL :: r0). split; [reflexivity|]. split; [exact S|]. split; [right; split; [exact C|right; eexists; reflexivity]|]. split; [rewrite <- app_assoc; reflexivity|].
      eapply lay_space; [reflexivity| |exact SP]. rewrite <- posafter_app. rewrite <- !app_assoc in *. exact L0.
    - exists s, []. split; [rewrite app_nil_r; reflexivity|]. split; [exact S|]. split; [right; split; [exact C|left; reflexivity]|]. split; [rewrite <- app_assoc; reflexivity|].
      destruct (icom c2 ++ rest) as [|i0 l0]; [|discriminate]. eexists _, []. split; [constructor|constructor].
    - exists s, r0. split; [reflexivity|]. split; [exact S|]. split; [left; exact C|]. split; [rewrite <- app_assoc; reflexivity|]. exists p', sp. split; [|exact SP]. rewrite <- !app_assoc in *. exact L0. }
  destruct X as (s & r' & -> & S & CH & -> & p2 & sp2 & L2 & SP2). rewrite !Forall_app in Vr. destruct Vr as (Vs & Vx & Vr).
  assert (V2 : Forall valid_rune ((w ++ y ++ s) ++ x ++ r')) by (rewrite !Forall_app; tauto). cbn [snd] in I2.
  pose proof (followed _ _ _ _ _ _ _ _ V2 L2 SP2 I2) as F2. assert (CA : comment_at fn (w ++ y ++ s) x (node (x, posafter (pos0 fn) (w ++ y ++ s)))) by (apply node_at; rewrite !Forall_app; tauto).
  destruct c2 as [c2|]; cbn [last_some inode option_map] in F2 |- *.
  - eapply f2_two; [reflexivity|exact S|exact CH|exact CA|exact F1|exact F2].
  - eapply f2_one; [reflexivity|exact S|exact CH|exact CA|exact F1|exact F2].
Qed.
Lemma decl_text perm bic junk fn input its l1 d l2 : Forall valid_rune input -> Layout false (pos0 fn) input its -> IDecl perm bic junk its l1 d l2 -> Declared fn input l1 d l2.
Proof.
  intros V (p' & sp & L & SP) (A & x & q & i1 & i2 & cs & ts & t & z & p & c1 & c2 & rest & -> & EX & HS & HE & NC & ET & HT & EZ & IN).
  destruct (own_comments _ _ _ _ _ _ _ _ HE eq_refl) as [E1 E2]. cbn [e_comments e_inline] in E1, E2.
  assert (NN : ~ is_comment_node (EDeclaration d)) by (intros (c & X); discriminate X).
  destruct (elem_ends _ _ _ _ _ _ _ _ HE eq_refl NN NC ET) as (x1 & mid & y & Ets & EN). cbn [e_meta ends_with] in *.
  assert (Y : y = lit "}") by exact EN. subst y.
  cbn [app] in L. destruct (lay_token_at _ _ _ _ _ _ _ _ _ L) as (a & r1 & -> & Eq & L1).
  rewrite app_assoc, !Forall_app in V. destruct V as ((Va & Vx) & Vr).
  replace (icom i1 ++ icom i2 ++ coms cs ++ ts ++ t ++ icom c1 ++ icom c2 ++ rest) with (coms (opt_list (fun c => c) i1 ++ opt_list (fun c => c) i2 ++ cs) ++ ts ++ t ++ icom c1 ++ icom c2 ++ rest) in L1.
  2: { rewrite <- icoms, <- icoms, <- !app_assoc. reflexivity. }
  rewrite Ets in L1. cbn [app] in L1. set (cs0 := opt_list (fun c => c) i1 ++ opt_list (fun c => c) i2 ++ cs) in *.
  destruct (lay_coms _ _ _ _ _ _ _ _ _ L1) as (g & gs & r2 & -> & G & PL & EP & _ & L2). rewrite <- !posafter_app in EP, L2. rewrite !Forall_app in Vr. destruct Vr as (Vg & Vx1 & Vr).
  rewrite <- !app_assoc in L2. cbn [app] in L2. destruct (lay_token_at _ _ _ _ _ _ _ _ _ L2) as (bd & r3 & -> & EL & L3). rewrite <- !posafter_app in EL, L3. rewrite !Forall_app in Vr. destruct Vr as (Vb & Vy & Vr).
  destruct HT as (cs3 & ->). rewrite <- !app_assoc in L3. cbn [app] in L3.
  destruct (lay_coms _ _ _ _ _ _ _ _ _ L3) as (g2 & gs2 & r4 & -> & G2 & _ & EP2 & _ & L4). rewrite <- !posafter_app in EP2, L4. rewrite !Forall_app in Vr. destruct Vr as (Vg2 & Vz & Vr).
  assert (VG : Forall (fun c : list rune * str => Forall valid_rune ((a ++ x) ++ fst c ++ snd c)) gs).
  { eapply Forall_impl; [|apply gap_parts; exact G]. intros c (w & Ew). rewrite Ew, !Forall_app in Vg. rewrite !Forall_app. tauto. }
  assert (PL' : comments_at fn (a ++ x) gs (nodes cs0)) by (apply placed_at; assumption).
  assert (LQ : Line q = (1 + newlines a)%Z) by (rewrite Eq; apply line_after; exact Va).
  assert (LG : Forall2 (fun g0 c0 => Line (snd c0) = (1 + newlines ((a ++ x) ++ fst g0))%Z) gs cs0).
  { clear -PL VG. revert PL. generalize cs0 as l. induction VG as [|[u0 w0] gs0 V1 V2 IH]; intros [|[z0 q0] l] PL; cbn [place texts map fst snd] in PL; try discriminate; [constructor|]. injection PL as _ PL PL2. constructor; [|apply IH; exact PL2].
    cbn [fst snd] in *. rewrite <- PL, <- posafter_app. apply line_after. rewrite !Forall_app in *. tauto. }
  exists a, x, g, gs, (x1 ++ bd), g2, gs2, z, r4. rewrite E1, E2.
  split; [rewrite <- !app_assoc; reflexivity|]. split; [exact EX|]. split; [exact G|].
  split; [rewrite EP, <- app_assoc; apply at_after; rewrite !Forall_app; tauto|].
  split; [rewrite EL, <- !app_assoc; apply at_after; rewrite !Forall_app; tauto|].
  split; [|split; [exact G2|]; split; [exact EZ|]].
  - clear EX EZ HE.
    (* the first token of the gap *)
    assert (ONE : forall l a' cs1 gs1 i, Inline l i (coms cs1 ++ ts) -> l = (1 + newlines a')%Z -> comments_at fn (a ++ x) gs1 (nodes (opt_list (fun c => c) i ++ cs1)) ->
      Forall2 (fun g0 c0 => Line (snd c0) = (1 + newlines ((a ++ x) ++ fst g0))%Z) gs1 (opt_list (fun c => c) i ++ cs1) -> comments_at fn (a ++ x) (without_inline a' (a ++ x) gs1) (nodes cs1)).
    { intros l a' cs1 gs1 [c0|] HI EL' P1 F1; cbn [opt_list app] in *.
      - inversion P1 as [|g0 c' gs0 cs' Q1 Q2 Eg Ec]; subst. inversion F1 as [|? ? ? ? Q3 Q4]; subst. cbn [without_inline Inline] in *.
        replace (newlines a' =? newlines ((a ++ x) ++ fst g0))%Z with true; [exact Q2|]. symmetry. apply Z.eqb_eq. lia.
      - destruct gs1 as [|g0 gs0]; [exact P1|]. destruct cs1 as [|[z0 q0] cs1]; [inversion P1|]. inversion F1 as [|? ? ? ? Q3 Q4]; subst. cbn [without_inline Inline coms map app no_com_on fst snd] in *.
        replace (newlines a' =? newlines ((a ++ x) ++ fst g0))%Z with false; [exact P1|]. symmetry. apply Z.eqb_neq. lia. }
    destruct l1 as [|d0 l1].
    + destruct HS as [-> HS]. cbn [opt_list app] in cs0. eapply ONE; [exact HS|exact LQ|exact PL'|exact LG].
    + destruct HS as [H1 H2]. destruct i1 as [c0|].
      * cbn [opt_list app] in cs0. subst cs0. inversion PL' as [|g0 c' gs0 cs' Q1 Q2 Eg Ec]; subst. inversion LG as [|? ? ? ? Q3 Q4]; subst. cbn [without_inlines Inline] in *.
        replace (newlines a =? newlines ((a ++ x) ++ fst g0))%Z with true; [|symmetry; apply Z.eqb_eq; lia]. eapply ONE; [exact H2|exact Q3|exact Q2|exact Q4].
      * subst i2. cbn [opt_list app icom] in cs0, H1. subst cs0. destruct gs as [|g0 gs0]; [exact PL'|]. destruct cs as [|[z0 q0] cs1]; [inversion PL'|]. inversion LG as [|? ? ? ? Q3 Q4]; subst. cbn [without_inlines Inline coms map app no_com_on fst snd] in *.
        replace (newlines a =? newlines ((a ++ x) ++ fst g0))%Z with false; [exact PL'|]. symmetry. apply Z.eqb_neq. lia.
  - eapply followed2; [| |exact SP|].
    + rewrite !Forall_app. tauto.
    + rewrite <- !app_assoc in L4. rewrite <- !app_assoc. exact L4.
    + rewrite EP2 in IN. replace (a ++ x ++ g ++ (x1 ++ bd) ++ lit "}" ++ g2) with ((a ++ x ++ g ++ x1 ++ bd ++ lit "}") ++ g2) by (rewrite <- !app_assoc; reflexivity). exact IN.
Qed.

Section Statements.
Variables (opts : list ParseOpt) (input : list rune) (pr : proto) (c : ParseConfig).
Hypotheses (Ec : c = config_of opts) (RD : readable input) (NG : ordinary c input pr) (EP : Parse opts input = Ok pr).
Lemma decl_comments x l1 d l2 : element pr (EStmt (VExtensions x)) -> xs_declarations x = l1 ++ d :: l2 -> Declared (cfg_filename c) input l1 d l2.
Proof.
  intros HP EQ. destruct (parse_sound opts input pr c Ec RD NG EP) as (its & LY & HF). destruct (deep _ _ _ _ _ _ _ HF HP) as (a & cs & il & ts & b & -> & HE & _).
  eapply decl_text; [exact (valid_input _ RD)|exact LY|eapply ext_elem_att; eassumption].
Qed.
Lemma rpc_comments r o : element pr (EStmt (VRPC r)) -> In o (r_options r) -> op_comments o = [] /\ op_inline o = None.
Proof.
  intros HP IO. destruct (parse_sound opts input pr c Ec RD NG EP) as (its & LY & HF). destruct (deep _ _ _ _ _ _ _ HF HP) as (a & cs & il & ts & b & -> & HE & _).
  pose proof (rpc_options _ _ _ _ _ _ _ HE) as F. rewrite Forall_forall in F. exact (F _ IO).
Qed.
End Statements.
