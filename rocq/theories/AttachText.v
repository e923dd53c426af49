(** The comments of elements in the text. *)
From Coq Require Import List NArith ZArith Bool String Ascii Lia Sorted.
From Verif Require Import Base Token Scanner Lexing ScanRefine Ast LexSpec LexFacts LexProofs ScanFacts ScanProps Tree AttachSpec Parser Api RefineFile
  Grammar GramLex GramRules GramParts SndLex SndNames SndStmts SndFile Deep DeepText Attach Regular.
Import ListNotations.
Open Scope N_scope.

Lemma lay_token_at s p r a x q b p' r' : Lay s p r (a ++ Tok x q :: b) p' r' ->
  exists pre rest, r = pre ++ x ++ rest /\ q = posafter p pre /\ Lay s (posafter p (pre ++ x)) rest b p' r'.
Proof.
  revert p r. induction a as [|j a IH]; intros p r L; cbn [app] in L.
  - inversion L as [|? sp x0 r0 ? ? ? S TA L0| | |]; subst. exists sp, r0. auto.
  - inversion L as [|? sp x0 r0 ? ? ? S TA L0|? sp x0 r0 ? ? ? S C L0|? sp x0 S C E|? sp x0 r0 ? ? ? S C L0]; subst.
    + destruct (IH _ _ L0) as (pre & rest & -> & E & L1). exists ((sp ++ x0) ++ pre), rest. rewrite <- !posafter_app, <- !app_assoc in *. auto.
    + destruct (IH _ _ L0) as (pre & rest & -> & E & L1). exists ((sp ++ x0 ++ [NL]) ++ pre), rest. rewrite <- !posafter_app, <- !app_assoc in *. auto.
    + destruct a; discriminate.
    + destruct (IH _ _ L0) as (pre & rest & -> & E & L1). exists ((sp ++ x0) ++ pre), rest. rewrite <- !posafter_app, <- !app_assoc in *. auto.
Qed.
Lemma gap_parts g gs : Gap g gs -> Forall (fun c => exists y, g = fst c ++ snd c ++ y) gs.
Proof.
  assert (SH : forall w g gs, Forall (fun c : list rune * str => exists y, g = fst c ++ snd c ++ y) gs -> Forall (fun c : list rune * str => exists y, w ++ g = fst c ++ snd c ++ y) (shift w gs)).
  { intros w g' gs' F. unfold shift. apply Forall_map. eapply Forall_impl; [|exact F]. intros [a b] (y & ->). exists y. cbn [fst snd]. rewrite <- !app_assoc. reflexivity. }
  induction 1 as [|c g cs S G IH|x g cs C G IH|x g cs C G IH]; [constructor| | |].
  - apply (SH [c]) in IH. exact IH.
  - constructor; [exists ([NL] ++ g); reflexivity|]. apply (SH (x ++ [NL])) in IH. rewrite <- app_assoc in IH. exact IH.
  - constructor; [exists g; reflexivity|]. apply SH. exact IH.
Qed.
Lemma at_after fn w : Forall valid_rune w -> at_text fn w (posafter (pos0 fn) w).
Proof. intros V. apply posafter_moved. exact V. Qed.
Lemma line_after fn w : Forall valid_rune w -> Line (posafter (pos0 fn) w) = (1 + newlines w)%Z.
Proof. intros V. destruct (posafter_moved (pos0 fn) w V) as (_ & _ & L & _). exact L. Qed.
Lemma node_at fn w x : Forall valid_rune (w ++ x) -> comment_at fn w x (node (x, posafter (pos0 fn) w)).
Proof.
  intros V. apply Forall_app in V. destruct V as [V1 V2]. split; [reflexivity|]. cbn [node c_meta Pos LastPos fst snd]. split; [apply at_after; exact V1|].
  rewrite <- posafter_app. apply at_after. apply Forall_app. split; [exact V1|apply Forall_removelast; exact V2].
Qed.
Lemma placed_at fn w gs cs : place (posafter (pos0 fn) w) gs = texts cs -> Forall (fun c => Forall valid_rune (w ++ fst c ++ snd c)) gs -> comments_at fn w gs (nodes cs).
Proof.
  revert cs. induction gs as [|[a x] gs IH]; intros [|[y q] cs] E V; cbn [place map texts fst snd] in E; try discriminate; [constructor|]. injection E as -> E2 E3. inversion V as [|? ? V1 V2]; subst. cbn [fst snd] in *.
  constructor; [|apply IH; assumption]. cbn [fst snd]. rewrite <- posafter_app. apply node_at. rewrite <- app_assoc. exact V1.
Qed.

(** ** What follows a token *)
Lemma spaces_head sp c r sp' c' r' : Spaces sp -> Spaces sp' -> isSpace c = false -> isSpace c' = false -> sp ++ c :: r = sp' ++ c' :: r' -> sp = sp' /\ c :: r = c' :: r'.
Proof.
  intros S. revert sp'. induction S as [|d sp D S IH]; intros sp' S' C C' E; destruct S' as [|d' sp' D' S']; cbn [app] in E.
  - auto.
  - injection E as -> _. congruence.
  - injection E as -> _. congruence.
  - injection E as -> E. destruct (IH _ S' C C' E) as [-> X]. auto.
Qed.
Lemma head_comment x r : comment_head x r -> exists d b, x = ch "/" :: d :: b /\ (d = ch "/" \/ (d = ch "*" /\ exists a b', b = a ++ lit "*/" ++ b')).
Proof.
  intros [(b & -> & _)|((b & -> & _) & _)]; do 2 eexists; (split; [reflexivity|]); [right|left; reflexivity]. split; [reflexivity|]. exists b, []. reflexivity.
Qed.
Lemma followed fn w y r il rest p' sp : Forall valid_rune (w ++ y ++ r) -> Lay false (posafter (pos0 fn) (w ++ y)) r (icom il ++ rest) p' sp -> Spaces sp ->
  Inline (Line (posafter (pos0 fn) w)) il rest -> Followed fn w y r (inode il).
Proof.
  intros V L SP IN. rewrite !Forall_app in V. destruct V as (Vw & Vy & Vr). rewrite (line_after fn w Vw) in IN. destruct il as [[c q]|]; cbn [icom app inode option_map fst snd] in *.
  - inversion L as [| |? s x r0 ? ? ? S C L0|? s x S C|? s x r0 ? ? ? S C L0]; subst; cbn [Inline snd] in IN; rewrite <- posafter_app in *.
    + rewrite !Forall_app in Vr. destruct Vr as (V1 & V2 & V3). eapply fl_some; [reflexivity|exact S|right; split; [exact C|right; eexists; reflexivity]| |rewrite app_assoc; apply node_at; rewrite !Forall_app; tauto].
      rewrite (line_after fn) in IN by (rewrite !Forall_app; tauto). rewrite <- app_assoc in IN. lia.
    + rewrite !Forall_app in Vr. destruct Vr as (V1 & V2). eapply (fl_some _ _ _ _ s c []); [rewrite app_nil_r; reflexivity|exact S|right; split; [exact C|left; reflexivity]| |rewrite app_assoc; apply node_at; rewrite !Forall_app; tauto].
      rewrite (line_after fn) in IN by (rewrite !Forall_app; tauto). rewrite <- app_assoc in IN. lia.
    + rewrite !Forall_app in Vr. destruct Vr as (V1 & V2 & V3). eapply fl_some; [reflexivity|exact S|left; exact C| |rewrite app_assoc; apply node_at; rewrite !Forall_app; tauto].
      rewrite (line_after fn) in IN by (rewrite !Forall_app; tauto). rewrite <- app_assoc in IN. lia.
  - apply fl_none. intros s x r' Er S CH EN. destruct (head_comment _ _ CH) as (d & b & -> & D). assert (SL : isSpace (ch "/") = false) by reflexivity.
    assert (K : forall s0 rr, Spaces s0 -> no_com_on (1 + newlines w) rest -> s0 ++ ch "/" :: rr = s ++ ch "/" :: d :: b ++ r' -> (exists c qq its, rest = Com c qq :: its /\ qq = posafter (posafter (pos0 fn) (w ++ y)) s0) -> False).
    { intros s0 rr S0 N E (c & qq & its & -> & ->). destruct (spaces_head _ _ _ _ _ _ S0 S SL SL E) as [-> _]. rewrite Er, Forall_app in Vr. destruct Vr as [V0 _].
      cbn [no_com_on] in N. rewrite <- posafter_app in N. rewrite (line_after fn) in N by (rewrite !Forall_app; tauto). apply N. rewrite <- app_assoc, EN. reflexivity. }
    inversion L as [|? s0 x0 r0 ? ? ? S0 TA L0|? s0 x0 r0 ? ? ? S0 C L0|? s0 x0 S0 C|? s0 x0 r0 ? ? ? S0 C L0]; subst.
    + clear -S SP. apply Forall_app in SP. destruct SP as [_ SP]. inversion SP as [|? ? X]. discriminate X.
    + destruct x0 as [|c l]; [destruct (token_nonempty _ _ _ TA eq_refl)|]. destruct TA as [[TS TA] _]. match goal with E : s0 ++ _ = s ++ _ |- _ => cbn [app] in E; destruct (spaces_head _ _ _ _ _ _ S0 S TS SL E) as [-> X] end.
      injection X as -> X. specialize (TA eq_refl). destruct l as [|d' b']; [subst r0; discriminate X|]. cbn [app] in X. injection X as -> X. destruct TA as [T1 T2]. destruct D as [->|[-> (u & v & ->)]]; [congruence|].
      destruct (T2 eq_refl) as [-> NB]. apply NB. rewrite app_nil_r in X. exists u, (v ++ r'). rewrite X, <- !app_assoc. reflexivity.
    + destruct C as (b0 & -> & _). eapply (K s0 ((ch "/" :: b0) ++ NL :: r0)); [exact S0|exact IN|match goal with H : s0 ++ _ = _ |- _ => exact H end|do 3 eexists; split; reflexivity].
    + destruct C as (b0 & -> & _). eapply (K s0 (ch "/" :: b0)); [exact S0|exact IN|match goal with H : s0 ++ _ = _ |- _ => exact H end|do 3 eexists; split; reflexivity].
    + destruct C as (b0 & -> & _). eapply (K s0 ((ch "*" :: b0 ++ lit "*/") ++ r0)); [exact S0|exact IN|match goal with H : s0 ++ _ = _ |- _ => exact H end|do 3 eexists; split; reflexivity].
Qed.

(** ** From items to text *)
Definition lead_of (b : bool) : leading := if b then either else but_inline.
Lemma icoms il cs : icom il ++ coms cs = coms (opt_list (fun c => c) il ++ cs).
Proof. destruct il as [[x p]|]; reflexivity. Qed.
Lemma texts_app a b : texts (a ++ b) = texts a ++ texts b. Proof. apply map_app. Qed.
Lemma own_comments perm bic junk cs il ts e m : Elem perm bic junk cs il ts e -> e_meta e = Some m -> e_comments e = cs /\ e_inline e = il.
Proof. intros HE EM. destruct (elem_own _ _ _ _ _ _ _ HE) as ([H|(il' & ->)] & I & _); [auto|discriminate]. Qed.
Lemma head_tok ts x p : no_com ts -> first_tok ts = Some (x, p) -> exists ts', ts = Tok x p :: ts'.
Proof. destruct ts as [|[] ts]; cbn; [discriminate| |tauto]. intros _ H. injection H as -> ->. eauto. Qed.
(** an element with its first and last token *)
Lemma elem_ends perm bic junk cs il ts e m : Elem perm bic junk cs il ts e -> e_meta e = Some m -> ~ is_comment_node e -> no_com ts -> EndsTok ts ->
  exists x1 mid y, ts = Tok x1 (Pos m) :: mid ++ [Tok y (LastPos m)] /\ ends_with e y.
Proof.
  intros HE EM NN NC ET. pose proof (elem_span _ _ _ _ _ _ _ HE m EM) as SP.
  assert (X : exists x y, first_tok ts = Some (x, Pos m) /\ starts e x /\ last_tok ts = Some (y, LastPos m) /\ ends_with e y).
  { destruct e as [s|s|v|f|o|p|d]; try exact SP. destruct v; try exact SP. exfalso. apply NN. eexists. reflexivity. }
  clear SP. destruct X as (x & y & F & ST & L & EN). assert (NE : x <> y) by (eapply starts_ends; [exact ST|exact EN|congruence|intros c ->; apply NN; eexists; reflexivity]).
  destruct (head_tok _ _ _ NC F) as (t' & ->). destruct (et_last _ _ _ ET L) as (u & E). destruct u as [|i u]; cbn [app] in E; injection E as E1 E2; [congruence|]. exists x, u, y. rewrite E2. auto.
Qed.
Lemma att_core perm bic junk fn w r cs0 cs il ts rest p' sp e m y q : Forall valid_rune (w ++ r) -> Lay false (posafter (pos0 fn) w) r (coms cs0 ++ ts ++ icom il ++ rest) p' sp -> Spaces sp ->
  Elem perm bic junk cs (inode il) ts e -> e_meta e = Some m -> ~ is_comment_node e -> no_com ts -> EndsTok ts -> last_tok ts = Some (y, q) -> Inline (Line q) il rest ->
  exists g gs body y r3, r = g ++ body ++ y ++ r3 /\ Gap g gs /\ at_text fn (w ++ g) (Pos m) /\ at_text fn (w ++ g ++ body) (LastPos m) /\ ends_with e y /\
    place (posafter (pos0 fn) w) gs = texts cs0 /\ Forall (fun c => Forall valid_rune (w ++ fst c ++ snd c)) gs /\ Followed fn (w ++ g ++ body) y r3 (e_inline e).
Proof.
  intros V L SP HE EM NN NC ET LT IN. destruct (own_comments _ _ _ _ _ _ _ _ HE EM) as [E1 E2]. destruct (elem_ends _ _ _ _ _ _ _ _ HE EM NN NC ET) as (x1 & mid & y' & -> & EN).
  assert (X : y' = y /\ LastPos m = q) by (cbn [last_tok] in LT; rewrite last_tok_app in LT; cbn [last_tok] in LT; injection LT as <- <-; auto). destruct X as [-> <-].
  rewrite !Forall_app in V. destruct V as (Vw & Vr). cbn [app] in L.
  destruct (lay_coms _ _ _ _ _ _ _ _ _ L) as (g & gs & r2 & -> & G & PL & EP & _ & L2). rewrite <- !posafter_app in EP, L2. rewrite !Forall_app in Vr. destruct Vr as (Vg & Vx1 & Vr).
  rewrite <- !app_assoc in L2. cbn [app] in L2. destruct (lay_token_at _ _ _ _ _ _ _ _ _ L2) as (bd & r3 & -> & EL & L3). rewrite <- !posafter_app in EL, L3. rewrite !Forall_app in Vr. destruct Vr as (Vb & Vy & Vr).
  assert (VG : Forall (fun c : list rune * str => Forall valid_rune (w ++ fst c ++ snd c)) gs).
  { eapply Forall_impl; [|apply gap_parts; exact G]. intros c (z & Ez). rewrite Ez, !Forall_app in Vg. rewrite !Forall_app. tauto. }
  exists g, gs, (x1 ++ bd), y, r3. rewrite E2. assert (W2 : Forall valid_rune (w ++ g ++ x1 ++ bd)) by (rewrite !Forall_app; tauto).
  assert (EL' : LastPos m = posafter (pos0 fn) (w ++ g ++ x1 ++ bd)) by (rewrite EL, <- !app_assoc; reflexivity).
  split; [rewrite <- !app_assoc; reflexivity|]. split; [exact G|]. split; [rewrite EP; apply at_after; rewrite !Forall_app; tauto|]. split; [rewrite EL'; apply at_after; exact W2|]. split; [exact EN|]. split; [exact PL|]. split; [exact VG|].
  eapply followed; [rewrite <- !app_assoc, !Forall_app; tauto| |exact SP|rewrite <- EL'; exact IN].
  replace ((w ++ g ++ x1 ++ bd) ++ y) with ((w ++ g ++ x1) ++ bd ++ y) by (rewrite <- !app_assoc; reflexivity). exact L3.
Qed.
Lemma att_text perm bic junk fn input its PV (pred : list rune -> str -> Prop) b e m : Forall valid_rune input -> Layout false (pos0 fn) input its -> IAtt perm bic junk its PV b e -> e_meta e = Some m -> ~ is_comment_node e ->
  (forall a x, Forall valid_rune a -> PV x (posafter (pos0 fn) a) -> pred a x) -> Attached fn input pred (lead_of b) e m.
Proof.
  intros V (p' & sp & L & SP) (A & x & q & il0 & cs & ts & il & rest & y & q' & -> & HP & HS & HE & NC & ET & LT & IN) EM NN PR.
  destruct (own_comments _ _ _ _ _ _ _ _ HE EM) as [E1 E2].
  cbn [app] in L. destruct (lay_token_at _ _ _ _ _ _ _ _ _ L) as (a & r1 & -> & Eq & L1). rewrite app_assoc in V. rewrite app_assoc, icoms in L1.
  destruct (att_core _ _ _ _ _ _ _ _ _ _ _ _ _ _ _ _ _ V L1 SP HE EM NN NC ET LT IN) as (g & gs & body & y' & r3 & -> & G & P1 & P2 & EN & PL & VG & FO). rewrite !Forall_app in V. destruct V as ((Va & Vx) & _).
  assert (PL' : comments_at fn (a ++ x) gs (nodes (opt_list (fun c => c) il0 ++ cs))) by (apply placed_at; assumption).
  assert (LQ : Line q = (1 + newlines a)%Z) by (rewrite Eq; apply line_after; exact Va).
  assert (LG : forall g0 gs0 c0 cs0, gs = g0 :: gs0 -> opt_list (fun c => c) il0 ++ cs = c0 :: cs0 -> Line (snd c0) = (1 + newlines ((a ++ x) ++ fst g0))%Z).
  { intros g0 gs0 c0 cs0 -> EC. rewrite EC in PL. destruct c0 as [z0 q0]. destruct g0 as [u0 w0]. cbn [place texts map fst snd] in *. injection PL as _ PL _. rewrite <- PL, <- posafter_app. apply line_after. inversion VG as [|? ? V1 V2]; subst. cbn [fst snd] in V1. rewrite !Forall_app in *. tauto. }
  assert (SEL : exists gs', lead_of b a (a ++ x) gs gs' /\ comments_at fn (a ++ x) gs' (nodes cs)).
  { destruct HS as [HS|[-> ->]].
    - exists (without_inline a (a ++ x) gs). split; [destruct b; [left|]; reflexivity|]. destruct il0 as [c0|]; cbn [opt_list app] in *.
      + inversion PL' as [|g0 c1 gs0 cs0 Q1 Q2 Eg Ec]; subst. cbn [without_inline]. cbn [Inline] in HS. rewrite (LG _ _ _ _ eq_refl eq_refl), LQ in HS.
        replace (newlines a =? newlines ((a ++ x) ++ fst g0))%Z with true; [exact Q2|]. symmetry. apply Z.eqb_eq. lia.
      + destruct gs as [|g0 gs0]; [exact PL'|]. destruct cs as [|c0 cs0]; [inversion PL'|]. cbn [without_inline]. cbn [Inline] in HS. destruct c0 as [z0 q0]. cbn [coms map app no_com_on fst snd] in HS. specialize (LG _ _ _ _ eq_refl eq_refl). cbn [snd] in LG. rewrite LG, LQ in HS.
        replace (newlines a =? newlines ((a ++ x) ++ fst g0))%Z with false; [exact PL'|]. symmetry. apply Z.eqb_neq. lia.
    - exists gs. split; [right; reflexivity|]. exact PL'. }
  destruct SEL as (gs' & S1 & S2). exists a, x, g, gs, gs', body, y', r3. rewrite E1. rewrite <- !app_assoc in P1, P2, FO.
  split; [reflexivity|]. split; [apply PR; [exact Va|rewrite <- Eq; exact HP]|]. auto 10.
Qed.
(** the first statement of a file *)
Lemma att_start perm bic junk fn input tb cs il ts rest e m y q : Forall valid_rune input -> Layout false (pos0 fn) input (tb ++ coms cs ++ ts ++ icom il ++ rest) -> Bom tb ->
  Elem perm bic junk (nodes cs) (inode il) ts e -> e_meta e = Some m -> ~ is_comment_node e -> no_com ts -> EndsTok ts -> last_tok ts = Some (y, q) -> Inline (Line q) il rest ->
  Attached fn input at_start every e m.
Proof.
  intros V (p' & sp & L & SP) HB HE EM NN NC ET LT IN. destruct (own_comments _ _ _ _ _ _ _ _ HE EM) as [E1 E2].
  assert (X : exists a x r, at_start a x /\ input = (a ++ x) ++ r /\ Lay false (posafter (pos0 fn) (a ++ x)) r (coms cs ++ ts ++ icom il ++ rest) p' sp).
  { destruct HB as [|cs' p]; [exists [], [], input; split; [left; auto|split; [reflexivity|exact L]]|]. rewrite <- app_assoc in L. cbn [app] in L.
    destruct (lay_coms _ _ _ _ _ _ _ _ _ L) as (g & gs & r2 & -> & G & _ & _ & _ & L2). exists g, [0xFEFF], r2. split; [right; split; [reflexivity|exists gs; exact G]|]. split; [apply app_assoc|exact L2]. }
  destruct X as (a & x & r & ST & -> & L1).
  destruct (att_core _ _ _ _ _ _ _ _ _ _ _ _ _ _ _ _ _ V L1 SP HE EM NN NC ET LT IN) as (g & gs & body & y' & r3 & -> & G & P1 & P2 & EN & PL & VG & FO).
  exists a, x, g, gs, gs, body, y', r3. rewrite E1. rewrite <- !app_assoc in P1, P2, FO |- *. split; [reflexivity|]. split; [exact ST|]. split; [exact G|]. split; [exact P1|]. split; [exact P2|]. split; [exact EN|]. split; [reflexivity|].
  split; [apply placed_at; assumption|exact FO].
Qed.

(** ** The statements *)
Lemma last_of_cons a l : last_of (a :: l) = last_or (Some a) l.
Proof. rewrite <- (last_or_cons None). unfold last_or. destruct (last_of (a :: l)); reflexivity. Qed.
Lemma last_of_app h l : last_of (h ++ l) = last_or (last_of h) l.
Proof.
  destruct h as [|a h]; [unfold last_or; cbn [app]; change (last_of []) with (@None elem); destruct (last_of l); reflexivity|]. revert a. induction h as [|b h IH]; intros a; [apply last_of_cons|].
  change (last_of ((a :: b :: h) ++ l)) with (last_of ((b :: h) ++ l)). apply IH.
Qed.
Section Statements.
Variables (opts : list ParseOpt) (input : list rune) (pr : proto) (c : ParseConfig).
Hypotheses (Ec : c = config_of opts) (RD : readable input) (NG : ordinary c input pr) (EP : Parse opts input = Ok pr).
Notation fn := (cfg_filename c).

Lemma valid_input : Forall valid_rune input.
Proof. eapply Forall_impl; [|exact RD]. cbn beta. tauto. Qed.
Lemma behind_text prev a x : Forall valid_rune a -> behind_i prev x (posafter (pos0 fn) a) -> behind fn prev a x.
Proof. intros V H. destruct prev as [p|]; cbn in *; [|exact H]. destruct (e_meta p) as [m|]; [|exact H]. destruct H as [H1 H2]. split; [rewrite <- H1; apply at_after; exact V|exact H2]. Qed.
Lemma block_comments p l l1 e l2 m : element pr p -> block_of p -> In l (children p) -> l = l1 ++ e :: l2 -> e_meta e = Some m -> ~ is_comment_node e ->
  Attached fn input (behind fn (last_of l1)) but_inline e m.
Proof.
  intros HP BO IL EL EM NN. destruct (parse_sound opts input pr c Ec RD NG EP) as (its & LY & HF). destruct (deep _ _ _ _ _ _ _ HF HP) as (a & cs & il & ts & b & -> & HE & _).
  eapply (att_text _ _ _ _ _ _ _ _ false); [exact valid_input|exact LY|eapply block_att; eassumption|exact EM|exact NN|]. intros a' x V H. apply behind_text; assumption.
Qed.
Lemma oneof_comments o e m : element pr (EStmt (VOneof o)) -> In e (map EOneofField (oo_fields o) ++ map EOption (oo_options o)) -> e_meta e = Some m ->
  Attached fn input in_oneof either e m.
Proof.
  intros HP IE EM. destruct (parse_sound opts input pr c Ec RD NG EP) as (its & LY & HF). destruct (deep _ _ _ _ _ _ _ HF HP) as (a & cs & il & ts & b & -> & HE & _).
  pose proof (oneof_elem_att _ _ _ _ _ _ _ HE a b) as F. rewrite Forall_forall in F. specialize (F _ IE).
  eapply (att_text _ _ _ _ _ _ _ _ true); [exact valid_input|exact LY|exact F|exact EM| |intros a' x V H; exact H].
  intros (k & ->). apply in_app_iff in IE. destruct IE as [I|I]; apply in_map_iff in I; destruct I as (z & Z & _); discriminate Z.
Qed.
Lemma filestmts_later perm bic junk ts vs tcs A l1 e l2 : FileStmts perm bic junk ts vs tcs -> map EStmt vs = l1 ++ e :: l2 -> l1 <> [] -> e_meta e <> None -> IAtt perm bic junk (A ++ ts) (behind_i (last_of l1)) false e.
Proof.
  intros HF EQ NE EM. destruct l1 as [|e0 l1]; [congruence|]. rewrite last_of_cons. destruct HF as [cs|cs ts v y q il rest vs tcs H NC LT IN CL HR|cs p rest vs tcs NO HR]; [discriminate| |]; cbn [map app] in EQ.
  - injection EQ as <- EQ. pose proof (e_file perm bic junk _ _ _ _ H) as HE. destruct (et_last _ _ _ (elem_not_nil _ _ _ _ _ _ _ _ _ HE LT) LT) as (u & Eu). rewrite Eu.
    replace (A ++ coms cs ++ (u ++ [Tok y q]) ++ icom il ++ rest) with ((A ++ coms cs ++ u) ++ [Tok y q] ++ icom il ++ rest) by (rewrite <- !app_assoc; reflexivity).
    eapply filestmts_att; [exact HR|exact IN|eapply behind_elem; eassumption|exact EQ|exact EM].
  - injection EQ as <- EQ. destruct l1 as [|e1 l1]; cbn [app] in EQ; injection EQ as EQ1 EQ2; [subst e; contradiction|]. subst e1. rewrite last_or_cons.
    replace (A ++ coms cs ++ Tok (lit ";") p :: rest) with ((A ++ coms cs) ++ [Tok (lit ";") p] ++ icom None ++ rest) by (rewrite <- !app_assoc; reflexivity).
    eapply filestmts_att; [exact HR|exact NO|reflexivity|exact EQ2|exact EM].
Qed.
Lemma file_comments v l1 l2 m : roots pr = l1 ++ EStmt v :: l2 -> l1 <> [] -> e_meta (EStmt v) = Some m -> ~ is_comment_node (EStmt v) ->
  Attached fn input (behind fn (last_of l1)) but_inline (EStmt v) m.
Proof.
  intros ER NE EM NN. destruct (parse_sound opts input pr c Ec RD NG EP) as (its & LY & HF).
  eapply (att_text (cfg_permissive c) (cfg_bodyIncludingComments c) true _ _ _ (behind_i (last_of l1)) _ false); [exact valid_input|exact LY| |exact EM|exact NN|intros a' x V H; apply behind_text; assumption].
  clear LY. destruct HF as [tb cs ts sy te ed rest vs tcs HB NC HS HE HF]. unfold roots in ER. cbn [p_syntax p_edition p_body] in ER.
  assert (EM' : e_meta (EStmt v) <> None) by congruence.
  (* the header *)
  assert (PRE : forall A hl p x q il, last_of hl = Some p -> (forall e, In e hl -> forall w, e <> EStmt w) -> behind_i (Some p) x q -> Inline (Line q) il rest -> hl ++ map EStmt (vs ++ trailing (cfg_bodyIncludingComments c) tcs) = l1 ++ EStmt v :: l2 ->
     IAtt (cfg_permissive c) (cfg_bodyIncludingComments c) true (A ++ [Tok x q] ++ icom il ++ rest) (behind_i (last_of l1)) false (EStmt v)).
  { intros A hl p x q il LH NS BH IN EQ.
    assert (SPL : exists l1', l1 = hl ++ l1' /\ map EStmt (vs ++ trailing (cfg_bodyIncludingComments c) tcs) = l1' ++ EStmt v :: l2).
    { clear -EQ NS. revert l1 EQ. induction hl as [|h hl IH]; intros l1 EQ; [exists l1; auto|]. destruct l1 as [|a l1]; cbn [app] in EQ; injection EQ as E1 E2; [exfalso; eapply NS; [left; reflexivity|exact E1]|]. subst a.
      destruct (IH ltac:(intros; apply NS; right; assumption) _ E2) as (l1' & -> & X). exists l1'. auto. }
    destruct SPL as (l1' & -> & EQ'). destruct (trailing_not _ _ _ _ _ _ EQ' NN) as (l3 & EQ3).
    replace (last_of (hl ++ l1')) with (last_or (Some p) l1'). { eapply filestmts_att; eassumption. }
    rewrite last_of_app, LH. reflexivity. }
  destruct HE as [r N|te e x q il r H LT IN]; cbn [opt_list] in ER.
  - cbn [app] in HS. destruct HS as [r' N'|ts s x q il r' H' LT' IN']; cbn [opt_list app] in *.
    + destruct (trailing_not _ _ _ _ _ _ ER NN) as (l3 & EQ3). rewrite app_assoc. eapply filestmts_later; eassumption.
    + assert (HEl : Elem (cfg_permissive c) (cfg_bodyIncludingComments c) true (nodes cs) (inode il) ts (ESyntax s)) by (apply e_syntax; exact H').
      destruct (et_last _ _ _ (elem_not_nil _ _ _ _ _ _ _ _ _ HEl LT') LT') as (u & ->).
      replace (tb ++ coms cs ++ ((u ++ [Tok x q]) ++ icom il) ++ r') with ((tb ++ coms cs ++ u) ++ [Tok x q] ++ icom il ++ r') by (rewrite <- !app_assoc; reflexivity).
      apply (PRE _ [ESyntax s] (ESyntax s)); [reflexivity| | |exact IN'|exact ER].
      * intros e [<-|[]] w; discriminate.
      * pose proof (elem_span _ _ _ _ _ _ _ HEl _ eq_refl) as (x1 & y1 & _ & _ & L & EN). rewrite LT' in L. injection L as -> ->. cbn. auto.
  - assert (HEl : Elem (cfg_permissive c) (cfg_bodyIncludingComments c) true (nodes cs) (inode il) te (EEdition e)) by (apply e_edition; exact H).
    destruct (et_last _ _ _ (elem_not_nil _ _ _ _ _ _ _ _ _ HEl LT) LT) as (u & Eu).
    replace (tb ++ coms cs ++ ts ++ (te ++ icom il) ++ r) with ((tb ++ coms cs ++ ts ++ u) ++ [Tok x q] ++ icom il ++ r) by (rewrite Eu, <- !app_assoc; reflexivity).
    apply (PRE _ (opt_list ESyntax sy ++ [EEdition e]) (EEdition e)).
    + destruct sy; reflexivity.
    + intros e' I w. destruct sy; cbn in I; intuition (subst; discriminate).
    + pose proof (elem_span _ _ _ _ _ _ _ HEl _ eq_refl) as (x1 & y1 & _ & _ & L & EN). rewrite LT in L. injection L as -> ->. cbn. auto.
    + exact IN.
    + rewrite <- app_assoc. exact ER.
Qed.
Lemma head_comments e l2 m : roots pr = e :: l2 -> (forall v, e <> EStmt v) -> e_meta e = Some m -> Attached fn input at_start every e m.
Proof.
  intros ER NS EM. destruct (parse_sound opts input pr c Ec RD NG EP) as (its & LY & HF).
  destruct HF as [tb cs ts sy te ed rest vs tcs HB NC HS HE HF]. unfold roots in ER. cbn [p_syntax p_edition p_body] in ER.
  remember (te ++ rest) as R eqn:ERR. destruct HS as [r' N'|ts s x q il r' H' LT' IN']; cbn [opt_list app] in *.
  - destruct HE as [r N|te e' x q il r H LT IN]; cbn [opt_list app] in *.
    + exfalso. destruct (vs ++ _) as [|v0 l0]; [discriminate|]. injection ER as <- _. eapply NS. reflexivity.
    + injection ER as <- _. assert (HEl : Elem (cfg_permissive c) (cfg_bodyIncludingComments c) true (nodes cs) (inode il) te (EEdition e')) by (apply e_edition; exact H).
      subst r'. rewrite <- app_assoc in LY. eapply att_start; [exact valid_input|exact LY|exact HB|exact HEl|exact EM|intros (k & X); discriminate X| |eapply elem_not_nil; eassumption|exact LT|exact IN].
      destruct te as [|[] te]; [exact I|exact I|exact NC].
  - injection ER as <- _. assert (HEl : Elem (cfg_permissive c) (cfg_bodyIncludingComments c) true (nodes cs) (inode il) ts (ESyntax s)) by (apply e_syntax; exact H').
    rewrite <- app_assoc in LY. eapply att_start; [exact valid_input|exact LY|exact HB|exact HEl|exact EM|intros (k & X); discriminate X| |eapply elem_not_nil; eassumption|exact LT'|exact IN'].
    destruct ts as [|[] ts]; [exact I|exact I|exact NC].
Qed.
End Statements.
