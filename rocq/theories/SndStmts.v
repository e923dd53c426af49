(** What the pure parser accepts as simple statements. *)
From Coq Require Import List NArith ZArith Bool String Ascii Lia Sorted.
From Verif Require Import Base Token Scanner Lexer Lexing ScanRefine LexFacts LexSpec LexProofs ScanFacts LexerFacts ScanProps Ast Parser
  Cursor Pure Refine Term Term2 Grammar GramLex GramRules GramNames GramValues GramStmts GramParts GramBodies SndLex SndRules SndNames.
Import ListNotations.
Open Scope N_scope.
Open Scope pure_scope.

Lemma last_tok_cat a b : last_tok b <> None -> last_tok (a ++ b) = last_tok b.
Proof.
  intros N. induction a as [|[] a IH]; cbn [app last_tok]; [reflexivity| |exact IH]. rewrite IH. destruct (last_tok b); [reflexivity|contradiction].
Qed.
Lemma ends_app a b k : ends b k -> ends (a ++ b) k.
Proof. intros (x & q & E & L). exists x, q. rewrite last_tok_cat by (rewrite E; discriminate). auto. Qed.
Lemma ends_T t x p k : T t x p -> lp k = p -> ends t k.
Proof. intros H L. exists x, p. rewrite (last_tok_T0 _ _ _ H), L. auto. Qed.
Ltac sends := repeat apply ends_app; eapply ends_T; eassumption.

Section Stmts.
Variable p0 : mpos.
Variable src : list rune.
Hypothesis RS : readable src.
Variable perm : bool.
Notation P := (P p0 src).
Notation SD := (SD p0 src).
Notation Snd := (Snd p0 src).
Notation Read := (Read p0 src).
Notation Gd := (Gd p0 src).
Notation Bk := (Bk p0 src).

(** ** Options *)
Lemma S_option : Snd (qParseOption p0 perm) (fun k tt o k' => Option perm true [] None tt o /\ ends tt k').
Proof.
  intros k G. unfold qParseOption. pose proof (P_refl _ _ _ G) as PR. sexp t u k1 P1 T1 W1 L1 N1. scall (S_optionName p0 src RS perm) name u2 k2 P2 P3 D2.
  sexp t3 u3 k3 P4 T3 W3 L3 N3. scall (S_constant p0 src RS perm) v u4 k4 P5 P6 D4. sexp e u5 k5 P7 T5 W5 L5 N5. destruct D4 as [D4|D4]; [|contradiction].
  apply SD_ret. sfin. split; [|sends]. econstructor; try eassumption. eapply K_of; exact T3.
Qed.
Definition OTail (tt : list item) (os : list (str * str)) : Prop :=
  (tt = [] /\ os = []) \/ exists td ts, tt = td ++ ts /\ K td "," /\ FieldOptionList perm true ts os.
Lemma OTail_list ts o tt os : FieldOption perm true ts o -> OTail tt os -> FieldOptionList perm true (ts ++ tt) (o :: os).
Proof. intros H [[-> ->]|(td & u & -> & KD & F)]; [rewrite app_nil_r; constructor; exact H|]. eapply fol_more; eassumption. Qed.
Lemma S_fieldOption : Snd (qFieldOption p0 perm) (fun k tt a k' => (exists o, FieldOption perm true tt o /\ a = mkFieldOption (fst o) (snd o)) \/ cr k' = []).
Proof.
  intros k G. unfold qFieldOption. pose proof (P_refl _ _ _ G) as PR. scall (S_optionName p0 src RS perm) name u2 k2 P2 P3 D2.
  sexp t3 u3 k3 P4 T3 W3 L3 N3. scall (S_constant p0 src RS perm) v u4 k4 P5 P6 D4. apply SD_ret. sfin. destruct D4 as [D4|D4]; [left|right; exact D4].
  exists (name, v). split; [|reflexivity]. econstructor; try eassumption. eapply K_of; exact T3.
Qed.
Lemma S_evOption : Snd (qEnumValueOption p0 perm) (fun k tt a k' => (exists o, FieldOption perm true tt o /\ a = mkEnumValueOption (fst o) (snd o)) \/ cr k' = []).
Proof.
  intros k G. unfold qEnumValueOption. pose proof (P_refl _ _ _ G) as PR. scall (S_optionName p0 src RS perm) name u2 k2 P2 P3 D2.
  sexp t3 u3 k3 P4 T3 W3 L3 N3. scall (S_constant p0 src RS perm) v u4 k4 P5 P6 D4. apply SD_ret. sfin. destruct D4 as [D4|D4]; [left|right; exact D4].
  exists (name, v). split; [|reflexivity]. econstructor; try eassumption. eapply K_of; exact T3.
Qed.
Lemma S_fieldOptions_loop n : forall acc, Snd (qFieldOptions_loop p0 perm n acc) (fun k tt a k' => (exists os, a = acc ++ fopts os /\ OTail tt os) \/ cr k' = []).
Proof.
  induction n as [|n IH]; intros acc k G; [exact Logic.I|]. cbn [qFieldOptions_loop]. pose proof (P_refl _ _ _ G) as PR. stok t k1 R1 PB1.
  destruct (tok_eqb (tk t) TCOMMA) eqn:E; cbn [negb].
  2:{ apply SD_back, SD_ret. sfin. left. exists []. rewrite app_nil_r. split; [reflexivity|]. left. auto. }
  stake R1 E u P1 P2 T1 W L N. scall S_fieldOption a u2 k2 P3 P4 D. stail IH b u3 k3 P5 P6 D2. sfin.
  destruct D2 as [(vs & -> & V)|D2]; [|right; exact D2]. destruct D as [(o & D & ->)|D]; [|right; eapply P_end; [exact P5|exact D]].
  left. exists (o :: vs). split; [rewrite <- app_assoc; reflexivity|]. right. eexists _, _. split; [reflexivity|]. split; [eapply K_of; exact T1|]. apply OTail_list; assumption.
Qed.
Lemma S_evOptions_loop n : forall acc, Snd (qEnumValueOptions_loop p0 perm n acc) (fun k tt a k' => (exists os, a = acc ++ evopts os /\ OTail tt os) \/ cr k' = []).
Proof.
  induction n as [|n IH]; intros acc k G; [exact Logic.I|]. cbn [qEnumValueOptions_loop]. pose proof (P_refl _ _ _ G) as PR. stok t k1 R1 PB1.
  destruct (tok_eqb (tk t) TCOMMA) eqn:E; cbn [negb].
  2:{ apply SD_back, SD_ret. sfin. left. exists []. rewrite app_nil_r. split; [reflexivity|]. left. auto. }
  stake R1 E u P1 P2 T1 W L N. scall S_evOption a u2 k2 P3 P4 D. stail IH b u3 k3 P5 P6 D2. sfin.
  destruct D2 as [(vs & -> & V)|D2]; [|right; exact D2]. destruct D as [(o & D & ->)|D]; [|right; eapply P_end; [exact P5|exact D]].
  left. exists (o :: vs). split; [rewrite <- app_assoc; reflexivity|]. right. eexists _, _. split; [reflexivity|]. split; [eapply K_of; exact T1|]. apply OTail_list; assumption.
Qed.
Lemma S_fieldOptions : Snd (qFieldOptionsOption p0 perm) (fun k tt a k' => exists os, a = fopts os /\ FieldOptions perm true tt os).
Proof.
  intros k G. unfold qFieldOptionsOption. pose proof (P_refl _ _ _ G) as PR. stok t k1 R1 PB1. destruct (tok_eqb (tk t) TLEFTSQUARE) eqn:E.
  2:{ apply SD_back, SD_ret. sfin. exists []. split; [reflexivity|constructor]. }
  stake R1 E u P1 P2 T1 W L N. apply SD_bind. unfold qFieldOptions. scall S_fieldOption a u2 k2 P3 P4 D. apply SD_fuel. stail S_fieldOptions_loop b u3 k3 P5 P6 D2.
  sexp t4 u4 k4 P7 T4 W4 L4 N4. apply SD_ret. destruct D2 as [(os & -> & D2)|D2]; [|contradiction]. destruct D as [(o & D & ->)|D]; [|destruct (N4 (P_end _ _ _ _ _ P5 D))].
  sfin. exists (o :: os). split; [reflexivity|]. rewrite (app_assoc u2). eapply fos_some; [eapply K_of; exact T1|apply OTail_list; eassumption|eapply K_of; exact T4].
Qed.
Lemma S_evOptions : Snd (qEnumValueOptions p0 perm) (fun k tt a k' => exists os, a = evopts os /\ FieldOptions perm true tt os).
Proof.
  intros k G. unfold qEnumValueOptions. pose proof (P_refl _ _ _ G) as PR. stok t k1 R1 PB1. destruct (tok_eqb (tk t) TLEFTSQUARE) eqn:E; cbn [negb].
  2:{ apply SD_back, SD_ret. sfin. exists []. split; [reflexivity|constructor]. }
  stake R1 E u P1 P2 T1 W L N. scall S_evOption a u2 k2 P3 P4 D. apply SD_fuel. scall S_evOptions_loop b u3 k3 P5 P6 D2.
  sexp t4 u4 k4 P7 T4 W4 L4 N4. apply SD_ret. destruct D2 as [(os & -> & D2)|D2]; [|contradiction]. destruct D as [(o & D & ->)|D]; [|destruct (N4 (P_end _ _ _ _ _ P5 D))].
  sfin. exists (o :: os). split; [reflexivity|]. rewrite (app_assoc u2). eapply fos_some; [eapply K_of; exact T1|apply OTail_list; eassumption|eapply K_of; exact T4].
Qed.

(** ** Syntax, edition, import, package *)
Lemma S_syntax : Snd (qParseSyntax p0) (fun k tt a k' =>
  match a with
  | None => tt = [] /\ Bk k k' /\ lx_tok (lex ScanKeyword (cr k)) <> TSYNTAX
  | Some s => Syntax true [] None tt s /\ ends tt k'
  end).
Proof.
  intros k G. unfold qParseSyntax. pose proof (P_refl _ _ _ G) as PR. stok t k1 R1 PB1. destruct (tok_eqb (tk t) TSYNTAX) eqn:E; cbn [negb].
  2:{ apply SD_back, SD_ret. sfin. split; [reflexivity|]. split; [apply R1|]. destruct (Read_tk _ _ _ _ _ _ R1) as (X & _). rewrite <- X. intros Y. rewrite Y in E. discriminate. }
  stake R1 E u P1 P2 T1 W L N. sexp t2 u2 k2 P3 T2 W2 L2 N2. sexp q u3 k3 P4 T3 W3 L3 N3. stok v k4 R4 PB4. destruct (negb _ && negb _) eqn:EV; [eapply SD_err; exact PB4|].
  assert (WV : words ["proto2"; "proto3"]%string (tx v)).
  { apply andb_false_iff in EV. rewrite !negb_false_iff, !str_eqb_eq in EV. destruct EV as [->| ->]; [right; left|left]; reflexivity. }
  assert (NE : tx v <> []) by (intros X; rewrite X in WV; cbn in WV; intuition discriminate).
  destruct (Read_text _ _ _ _ _ _ _ _ P4 R4 NE) as (u4 & P5 & P6 & T4 & L4). sexp q' u5 k5 P7 T5 W5 L5 N5. sexp e u6 k6 P8 T6 W6 L6 N6. apply SD_ret. sfin.
  split; [|sends]. econstructor; try eassumption; [eapply K_of; exact T2|left; reflexivity].
Qed.
Lemma S_edition : Snd (qParseEdition p0) (fun k tt a k' =>
  match a with
  | None => tt = [] /\ Bk k k' /\ lx_tok (lex ScanKeyword (cr k)) <> TEDITION
  | Some s => Edition true [] None tt s /\ ends tt k'
  end).
Proof.
  intros k G. unfold qParseEdition. pose proof (P_refl _ _ _ G) as PR. stok t k1 R1 PB1. destruct (tok_eqb (tk t) TEDITION) eqn:E; cbn [negb].
  2:{ apply SD_back, SD_ret. sfin. split; [reflexivity|]. split; [apply R1|]. destruct (Read_tk _ _ _ _ _ _ R1) as (X & _). rewrite <- X. intros Y. rewrite Y in E. discriminate. }
  stake R1 E u P1 P2 T1 W L N. sexp t2 u2 k2 P3 T2 W2 L2 N2. sexp q u3 k3 P4 T3 W3 L3 N3. sexp v u4 k4 P5 T4 W4 L4 N4.
  sexp q' u5 k5 P7 T5 W5 L5 N5. sexp e u6 k6 P8 T6 W6 L6 N6. apply SD_ret. sfin.
  split; [|sends]. econstructor; try eassumption; [eapply K_of; exact T2|left; reflexivity].
Qed.
Lemma S_import : Snd (qParseImport p0) (fun k tt i k' => Import true [] None tt i /\ ends tt k').
Proof.
  intros k G. unfold qParseImport. pose proof (P_refl _ _ _ G) as PR. sexp t u k1 P1 T1 W1 L1 N1. stok m k2 R2 PB2.
  assert (END : forall md tm k3, P k (u ++ tm) k3 -> (ImportMod true tm md \/ cr k3 = []) ->
    SD k ((l <-- pexpect p0 ScanStrLit TSTRLIT;; e <-- pexpect p0 0 TSEMICOLON;; pret (mkImport md (tx l) [] None (mkMeta (tp t) (tp e)))) k3)
      (fun a k' => exists tt, P k tt k' /\ Import true [] None tt a /\ ends tt k')).
  { intros md tm k3 P3 D. sexp l u3 k4 P4 T3 W3 L3 N3. sexp e u4 k5 P5 T4 W4 L4 N4. destruct D as [D|D]; [|contradiction]. apply SD_ret. sfin. split; [|sends]. econstructor; eassumption. }
  assert (ANY : tk m <> TPUBLIC -> tk m <> TWEAK -> SD k ((l <-- pexpect p0 ScanStrLit TSTRLIT;; e <-- pexpect p0 0 TSEMICOLON;; pret (mkImport ImportModifierNone (tx l) [] None (mkMeta (tp t) (tp e)))) k2)
      (fun a k' => exists tt, P k tt k' /\ Import true [] None tt a /\ ends tt k')).
  { intros NP NW. destruct (Read_any _ _ _ _ _ _ _ _ P1 R2) as [(CR & _ & cs & P8)|(u4 & x & NE & P8 & P9 & T4 & L4)].
    - eapply END; [exact P8|right; exact CR].
    - eapply END; [exact P9|left]. eapply imod_junk; [reflexivity|exact T4|]. intros W.
      assert (FT : first_tok u4 = Some (x, tp m)). { destruct T4 as (c & ->). clear. induction c as [|d c IH]; [reflexivity|exact IH]. }
      destruct (first_P _ _ _ _ _ _ _ (N.lor ScanKeyword ScanStrLit) P8 FT eq_refl) as [_ X]. destruct (Read_tk _ _ _ _ _ _ R2) as (Y & _).
      destruct W as [<-|[<-|[]]]; (destruct X as [X _]; [apply identb_iff; reflexivity|]); rewrite X in Y; [exact (NP Y)|exact (NW Y)]. }
  apply SD_bind. destruct (tk m) eqn:E; try (apply SD_ret; apply ANY; discriminate); clear ANY.
  - apply SD_back, SD_ret. eapply (END _ []); [rewrite app_nil_r; exact PB2|left; constructor].
  - stake R2 E u2 P3 P4 T2 W2 L2 N2. apply SD_ret. eapply END; [exact P4|left; apply imod_weak; eapply K_of; exact T2].
  - stake R2 E u2 P3 P4 T2 W2 L2 N2. apply SD_ret. eapply END; [exact P4|left; apply imod_public; eapply K_of; exact T2].
Qed.
Lemma S_package : Snd (qParsePackage p0) (fun k tt i k' => Package [] None tt i /\ ends tt k').
Proof.
  intros k G. unfold qParsePackage. pose proof (P_refl _ _ _ G) as PR. sexp t u k1 P1 T1 W1 L1 N1. scall (S_fullIdent p0 src RS) v u4 k4 P5 P6 D4.
  sexp e u5 k5 P7 T5 W5 L5 N5. destruct D4 as [D4|D4]; [|contradiction]. apply SD_ret. sfin. split; [|sends]. econstructor; eassumption.
Qed.

(** ** Fields *)
Lemma S_label : Snd (qLabel p0) (fun k tt a k' => let '(p, (rp, rq, op)) := a in
  forall rest k'' x q, P k' rest k'' -> first_tok rest = Some (x, q) -> Label tt rest p rp rq op).
Proof.
  intros k G. unfold qLabel. pose proof (P_refl _ _ _ G) as PR. stok t k1 R1 PB1. destruct (Read_tk _ _ _ _ _ _ R1) as (X & _ & XP). pose proof (rd_back _ _ _ _ _ _ R1) as (B1 & B2 & _).
  assert (NONE : ~ In (tk t) [TREPEATED; TREQUIRED; TOPTIONAL] -> SD k ((pback t;;; pret (tp t, (false, false, false))) k1) (fun a k' => exists tt, P k tt k' /\ let '(p, (rp, rq, op)) := a in
    forall rest k'' x q, P k' rest k'' -> first_tok rest = Some (x, q) -> Label tt rest p rp rq op)).
  { intros NI. apply SD_back, SD_ret. sfin. intros rest k'' x q PP FT.
    destruct (first_P _ _ _ _ _ _ _ ScanKeyword PP FT eq_refl) as [EP _]. rewrite B1, B2, <- XP in EP. subst q. eapply lb_none; [exact FT|].
    assert (NF : not_first rest ["repeated"; "required"; "optional"]%string).
    { eapply not_first_kw; [exact PP| |].
      - intros w I. cbn [In] in I. repeat (destruct I as [<-|I]; [cbn; intuition|]). destruct I.
      - intros w tk' I J Y. rewrite B2, <- X in Y. apply NI. subst tk'. cbn [In] in I. unfold keywords in J. cbn [In] in J.
        repeat (destruct I as [<-|I]; [repeat (destruct J as [J|J]; [first [discriminate J|injection J as <-; cbn; tauto]|]); destruct J|]). destruct I. }
    unfold not_first in NF. rewrite GramRules.first_next, FT in NF. exact NF. }
  destruct (tk t) eqn:E; try (apply NONE; cbn; intuition discriminate); clear NONE; stake R1 E u P1 P2 T1 W L N; apply SD_ret; sfin; intros; econstructor; exact T1.
Qed.
Lemma SD_fieldend {A} (f : ti -> str -> list fieldOption -> ti -> PM A) k0 ts k Q : P k0 ts k ->
  (forall name num os e tt k', P k0 (ts ++ tt) k' -> cr k <> [] -> FieldEnd perm true tt (tx name) num os (tp e) -> ends tt k' -> SD k0 (f name num (fopts os) e k') Q) ->
  SD k0 ((name <-- pexpect p0 0 TIDENT;; pexpect p0 0 TEQUALS;;; num <-- qFieldNumber p0;; os <-- qFieldOptionsOption p0 perm;; e <-- pexpect p0 0 TSEMICOLON;; f name num os e) k) Q.
Proof.
  intros H F. sexp name u k1 P1 T1 W1 L1 N1. sexp t2 u2 k2 P2 T2 W2 L2 N2. apply SD_bind. unfold qFieldNumber. sexp t3 u3 k3 P3 T3 W3 L3 N3. apply SD_ret.
  scall S_fieldOptions a u4 k4 P4 P5 D. destruct D as (os & -> & D). sexp e u5 k5 P6 T5 W5 L5 N5. rewrite <- !app_assoc in P6. eapply F; [exact P6|exact N1| |sends].
  econstructor; try eassumption. eapply K_of; exact T2.
Qed.
Lemma S_field : Snd (qParseField p0 perm) (fun k tt o k' => Field perm true [] None tt o /\ ends tt k').
Proof.
  intros k G. unfold qParseField. pose proof (P_refl _ _ _ G) as PR. scall S_label a u k1 P1 P2 D1. destruct a as (p & ((rp & rq) & op)). scall (S_type p0 src RS) ty u2 k2 P3 P4 D2.
  eapply SD_fieldend; [exact P4|]. intros name num os e tt k' P5 N FE EN. destruct D2 as [D2|D2]; [|contradiction]. apply SD_ret. sfin. split; [|repeat apply ends_app; exact EN].
  destruct (Type_first _ _ _ [] D2) as (x & FT). rewrite app_nil_r in FT. econstructor; [eapply D1; [exact P3|exact FT]|exact D2|exact FE].
Qed.
Lemma S_keyType : Snd (qKeyType p0) (fun k tt x k' => exists p, T tt x p /\ words key_types x).
Proof.
  intros k G. unfold qKeyType. pose proof (P_refl _ _ _ G) as PR. stok t k1 R1 PB1. destruct (str_mem _ _) eqn:E; [|eapply SD_err; exact PB1].
  apply str_mem_in in E. assert (NE : tx t <> []) by (intros X; rewrite X in E; cbn in E; intuition discriminate).
  destruct (Read_text _ _ _ _ _ _ _ _ PR R1 NE) as (u4 & P5 & P6 & T4 & L4). apply SD_ret. sfin. exists (tp t). split; [exact T4|exact E].
Qed.
Lemma S_mapField : Snd (qParseMapField p0 perm) (fun k tt o k' => MapField perm true [] None tt o /\ ends tt k').
Proof.
  intros k G. unfold qParseMapField. pose proof (P_refl _ _ _ G) as PR. sexp t u k1 P1 T1 W1 L1 N1. sexp t2 u2 k2 P2 T2 W2 L2 N2. scall S_keyType kt u3 k3 P3 P4 D3. destruct D3 as (p3 & T3 & W3).
  sexp t4 u4 k4 P5 T4 W4 L4 N4. scall (S_type p0 src RS) ty u5 k5 P6 P7 D5. sexp t6 u6 k6 P8 T6 W6 L6 N6. destruct D5 as [D5|D5]; [|contradiction].
  eapply SD_fieldend; [exact P8|]. intros name num os e tt k' P9 N FE EN. apply SD_ret. sfin. split; [|repeat apply ends_app; exact EN].
  econstructor; try eassumption; eapply K_of; eassumption.
Qed.
Lemma S_oneofField : Snd (qOneofField p0 perm) (fun k tt o k' => OneofField perm true [] None tt o /\ ends tt k').
Proof.
  intros k G. unfold qOneofField. pose proof (P_refl _ _ _ G) as PR. scall (S_type p0 src RS) ty u5 k5 P6 P7 D5.
  eapply SD_fieldend; [exact P7|]. intros name num os e tt k' P9 N FE EN. destruct D5 as [D5|D5]; [|contradiction]. apply SD_ret. sfin. split; [|repeat apply ends_app; exact EN].
  econstructor; eassumption.
Qed.
End Stmts.
