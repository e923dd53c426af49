(** What the pure parser accepts as names, types and constants. *)
From Coq Require Import List NArith ZArith Bool String Ascii Lia Sorted.
From Verif Require Import Base Token Scanner Lexer Lexing ScanRefine LexFacts LexSpec LexProofs ScanFacts LexerFacts ScanProps Ast Parser
  Cursor Pure Refine Term Term2 Grammar GramLex GramRules GramNames SndLex SndRules.
Import ListNotations.
Open Scope N_scope.
Open Scope pure_scope.

Lemma T_first ts x p r : T ts x p -> first_tok (ts ++ r) = Some (x, p).
Proof. intros (cs & ->). rewrite <- app_assoc, first_tok_coms. reflexivity. Qed.
Lemma FullIdent_first ts v p r : FullIdent ts v p -> exists x, first_tok (ts ++ r) = Some (x, p) /\ is_ident x.
Proof. intros [u x q H I|u x q td ts' v' p' H I]; exists x; rewrite <- ?app_assoc; (split; [eapply T_first; exact H|exact I]). Qed.
Lemma MessageType_first ts v p r : MessageType ts v p -> exists x, first_tok (ts ++ r) = Some (x, p).
Proof.
  intros [u x q H|td q u x q' H F]; [destruct (FullIdent_first _ _ _ r H) as (y & E & _); eauto|]. rewrite <- app_assoc. eexists. eapply T_first; exact H.
Qed.
Lemma Type_first ts v p r : Type_ ts v p -> exists x, first_tok (ts ++ r) = Some (x, p).
Proof. intros [u x q H _|u x q H _]; [eexists; eapply T_first; exact H|eapply MessageType_first; exact H]. Qed.
Lemma str_mem_in x l : str_mem x l = true -> In x l.
Proof. unfold str_mem. intros H. apply existsb_exists in H. destruct H as (y & I & E). apply str_eqb_eq in E. congruence. Qed.
Lemma str_mem_no x l : str_mem x l = false -> ~ In x l.
Proof. intros H I. assert (str_mem x l = true); [|congruence]. unfold str_mem. apply existsb_exists. exists x. split; [exact I|]. apply str_eqb_eq. reflexivity. Qed.

Lemma P_end p0 src k ts k' : P p0 src k ts k' -> cr k = [] -> cr k' = [].
Proof. intros (_ & (w & sp & p & E & _) & _) N. rewrite N in E. symmetry in E. apply app_eq_nil in E. tauto. Qed.

(** reading again at the same place *)
Lemma Read_same p0 src m k1 k2 t1 t2 a b : Read p0 src m k1 t1 a -> Read p0 src m k2 t2 b -> cc k2 = cc k1 -> cr k2 = cr k1 -> tk t1 = tk t2 /\ tx t1 = tx t2 /\ cc b = cc a /\ cr b = cr a.
Proof.
  intros R1 R2 E1 E2. apply rd_lex in R1. apply rd_lex in R2. unfold Cursor.lexc in R1, R2. injection R1 as <- <-. injection R2 as <- <-. cbn [tk tx cc cr]. rewrite E1, E2. auto.
Qed.
Section Names.
Variable p0 : mpos.
Variable src : list rune.
Hypothesis RS : readable src.
Notation P := (P p0 src).
Notation SD := (SD p0 src).
Notation Snd := (Snd p0 src).
Notation Read := (Read p0 src).
Notation Gd := (Gd p0 src).

(** a dotted tail *)
Definition Dotted (tt : list item) (v : str) : Prop :=
  (tt = [] /\ v = []) \/ exists td ts v' p, tt = td ++ ts /\ K td "." /\ FullIdent ts v' p /\ v = lit "." ++ v'.
Lemma Dotted_full ts x p tt v : T ts x p -> is_ident x -> Dotted tt v -> FullIdent (ts ++ tt) (x ++ v) p.
Proof.
  intros H I [[-> ->]|(td & u & v' & p' & -> & D & F & ->)]; [rewrite !app_nil_r; constructor; assumption|]. eapply fi_dot; eassumption.
Qed.
Lemma S_fi_loop n : forall acc y k0 ts k k' (Q : str -> cur -> Prop), P k0 ts k -> Read 0 k y k' ->
  (forall v tt k2, P k0 (ts ++ tt) k2 -> (Dotted tt v \/ cr k2 = []) -> Q (acc ++ v) k2) -> SD k0 (qFullIdent_loop p0 n acc y k') Q.
Proof.
  induction n as [|n IH]; intros acc y k0 ts k k' Q H R F; [exact Logic.I|]. cbn [qFullIdent_loop].
  destruct (tok_eqb (tk y) TEOF) eqn:E0.
  { apply tokb_eq in E0. destruct (Read_any _ _ _ _ _ _ _ _ H R) as [(CR & _ & cs & P1)|(? & ? & X & _)]; [|congruence].
    apply SD_ret. rewrite <- (app_nil_r acc). eapply F; [exact P1|]. right. exact CR. }
  destruct (tok_eqb (tk y) TDOT) eqn:E1; cbn [negb].
  - apply tokb_eq in E1. destruct (Read_next _ _ _ _ _ _ _ _ _ H R E1 ltac:(discriminate) ltac:(discriminate)) as (u & P1 & P2 & T1 & W & L & N). cbn [want] in W. rewrite W in T1.
    sexp z u2 k2 P3 T2 W2 L2 N2. stok y2 k3 R3 PB3. eapply IH; [exact P3|exact R3|]. intros v tt k4 P4 D. rewrite <- !app_assoc in P4.
    replace ((acc ++ [ch "."] ++ tx z) ++ v) with (acc ++ ([ch "."] ++ tx z ++ v)) by (rewrite <- ?app_assoc; reflexivity). eapply F; [exact P4|].
    destruct D as [D|D]; [|right; exact D]. left. right. exists u, (u2 ++ tt), (tx z ++ v), (tp z). split; [reflexivity|]. split; [eapply K_of; exact T1|].
    split; [|reflexivity]. eapply Dotted_full; eassumption.
  - apply SD_back. apply SD_ret. rewrite <- (app_nil_r acc). eapply F; [rewrite app_nil_r; eapply Bk_P; [exact H|apply R]|]. left. left. auto.
Qed.
Lemma S_fullIdent : Snd (qReadFullIdent p0) (fun k tt a k' => FullIdent tt (fst a) (snd a) \/ cr k' = []).
Proof.
  intros k G. unfold qReadFullIdent. pose proof (P_refl _ _ _ G) as PR. sexp x u k1 P1 T1 W L N. stok y k2 R2 PB2. apply SD_fuel. apply SD_bind.
  eapply S_fi_loop; [exact P1|exact R2|]. intros v tt k3 P3 D. apply SD_ret. exists (u ++ tt). split; [exact P3|]. cbn [fst snd].
  destruct D as [D|D]; [left|right; exact D]. eapply Dotted_full; eassumption.
Qed.

Lemma S_mt_loop n : forall acc y k0 ts k k' (Q : str -> cur -> Prop), P k0 ts k -> Read 0 k y k' ->
  (forall v tt k2, P k0 (ts ++ tt) k2 -> (FullIdent tt v (tp y) \/ cr k2 = []) -> Q (acc ++ v) k2) -> SD k0 (qMessageType_loop p0 n acc y k') Q.
Proof.
  induction n as [|n IH]; intros acc y k0 ts k k' Q H R F; [exact Logic.I|]. cbn [qMessageType_loop].
  destruct (tok_eqb (tk y) TEOF) eqn:E0.
  { apply tokb_eq in E0. destruct (Read_any _ _ _ _ _ _ _ _ H R) as [(CR & _ & cs & P1)|(? & ? & X & _)]; [|congruence].
    apply SD_ret. rewrite <- (app_nil_r acc). eapply F; [exact P1|]. right. exact CR. }
  destruct (tok_eqb (tk y) TIDENT) eqn:E1; cbn [negb].
  2:{ eapply SD_err. eapply Bk_P; [exact H|apply R]. }
  apply tokb_eq in E1. destruct (Read_next _ _ _ _ _ _ _ _ _ H R E1 ltac:(discriminate) ltac:(discriminate)) as (u & P1 & P2 & T1 & W & L & N). cbn [want] in W.
  stok z k2 R2 PB2. destruct (tok_eqb (tk z) TDOT) eqn:E2; cbn [negb].
  - stake R2 E2 u2 P3 P4 T2 W2 L2 N2. stok y2 k3 R3 PB3. eapply IH; [exact P4|exact R3|]. intros v tt k4 P5 D. rewrite <- !app_assoc in *. eapply F; [exact P5|].
    destruct D as [D|D]; [left|right; exact D]. rewrite W2. eapply fi_dot; [exact T1|exact W|eapply K_of; exact T2|exact D].
  - apply SD_back. apply SD_ret. eapply F; [exact PB2|]. left. constructor; assumption.
Qed.
Lemma S_messageType : Snd (qReadMessageType p0) (fun k tt a k' => MessageType tt (fst a) (snd a) \/ cr k' = []).
Proof.
  intros k G. unfold qReadMessageType. pose proof (P_refl _ _ _ G) as PR. stok x k1 R1 PB1. apply SD_bind. destruct (tok_eqb (tk x) TDOT) eqn:E.
  - stake R1 E u P1 P2 T1 W L N. apply SD_ret. stok y k2 R2 PB2. apply SD_fuel. apply SD_bind. eapply S_mt_loop; [exact P2|exact R2|].
    intros v tt k3 P3 D. apply SD_ret. eexists. split; [exact P3|]. cbn [fst snd]. destruct D as [D|D]; [left|right; exact D]. rewrite W. eapply mt_dot; eassumption.
  - apply SD_back. apply SD_ret. stok y k2 R2 PB2. apply SD_fuel. apply SD_bind. eapply S_mt_loop; [exact PB1|exact R2|].
    intros v tt k3 P3 D. apply SD_ret. exists tt. split; [exact P3|]. cbn [fst snd app]. destruct D as [D|D]; [left|right; exact D]. apply mt_name.
    destruct (Read_tk _ _ _ _ _ _ R1) as (_ & _ & ->). destruct (Read_tk _ _ _ _ _ _ R2) as (_ & _ & X). destruct (rd_back _ _ _ _ _ _ R1) as (B1 & B2 & _).
    rewrite B1, B2 in X. rewrite <- X. exact D.
Qed.
Lemma S_type : Snd (qType p0) (fun k tt a k' => Type_ tt (fst a) (snd a) \/ cr k' = []).
Proof.
  intros k G. unfold qType. pose proof (P_refl _ _ _ G) as PR. stok x k1 R1 PB1. destruct (str_mem (tx x) typeConstants) eqn:E.
  - apply str_mem_in in E. assert (NE : tx x <> []) by (intros X; rewrite X in E; cbn in E; intuition discriminate).
    destruct (Read_text _ _ _ _ _ _ _ _ PR R1 NE) as (u & P1 & P2 & T1 & L1). apply SD_ret. sfin. left. apply ty_scalar; [exact T1|exact E].
  - apply SD_back. stail S_messageType a u k2 P1 P2 D. exists u. split; [exact P2|]. destruct D as [D|D]; [left|right; exact D].
    apply ty_message; [exact D|]. eapply (not_first_txt _ _ _ _ _ _ 0); [exact P2|reflexivity| |].
    + intros w I. apply identb_iff. unfold scalars in I. cbn [In] in I. repeat (destruct I as [<-|I]; [reflexivity|]). destruct I.
    + destruct (Read_tk _ _ _ _ _ _ R1) as (_ & X & _). rewrite <- X. exact (str_mem_no _ _ E).
Qed.

(** ** Constants *)
Section Perm.
Variable perm : bool.

Inductive StrTail : list item -> list str -> Prop :=
| st_nil : StrTail [] []
| st_cons ts x p ts' xs : T ts x p -> is_str x -> StrTail ts' xs -> StrTail (ts ++ ts') (x :: xs).
Lemma tail_strings ts x p ts' xs : T ts x p -> is_str x -> StrTail ts' xs -> Strings (ts ++ ts') (x :: xs) p.
Proof.
  intros H I S. revert ts x p H I. induction S as [|u y q u' ys HT IS S IH]; intros ts x p H I; [rewrite app_nil_r; constructor; assumption|].
  eapply ss_more; [exact H|exact I|]. eapply IH; eassumption.
Qed.
Lemma S_merge_loop q n : forall b y k0 ts k k' (Q : str * ti -> cur -> Prop), P k0 ts k -> Read ScanLit k y k' ->
  (forall xs tt y' k1 k2, P k0 (ts ++ tt) k1 -> Read ScanLit k1 y' k2 -> StrTail tt xs -> Q (b ++ flat_map (trim q) xs, y') k2) -> SD k0 (qMerge_loop p0 n q b y k') Q.
Proof.
  induction n as [|n IH]; intros b y k0 ts k k' Q H R F; [exact Logic.I|]. cbn [qMerge_loop]. destruct (tok_eqb (tk y) TSTRLIT) eqn:E.
  - stake R E u P1 P2 T1 W L N. stok y2 k2 R2 PB2. eapply IH; [exact P2|exact R2|]. intros xs tt y3 k3 k4 P3 R3 ST. rewrite <- app_assoc in *.
    apply (F (tx y :: xs) (u ++ tt) y3 k3 k4); [exact P3|exact R3|]. econstructor; eassumption.
  - apply SD_ret. rewrite <- (app_nil_r b). apply (F [] [] y k k'); [rewrite app_nil_r; exact H|exact R|constructor].
Qed.

Lemma str_first x : is_str x -> exists q b, x = q :: b /\ (if q =? DQ then DQ else SQ) = q.
Proof. intros (q & b & [->| ->] & -> & _); eexists _, _; (split; [reflexivity|]); reflexivity. Qed.
Lemma S_readConstant : Snd (qReadConstant p0 perm) (fun k tt a k' => Constant perm tt (fst a) \/ cr k' = []).
Proof.
  intros k G. unfold qReadConstant. pose proof (P_refl _ _ _ G) as PR. stok x k1 R1 PB1.
  assert (SG : forall T0, tk x = T0 -> T0 <> TEOF \/ T0 <> TILLEGAL -> SD k ((if str_eqb (tx x) (lit "-") || str_eqb (tx x) (lit "+") then
      y <-- ptok p0 ScanLit;; match tk y with TINTLIT | TFLOATLIT => pret (tx x ++ tx y, tp x) | _ => perr y end else perr x) k1)
      (fun a k' => exists tt, P k tt k' /\ (Constant perm tt (fst a) \/ cr k' = []))).
  { intros T0 _ _. destruct (_ || _) eqn:E; [|eapply SD_err; exact PB1].
    assert (W : words ["-"; "+"]%string (tx x)). { apply orb_true_iff in E. rewrite !str_eqb_eq in E. destruct E as [->| ->]; [left|right; left]; reflexivity. }
    assert (NE : tx x <> []) by (intros X; rewrite X in W; cbn in W; intuition discriminate).
    destruct (Read_text _ _ _ _ _ _ _ _ PR R1 NE) as (u & P1 & P2 & T1 & L1). stok y k2 R2 PB2.
    destruct (tk y) eqn:E2; try (eapply SD_err; exact PB2).
    - stake R2 E2 u2 P3 P4 T2 W2 L2 N2. apply SD_ret. sfin. left. eapply c_signed; [exact T1|exact W|exact T2|left; exact W2].
    - stake R2 E2 u2 P3 P4 T2 W2 L2 N2. apply SD_ret. sfin. left. eapply c_signed; [exact T1|exact W|exact T2|right; exact W2]. }
  destruct (tk x) eqn:E; try (apply (SG _ eq_refl); first [left; discriminate|right; discriminate]); clear SG.
  - (* TIDENT *) apply SD_back. stail S_fullIdent a u k2 P1 P2 D. exists u. split; [exact P2|]. destruct D as [D|D]; [left|right; exact D].
    eapply c_name; [exact D|]. unfold not_first. destruct (next_tok u) as [z|] eqn:NT; [|exact Logic.I]. intros W. apply SndLex.first_next in NT. destruct NT as (q & FT).
    destruct (first_P _ _ _ _ _ _ _ ScanLit P2 FT eq_refl) as [_ X]. destruct (Read_tk _ _ _ _ _ _ R1) as (Y & _). apply words_cases in W. destruct W as (w & I & ->).
    unfold literals in I. cbn [In] in I. repeat (destruct I as [<-|I]; [destruct (X ltac:(apply identb_iff; reflexivity)) as [X1 _]; rewrite <- Y, E in X1; vm_compute in X1; discriminate X1|]). destruct I.
  - (* TINTLIT *) stake R1 E u P1 P2 T1 W L N. apply SD_ret. sfin. left. eapply c_number; [exact T1|left; exact W].
  - (* TFLOATLIT *) stake R1 E u P1 P2 T1 W L N. apply SD_ret. sfin. left. eapply c_number; [exact T1|right; exact W].
  - (* TBOOLLIT *) stake R1 E u P1 P2 T1 W L N. apply SD_ret. sfin. left. eapply c_bool; [exact T1|exact W].
  - (* TSTRLIT *) pose proof E as E'. stake R1 E' u P1 P2 T1 W L N. destruct perm eqn:PE; [|apply SD_ret; sfin; left; eapply c_string; [reflexivity|exact T1|exact W]].
    apply SD_bind. unfold qMerge. destruct (str_first _ W) as (q & b & EX & EQ). set (qq := match tx x with [] => SQ | c :: _ => if c =? DQ then DQ else SQ end).
    assert (QQ : qq = q) by (unfold qq; rewrite EX; exact EQ). rewrite QQ. clear qq QQ.
    apply SD_fuel. apply SD_bind. set (n := S (List.length (cr k1))). cbn [qMerge_loop]. rewrite E. cbn [tok_eqb]. destruct (tok_eqb TSTRLIT TSTRLIT) eqn:TE; [|discriminate].
    stok y k2 R2 PB2. eapply S_merge_loop; [exact P2|exact R2|]. intros xs tt y3 k3 k4 P3 R3 ST. apply SD_back. apply SD_ret. apply SD_ret.
    exists (u ++ tt). split; [eapply Bk_P; [exact P3|apply R3]|]. left. cbn [fst].
    replace ((([q] ++ trim q (tx x)) ++ flat_map (trim q) xs) ++ [q]) with (joined (tx x :: xs)).
    + eapply c_strings; [reflexivity|]. eapply tail_strings; eassumption.
    + unfold joined. replace (first_quote (tx x :: xs)) with q by (rewrite EX; reflexivity). cbn [flat_map]. rewrite <- !app_assoc. reflexivity.
Qed.

(** ** Option names *)
Lemma S_parenName name : Snd (qParenName p0 perm name) (fun k tt a k' => exists v, a = name ++ v /\
  ((exists t2 w p t3, tt = t2 ++ t3 /\ v = w ++ lit ")" /\ FullIdent t2 w p /\ K t3 ")") \/
   (perm = true /\ exists t1 t2 w p t3, tt = t1 ++ t2 ++ t3 /\ v = lit "." ++ w ++ lit ")" /\ K t1 "." /\ FullIdent t2 w p /\ K t3 ")"))).
Proof.
  intros k G. unfold qParenName. pose proof (P_refl _ _ _ G) as PR. apply SD_bind.
  assert (PLAIN : forall k1, P k [] k1 -> SD k ((fi <-- qReadFullIdent p0;; t <-- pexpect p0 0 TRIGHTPAREN;; pret (name ++ fst fi ++ tx t)) k1)
    (fun a k' => exists tt, P k tt k' /\ exists v, a = name ++ v /\ ((exists t2 w p t3, tt = t2 ++ t3 /\ v = w ++ lit ")" /\ FullIdent t2 w p /\ K t3 ")") \/
   (perm = true /\ exists t1 t2 w p t3, tt = t1 ++ t2 ++ t3 /\ v = lit "." ++ w ++ lit ")" /\ K t1 "." /\ FullIdent t2 w p /\ K t3 ")")))).
  { intros k1 P1. scall S_fullIdent a u k2 P2 P3 D. sexp t u2 k3 P4 T1 W L N. destruct D as [D|D]; [|contradiction].
    apply SD_ret. sfin. exists (fst a ++ tx t). rewrite W. split; [reflexivity|]. left. eexists _, _, _, _. split; [reflexivity|]. split; [reflexivity|]. split; [exact D|eapply K_of; exact T1]. }
  destruct perm eqn:PE; [|apply SD_ret; apply PLAIN; exact PR]. stok t k1 R1 PB1. destruct (tok_eqb (tk t) TDOT) eqn:E; [|apply SD_back, SD_ret; apply PLAIN; exact PB1].
  stake R1 E u P1 P2 T1 W L N. apply SD_ret. scall S_fullIdent a u2 k2 P3 P4 D. sexp t2 u3 k3 P5 T2 W2 L2 N2. destruct D as [D|D]; [|contradiction].
  apply SD_ret. sfin. exists (lit "." ++ fst a ++ tx t2). rewrite W2. split; [rewrite <- ?app_assoc; reflexivity|]. right. split; [reflexivity|].
  eexists _, _, _, _, _. split; [reflexivity|]. split; [reflexivity|]. split; [eapply K_of; exact T1|]. split; [exact D|eapply K_of; exact T2].
Qed.
Lemma paren_part t1 t v tt : K t1 "(" -> tt = t -> ((exists t2 w p t3, tt = t2 ++ t3 /\ v = w ++ lit ")" /\ FullIdent t2 w p /\ K t3 ")") \/
   (perm = true /\ exists t1 t2 w p t3, tt = t1 ++ t2 ++ t3 /\ v = lit "." ++ w ++ lit ")" /\ K t1 "." /\ FullIdent t2 w p /\ K t3 ")")) -> NamePart perm (t1 ++ t) (lit "(" ++ v).
Proof.
  intros H -> [(t2 & w & p & t3 & -> & -> & F & K3)|(PE & t2 & t3 & w & p & t4 & -> & -> & K2 & F & K4)].
  - eapply np_paren; eassumption.
  - change (lit "(" ++ lit "." ++ w ++ lit ")") with (lit "(." ++ w ++ lit ")"). eapply np_dotted; eassumption.
Qed.
Definition NameTail (tt : list item) (v : str) : Prop :=
  (tt = [] /\ v = []) \/ exists td ts v', tt = td ++ ts /\ K td "." /\ OptionName perm ts v' /\ v = lit "." ++ v'.
Lemma NameTail_name ts x tt v : NamePart perm ts x -> NameTail tt v -> OptionName perm (ts ++ tt) (x ++ v).
Proof.
  intros H [[-> ->]|(td & u & v' & -> & D & F & ->)]; [rewrite !app_nil_r; constructor; assumption|]. eapply on_more; eassumption.
Qed.
Lemma S_optionName_loop n : forall name, Snd (qOptionName_loop p0 perm n name) (fun k tt a k' => exists v, a = name ++ v /\ NameTail tt v).
Proof.
  induction n as [|n IH]; intros name k G; [exact Logic.I|]. cbn [qOptionName_loop]. pose proof (P_refl _ _ _ G) as PR. stok t k1 R1 PB1.
  destruct (tok_eqb (tk t) TDOT) eqn:E; cbn [negb].
  2:{ apply SD_back, SD_ret. sfin. exists []. rewrite app_nil_r. split; [reflexivity|]. left. auto. }
  stake R1 E u P1 P2 T1 W L N. stok t2 k2 R2 PB2. rewrite W. destruct (tk t2) eqn:E2; try (eapply SD_err; exact PB2).
  - stake R2 E2 u2 P3 P4 T2 W2 L2 N2. stail IH a u3 k3 P5 P6 D. destruct D as (v & -> & D). sfin. exists (lit "." ++ tx t2 ++ v). split; [rewrite <- ?app_assoc; reflexivity|].
    right. exists u, (u2 ++ u3), (tx t2 ++ v). split; [reflexivity|]. split; [eapply K_of; exact T1|]. split; [|reflexivity]. apply NameTail_name; [eapply np_ident; eassumption|exact D].
  - stake R2 E2 u2 P3 P4 T2 W2 L2 N2. scall S_parenName a u3 k3 P5 P6 D. destruct D as (v & -> & D). stail IH a u4 k4 P7 P8 D2. destruct D2 as (v2 & -> & D2). sfin.
    exists (lit "." ++ (lit "(" ++ v) ++ v2). rewrite W2. split; [rewrite <- ?app_assoc; reflexivity|]. right. exists u, ((u2 ++ u3) ++ u4), ((lit "(" ++ v) ++ v2).
    split; [rewrite <- ?app_assoc; reflexivity|]. split; [eapply K_of; exact T1|]. split; [|reflexivity]. apply NameTail_name; [|exact D2]. eapply paren_part; [eapply K_of; exact T2|reflexivity|exact D].
Qed.
Lemma S_optionName : Snd (qOptionName p0 perm) (fun k tt a k' => OptionName perm tt a).
Proof.
  intros k G. unfold qOptionName. pose proof (P_refl _ _ _ G) as PR. stok t k1 R1 PB1. apply SD_bind. destruct (tk t) eqn:E; try (eapply SD_err; exact PB1).
  - stake R1 E u P1 P2 T1 W L N. apply SD_ret. apply SD_fuel. stail S_optionName_loop a u3 k3 P5 P6 D. destruct D as (v & -> & D). sfin. apply NameTail_name; [eapply np_ident; eassumption|exact D].
  - stake R1 E u P1 P2 T1 W L N. stail S_parenName a u3 k3 P5 P6 D. apply SD_fuel. destruct D as (v & -> & D). rewrite W. stail S_optionName_loop a u4 k4 P7 P8 D2. destruct D2 as (v2 & -> & D2).
    exists ((u ++ u3) ++ u4). split; [exact P8|]. apply NameTail_name; [|exact D2]. eapply paren_part; [eapply K_of; exact T1|reflexivity|exact D].
Qed.
End Perm.

(** ** Values *)
(** the value, and whether it opens with a brace; at the end of the text it may be cut *)
Definition RV (perm : bool) (k : cur) (tt : list item) (v : str) (k' : cur) : Prop :=
  (Value perm true tt v /\ opens tt (tok_eqb (lx_tok (lex 0 (cr k))) TLEFTCURLY)) \/ cr k' = [].
Inductive ValTail : list item -> list str -> Prop :=
| vt_nil : ValTail [] []
| vt_cons td ts v tt vs : K td "," -> Value true true ts v -> ValTail tt vs -> ValTail (td ++ ts ++ tt) (v :: vs).
Lemma ValTail_values ts v tt vs : Value true true ts v -> ValTail tt vs -> Values true true (ts ++ tt) (join (lit ",") (v :: vs)).
Proof.
  intros H V. revert ts v H. induction V as [|td us w tt vs KD W V IH]; intros ts v H; [rewrite app_nil_r; constructor; exact H|].
  change (join (lit ",") (v :: w :: vs)) with (v ++ lit "," ++ join (lit ",") (w :: vs)). eapply vs_more; [exact H|exact KD|]. apply IH. exact W.
Qed.
Lemma S_constants_loop pc n : Snd pc (RV true) -> forall opts, Snd (qConstants_loop p0 pc n opts) (fun k tt a k' => (exists vs, a = opts ++ vs /\ ValTail tt vs) \/ cr k' = []).
Proof.
  intros SP. induction n as [|n IH]; intros opts k G; [exact Logic.I|]. cbn [qConstants_loop]. pose proof (P_refl _ _ _ G) as PR. stok t k1 R1 PB1.
  destruct (tok_eqb (tk t) TCOMMA) eqn:E; cbn [negb].
  2:{ apply SD_back, SD_ret. sfin. left. exists []. rewrite app_nil_r. split; [reflexivity|constructor]. }
  stake R1 E u P1 P2 T1 W L N. scall SP a u2 k2 P3 P4 D. stail IH b u3 k3 P5 P6 D2. sfin.
  destruct D2 as [(vs & -> & V)|D2]; [|right; exact D2]. destruct D as [[D _]|D].
  - left. exists (a :: vs). split; [rewrite <- app_assoc; reflexivity|]. econstructor; [eapply K_of; exact T1|exact D|exact V].
  - right. eapply P_end; [exact P5|exact D].
Qed.

(** entries of a message literal *)
Definition Ent (o : bool) (ts : list item) (v : str) : Prop :=
  Entry true true o ts v /\ (o = true -> forall t4, K t4 ";" -> Entry true true false (ts ++ t4) (v ++ lit ";")).
Definition cloudRest (rec : str -> PM str) (r : str) (needSemi : bool) : PM str :=
  t2 <-- ptok p0 0;;
  '(r, t3) <-- (if tok_eqb (tk t2) TSEMICOLON && needSemi && true
                then t3 <-- ptok p0 0;; pret (r ++ tx t2, t3)
                else pret (r, t2));;
  match tk t3 with
  | TCOMMA | TSEMICOLON =>
    pk <-- ppeek p0 0;;
    if tok_eqb (tk pk) TRIGHTCURLY && true then t4 <-- ptok p0 0;; pret ((r ++ tx t3) ++ tx t4) else rec (r ++ tx t3)
  | TRIGHTCURLY => pret (r ++ tx t3)
  | _ => pback t3;;; rec (r ++ [NL])
  end.
Lemma cloudRest_end k0 ts k rec r nd (Q : str -> cur -> Prop) : P k0 ts k -> cr k = [] ->
  (forall r k ts Q, P k0 ts k -> cr k = [] -> SD k0 (rec r k) Q) -> SD k0 (cloudRest rec r nd k) Q.
Proof.
  intros H N F. unfold cloudRest. stok t2 k2 R2 PB2. pose proof (Read_eof _ _ _ _ _ _ R2 N) as E. rewrite E.
  destruct (tok_eqb TEOF TSEMICOLON) eqn:X; [discriminate|]. cbn [andb]. apply SD_bind, SD_ret. rewrite E. apply SD_back. eapply F; [exact PB2|].
  destruct (rd_back _ _ _ _ _ _ R2) as (_ & -> & _). exact N.
Qed.
(** what follows the separator or its absence *)
Lemma S_cloudTail (rec : str -> PM str) o k0 ts te v r k t3 k3 (Q : str -> cur -> Prop) :
  (forall r, Snd (rec r) (fun k tt a k' => exists v, a = r ++ v /\ Entries true true tt v)) ->
  P k0 (ts ++ te) k -> Entry true true o te v -> Read 0 k t3 k3 -> (tk t3 = TSEMICOLON -> o = false) ->
  (forall tt v' k', P k0 (ts ++ tt) k' -> Entries true true tt (v ++ v') -> Q (r ++ v') k') ->
  SD k0 (match tk t3 with
  | TCOMMA | TSEMICOLON =>
    pk <-- ppeek p0 0;;
    if tok_eqb (tk pk) TRIGHTCURLY && true then t4 <-- ptok p0 0;; pret ((r ++ tx t3) ++ tx t4) else rec (r ++ tx t3)
  | TRIGHTCURLY => pret (r ++ tx t3)
  | _ => pback t3;;; rec (r ++ [NL])
  end k3) Q.
Proof.
  intros IH H EN R3 SO F.
  assert (DEF : SD k0 ((pback t3;;; rec (r ++ [NL])) k3) Q).
  { apply SD_back. pose proof (Bk_P _ _ _ _ _ _ H (rd_back _ _ _ _ _ _ R3)) as PB. stail IH a u k4 P5 P6 D. destruct D as (v' & -> & D).
    rewrite <- app_assoc. eapply F; [rewrite app_assoc; exact P6|]. eapply e_more; eassumption. }
  assert (SEP : forall T0, tk t3 = T0 -> T0 <> TEOF -> T0 <> TILLEGAL -> separator o (tx t3) -> SD k0 ((pk <-- ppeek p0 0;;
    if tok_eqb (tk pk) TRIGHTCURLY && true then t4 <-- ptok p0 0;; pret ((r ++ tx t3) ++ tx t4) else rec (r ++ tx t3)) k3) Q).
  { intros T0 E N1 N2 SE. destruct (Read_next _ _ _ _ _ _ _ _ _ H R3 E N1 N2) as (u & P1 & P2 & T1 & _ & L & N). speek pk k4 R4 B4 PB4.
    destruct (tok_eqb (tk pk) TRIGHTCURLY) eqn:E4; cbn [andb].
    - stok t4 k5 R5 PB5. assert (E5 : tk t4 = TRIGHTCURLY).
      { apply tokb_eq in E4. destruct (Read_tk _ _ _ _ _ _ R4) as (X & _). destruct (Read_tk _ _ _ _ _ _ R5) as (Y & _). destruct B4 as (_ & B4 & _). rewrite B4, <- X, E4 in Y. exact Y. }
      stake R5 E5 u2 P3 P4 T2 W2 L2 N3. apply SD_ret. rewrite W2, <- app_assoc. eapply F; [rewrite <- !app_assoc in P4; exact P4|].
      eapply e_last_sep; [exact EN|exact T1|exact SE|eapply K_of; exact T2].
    - stail IH a u2 k5 P5 P6 D. destruct D as (v' & -> & D). rewrite <- app_assoc. eapply F; [rewrite <- !app_assoc in P6; exact P6|]. eapply e_more_sep; eassumption. }
  destruct (tk t3) eqn:E; try exact DEF.
  - apply (SEP _ eq_refl); [discriminate|discriminate|]. right. split; [|apply SO; reflexivity]. destruct (Read_hit _ _ _ _ _ _ _ R3 E) as (u & _ & _ & _ & W); [discriminate|discriminate|exact W].
  - stake R3 E u P1 P2 T1 W L N. apply SD_ret. rewrite W. eapply F; [rewrite <- !app_assoc in P2; exact P2|]. eapply e_last; [exact EN|eapply K_of; exact T1].
  - apply (SEP _ eq_refl); [discriminate|discriminate|]. left. destruct (Read_hit _ _ _ _ _ _ _ R3 E) as (u & _ & _ & _ & W); [discriminate|discriminate|exact W].
Qed.
Lemma S_cloudRest (rec : str -> PM str) o k0 ts te v r k (Q : str -> cur -> Prop) :
  (forall r, Snd (rec r) (fun k tt a k' => exists v, a = r ++ v /\ Entries true true tt v)) ->
  P k0 (ts ++ te) k -> Ent o te v ->
  (forall tt v' k', P k0 (ts ++ tt) k' -> Entries true true tt (v ++ v') -> Q (r ++ v') k') -> SD k0 (cloudRest rec r o k) Q.
Proof.
  intros IH H [EN ES] F. unfold cloudRest. stok t2 k2 R2 PB2. destruct (tok_eqb (tk t2) TSEMICOLON && o && true) eqn:E.
  - apply andb_true_iff in E. destruct E as [E _]. apply andb_true_iff in E. destruct E as [E ->]. stake R2 E u P1 P2 T1 W L N. apply SD_bind. stok t3 k3 R3 PB3. apply SD_ret. rewrite W.
    eapply (S_cloudTail rec false k0 ts (te ++ u) (v ++ lit ";")); [exact IH|rewrite app_assoc; exact P2|apply ES; [reflexivity|eapply K_of; exact T1]|exact R3|reflexivity|].
    intros tt v' k' P4 D. rewrite <- app_assoc. apply (F tt); [exact P4|]. rewrite app_assoc. exact D.
  - apply SD_bind, SD_ret. eapply (S_cloudTail rec o k0 ts te v); [exact IH|exact H|exact EN|exact R2| |exact F]. intros X. rewrite X in E. destruct (tok_eqb TSEMICOLON TSEMICOLON) eqn:Y; [|discriminate].
    rewrite andb_true_r in E. exact E.
Qed.
Lemma cloud_end pc n : forall k0 r k ts Q, P k0 ts k -> cr k = [] -> SD k0 (qCloud_loop p0 true pc n r k) Q.
Proof. destruct n as [|n]; intros k0 r k ts Q H N; [exact Logic.I|]. cbn [qCloud_loop]. sexp t u k1 P1 T1 W L N1. contradiction. Qed.
Lemma S_cloud_loop pc n : Snd pc (RV true) -> forall r, Snd (qCloud_loop p0 true pc n r) (fun k tt a k' => exists v, a = r ++ v /\ Entries true true tt v).
Proof.
  intros SP. induction n as [|n IH]; intros r k G; [exact Logic.I|]. cbn [qCloud_loop]. pose proof (P_refl _ _ _ G) as PR. sexp t u k1 P1 T1 W1 L1 N1.
  stok t2 k2 R2 PB2. apply SD_bind. destruct (tk t2) eqn:E2; try (eapply SD_err; exact PB2).
  - (* colon *) stake R2 E2 u2 P3 P4 T2 W2 L2 N2. speek pk k4 R4 B4 PB4. apply SD_ret. scall SP a u3 k5 P5 P6 D.
    change (SD k (cloudRest (qCloud_loop p0 true pc n) (((r ++ tx t) ++ tx t2) ++ a) (tok_eqb (tk pk) TLEFTCURLY && true) k5) (fun a k' => exists tt, P k tt k' /\ (exists v, a = r ++ v /\ Entries true true tt v))).
    destruct D as [[D O]|D]; [|eapply cloudRest_end; [exact P6|exact D|intros; eapply cloud_end; eassumption]].
    rewrite andb_true_r. set (o := tok_eqb (tk pk) TLEFTCURLY) in *.
    assert (OO : opens u3 o). { destruct (Read_tk _ _ _ _ _ _ R4) as (X & _). destruct B4 as (_ & B4 & _). rewrite B4, <- X in O. exact O. }
    rewrite W2. eapply (S_cloudRest _ o k [] ((u ++ u2) ++ u3) (tx t ++ lit ":" ++ a)); [exact IH|exact P6| |].
    + split; [rewrite <- app_assoc; eapply en_colon; try eassumption; eapply K_of; exact T2|]. intros OT t4 K4. rewrite OT in OO. rewrite <- !app_assoc.
      eapply en_colon_semi; try eassumption. eapply K_of; exact T2.
    + intros tt v' k' P7 D7. exists tt. split; [exact P7|]. exists (((tx t ++ lit ":") ++ a) ++ v'). rewrite <- !app_assoc in *. split; [reflexivity|exact D7].
  - (* brace *) cbn [negb]. apply SD_back, SD_ret. scall SP a u3 k5 P5 P6 D.
    change (SD k (cloudRest (qCloud_loop p0 true pc n) ((r ++ tx t) ++ a) false k5) (fun a k' => exists tt, P k tt k' /\ (exists v, a = r ++ v /\ Entries true true tt v))).
    destruct D as [[D O]|D]; [|eapply cloudRest_end; [exact P6|exact D|intros; eapply cloud_end; eassumption]].
    assert (OO : opens u3 true). { destruct (Read_tk _ _ _ _ _ _ R2) as (X & _). destruct (rd_back _ _ _ _ _ _ R2) as (_ & B4 & _). rewrite B4, <- X, E2 in O. exact O. }
    eapply (S_cloudRest _ false k [] (u ++ u3) (tx t ++ a)); [exact IH|exact P6| |].
    + split; [eapply en_message; eassumption|discriminate].
    + intros tt v' k' P7 D7. exists tt. split; [exact P7|]. exists ((tx t ++ a) ++ v'). rewrite <- !app_assoc in *. split; [reflexivity|exact D7].
Qed.
Lemma Constant_first perm ts v : Constant perm ts v -> next_tok ts <> Some (lit "{").
Proof.
  assert (CI : forall x, is_ident x -> x <> lit "{") by (intros x I ->; apply identb_iff in I; discriminate).
  assert (CS : forall x, is_str x -> x <> lit "{") by (intros x (q & b & [->| ->] & -> & _); discriminate).
  assert (CN : forall x, number x -> x <> lit "{").
  { assert (D : forall a r, decimals a -> a ++ r <> lit "{").
    { intros [|c a] r [N F] X; [congruence|]. inversion F as [|? ? F1 _]; subst. injection X as -> _. unfold digit in F1. vm_compute in F1. destruct F1 as [_ F1]. apply F1. reflexivity. }
    assert (FL : forall x, is_float x -> x <> lit "{").
    { intros x [a b e A _ _|a e A _|b e _ _| |]; try discriminate; apply D; exact A. }
    intros x [H|H]; [|apply FL, plain_float; exact H].
    destruct H as [(c & l & -> & C & _)|[(l & -> & _)|(e & l & -> & _)]]; try discriminate. intros X. injection X as -> _. vm_compute in C. destruct C as [_ C]. apply C. reflexivity. }
  intros [u x p _ H I|u xs p _ H|u x p H I|u x p H I|u x p H _|u s p u' x p' H I _ _] NT.
  - rewrite (next_tok_T0 _ _ _ H) in NT. injection NT as NT. exact (CS _ I NT).
  - apply ss_first in H. destruct H as (t1 & x & tl & xs' & -> & _ & H & I & _). rewrite (next_tok_T _ _ _ _ H) in NT. injection NT as NT. exact (CS _ I NT).
  - rewrite (next_tok_T0 _ _ _ H) in NT. injection NT as NT. exact (CN _ I NT).
  - rewrite (next_tok_T0 _ _ _ H) in NT. injection NT as ->. cbn in I. intuition discriminate.
  - destruct (FullIdent_first _ _ _ [] H) as (y & E & I). rewrite app_nil_r in E. rewrite GramRules.first_next, E in NT. injection NT as NT. exact (CI _ I NT).
  - rewrite (next_tok_T _ _ _ _ H) in NT. injection NT as ->. cbn in I. intuition discriminate.
Qed.
Lemma S_optionConstant perm n : Snd (qOptionConstant p0 perm n) (RV perm).
Proof.
  induction n as [|n IH]; intros k G; [exact Logic.I|]. cbn [qOptionConstant]. pose proof (P_refl _ _ _ G) as PR. speek t k1 R1 B1 PB1.
  destruct (Read_tk _ _ _ _ _ _ R1) as (X1 & _). pose proof B1 as (_ & BR & _).
  assert (DEF : tk t <> TLEFTCURLY -> SD k ((c <-- qReadConstant p0 perm;; pret (fst c)) (kb t)) (fun a k' => exists tt, P k tt k' /\ RV perm k tt a k')).
  { intros NT. scall S_readConstant a u k2 P2 P3 D. apply SD_ret. sfin. destruct D as [D|D]; [left|right; exact D]. split; [apply v_constant; exact D|].
    unfold opens. rewrite <- X1. split; [intros X; apply tokb_eq in X; contradiction|]. intros X. destruct (Constant_first _ _ _ D X). }
  destruct (tk t) eqn:E; try (apply DEF; discriminate).
  - (* brace *) clear DEF. destruct perm eqn:PE; [|apply SD_bal]. cbn [negb].
    assert (ST : stable (cr (kb t)) = true) by (rewrite BR; unfold stable; rewrite <- X1; reflexivity).
    eapply (SD_peek2 _ _ RS); [exact PB1|exact ST|]. intros t1 k2 t2 k3 b Ra Rb Bb PBb.
    assert (OP : forall u r, T u (lit "{") (tp t) \/ (exists p, T u (lit "{") p) -> opens (u ++ r) (tok_eqb (lx_tok (lex 0 (cr k))) TLEFTCURLY)).
    { intros u r H. assert (exists p, T u (lit "{") p) as (p & HT) by (destruct H; eauto). unfold opens. rewrite <- X1, (next_tok_T _ _ _ _ HT). destruct (tok_eqb _ _) eqn:Z; [tauto|discriminate]. }
    destruct (Read_tk _ _ _ _ _ _ Ra) as (Xa & _). rewrite BR, <- X1 in Xa.
    destruct (tok_eqb (tk t2) TRIGHTCURLY) eqn:E2.
    + (* empty *) stok y1 k4 R4 PB4.
      pose proof Bb as (Bc & Br & _). destruct (Read_same _ _ _ _ _ _ _ _ _ Ra R4 Bc Br) as (Y1 & Y2 & Y3 & Y4).
      rewrite Y1 in Xa.
      destruct (Read_next _ _ _ _ _ _ _ _ _ PBb R4 Xa ltac:(discriminate) ltac:(discriminate)) as (u & Pa & Pb & T1 & W & L & N). cbn [app want] in Pb, W. rewrite W in T1.
      stok y2 k5 R5 PB5. destruct (Read_same _ _ _ _ _ _ _ _ _ Rb R5 Y3 Y4) as (Z1 & _). apply tokb_eq in E2. rewrite Z1 in E2.
      destruct (Read_next _ _ _ _ _ _ _ _ _ Pb R5 E2 ltac:(discriminate) ltac:(discriminate)) as (u2 & Pc & Pd & T2 & W2 & L2 & N2). cbn [app want] in Pd, W2. rewrite W2 in T2.
      apply SD_ret. sfin. left. split; [|eapply OP; right; eexists; exact T1]. eapply v_empty_message; [reflexivity|eapply K_of; exact T1|eapply K_of; exact T2].
    + unfold qCloud. sexp y u k4 P4 T1 W L N. stail (S_cloud_loop _ n IH) a u2 k5 P5 P6 D. destruct D as (v & -> & D). sfin. left. split; [|eapply OP; right; eexists; exact T1].
      rewrite W. eapply v_message; [reflexivity|eapply K_of; exact T1|exact D].
  - (* bracket *) clear DEF. destruct perm eqn:PE; [|apply SD_bal]. cbn [negb]. stok y k2 R2 PB2.
    assert (E' : tk y = TLEFTSQUARE). { destruct (Read_tk _ _ _ _ _ _ R2) as (Y & _). rewrite BR, <- X1 in Y. exact Y. }
    stake R2 E' u P1 P2 T1 W L N. 
    assert (OP : forall r, opens (u ++ r) (tok_eqb (lx_tok (lex 0 (cr k))) TLEFTCURLY)).
    { intros r. unfold opens. rewrite <- X1, (next_tok_T _ _ _ _ T1). destruct (tok_eqb _ _) eqn:Z; [discriminate|]. split; [discriminate|]. intros Y. discriminate Y. }
    speek t2 k3 R3 B3 PB3. destruct (tok_eqb (tk t2) TRIGHTSQUARE) eqn:E2.
    + stok y2 k4 R4 PB4. assert (E3 : tk y2 = TRIGHTSQUARE).
      { apply tokb_eq in E2. destruct (Read_tk _ _ _ _ _ _ R3) as (X & _). destruct (Read_tk _ _ _ _ _ _ R4) as (Y & _). destruct B3 as (_ & B3 & _). rewrite B3, <- X, E2 in Y. exact Y. }
      stake R4 E3 u2 P3 P4 T2 W2 L2 N2. apply SD_ret. sfin. left. split; [|apply OP]. eapply v_empty_list; [reflexivity|eapply K_of; exact T1|eapply K_of; exact T2].
    + apply SD_bind. unfold qConstants. scall IH a u2 k4 P4 P5 D. scall (S_constants_loop _ n IH) b u3 k5 P6 P7 D2. apply SD_ret. stok y2 k6 R6 PB6.
      destruct (Read_any _ _ _ _ _ _ _ _ P7 R6) as [(CR & _ & cs & P8)|(u4 & x & NE & P8 & P9 & T4 & L4)].
      * apply SD_ret. eexists. split; [exact P8|]. right. exact CR.
      * apply SD_ret. sfin. destruct D2 as [(vs & -> & D2)|D2]; [destruct D as [[D _]|D]|].
        -- left. split; [|apply OP]. rewrite (app_assoc u2 u3 u4). eapply v_list; [reflexivity|eapply K_of; exact T1|apply ValTail_values; eassumption|exact T4|left; reflexivity].
        -- right. eapply P_end; [exact P8|]. eapply P_end; [exact P6|exact D].
        -- right. eapply P_end; [exact P8|exact D2].
Qed.
Lemma S_constant perm : Snd (qConstant p0 perm) (fun k tt v k' => Value perm true tt v \/ cr k' = []).
Proof.
  intros k G. unfold qConstant. apply SD_fuel. eapply SD_weak; [apply S_optionConstant; exact G|]. intros a k' (tt & PP & [[V _]|E]); exists tt; auto.
Qed.
End Names.
