(** Comments of elements: from the grammar to the text. *)
From Coq Require Import List NArith ZArith Bool String Ascii Lia Sorted.
From Verif Require Import Base Token Scanner Lexing ScanRefine Ast LexSpec LexFacts LexProofs ScanFacts ScanProps Tree AttachSpec Parser Api RefineFile
  Grammar GramLex GramRules GramParts SndLex SndNames SndStmts SndFile Deep DeepText.
Import ListNotations.
Open Scope N_scope.

(** ** Statements end with a token *)
Definition EndsTok (ts : list item) : Prop := exists u y q, ts = u ++ [Tok y q].
Lemma et_T t x p : T t x p -> EndsTok t.
Proof. intros (cs & ->). exists (coms cs), x, p. reflexivity. Qed.
Lemma et_app a b : EndsTok b -> EndsTok (a ++ b).
Proof. intros (u & y & q & ->). exists (a ++ u), y, q. apply app_assoc. Qed.
Lemma et_last ts x q : EndsTok ts -> last_tok ts = Some (x, q) -> exists u, ts = u ++ [Tok x q].
Proof. intros (u & y & p & ->) H. rewrite last_tok_app in H. cbn in H. injection H as -> ->. eauto. Qed.

Section Items.
Variables perm bic junk : bool.
Notation Elem := (Elem perm bic junk).

Ltac et := rewrite ?app_assoc; repeat first [assumption | eapply et_T; eassumption | apply et_app].
Lemma et_close ts q : Close perm ts q -> EndsTok ts.
Proof. intros []; [eapply et_T; eassumption|apply et_app; eapply et_T; eassumption]. Qed.
Lemma et_body drop S ts vs lc q : Body perm bic junk drop S ts vs lc q -> EndsTok ts.
Proof. intros []; repeat apply et_app; eapply et_close; eassumption. Qed.
Lemma et_fieldend ts name num os q : FieldEnd perm junk ts name num os q -> EndsTok ts.
Proof. intros []. repeat apply et_app. eapply et_T; eassumption. Qed.
Lemma et_oneof : (forall ts fs os, OneofElems perm junk ts fs os -> EndsTok ts) /\ (forall ts fs os, OneofRest perm junk ts fs os -> EndsTok ts).
Proof.
  apply (Oneof_mut perm junk (fun ts fs os _ => EndsTok ts) (fun ts fs os _ => EndsTok ts)).
  - intros. apply (et_app (coms cs)). change (Tok (lit ";") p :: ts) with ([Tok (lit ";") p] ++ ts). apply et_app. assumption.
  - intros. repeat apply et_app. assumption.
  - intros. repeat apply et_app. assumption.
  - intros. eapply et_close; eassumption.
  - intros. assumption.
Qed.
Lemma elem_et cs il ts e : Elem cs il ts e -> e = EStmt VNil \/ is_comment_node e \/ EndsTok ts.
Proof.
  assert (ME : forall U il' ts' v, Empty junk U il' ts' v -> EndsTok ts') by (intros ? ? ? ? []; [eexists [], _, _; reflexivity|apply et_app; eapply et_T; eassumption]).
  assert (ST : forall cs il ts v, FileStmt perm bic junk cs il ts v \/ EnumStmt perm junk cs il ts v \/ ExtendStmt perm junk cs il ts v \/ MessageStmt perm bic junk cs il ts v \/ ServiceStmt perm junk cs il ts v -> EndsTok ts).
  { clear -ME. intros cs il ts v [H|[H|[H|[H|H]]]]; destruct H;
      repeat match goal with
        | H : Empty _ _ _ _ _ |- _ => exact (ME _ _ _ _ H)
        | H : Import _ _ _ _ _ |- _ => destruct H | H : Package _ _ _ _ |- _ => destruct H | H : Option _ _ _ _ _ _ |- _ => destruct H
        | H : Message _ _ _ _ _ _ _ |- _ => destruct H | H : Enum _ _ _ _ _ _ _ |- _ => destruct H | H : Service _ _ _ _ _ _ _ |- _ => destruct H
        | H : Extend _ _ _ _ _ _ _ |- _ => destruct H | H : Reserved _ _ _ _ _ |- _ => destruct H | H : EnumField _ _ _ _ _ _ |- _ => destruct H
        | H : Field _ _ _ _ _ _ |- _ => destruct H | H : MapField _ _ _ _ _ _ |- _ => destruct H | H : Oneof _ _ _ _ _ _ |- _ => destruct H
        | H : Extensions _ _ _ _ _ |- _ => destruct H | H : RPC _ _ _ _ _ _ |- _ => destruct H
        end; try (repeat apply et_app; first [eapply et_T; eassumption|eapply et_body; eassumption|eapply et_fieldend; eassumption|eapply (proj1 et_oneof); eassumption]).
    - match goal with H : RPCEnd _ _ _ _ _ _ _ |- _ => destruct H end; do 5 apply et_app; [rewrite app_nil_r; eapply et_T; eassumption|]. do 3 apply et_app. eapply et_close; eassumption.
    - exists [], (lit ";"), p. reflexivity. }
  intros [ts' s H|ts' s H|ts' v H|ts' v H|ts' v H|ts' v H|ts' v H|ts' v H|ts' v H|ts' v E1 E2 H|ts' v H|x q E1 E2|E1 E2|p E1 E2].
  all: try (right; right; eapply ST; eauto 6; fail).
  all: try (right; right; destruct H; repeat apply et_app; first [eapply et_T; eassumption|eapply et_fieldend; eassumption]).
  - right. left. eexists. reflexivity.
  - left. reflexivity.
  - right. right. exists [], (lit ";"), p. reflexivity.
Qed.
Lemma elem_semi cs il ts v x q : Elem cs il ts (EStmt v) -> e_meta (EStmt v) = None -> last_tok ts = Some (x, q) -> x = lit ";".
Proof.
  assert (ME : forall U il' ts' v x q, Empty junk U il' ts' v -> last_tok ts' = Some (x, q) -> x = lit ";").
  { intros ? ? ? ? ? ? [p|t p x1 H HN HC HT] LT; [injection LT as <- <-; reflexivity|]. rewrite (last_tok_T _ _ _ _ HT) in LT. injection LT as <- <-. reflexivity. }
  intros HE EM LT. remember (EStmt v) as e eqn:Ee. destruct HE as [ts' s H|ts' s H|ts' v' H|ts' v' H|ts' v' H|ts' v' H|ts' v' H|ts' v' H|ts' v' H|ts' v' E1 E2 H|ts' v' H|x' q' E1 E2|E1 E2|p E1 E2]; try discriminate; injection Ee as Ee; try subst v; try discriminate.
  - destruct H; discriminate.
  - destruct H; try discriminate. eapply ME; eassumption.
  - destruct H; try discriminate. eapply ME; eassumption.
  - destruct H; try discriminate. eapply ME; eassumption.
  - destruct H; try discriminate. injection LT as <- <-. reflexivity.
  - injection LT as <- <-. reflexivity.
Qed.

(** ** An element with the items around it *)
Definition Sel (l : Z) (il0 : option (str * mpos)) (ts : list item) (lead : bool) : Prop := Inline l il0 ts \/ (lead = true /\ il0 = None).
Definition IAtt (its : list item) (PV : str -> mpos -> Prop) (lead : bool) (e : elem) : Prop :=
  exists A x q il0 cs ts il rest y q',
    its = A ++ [Tok x q] ++ icom il0 ++ coms cs ++ ts ++ icom il ++ rest /\ PV x q /\ Sel (Line q) il0 (coms cs ++ ts) lead /\
    Elem (nodes cs) (inode il) ts e /\ no_com ts /\ EndsTok ts /\ last_tok ts = Some (y, q') /\ Inline (Line q') il rest.
Definition behind_i (prev : option elem) (x : str) (q : mpos) : Prop :=
  match prev with
  | None => x = lit "{"
  | Some p => match e_meta p with Some m => q = LastPos m /\ ends_with p x | None => x = lit ";" end
  end.
Definition last_or (prev : option elem) (l : list elem) : option elem := match last_of l with Some e => Some e | None => prev end.
Lemma last_or_cons prev e l : last_or prev (e :: l) = last_or (Some e) l.
Proof.
  destruct l as [|e' l]; [reflexivity|]. unfold last_or. change (last_of (e :: e' :: l)) with (last_of (e' :: l)).
  destruct (last_of (e' :: l)) eqn:E; [reflexivity|]. exfalso. clear -E. revert e' E. induction l as [|a l IH]; intros e' E; [discriminate|]. exact (IH a E).
Qed.
Lemma inline_head l il a b c : EndsTok b -> Inline l il (a ++ b ++ c) -> Inline l il (a ++ b).
Proof. intros (u & y & q & ->) H. destruct il; [exact H|]. destruct a as [|[] a]; [|exact H..]. destruct u as [|[] u]; exact H. Qed.
Lemma behind_elem cs il ts v x q : Elem cs il ts (EStmt v) -> last_tok ts = Some (x, q) -> behind_i (Some (EStmt v)) x q.
Proof.
  intros HE LT. unfold behind_i. destruct (e_meta (EStmt v)) as [m|] eqn:EM; [|eapply elem_semi; eassumption]. pose proof (elem_span _ _ _ _ _ _ _ HE m EM) as SP.
  destruct v; try (destruct SP as (x1 & y1 & _ & _ & L & EN); rewrite LT in L; injection L as -> ->; auto; fail). destruct SP as (x1 & q1 & -> & _). discriminate LT.
Qed.
Lemma elem_not_nil cs il ts e x q : Elem cs il ts e -> last_tok ts = Some (x, q) -> EndsTok ts.
Proof.
  intros HE LT. destruct (elem_et _ _ _ _ HE) as [->|[(c & ->)|H]]; [| |exact H].
  - exfalso. remember (EStmt VNil) as e eqn:Ee. destruct HE as [ts' s H|ts' s H|ts' v' H|ts' v' H|ts' v' H|ts' v' H|ts' v' H|ts' v' H|ts' v' H|ts' v' E1 E2 H|ts' v' H|x' q' E1 E2|E1 E2|p E1 E2]; try discriminate; injection Ee as ->; inversion H; subst;
      match goal with H : Empty _ _ _ _ _ |- _ => inversion H end.
  - exfalso. pose proof (elem_span _ _ _ _ _ _ _ HE _ eq_refl) as (x1 & q1 & -> & _). discriminate LT.
Qed.

Lemma no_com_app l a b : no_com_on l a -> no_com b -> no_com_on l (a ++ b).
Proof. destruct a as [|[] a]; [|auto..]. intros _. destruct b as [|[] b]; cbn; tauto. Qed.
Lemma inline_app l il a b : Inline l il a -> no_com b -> Inline l il (a ++ b).
Proof. destruct il; [auto|]. apply no_com_app. Qed.
Lemma stmts_att (S : list comment -> option comment -> list item -> visitee -> Prop) ts vs tcs : (forall cs il ts v, S cs il ts v -> Elem cs il ts (EStmt v)) -> Stmts perm junk S ts vs tcs ->
  forall A x q il0 B prev, Inline (Line q) il0 (ts ++ B) -> no_com B -> behind_i prev x q -> forall l1 e l2, map EStmt vs = l1 ++ e :: l2 ->
  IAtt (A ++ [Tok x q] ++ icom il0 ++ ts ++ B) (behind_i (last_or prev l1)) false e.
Proof.
  intros HS. induction 1 as [cs|cs ts v y q' il rest vs tcs H NC LT IN CL HR IH]; intros A x q il0 B prev IN0 NB PV l1 e l2 EQ; [destruct l1; discriminate|].
  pose proof (HS _ _ _ _ H) as HE. pose proof (elem_not_nil _ _ _ _ _ _ HE LT) as ET. destruct l1 as [|e1 l1]; cbn [map app] in EQ; injection EQ as EQ1 EQ2.
  - subst e. exists A, x, q, il0, cs, ts, il, (rest ++ B), y, q'. split; [rewrite <- !app_assoc; reflexivity|]. split; [exact PV|]. rewrite <- !app_assoc in IN0.
    split; [left; eapply inline_head; [exact ET|exact IN0]|]. split; [exact HE|]. split; [exact NC|]. split; [exact ET|]. split; [exact LT|]. apply inline_app; assumption.
  - subst e1. destruct (et_last _ _ _ ET LT) as (u & ->). rewrite last_or_cons.
    replace (A ++ [Tok x q] ++ icom il0 ++ (coms cs ++ (u ++ [Tok y q']) ++ icom il ++ rest) ++ B) with ((A ++ [Tok x q] ++ icom il0 ++ coms cs ++ u) ++ [Tok y q'] ++ icom il ++ rest ++ B) by (rewrite <- !app_assoc; reflexivity).
    eapply IH; [apply inline_app; assumption|exact NB| |exact EQ2]. eapply behind_elem; eassumption.
Qed.
Lemma filestmts_att ts vs tcs : FileStmts perm bic junk ts vs tcs ->
  forall A x q il0 prev, Inline (Line q) il0 ts -> behind_i prev x q -> forall l1 e l2, map EStmt vs = l1 ++ e :: l2 -> e_meta e <> None ->
  IAtt (A ++ [Tok x q] ++ icom il0 ++ ts) (behind_i (last_or prev l1)) false e.
Proof.
  induction 1 as [cs|cs ts v y q' il rest vs tcs H NC LT IN CL HR IH|cs p rest vs tcs NO HR IH]; intros A x q il0 prev IN0 PV l1 e l2 EQ EM; [destruct l1; discriminate| |].
  - pose proof (e_file perm bic junk _ _ _ _ H) as HE. pose proof (elem_not_nil _ _ _ _ _ _ HE LT) as ET. destruct l1 as [|e1 l1]; cbn [map app] in EQ; injection EQ as EQ1 EQ2.
    + subst e. exists A, x, q, il0, cs, ts, il, rest, y, q'. split; [reflexivity|]. split; [exact PV|].
      split; [left; eapply inline_head; [exact ET|exact IN0]|]. split; [exact HE|]. split; [exact NC|]. split; [exact ET|]. split; [exact LT|exact IN].
    + subst e1. destruct (et_last _ _ _ ET LT) as (u & ->). rewrite last_or_cons.
      replace (A ++ [Tok x q] ++ icom il0 ++ coms cs ++ (u ++ [Tok y q']) ++ icom il ++ rest) with ((A ++ [Tok x q] ++ icom il0 ++ coms cs ++ u) ++ [Tok y q'] ++ icom il ++ rest) by (rewrite <- !app_assoc; reflexivity).
      eapply IH; [exact IN| |exact EQ2|exact EM]. eapply behind_elem; eassumption.
  - destruct l1 as [|e1 l1]; cbn [map app] in EQ; injection EQ as EQ1 EQ2; [subst e; contradiction|]. destruct l1 as [|e2 l1]; cbn [map app] in EQ2; injection EQ2 as EQ2 EQ3; [subst e; contradiction|]. subst e1 e2.
    rewrite !last_or_cons. replace (A ++ [Tok x q] ++ icom il0 ++ coms cs ++ Tok (lit ";") p :: rest) with ((A ++ [Tok x q] ++ icom il0 ++ coms cs) ++ [Tok (lit ";") p] ++ icom None ++ rest) by (rewrite <- !app_assoc; reflexivity).
    eapply IH; [exact NO|reflexivity|exact EQ3|exact EM].
Qed.
(** the fields and options of a oneof *)
Definition oneof_i (x : str) (q : mpos) : Prop := x = lit "{" \/ x = lit ";".
Lemma oneof_att : 
  (forall ts fs os, OneofElems perm junk ts fs os -> forall A x q il0 B, Sel (Line q) il0 (ts ++ B) true -> oneof_i x q -> 
     Forall (IAtt (A ++ [Tok x q] ++ icom il0 ++ ts ++ B) oneof_i true) (map EOneofField fs ++ map EOption os)) /\
  (forall ts fs os, OneofRest perm junk ts fs os -> forall A x q il0 B, Sel (Line q) il0 (ts ++ B) true -> oneof_i x q -> 
     Forall (IAtt (A ++ [Tok x q] ++ icom il0 ++ ts ++ B) oneof_i true) (map EOneofField fs ++ map EOption os)).
Proof.
  assert (SH : forall l il0 a b c, EndsTok b -> Sel l il0 (a ++ b ++ c) true -> Sel l il0 (a ++ b) true).
  { intros l il0 a b c ET [H|H]; [left; eapply inline_head; eassumption|right; exact H]. }
  assert (IA : forall rest fs os l il B, OneofRest perm junk rest fs os -> Inline l il rest -> Inline l il (rest ++ B)).
  { intros rest fs os l il B HR IN. destruct il; [exact IN|]. destruct (proj2 et_oneof _ _ _ HR) as (u & y & q & ->). destruct u as [|[] u]; exact IN. }
  apply (Oneof_mut perm junk (fun ts fs os _ => forall A x q il0 B, Sel (Line q) il0 (ts ++ B) true -> oneof_i x q -> Forall (IAtt (A ++ [Tok x q] ++ icom il0 ++ ts ++ B) oneof_i true) (map EOneofField fs ++ map EOption os))
     (fun ts fs os _ => forall A x q il0 B, Sel (Line q) il0 (ts ++ B) true -> oneof_i x q -> Forall (IAtt (A ++ [Tok x q] ++ icom il0 ++ ts ++ B) oneof_i true) (map EOneofField fs ++ map EOption os))).
  - intros cs p ts fs os H IH A x q il0 B S0 PV.
    replace (A ++ [Tok x q] ++ icom il0 ++ (coms cs ++ Tok (lit ";") p :: ts) ++ B) with ((A ++ [Tok x q] ++ icom il0 ++ coms cs) ++ [Tok (lit ";") p] ++ icom None ++ ts ++ B) by (rewrite <- !app_assoc; reflexivity).
    apply IH; [right; auto|right; reflexivity].
  - intros cs ts o y q' il rest fs os HO NC LT IN HR IH A x q il0 B S0 PV. pose proof (e_option perm bic junk _ _ _ _ HO) as HE. pose proof (elem_not_nil _ _ _ _ _ _ HE LT) as ET.
    assert (IT : Forall (IAtt (A ++ [Tok x q] ++ icom il0 ++ (coms cs ++ ts ++ icom il ++ rest) ++ B) oneof_i true) (map EOneofField fs ++ map EOption os)).
    { destruct (et_last _ _ _ ET LT) as (u & ->).
      replace (A ++ [Tok x q] ++ icom il0 ++ (coms cs ++ (u ++ [Tok y q']) ++ icom il ++ rest) ++ B) with ((A ++ [Tok x q] ++ icom il0 ++ coms cs ++ u) ++ [Tok y q'] ++ icom il ++ rest ++ B) by (rewrite <- !app_assoc; reflexivity).
      apply IH; [left; eapply IA; eassumption|]. destruct (span_option _ _ _ _ _ _ HO) as [_ SP]. destruct (SP _ eq_refl) as (x1 & y1 & _ & _ & L & EN). rewrite LT in L. injection L as <- _. right. exact EN. }
    rewrite Forall_app in IT |- *. destruct IT as [I1 I2]. split; [exact I1|]. cbn [map]. constructor; [|exact I2].
    exists A, x, q, il0, cs, ts, il, (rest ++ B), y, q'. split; [rewrite <- !app_assoc; reflexivity|]. split; [exact PV|]. rewrite <- !app_assoc in S0. split; [eapply SH; eassumption|].
    split; [exact HE|]. split; [exact NC|]. split; [exact ET|]. split; [exact LT|]. eapply IA; eassumption.
  - intros cs ts f y q' il rest fs os HO NC NF LT IN HR IH A x q il0 B S0 PV. pose proof (e_field perm bic junk _ _ _ _ HO) as HE. pose proof (elem_not_nil _ _ _ _ _ _ HE LT) as ET.
    assert (IT : Forall (IAtt (A ++ [Tok x q] ++ icom il0 ++ (coms cs ++ ts ++ icom il ++ rest) ++ B) oneof_i true) (map EOneofField fs ++ map EOption os)).
    { destruct (et_last _ _ _ ET LT) as (u & EU). pose proof (elem_span _ _ _ _ _ _ _ HE _ eq_refl) as (x1 & y1 & _ & _ & L & EN). rewrite LT in L. injection L as <- _. rewrite EU.
      replace (A ++ [Tok x q] ++ icom il0 ++ (coms cs ++ (u ++ [Tok y q']) ++ icom il ++ rest) ++ B) with ((A ++ [Tok x q] ++ icom il0 ++ coms cs ++ u) ++ [Tok y q'] ++ icom il ++ rest ++ B) by (rewrite <- !app_assoc; reflexivity).
      apply IH; [left; eapply IA; eassumption|]. right. exact EN. }
    cbn [map app]. constructor; [|exact IT].
    exists A, x, q, il0, cs, ts, il, (rest ++ B), y, q'. split; [rewrite <- !app_assoc; reflexivity|]. split; [exact PV|]. rewrite <- !app_assoc in S0. split; [eapply SH; eassumption|].
    split; [exact HE|]. split; [exact NC|]. split; [exact ET|]. split; [exact LT|]. eapply IA; eassumption.
  - intros. constructor.
  - intros ts fs os _ H. exact H.
Qed.

(** ** The elements of a file *)
Lemma trailing_not l1 e l2 vs tcs : map EStmt (vs ++ trailing bic tcs) = l1 ++ e :: l2 -> ~ is_comment_node e -> exists l3, map EStmt vs = l1 ++ e :: l3.
Proof.
  rewrite map_app. revert l1. induction vs as [|v vs IH]; intros l1 E N; cbn [map app] in E.
  - exfalso. apply N. assert (I : In e (map EStmt (trailing bic tcs))) by (rewrite E; apply in_or_app; right; left; reflexivity). apply in_map_iff in I. destruct I as (v & <- & I). unfold trailing in I. destruct bic; [|destruct I].
    apply in_map_iff in I. destruct I as (c & <- & _). eexists. reflexivity.
  - destruct l1 as [|a l1]; cbn [app] in E; injection E as E1 E2; [subst e; exists (map EStmt vs); reflexivity|]. subst a. destruct (IH _ E2 N) as (l3 & E3). exists l3. cbn [map app]. rewrite E3. reflexivity.
Qed.
Lemma body_att (S : list comment -> option comment -> list item -> visitee -> Prop) drop ts vs lc q : (forall cs il ts v, S cs il ts v -> Elem cs il ts (EStmt v)) -> Body perm bic junk drop S ts vs lc q ->
  forall A B l1 e l2, map EStmt vs = l1 ++ e :: l2 -> ~ is_comment_node e -> IAtt (A ++ ts ++ B) (behind_i (last_of l1)) false e.
Proof.
  intros HS [t1 p1 lc' ts' vs' tcs t2 q' H1 IN ST NC CL D|t1 p1 lc' t2 q' D H1 IN CL] A B l1 e l2 EQ NN; [|destruct l1; discriminate].
  destruct (trailing_not _ _ _ _ _ EQ NN) as (l3 & EQ'). destruct H1 as (cs1 & ->).
  replace (A ++ ((coms cs1 ++ [Tok (lit "{") p1]) ++ icom lc' ++ ts' ++ t2) ++ B) with ((A ++ coms cs1) ++ [Tok (lit "{") p1] ++ icom lc' ++ ts' ++ t2 ++ B) by (rewrite <- !app_assoc; reflexivity).
  assert (T2 : forall l il a, Inline l il (a ++ t2) -> Inline l il (a ++ t2 ++ B)).
  { intros l il a H. destruct il; [exact H|]. destruct a as [|[] a]; [|exact H..]. destruct (et_close _ _ CL) as (u & y & p & ->). destruct u as [|[] u]; exact H. }
  replace (last_of l1) with (last_or None l1) by (unfold last_or; destruct (last_of l1); reflexivity).
  eapply stmts_att; [exact HS|exact ST|apply T2; exact IN| |reflexivity|exact EQ'].
  destruct (et_close _ _ CL) as (u & y & p & ->). destruct u as [|[] u]; [exact I|exact I|exact NC].
Qed.
Ltac reas := match goal with |- IAtt (_ ++ (?u ++ ?v ++ ?w) ++ _) _ _ _ => rewrite (app_assoc u v w) end.
Lemma block_att cs il ts p l : Elem cs il ts p -> block_of p -> In l (children p) -> forall A B l1 e l2, l = l1 ++ e :: l2 -> ~ is_comment_node e ->
  IAtt (A ++ ts ++ B) (behind_i (last_of l1)) false e.
Proof.
  assert (BA : forall (S : list comment -> option comment -> list item -> visitee -> Prop) drop t vs lc q, (forall cs il ts v, S cs il ts v -> Elem cs il ts (EStmt v)) -> Body perm bic junk drop S t vs lc q -> forall h l, In l [map EStmt vs] ->
    forall A B l1 e l2, l = l1 ++ e :: l2 -> ~ is_comment_node e -> IAtt (A ++ (h ++ t) ++ B) (behind_i (last_of l1)) false e).
  { intros S drop t vs lc q HS HB h l' [<-|[]] A B l1 e l2 EQ NN. rewrite <- app_assoc, app_assoc. eapply body_att; eassumption. }
  intros HE BO IL A B l1 e l2 EQ NN. destruct HE as [ts' s H|ts' s H|ts' v' H|ts' v' H|ts' v' H|ts' v' H|ts' v' H|ts' v' H|ts' v' H|ts' v' E1 E2 H|ts' v' H|x' q' E1 E2|E1 E2|p E1 E2]; try (destruct BO; fail).
  - destruct H as [? ? H|? ? H|? ? H|? ? H|? ? H|? ? H|? ? H]; try (destruct BO; fail); destruct H; cbn [children b_body] in IL; reas; (eapply BA; [|eassumption|exact IL|exact EQ|exact NN]).
    + intros. apply e_message. assumption.
    + intros. apply e_enum. assumption.
    + intros. apply e_service. assumption.
    + intros. apply e_extend. assumption.
  - destruct H; try (destruct BO; fail). match goal with H : Empty _ _ _ _ _ |- _ => destruct H; destruct BO end.
  - destruct H; try (destruct BO; fail). match goal with H : Empty _ _ _ _ _ |- _ => destruct H; destruct BO end.
  - destruct H as [? ? H|t1 p1 t2 name p2 t3 vs lc q H1 H2 I HB|? ? H|? ? H|? ? H|? ? H|? ? H|? ? H|? ? H N|t1 p1 rp rq op t2 t3 name p3 t4 t5 num p5 t6 vs lc q HL H2 H3 I3 CP H4 H5 I5 HB|? ? H]; try (destruct BO; fail).
    + destruct H. cbn [children b_body] in IL; reas; (eapply BA; [|eassumption|exact IL|exact EQ|exact NN]). intros. apply e_enum. assumption.
    + cbn [children b_body] in IL; reas; (eapply BA; [|eassumption|exact IL|exact EQ|exact NN]). intros. apply e_message. assumption.
    + destruct H. cbn [children b_body] in IL; reas; (eapply BA; [|eassumption|exact IL|exact EQ|exact NN]). intros. apply e_extend. assumption.
    + cbn [children g_body] in IL. replace (t1 ++ t2 ++ t3 ++ t4 ++ t5 ++ t6) with ((t1 ++ t2 ++ t3 ++ t4 ++ t5) ++ t6) by (rewrite <- !app_assoc; reflexivity). eapply BA; [|eassumption|exact IL|exact EQ|exact NN]. intros. apply e_message. assumption.
    + destruct H; destruct BO.
  - destruct H as [? ? H|? ? H|p]; destruct BO.
Qed.
Lemma oneof_elem_att cs il ts o : Elem cs il ts (EStmt (VOneof o)) -> forall A B, Forall (IAtt (A ++ ts ++ B) oneof_i true) (map EOneofField (oo_fields o) ++ map EOption (oo_options o)).
Proof.
  intros HE A B. assert (X : Oneof perm junk cs il ts o).
  { remember (EStmt (VOneof o)) as e eqn:Ee. destruct HE as [ts' s H|ts' s H|ts' v' H|ts' v' H|ts' v' H|ts' v' H|ts' v' H|ts' v' H|ts' v' H|ts' v' E1 E2 H|ts' v' H|x' q' E1 E2|E1 E2|p E1 E2]; try discriminate; injection Ee as ->; inversion H; subst; try assumption;
    match goal with H : Empty _ _ _ _ _ |- _ => inversion H end. }
  destruct X as [t1 p1 t2 name p2 t3 p3 lc t4 fs os x q H1 H2 I H3 IN HO LT]. cbn [oo_fields oo_options]. destruct H3 as (cs3 & ->).
  replace (A ++ (t1 ++ t2 ++ (coms cs3 ++ [Tok (lit "{") p3]) ++ icom lc ++ t4) ++ B) with ((A ++ t1 ++ t2 ++ coms cs3) ++ [Tok (lit "{") p3] ++ icom lc ++ t4 ++ B) by (rewrite <- !app_assoc; reflexivity).
  apply (proj1 oneof_att _ _ _ HO); [left|left; reflexivity]. destruct lc; [exact IN|]. destruct (proj1 et_oneof _ _ _ HO) as (u & y & p & ->). destruct u as [|[] u]; exact IN.
Qed.
End Items.
