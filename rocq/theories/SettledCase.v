(** Deciding that a text is settled; a settled text with a group. *)
From Coq Require Import List NArith ZArith Bool String Ascii Lia.
From Verif Require Import Base Token Scanner Lexing ScanRefine Lexer LexFacts LexSpec LexProofs ScanFacts ScanProps NameSpec Names Parser GroupSpec GroupFree Closed.
Import ListNotations.
Open Scope N_scope.

Fixpoint prefixb (p l : list rune) : bool :=
  match p, l with [], _ => true | x :: p', y :: l' => (x =? y) && prefixb p' l' | _, [] => false end.
Fixpoint occurs (p l : list rune) : bool := prefixb p l || match l with [] => false | _ :: l' => occurs p l' end.
Lemma prefixb_app p b : prefixb p (p ++ b) = true.
Proof. induction p as [|x p IH]; [reflexivity|]. cbn. rewrite N.eqb_refl. exact IH. Qed.
Lemma occurs_app p a b : occurs p (a ++ p ++ b) = true.
Proof.
  induction a as [|x a IH]; cbn [app].
  - destruct (p ++ b) eqn:E; cbn [occurs]; rewrite <- E, prefixb_app; reflexivity.
  - cbn [occurs]. rewrite IH. apply orb_true_r.
Qed.
Lemma prefixb_split p : forall l, prefixb p l = true -> exists b, l = p ++ b.
Proof.
  induction p as [|x p IH]; intros l H; [exists l; reflexivity|]. destruct l as [|y l]; [discriminate|]. cbn in H. apply andb_true_iff in H. destruct H as [H1 H2].
  apply N.eqb_eq in H1. subst y. destruct (IH _ H2) as [b ->]. exists b. reflexivity.
Qed.
Lemma occurs_split p : forall l, occurs p l = true -> exists a b, l = a ++ p ++ b.
Proof.
  induction l as [|x l IH]; cbn [occurs]; intros H; apply orb_true_iff in H; destruct H as [H|H]; try discriminate.
  - apply prefixb_split in H. destruct H as [b ->]. exists [], b. reflexivity.
  - apply prefixb_split in H. destruct H as [b ->]. exists [], b. reflexivity.
  - destruct (IH H) as (a & b & ->). exists (x :: a), b. reflexivity.
Qed.
(** [P] of every end of the text *)
Fixpoint every (P : list rune -> bool) (r : list rune) : bool := P r && match r with [] => true | _ :: r' => every P r' end.
Lemma every_app P a b : every P (a ++ b) = true -> every P b = true.
Proof. induction a as [|x a IH]; [exact (fun H => H)|]. cbn [app every]. intros H. apply andb_true_iff in H. apply IH, H. Qed.
Lemma every_end P a b : every P (a ++ b) = true -> P b = true.
Proof. intros H. apply every_app in H. destruct b; cbn [every] in H; apply andb_true_iff in H; apply H. Qed.
Definition comment_closed (r : list rune) : bool :=
  match r with
  | c :: d :: l => if (c =? ch "/") && (d =? ch "/") then existsb (N.eqb NL) l else if (c =? ch "/") && (d =? ch "*") then occurs (lit "*/") l else true
  | [c] => negb (c =? ch "/")
  | [] => true
  end.
Definition deepb (r : list rune) : bool := every comment_closed r && negb (occurs (lit "extensions") r) && negb (occurs (lit "reserved") r).
Definition settledb (r : list rune) : bool := every (fun s => negb (group_here s) || deepb (skipn 5 s)) r.
Lemma closedb_ok r : every comment_closed r = true -> comments_closed r.
Proof.
  intros H. split; [|split].
  - intros a b ->. apply every_end in H. cbn in H. apply existsb_exists in H. destruct H as (x & I & E). apply N.eqb_eq in E. subst x. exact I.
  - intros a b ->. apply every_end in H. cbn [lit app comment_closed] in H. apply occurs_split in H. exact H.
  - intros a ->. apply every_end in H. discriminate H.
Qed.
Lemma withoutb w r : occurs w r = false -> without w r.
Proof. intros H a b ->. rewrite occurs_app in H. discriminate H. Qed.
Lemma settledb_ok r : settledb r = true -> settled r.
Proof.
  intros H a h b GH ->. unfold settledb in H. apply every_end in H. rewrite (heading_here _ _ GH) in H. cbn [negb orb] in H.
  assert (E : exists w, h = lit "group" ++ w). { destruct GH. eexists. reflexivity. }
  destruct E as [w ->]. rewrite <- app_assoc in H. change (skipn 5 (lit "group" ++ w ++ b)) with (w ++ b) in H. unfold deepb in H. rewrite !andb_true_iff, !negb_true_iff in H. destruct H as [[H1 H2] H3]. apply closedb_ok in H1. apply withoutb in H2, H3.
  split; [eapply closed_tail; exact H1|]. split; eapply without_tail; eassumption.
Qed.

(** A group whose body does not parse: the parser gives up the group at the semicolon
    and reads on behind it, in the message. *)
Definition settled_text : string := "message M { optional group G = 1 { // g" ++ String (ascii_of_nat 10) " option x ; int32 y = 2; }".
Lemma settled_ok : settled (lit settled_text).
Proof. apply settledb_ok. vm_compute. reflexivity. Qed.
Lemma settled_group : ~ no_groups (lit settled_text).
Proof.
  intros H. apply (H (lit "message M { optional ") (lit "group G = 1 {") (lit (" // g" ++ String (ascii_of_nat 10) " option x ; int32 y = 2; }"))); [|reflexivity].
  apply (group_heading (lit " ") [] (ch "G") [] (lit " ") [] (lit " ") [] (lit "1") (lit " ") []); try (apply (gap_space _ [] []); [reflexivity|constructor]).
  - discriminate.
  - apply identb_iff. reflexivity.
  - vm_compute. split; discriminate.
  - left. exists (ch "1"), []. split; [reflexivity|]. split; [vm_compute; split; discriminate|constructor].
Qed.
