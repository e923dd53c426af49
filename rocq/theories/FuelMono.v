(** The outcome of the model does not depend on the fuel: once it is enough, any
    larger amount gives the same outcome. *)
From Coq Require Import List NArith ZArith Bool String Ascii Lia.
From Verif Require Import Base Token Scanner Lexer Ast Parser Api.
Import ListNotations.
Open Scope monad_scope.

Definition Le {A} (m m' : M A) : Prop := forall s, fst (m s) = Fuel \/ m s = m' s.
Lemma Le_refl {A} (m : M A) : Le m m. Proof. intros s. right. reflexivity. Qed.
Lemma Le_oof {A} (m : M A) : Le oof m. Proof. intros s. left. reflexivity. Qed.
Lemma Le_bind {A B} (m m' : M A) (k k' : A -> M B) : Le m m' -> (forall a, Le (k a) (k' a)) -> Le (bind m k) (bind m' k').
Proof.
  intros H K s. unfold bind. destruct (H s) as [E|E].
  - left. destruct (m s) as [[a|e| |] t]; try discriminate E. reflexivity.
  - rewrite <- E. destruct (m s) as [[a|e| |] t]; [apply K|right; reflexivity..].
Qed.
Lemma Le_try {A B} (m m' : M A) (k k' : A + err -> M B) : Le m m' -> (forall a, Le (k a) (k' a)) -> Le (try m k) (try m' k').
Proof.
  intros H K s. unfold try. destruct (H s) as [E|E].
  - left. destruct (m s) as [[a|e| |] t]; try discriminate E. reflexivity.
  - rewrite <- E. destruct (m s) as [[a|e| |] t]; try apply K; right; reflexivity.
Qed.
Ltac le := repeat first
  [ apply Le_refl | assumption
  | apply Le_bind; [|intros ?] | apply Le_try; [|intros ?]
  | match goal with |- Le (match ?x with _ => _ end) _ => destruct x end ].
Lemma Le_group mb mb' : Le mb mb' -> Le (ParseGroupField mb) (ParseGroupField mb'). Proof. intros H. unfold ParseGroupField. le. Qed.
Lemma Le_message_ mb mb' : Le mb mb' -> Le (ParseMessage_ mb) (ParseMessage_ mb'). Proof. intros H. unfold ParseMessage_. le. Qed.
Lemma Le_messageStmt perm bic mb mb' t cs : Le mb mb' -> Le (messageStmt perm bic mb t cs) (messageStmt perm bic mb' t cs).
Proof.
  intros H. pose proof (Le_group _ _ H). pose proof (Le_message_ _ _ H). unfold messageStmt. destruct t; le.
Qed.
Lemma Le_messageLoop perm bic mb mb' ilc : Le mb mb' -> forall n n' l, (n <= n')%nat -> Le (messageBody_loop perm bic mb ilc n l) (messageBody_loop perm bic mb' ilc n' l).
Proof.
  intros H. induction n as [|n IH]; intros n' l L; [apply Le_oof|]. destruct n' as [|n']; [lia|]. cbn [messageBody_loop].
  apply Le_bind; [apply Le_refl|]. intros cs. apply Le_bind; [apply Le_refl|]. intros t. destruct t; try apply Le_refl;
  (apply Le_bind; [apply Le_messageStmt, H|]; intros v; apply Le_bind; [apply Le_refl|]; intros w; apply IH; lia).
Qed.
Lemma Le_messageBody perm bic : forall n n', (n <= n')%nat -> Le (parseMessageBody perm bic n) (parseMessageBody perm bic n').
Proof.
  induction n as [|n IH]; intros n' L; [apply Le_oof|]. destruct n' as [|n']; [lia|]. cbn [parseMessageBody]. do 4 (apply Le_bind; [apply Le_refl|intros ?]).
  match goal with |- Le (match ?x with _ => _ end) _ => destruct x end; [apply Le_refl|]. apply Le_messageLoop; [apply IH|]; lia.
Qed.
Lemma Le_protoStmt perm bic n n' t cs : (n <= n')%nat -> Le (protoStmt perm bic n t cs) (protoStmt perm bic n' t cs).
Proof. intros L. unfold protoStmt. destruct t; le. apply Le_messageBody, L. Qed.
Lemma Le_protoLoop perm bic : forall n n' l, (n <= n')%nat -> Le (protoBody_loop perm bic n l) (protoBody_loop perm bic n' l).
Proof.
  induction n as [|n IH]; intros n' l L; [apply Le_oof|]. destruct n' as [|n']; [lia|]. cbn [protoBody_loop]. do 2 (apply Le_bind; [apply Le_refl|intros ?]).
  match goal with |- Le (if ?x then _ else _) _ => destruct x end; [apply Le_refl|]. apply Le_bind; [apply Le_refl|intros t]. apply Le_bind; [apply Le_protoStmt; lia|]. intros [pre v]. apply Le_bind; [apply Le_refl|]. intros w. apply IH. lia.
Qed.
Lemma Le_proto perm bic n n' : (n <= n')%nat -> Le (ParseProto perm bic n) (ParseProto perm bic n').
Proof.
  intros L. unfold ParseProto. do 6 (apply Le_bind; [apply Le_refl|intros ?]). apply Le_bind; [apply Le_protoLoop, L|]. intros b. apply Le_refl.
Qed.
Theorem fuel_enough n n' opts input : (n <= n')%nat -> parse_fuel n opts input <> Fuel -> parse_fuel n' opts input = parse_fuel n opts input.
Proof. intros L H. unfold parse_fuel in *. destruct (Le_proto (cfg_permissive (config_of opts)) (cfg_bodyIncludingComments (config_of opts)) n n' L (init_st (cfg_filename (config_of opts)) input)) as [E|E]; [contradiction|]. rewrite E. reflexivity. Qed.
Lemma fuel_case : parse_fuel 4 [] (lit "message A { B x = 1; }") <> Fuel /\ parse_fuel 1 [] (lit "message A { B x = 1; }") = Fuel.
Proof. split; [intros H; vm_compute in H; discriminate H|vm_compute; reflexivity]. Qed.
