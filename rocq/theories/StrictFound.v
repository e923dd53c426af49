(** The strict mode un-reads the opening brace of a field option twice: the error
    reports it before the place where it stands. *)
From Coq Require Import List NArith ZArith Bool String Ascii Lia.
From Verif Require Import Base Token Scanner Ast Api Spec LexSpec Tree GroupSpec FoundSpec SndCase.
Import ListNotations.
Open Scope N_scope.

Definition strict_found : list rune := lit "message M { A a = 1 [x={}];}".
Lemma gap_start g cs : Gap g cs -> g = [] \/ exists c g', g = c :: g' /\ (isSpace c = true \/ c = ch "/").
Proof.
  destruct 1 as [|c g cs H|x g cs (b & -> & _)|x g cs (b & -> & _)]; [left; reflexivity|right; eexists _, _; split; [reflexivity|auto]..].
Qed.
Definition shifted_pos : mpos := mkPos [] 22 1 23.
Lemma shifted_not_shown : ~ Shown [] strict_found shifted_pos (lit "{").
Proof.
  intros (a & g & cs & b & E & [G|(_ & X & _)] & P); [|discriminate X].
  assert (O : utf8_bytes a = 22%Z \/ utf8_bytes (a ++ g) = 22%Z) by (destruct P as [(_ & P & _)|(_ & P & _)]; cbn [Offset shifted_pos] in P; [left|right]; lia). clear P.
  assert (K : forall w r, strict_found = w ++ r -> utf8_bytes w = 22%Z -> hd 0 r = ch "=").
  { clear. intros w r E. unfold strict_found in E. cbn in E.
    do 29 (destruct w as [|? w]; [cbn [app] in E; subst r; try (intros X; vm_compute in X; discriminate X); reflexivity|try discriminate E; injection E as <- E]). }
  destruct O as [O|O].
  - pose proof (K _ _ E O) as H. destruct (gap_start _ _ G) as [-> |(c & g' & -> & C)]; [discriminate H|]. cbn in H. subst c. destruct C as [C|C]; vm_compute in C; discriminate C.
  - rewrite app_assoc in E. pose proof (K _ _ E O) as H. discriminate H.
Qed.
Theorem strict_shifted : readable strict_found /\ no_groups strict_found /\
  exists e p x, Parse [WithPermissive false] strict_found = Err e /\ In (p, x) (err_found e) /\ ~ Shown [] strict_found p x.
Proof.
  split; [repeat constructor; try discriminate; vm_compute; intuition discriminate|]. split; [apply (no_group "message M { A a = 1 [x={}];}"); vm_compute; reflexivity|].
  destruct (Parse [WithPermissive false] strict_found) as [|e| |] eqn:E; try (vm_compute in E; discriminate).
  exists e, shifted_pos, (lit "{"). split; [reflexivity|]. split; [|exact shifted_not_shown]. vm_compute in E. injection E as <-. vm_compute. auto.
Qed.
