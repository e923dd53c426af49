(** The size of errors on texts without groups. *)
From Coq Require Import List NArith ZArith Bool String Ascii Lia Arith.
From Verif Require Import Base Token Scanner Ast Parser Api Spec LexSpec RefineFile Tree GroupSpec FoundSpec Found Few.
Import ListNotations.
Open Scope N_scope.

Lemma size_found e k : (forall p x, In (p, x) (err_found e) -> (List.length x <= k)%nat) ->
  err_size e <= N.of_nat (List.length (err_found e)) * (1 + N.of_nat k).
Proof.
  induction e as [p y c|p y z|p y z t|a IHa b IHb]; cbn [err_found err_size]; intros H.
  - cbn [List.length]. nia.
  - specialize (H _ _ (or_introl eq_refl)). cbn [List.length]. nia.
  - specialize (H _ _ (or_introl eq_refl)). cbn [List.length]. nia.
  - rewrite app_length. assert (A := IHa (fun p x I => H p x (in_or_app _ _ _ (or_introl I)))). assert (B := IHb (fun p x I => H p x (in_or_app _ _ _ (or_intror I)))). nia.
Qed.
Theorem error_size opts input e : readable input -> cfg_permissive (config_of opts) = true -> no_groups input ->
  Parse opts input = Err e -> err_size e <= (N.of_nat (List.length input) + 4) * (N.of_nat (List.length input) + 1).
Proof.
  intros R P G E. pose proof (error_places _ _ _ E) as L.
  assert (S := size_found e (List.length input)).
  assert (X : err_size e <= N.of_nat (List.length (err_found e)) * (1 + N.of_nat (List.length input))).
  { apply S. intros p x I. destruct (error_found _ _ _ _ _ R P G E I) as (a & g & cs & b & -> & _). rewrite !app_length. lia. }
  nia.
Qed.
