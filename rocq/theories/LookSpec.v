(** Vocabulary for what a program sees of a scanner.  Specification only. *)
From Coq Require Import List NArith ZArith Bool.
From Verif Require Import Base Token Scanner ScanProps.
Import ListNotations.

(** the answer of a Scan: token, text, position, and whether there is an error *)
Definition told (r : res scanned) : option (token * str * mpos * bool) :=
  match r with
  | Ok (t, x, p, e) => Some (t, x, p, match e with Some _ => true | None => false end)
  | _ => None
  end.
(** the answers to a sequence of calls *)
Fixpoint answers (ops : list sop) (s : st) : list (option (token * str * mpos * bool)) :=
  match ops with
  | [] => []
  | OScan m :: l => told (fst (Scan (set_mode m s))) :: answers l (sdo s (OScan m))
  | OUnScan :: l => answers l (sdo s OUnScan)
  end.
(** the calls never take more than the text in front of [r] *)
Definition stays (ops : list sop) (s : st) (r : list rune) : Prop :=
  forall n, exists x, rest (srun (firstn n ops) s) = x ++ r.
