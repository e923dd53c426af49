(** The slices behind the texts the lexer un-reads.  Scanner.v and Lexer.v have
    [lastScanRaw] and [RawText] as values; in the code they are slices, and
    SetLastScanRaw makes the scanner write into an array that a program holds.
    This file models the arrays (lexer/scanner/scanner.go:57-64, 84-91, 94-121,
    lexer/lexer.go:86-87, 160-184). *)
From Coq Require Import List NArith Bool Arith Lia.
From Verif Require Import Base.
Import ListNotations.
Local Open Scope nat_scope.

(** an array of the heap, the length and the capacity; the offset is always 0 *)
Record slice := mkSlice { arr : nat; slen : nat; scap : nat }.
Definition heap := list (list rune).
Definition array (h : heap) (a : nat) : list rune := nth a h [].
Definition contents (h : heap) (s : slice) : list rune := firstn (slen s) (array h (arr s)).
Fixpoint set_nth {A} (n : nat) (x : A) (l : list A) : list A :=
  match l, n with [], _ => [] | _ :: l, O => x :: l | y :: l, S n => y :: set_nth n x l end.

(** append(s, r): in place, or into a new array of capacity [grow (len s)] *)
Definition push (grow : nat -> nat) (r : rune) (hs : heap * slice) : heap * slice :=
  let '(h, s) := hs in
  if slen s <? scap s then (set_nth (arr s) (set_nth (slen s) r (array h (arr s))) h, mkSlice (arr s) (S (slen s)) (scap s))
  else (h ++ [contents h s ++ [r] ++ repeat 0%N (grow (slen s) - S (slen s))], mkSlice (List.length h) (S (slen s)) (grow (slen s))).
(** s[0 : len(s)-1] *)
Definition pop (hs : heap * slice) : heap * slice := (fst hs, mkSlice (arr (snd hs)) (Nat.pred (slen (snd hs))) (scap (snd hs))).
(** s[:0] *)
Definition clear (s : slice) : slice := mkSlice (arr s) 0 (scap s).
(** scanner.go:112-116 LastScanRaw: make and copy *)
Definition copy (h : heap) (s : slice) : heap * slice := (h ++ [contents h s], mkSlice (List.length h) (slen s) (slen s)).

(** What one Scan does with lastScanRaw: read appends (scanner.go:61), peek takes the last one
    back (87); in which order is left open. *)
Inductive rop := Push (r : rune) | Pop.
Definition do_rop (grow : nat -> nat) (o : rop) (hs : heap * slice) : heap * slice := match o with Push r => push grow r hs | Pop => pop hs end.
Fixpoint do_rops (grow : nat -> nat) (l : list rop) (hs : heap * slice) : heap * slice :=
  match l with [] => hs | o :: l => do_rops grow l (do_rop grow o hs) end.

(** The calls of a program that matter: Next (any mode), UnNext, and UnNextTo with the
    RawText it got from the [i]-th Next.  The answer of an UnNext is the text put back. *)
Inductive call := CNext (ops : list rop) | CUnNext | CUnNextTo (i : nat).
Record lexer_slices := mkLS { ls_heap : heap; ls_cur : slice; ls_given : list slice }.
Definition start : lexer_slices := mkLS [[]] (mkSlice 0 0 0) [].
Definition step (grow : nat -> nat) (c : call) (s : lexer_slices) : option (list rune) * lexer_slices :=
  match c with
  | CNext ops =>
    let '(h, cur) := do_rops grow ops (ls_heap s, clear (ls_cur s)) in
    let '(h, r) := copy h cur in (None, mkLS h cur (ls_given s ++ [r]))
  | CUnNext => (Some (contents (ls_heap s) (ls_cur s)), s)
  | CUnNextTo i =>
    let r := nth i (ls_given s) (mkSlice 0 0 0) in (Some (contents (ls_heap s) r), mkLS (ls_heap s) r (ls_given s))
  end.
Fixpoint run (grow : nat -> nat) (l : list call) (s : lexer_slices) : list (option (list rune)) :=
  match l with [] => [] | c :: l => let '(o, s) := step grow c s in o :: run grow l s end.

(** ** The same with values, as in Scanner.v *)
Definition v_rop (o : rop) (x : list rune) : list rune := match o with Push r => x ++ [r] | Pop => removelast x end.
Definition v_rops (l : list rop) : list rune := fold_left (fun x o => v_rop o x) l [].
Record lexer_values := mkLV { lv_cur : list rune; lv_given : list (list rune) }.
Definition v_step (c : call) (s : lexer_values) : option (list rune) * lexer_values :=
  match c with
  | CNext ops => (None, mkLV (v_rops ops) (lv_given s ++ [v_rops ops]))
  | CUnNext => (Some (lv_cur s), s)
  | CUnNextTo i => let r := nth i (lv_given s) [] in (Some r, mkLV r (lv_given s))
  end.
Fixpoint v_run (l : list call) (s : lexer_values) : list (option (list rune)) :=
  match l with [] => [] | c :: l => let '(o, s) := v_step c s in o :: v_run l s end.

(** A text is used up if it was passed to UnNextTo and the lexer read on from there. *)
Definition used_up (i : nat) (l : list call) : Prop :=
  exists l1 l2 ops l3, l = l1 ++ CUnNextTo i :: l2 ++ CNext ops :: l3 /\ Forall (eq CUnNext) l2.
Definition nexts (l : list call) : nat := List.length (filter (fun c => match c with CNext _ => true | _ => false end) l).
Definition fresh (l : list call) : Prop := forall l1 i l2, l = l1 ++ CUnNextTo i :: l2 -> i < nexts l1 /\ ~ used_up i l1.
(** The library itself (lexer.go:160-172 PeekN, groupField.go:125-169 peekIsGroup) reads some
    tokens and then un-reads texts it got from these reads. *)
Inductive library : nat -> list call -> Prop :=
| lib_nil n : library n []
| lib_block n reads is l : Forall (fun c => forall i, c <> CUnNextTo i) reads -> Forall (fun i => n <= i < n + nexts reads) is ->
    library (n + nexts reads) l -> library n (reads ++ map CUnNextTo is ++ l).
