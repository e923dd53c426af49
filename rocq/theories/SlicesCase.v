(** Concrete cases for C52. *)
From Coq Require Import List NArith ZArith Bool Arith String Ascii Lia.
From Verif Require Import Base Token Scanner Lexer Slices SlicesProof.
Import ListNotations.
Open Scope monad_scope.
Local Open Scope nat_scope.

(** the capacities of a growing []rune in Go: 2, 4, 8, ... *)
Definition go_grow (n : nat) : nat := match n with 0 => 2 | _ => 2 * n end.
Lemma go_grow_grows n : n < go_grow n. Proof. destruct n; cbn; lia. Qed.
Definition pushes (l : list rune) : list rop := map Push l.
(** PeekN(2) on [ab = 1], and then the tokens themselves; a read looks at the rune behind the token *)
Definition peek_calls : list call :=
  [CNext (pushes [97; 98; 32]%N ++ [Pop]); CNext (pushes [32; 61]%N); CUnNextTo 1; CUnNextTo 0;
   CNext (pushes [97; 98; 32]%N ++ [Pop]); CUnNext].
Lemma peek_library : library 0 peek_calls.
Proof.
  apply (lib_block 0 [CNext (pushes [97; 98; 32]%N ++ [Pop]); CNext (pushes [32; 61]%N)] [1; 0] [CNext (pushes [97; 98; 32]%N ++ [Pop]); CUnNext]).
  - repeat constructor; discriminate.
  - repeat constructor; cbn; lia.
  - apply (lib_block 2 [CNext (pushes [97; 98; 32]%N ++ [Pop]); CUnNext] [] []); [repeat constructor; discriminate|constructor|constructor].
Qed.
Lemma peek_case : library 0 peek_calls /\ fresh peek_calls /\
  run go_grow peek_calls start = [None; None; Some [32; 61]%N; Some [97; 98]%N; None; Some [97; 98]%N].
Proof.
  split; [exact peek_library|]. split; [|reflexivity]. intros l1 i l2 E. refine (library_fresh 0 _ peek_library [] _ l1 i l2 E). split; [reflexivity|intros j []].
Qed.

(** A program that keeps the text of a string literal and un-reads it twice. *)
Definition twice_input : list rune := lit """ab""".
Definition twice_program : M (list (list rune)) :=
  NextStrLit;; r <- gets lraw;; UnNextTo r;; Next;; r1 <- gets lraw;; Next;; r2 <- gets lraw;; ret [r; r1; r2].
Definition twice_calls : list call :=
  [CNext (pushes [34; 97; 98; 34]%N); CUnNextTo 0; CNext (pushes [34]%N); CNext (pushes [97; 98; 34]%N ++ [Pop]); CUnNextTo 0].
Lemma twice_case :
  fst (twice_program (init_st (lit "f") twice_input)) = Ok [[34; 97; 98; 34]; [34]; [97; 98]]%N /\
  run go_grow twice_calls start = [None; Some [34; 97; 98; 34]; None; None; Some [97; 98; 34; 34]]%N /\
  v_run twice_calls (mkLV [] []) = [None; Some [34; 97; 98; 34]; None; None; Some [34; 97; 98; 34]]%N.
Proof. split; [vm_compute; reflexivity|]. split; reflexivity. Qed.
