(** Cursors and the pure parser monad.

    A cursor is a place in the source text: the text consumed, the text left,
    the comments recorded so far and the position of the last token.  The pure
    parser of Pure.v works on cursors; it has no un-reading and no scanner state.
    Refine.v proves that the model's parser computes it. *)
From Coq Require Import List NArith ZArith Bool String Ascii Lia.
From Verif Require Import Base Token Scanner Lexing ScanRefine Ast.
Import ListNotations.
Open Scope N_scope.

Record cur := mkCur { cc : list rune; cr : list rune; cm : list text; lp : mpos }.


(** A scanned token with the cursor in front of it (where un-reading it leads)
    and the text it consumed, gap included. *)
Record ti := mkTi { tk : token; tx : str; tp : mpos; kb : cur; tw : list rune; tg : list rune }.

Section Mode.
(** the position where the text starts *)
Variable p0 : mpos.
Definition posat (c : list rune) : mpos := posafter p0 c.

(** the next token in mode [m], and the cursor behind it *)
Definition lexc (m : smode) (k : cur) : ti * cur :=
  let x := lex m (cr k) in
  let p := posat (cc k ++ lx_gap x) in
  let cms := cm k ++ place (posat (cc k)) (lx_cms x) in
  let w := lx_gap x ++ lx_raw x in
  (mkTi (lx_tok x) (lx_txt x) p (mkCur (cc k) (cr k) cms (posat (cc k))) w (lx_gap x),
   mkCur (cc k ++ w) (lx_rest x) cms p).
End Mode.

(** Results.  [PErr kb ka]: an error at cursor [ka], the token in front of it
    starting at [kb] (so that un-reading it leads to [kb]).  [PBal k w]: an error
    at [k] after un-reading the text [w] (un-reading again would duplicate [w]).
    [PFatal]: an error from which no enclosing body can recover.  [PBad]: the
    error recovery duplicated text in a way the pure parser does not follow. *)
Inductive pres (A : Type) :=
| POk (a : A) (k : cur)
| PErr (kb ka : cur)
| PBal (k : cur) (w : list rune)
| PFatal | PBad | PPanic | PFuel.
Arguments POk {A}. Arguments PErr {A}. Arguments PBal {A}. Arguments PFatal {A}.
Arguments PBad {A}. Arguments PPanic {A}. Arguments PFuel {A}.

Definition PM (A : Type) := cur -> pres A.
Definition pret {A} (a : A) : PM A := fun k => POk a k.
Definition pbind {A B} (m : PM A) (f : A -> PM B) : PM B :=
  fun k => match m k with
           | POk a k' => f a k'
           | PErr kb ka => PErr kb ka
           | PBal k' w => PBal k' w
           | PFatal => PFatal
           | PBad => PBad
           | PPanic => PPanic
           | PFuel => PFuel
           end.
(** [f] gets the value or, after an error that leaves the cursor known, None. *)
Definition ptry {A B} (m : PM A) (f : option A -> PM B) : PM B :=
  fun k => match m k with
           | POk a k' => f (Some a) k'
           | PErr kb ka => f None ka
           | PBal k' w => f None k'
           | PFatal => PBad
           | PBad => PBad
           | PPanic => PPanic
           | PFuel => PFuel
           end.
Declare Scope pure_scope.
Delimit Scope pure_scope with pure.
Notation "x <-- m ;; k" := (pbind m (fun x => k))
  (at level 61, m at next level, right associativity) : pure_scope.
Notation "' p <-- m ;; k" := (pbind m (fun x => match x with p => k end))
  (at level 61, p pattern, m at next level, right associativity) : pure_scope.
Notation "m ;;; k" := (pbind m (fun _ => k)) (at level 61, right associativity) : pure_scope.
Open Scope pure_scope.

Definition ptok (p0 : mpos) (m : smode) : PM ti := fun k => let '(t, k') := lexc p0 m k in POk t k'.
(** back to the front of the token just read *)
Definition pback (t : ti) : PM unit := fun _ => POk tt (kb t).
Definition perr {A} (t : ti) : PM A := fun k => PErr (kb t) k.
Definition pbal {A} (t : ti) : PM A := fun _ => PBal (kb t) (tw t).
Definition pfuel : PM nat := fun k => POk (S (List.length (cr k))) k.
Definition poof {A} : PM A := fun _ => PFuel.
Definition ppanic {A} : PM A := fun _ => PPanic.
Definition plast : PM mpos := fun k => POk (lp k) k.
(** the next token, not consumed *)
Definition ppeek (p0 : mpos) (m : smode) : PM ti := t <-- ptok p0 m;; pback t;;; pret t.
Definition pexpect (p0 : mpos) (m : smode) (t : token) : PM ti :=
  x <-- ptok p0 m;; if tok_eqb (tk x) t then pret x else perr x.
