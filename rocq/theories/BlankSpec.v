(** Vocabulary for white space in front of a text.  Specification only. *)
From Coq Require Import List NArith ZArith Bool String Ascii.
From Verif Require Import Base Token Scanner Ast AstMap LexSpec SimSpec.
Import ListNotations.
Open Scope Z_scope.

(** a position in a text, when the text [w] is in front of it on lines of its own *)
Definition pushed (w : list rune) (p : mpos) : mpos := mkPos (Filename p) (Offset p + utf8_bytes w) (Line p + newlines w) (Column p).
(** a position with its column only from line [k] on *)
Definition columns_from (k : Z) (p : mpos) : mpos := mkPos (Filename p) (Offset p) (Line p) (if k <=? Line p then Column p else 0).
(** whole lines *)
Definition whole_lines (w : list rune) : Prop := w = [] \/ exists v, w = v ++ [NL].
(** Two outcomes agree: two panics, two trees or two errors with the same positions,
    those of the second pushed by [w], columns from line [k] of the second on; or the
    same error at the start of the file. *)
Definition pushed_outcome (k : Z) (w : list rune) (r r' : res proto) : Prop :=
  match r, r' with
  | Ok p', Ok p => map_proto (columns_from (k + newlines w)) false (fun x => x) p' =
                   map_proto (fun q => columns_from (k + newlines w) (pushed w q)) false (fun x => x) p
  | Err e', Err e => map_err (columns_from (k + newlines w)) e' = map_err (fun q => columns_from (k + newlines w) (pushed w q)) e \/
                     e' = e /\ exists fn, err_positions e = [mkPos fn 0 1 1]
  | Panic, Panic => True
  | _, _ => False
  end.
