(** Vocabulary for texts one behind the other.  Specification only. *)
From Coq Require Import List NArith ZArith Bool String Ascii.
From Verif Require Import Base Token Scanner Ast AstMap LexSpec.
Import ListNotations.
Open Scope Z_scope.

(** a position in a text, when the text [a] and a newline are in front of it *)
Definition below (a : list rune) (p : mpos) : mpos := mkPos (Filename p) (Offset p + (utf8_bytes a + 1)) (Line p + (newlines a + 1)) (Column p).
(** a statement of a file with other comments in front *)
Definition with_leading (ks : list comment) (v : visitee) : visitee :=
  let block (x : block) : block := mkBlock (b_name x) (b_body x) ks (b_inline x) (b_inlineLC x) (b_meta x) in
  match v with
  | VImport x => VImport (mkImport (im_modifier x) (im_location x) ks (im_inline x) (im_meta x))
  | VPackage x => VPackage (mkPackage (pk_name x) ks (pk_inline x) (pk_meta x))
  | VOption x => VOption (mkOption (op_name x) (op_constant x) ks (op_inline x) (op_meta x))
  | VMessage x => VMessage (block x)
  | VEnum x => VEnum (block x)
  | VService x => VService (block x)
  | VExtend x => VExtend (block x)
  | _ => v
  end.
(** the statements [l] moved below [a], the first with other comments in front *)
Definition moved_below (a : list rune) (l w : list visitee) : Prop :=
  match l with
  | [] => exists ks, w = map VComment ks
  | v :: l => exists ks, w = with_leading ks (map_visitee (below a) false v) :: map (map_visitee (below a) false) l
  end.
