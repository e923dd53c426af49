(** All comments an AST holds.  Specification only. *)
From Coq Require Import List NArith ZArith Bool String Ascii.
From Verif Require Import Base Token Scanner Ast Tree SimSpec.
Import ListNotations.

Definition leaves {A} (f : A -> elem) (l : list A) : list comment := flat_map (fun x => e_all (f x)) l.
(** a statement with everything below it *)
Fixpoint held (v : visitee) : list comment :=
  e_all (EStmt v) ++
  match v with
  | VMessage b | VEnum b | VService b | VExtend b => flat_map held (b_body b)
  | VGroupField g => flat_map held (g_body g)
  | VOneof o => leaves EOneofField (oo_fields o) ++ leaves EOption (oo_options o)
  | VRPC r => leaves EOption (r_options r)
  | VExtensions x => leaves EDeclaration (xs_declarations x)
  | _ => []
  end.
(** the header; unless [twice], the comments in front of an edition do not count if there is a syntax *)
Definition held_head (twice : bool) (p : proto) : list comment :=
  match p_syntax p, p_edition p with
  | Some s, Some e => e_all (ESyntax s) ++ (if twice then ed_comments e else []) ++ opt_list (fun c => c) (ed_inline e)
  | Some s, None => e_all (ESyntax s)
  | None, Some e => e_all (EEdition e)
  | None, None => []
  end.
Definition held_proto (twice : bool) (p : proto) : list comment := held_head twice p ++ flat_map held (p_body p).
(** where a comment starts *)
Definition c_start (c : comment) : Z := Offset (Pos (c_meta c)).
