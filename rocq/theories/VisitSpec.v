(** What an always willing visitor is shown.  Specification only. *)
From Coq Require Import List NArith ZArith Bool String Ascii.
From Verif Require Import Base Token Scanner Ast Tree Visitor.
Import ListNotations.

(** the call of Visit for an element; there is none for the request and the response of an RPC *)
Definition node_of (e : elem) : option node :=
  match e with
  | ESyntax s => Some (NSyntax s) | EEdition x => Some (NEdition x)
  | EStmt VNil => None
  | EStmt (VComment c) => Some (NComment c)
  | EStmt v => Some (NVisitee v)
  | EOneofField f => Some (NOneofField f) | EOption o => Some (NVisitee (VOption o))
  | EParam _ => None | EDeclaration d => Some (NDeclaration d)
  end.
(** its comments that are shown: not the embedded comments of an RPC, nor the comments behind the left
    bracket of an RPC, a oneof or extensions *)
Definition shown_comments (e : elem) : list comment :=
  e_comments e ++ opt_list (fun c => c) (e_inline e) ++
  match e with EStmt (VRPC _) | EStmt (VOneof _) | EStmt (VExtensions _) | EStmt (VComment _) => [] | _ => e_inner e end.
(** the elements shown: all but what is below an RPC *)
Inductive shown (p : proto) : elem -> Prop :=
| sh_root e : In e (roots p) -> shown p e
| sh_child e l e' : shown p e -> match e with EStmt (VRPC _) => False | _ => True end ->
    In l (children e) -> In e' l -> shown p e'.
