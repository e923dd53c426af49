(** Which statements may stand in which body.  Specification only. *)
From Coq Require Import List NArith ZArith Bool String Ascii.
From Verif Require Import Base Token Scanner Ast Tree.
Import ListNotations.

(** [com]: comment nodes are allowed *)
Definition in_message (com : bool) (v : visitee) : Prop :=
  match v with
  | VField _ | VMapField _ | VGroupField _ | VOneof _ | VEnum _ | VMessage _ | VExtend _ | VOption _ | VReserved _ | VExtensions _ | VEmpty _ => True
  | VComment _ => com = true
  | _ => False
  end.
Definition in_enum (com : bool) (v : visitee) : Prop :=
  match v with VEnumField _ | VOption _ | VReserved _ | VEmpty _ => True | VComment _ => com = true | _ => False end.
Definition in_service (com : bool) (v : visitee) : Prop :=
  match v with VRPC _ | VOption _ | VEmpty _ => True | VComment _ => com = true | _ => False end.
Definition in_extend (com : bool) (v : visitee) : Prop :=
  match v with VField _ | VEmpty _ => True | VComment _ => com = true | _ => False end.
Definition body_kinds (com : bool) (e : elem) : Prop :=
  match e with
  | EStmt (VMessage b) => Forall (in_message com) (b_body b)
  | EStmt (VGroupField g) => Forall (in_message com) (g_body g)
  | EStmt (VEnum b) => Forall (in_enum com) (b_body b)
  | EStmt (VService b) => Forall (in_service com) (b_body b)
  | EStmt (VExtend b) => Forall (in_extend com) (b_body b)
  | _ => True
  end.
(** The body of a file: statements, behind every empty statement a nil, and at the end comments *)
Inductive file_kinds (com : bool) : list visitee -> Prop :=
| fk_end cs : (com = true \/ cs = []) -> file_kinds com (map VComment cs)
| fk_stmt v l : match v with VImport _ | VPackage _ | VOption _ | VMessage _ | VEnum _ | VService _ | VExtend _ => True | _ => False end ->
    file_kinds com l -> file_kinds com (v :: l)
| fk_empty l : file_kinds com l -> file_kinds com (VEmpty (mkEmpty None) :: VNil :: l).

(** the bodies UnorderedInterpret goes through: all but those of groups and of extends in messages *)
Inductive gone_through (p : proto) : list visitee -> Prop :=
| gt_file : gone_through p (p_body p)
| gt_message b : message_reached p b -> gone_through p (b_body b)
| gt_enum b : In (VEnum b) (p_body p) \/ (exists m, message_reached p m /\ In (VEnum b) (b_body m)) -> gone_through p (b_body b)
| gt_service b : In (VService b) (p_body p) -> gone_through p (b_body b)
| gt_extend b : In (VExtend b) (p_body p) -> gone_through p (b_body b)
with message_reached (p : proto) : block -> Prop :=
| mr_file b : In (VMessage b) (p_body p) -> message_reached p b
| mr_message m b : message_reached p m -> In (VMessage b) (b_body m) -> message_reached p b.
