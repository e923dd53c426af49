(** Model of package interpret/unordered.

    [None] is the error result; error texts are not modelled.  The nil checks
    on the argument (proto.go:29-31 etc.) are not modelled: a value of the
    record type is never nil. *)
From Coq Require Import List NArith ZArith Bool String.
From Verif Require Import Base Token Scanner Ast.
Import ListNotations.

(** interpret/unordered/enum.go:11-31 *)
Record uEnumBody := mkUEnumBody {
  ueb_options : list option_; ueb_fields : list enumField; ueb_reserveds : list reserved;
  ueb_empties : list emptyStatement }.
(** The fields beside the body, common to Enum, Extend, Message, Service. *)
Record uHead := mkUHead {
  uh_name : str; uh_comments : list comment; uh_inline : option comment; uh_inlineLC : option comment;
  uh_meta : meta }.
Record uEnum := mkUEnum { ue_head : uHead; ue_body : uEnumBody }.

Definition head_of (b : block) : uHead :=
  mkUHead (b_name b) (b_comments b) (b_inline b) (b_inlineLC b) (b_meta b).

(** interpret/unordered/enum.go:53-81 interpretEnumBody *)
Fixpoint interpretEnumBody (src : list visitee) (a : uEnumBody) : option uEnumBody :=
  match src with
  | [] => Some a
  | s :: src' =>
    match s with
    | VOption t => interpretEnumBody src' (mkUEnumBody (ueb_options a ++ [t]) (ueb_fields a) (ueb_reserveds a) (ueb_empties a))
    | VEnumField t => interpretEnumBody src' (mkUEnumBody (ueb_options a) (ueb_fields a ++ [t]) (ueb_reserveds a) (ueb_empties a))
    | VReserved t => interpretEnumBody src' (mkUEnumBody (ueb_options a) (ueb_fields a) (ueb_reserveds a ++ [t]) (ueb_empties a))
    | VEmpty t => interpretEnumBody src' (mkUEnumBody (ueb_options a) (ueb_fields a) (ueb_reserveds a) (ueb_empties a ++ [t]))
    | _ => None
    end
  end.
(** interpret/unordered/enum.go:34-51 InterpretEnum *)
Definition InterpretEnum (b : block) : option uEnum :=
  match interpretEnumBody (b_body b) (mkUEnumBody [] [] [] []) with
  | None => None
  | Some body => Some (mkUEnum (head_of b) body)
  end.

(** interpret/unordered/extend.go:11-29 *)
Record uExtendBody := mkUExtendBody { uxb_fields : list field; uxb_empties : list emptyStatement }.
Record uExtend := mkUExtend { ux_head : uHead; ux_body : uExtendBody }.
(** interpret/unordered/extend.go:51-71 *)
Fixpoint interpretExtendBody (src : list visitee) (a : uExtendBody) : option uExtendBody :=
  match src with
  | [] => Some a
  | s :: src' =>
    match s with
    | VField t => interpretExtendBody src' (mkUExtendBody (uxb_fields a ++ [t]) (uxb_empties a))
    | VEmpty t => interpretExtendBody src' (mkUExtendBody (uxb_fields a) (uxb_empties a ++ [t]))
    | _ => None
    end
  end.
(** interpret/unordered/extend.go:32-49 *)
Definition InterpretExtend (b : block) : option uExtend :=
  match interpretExtendBody (b_body b) (mkUExtendBody [] []) with
  | None => None
  | Some body => Some (mkUExtend (head_of b) body)
  end.

(** interpret/unordered/service.go:11-29 *)
Record uServiceBody := mkUServiceBody { usb_options : list option_; usb_rpcs : list rpc }.
Record uService := mkUService { us_head : uHead; us_body : uServiceBody }.
(** interpret/unordered/service.go:51-71: no case for EmptyStatement *)
Fixpoint interpretServiceBody (src : list visitee) (a : uServiceBody) : option uServiceBody :=
  match src with
  | [] => Some a
  | s :: src' =>
    match s with
    | VOption t => interpretServiceBody src' (mkUServiceBody (usb_options a ++ [t]) (usb_rpcs a))
    | VRPC t => interpretServiceBody src' (mkUServiceBody (usb_options a) (usb_rpcs a ++ [t]))
    | _ => None
    end
  end.
(** interpret/unordered/service.go:32-49 *)
Definition InterpretService (b : block) : option uService :=
  match interpretServiceBody (b_body b) (mkUServiceBody [] []) with
  | None => None
  | Some body => Some (mkUService (head_of b) body)
  end.

(** interpret/unordered/message.go:11-38 *)
Record uMessageBody_ (Msg : Type) := mkUMessageBody {
  um_fields : list field; um_enums : list uEnum; um_messages : list Msg; um_options : list option_;
  um_oneofs : list oneof; um_maps : list mapField; um_groups : list groupField;
  um_reserves : list reserved; um_extends : list block; um_empties : list emptyStatement;
  um_extensions : list extensions }.
Arguments mkUMessageBody {Msg}. Arguments um_fields {Msg}. Arguments um_enums {Msg}.
Arguments um_messages {Msg}. Arguments um_options {Msg}. Arguments um_oneofs {Msg}.
Arguments um_maps {Msg}. Arguments um_groups {Msg}. Arguments um_reserves {Msg}.
Arguments um_extends {Msg}. Arguments um_empties {Msg}. Arguments um_extensions {Msg}.
Inductive uMessage := mkUMessage (head : uHead) (body : uMessageBody_ uMessage).
Definition uMessageBody := uMessageBody_ uMessage.
Definition umsg_head (m : uMessage) : uHead := match m with mkUMessage h _ => h end.
Definition umsg_body (m : uMessage) : uMessageBody := match m with mkUMessage _ b => b end.
Definition emptyUMessageBody : uMessageBody := mkUMessageBody [] [] [] [] [] [] [] [] [] [] [].

(** interpret/unordered/message.go:41-58 InterpretMessage and 60-124
    interpretMessageBody.  Written on the node so that the recursion is
    structural; the result is None for a node that is not a message. *)
Fixpoint interpretMessageNode (v : visitee) : option uMessage :=
  match v with
  | VMessage m =>
    match
      (fix body (src : list visitee) (a : uMessageBody) : option uMessageBody :=
         match src with
         | [] => Some a
         | s :: src' =>
           match s with
           | VField t => body src' (mkUMessageBody (um_fields a ++ [t]) (um_enums a) (um_messages a) (um_options a) (um_oneofs a) (um_maps a) (um_groups a) (um_reserves a) (um_extends a) (um_empties a) (um_extensions a))
           | VEnum t =>
             match InterpretEnum t with
             | None => None
             | Some e => body src' (mkUMessageBody (um_fields a) (um_enums a ++ [e]) (um_messages a) (um_options a) (um_oneofs a) (um_maps a) (um_groups a) (um_reserves a) (um_extends a) (um_empties a) (um_extensions a))
             end
           | VMessage _ =>
             match interpretMessageNode s with
             | None => None
             | Some e => body src' (mkUMessageBody (um_fields a) (um_enums a) (um_messages a ++ [e]) (um_options a) (um_oneofs a) (um_maps a) (um_groups a) (um_reserves a) (um_extends a) (um_empties a) (um_extensions a))
             end
           | VOption t => body src' (mkUMessageBody (um_fields a) (um_enums a) (um_messages a) (um_options a ++ [t]) (um_oneofs a) (um_maps a) (um_groups a) (um_reserves a) (um_extends a) (um_empties a) (um_extensions a))
           | VOneof t => body src' (mkUMessageBody (um_fields a) (um_enums a) (um_messages a) (um_options a) (um_oneofs a ++ [t]) (um_maps a) (um_groups a) (um_reserves a) (um_extends a) (um_empties a) (um_extensions a))
           | VMapField t => body src' (mkUMessageBody (um_fields a) (um_enums a) (um_messages a) (um_options a) (um_oneofs a) (um_maps a ++ [t]) (um_groups a) (um_reserves a) (um_extends a) (um_empties a) (um_extensions a))
           | VGroupField t => body src' (mkUMessageBody (um_fields a) (um_enums a) (um_messages a) (um_options a) (um_oneofs a) (um_maps a) (um_groups a ++ [t]) (um_reserves a) (um_extends a) (um_empties a) (um_extensions a))
           | VReserved t => body src' (mkUMessageBody (um_fields a) (um_enums a) (um_messages a) (um_options a) (um_oneofs a) (um_maps a) (um_groups a) (um_reserves a ++ [t]) (um_extends a) (um_empties a) (um_extensions a))
           | VExtend t => body src' (mkUMessageBody (um_fields a) (um_enums a) (um_messages a) (um_options a) (um_oneofs a) (um_maps a) (um_groups a) (um_reserves a) (um_extends a ++ [t]) (um_empties a) (um_extensions a))
           | VEmpty t => body src' (mkUMessageBody (um_fields a) (um_enums a) (um_messages a) (um_options a) (um_oneofs a) (um_maps a) (um_groups a) (um_reserves a) (um_extends a) (um_empties a ++ [t]) (um_extensions a))
           | VExtensions t => body src' (mkUMessageBody (um_fields a) (um_enums a) (um_messages a) (um_options a) (um_oneofs a) (um_maps a) (um_groups a) (um_reserves a) (um_extends a) (um_empties a) (um_extensions a ++ [t]))
           | _ => None
           end
         end) (b_body m) emptyUMessageBody
    with
    | None => None
    | Some b => Some (mkUMessage (head_of m) b)
    end
  | _ => None
  end.
Definition InterpretMessage (m : block) : option uMessage := interpretMessageNode (VMessage m).

(** interpret/unordered/proto.go:10-25 *)
Record uProtoBody := mkUProtoBody {
  up_imports : list import; up_packages : list package; up_options : list option_;
  up_messages : list uMessage; up_extends : list uExtend; up_enums : list uEnum;
  up_services : list uService; up_empties : list emptyStatement }.
Record uProto := mkUProto { upr_syntax : option syntax; upr_body : uProtoBody }.

(** interpret/unordered/proto.go:43-103 interpretProtoBody *)
Fixpoint interpretProtoBody (src : list visitee) (a : uProtoBody) : option uProtoBody :=
  match src with
  | [] => Some a
  | s :: src' =>
    match s with
    | VImport t => interpretProtoBody src' (mkUProtoBody (up_imports a ++ [t]) (up_packages a) (up_options a) (up_messages a) (up_extends a) (up_enums a) (up_services a) (up_empties a))
    | VPackage t => interpretProtoBody src' (mkUProtoBody (up_imports a) (up_packages a ++ [t]) (up_options a) (up_messages a) (up_extends a) (up_enums a) (up_services a) (up_empties a))
    | VOption t => interpretProtoBody src' (mkUProtoBody (up_imports a) (up_packages a) (up_options a ++ [t]) (up_messages a) (up_extends a) (up_enums a) (up_services a) (up_empties a))
    | VMessage t =>
      match InterpretMessage t with
      | None => None
      | Some e => interpretProtoBody src' (mkUProtoBody (up_imports a) (up_packages a) (up_options a) (up_messages a ++ [e]) (up_extends a) (up_enums a) (up_services a) (up_empties a))
      end
    | VExtend t =>
      match InterpretExtend t with
      | None => None
      | Some e => interpretProtoBody src' (mkUProtoBody (up_imports a) (up_packages a) (up_options a) (up_messages a) (up_extends a ++ [e]) (up_enums a) (up_services a) (up_empties a))
      end
    | VEnum t =>
      match InterpretEnum t with
      | None => None
      | Some e => interpretProtoBody src' (mkUProtoBody (up_imports a) (up_packages a) (up_options a) (up_messages a) (up_extends a) (up_enums a ++ [e]) (up_services a) (up_empties a))
      end
    | VService t =>
      match InterpretService t with
      | None => None
      | Some e => interpretProtoBody src' (mkUProtoBody (up_imports a) (up_packages a) (up_options a) (up_messages a) (up_extends a) (up_enums a) (up_services a ++ [e]) (up_empties a))
      end
    | VEmpty t => interpretProtoBody src' (mkUProtoBody (up_imports a) (up_packages a) (up_options a) (up_messages a) (up_extends a) (up_enums a) (up_services a) (up_empties a ++ [t]))
    | _ => None
    end
  end.

(** interpret/unordered/proto.go:28-41 InterpretProto; protoparser.go:73-75
    UnorderedInterpret is the same function. *)
Definition InterpretProto (src : proto) : option uProto :=
  match interpretProtoBody (p_body src) (mkUProtoBody [] [] [] [] [] [] [] []) with
  | None => None
  | Some b => Some (mkUProto (p_syntax src) b)
  end.
Definition UnorderedInterpret := InterpretProto.
