(** Dotted names: C18.  The specification is in NameSpec.v. *)
From Coq Require Import List NArith ZArith Bool String Ascii.
From Verif Require Import Base Token Scanner Lexer LexSpec ScanRefine Lexing LexFacts NameSpec Names.
Import ListNotations.
Local Open Scope N_scope.

(** C18: the name read is the longest ident[.ident]* at the cursor, its parts joined by
    dots, whatever whitespace and comments stand around them; its position is that of
    its first character, and what follows the name is left. *)
Theorem C18_full_ident : forall s g v r, readable (rest s) -> mode s = 0 -> FullIdentAt (rest s) g v r ->
  exists p s', ReadFullIdent s = (Ok (v, p), s') /\ moved (pos s) g p /\ left_over r (rest s').
Proof. exact full_ident_read. Qed.
Print Assumptions C18_full_ident.
Example C18_full_ident_case : FullIdentAt (lit " foo /* c */ . bar;") (lit " ") (lit "foo.bar") (lit ";").
Proof. exact full_ident_case. Qed.
(** Without such a name there is an error. *)
Theorem C18_full_ident_none : forall s, nonul (rest s) -> mode s = 0 ->
  ~ (exists g v r, FullIdentAt (rest s) g v r) -> exists e s', ReadFullIdent s = (Err e, s').
Proof. exact full_ident_none. Qed.
Print Assumptions C18_full_ident_none.
Example C18_full_ident_none_case : ~ (exists g v r, FullIdentAt (lit "foo.;") g v r).
Proof. exact full_ident_none_case. Qed.

(** The same for message types (and enum types), which may start with a dot. *)
Theorem C18_message_type : forall s g v r, readable (rest s) -> mode s = 0 -> MessageTypeAt (rest s) g v r ->
  exists p s', ReadMessageType s = (Ok (v, p), s') /\ moved (pos s) g p /\ left_over r (rest s').
Proof. exact message_type_read. Qed.
Print Assumptions C18_message_type.
Example C18_message_type_case : MessageTypeAt (lit ". foo /* c */ . bar;") [] (lit ".foo.bar") (lit ";").
Proof. exact message_type_case. Qed.
Theorem C18_enum_type : forall s g v r, readable (rest s) -> mode s = 0 -> MessageTypeAt (rest s) g v r ->
  exists p s', ReadEnumType s = (Ok (v, p), s') /\ moved (pos s) g p /\ left_over r (rest s').
Proof. exact message_type_read. Qed.
Print Assumptions C18_enum_type.
(** Without a message type there is an error, or the text has ended and the name is
    empty or ends in a dot. *)
Theorem C18_message_type_none_partial : forall s, nonul (rest s) -> mode s = 0 ->
  ~ (exists g v r, MessageTypeAt (rest s) g v r) ->
  (exists e s', ReadMessageType s = (Err e, s')) \/
  exists v p s', ReadMessageType s = (Ok (v, p), s') /\ cut v /\ rest s' = [].
Proof. exact message_type_none. Qed.
Print Assumptions C18_message_type_none_partial.
(** The latter does happen: [foo.] at the end of the text is read as the message type "foo.". *)
Theorem C18_message_type_refuted : exists text, nonul text /\ ~ (exists g v r, MessageTypeAt text g v r) /\
  exists p s', ReadMessageType (init_st [] text) = (Ok (lit "foo.", p), s').
Proof. exact message_type_cut. Qed.
Print Assumptions C18_message_type_refuted.

(** A text has at most one such name. *)
Theorem C18_unique : forall t g v r g' v' r',
  (FullIdentAt t g v r -> FullIdentAt t g' v' r' -> g = g' /\ v = v' /\ r = r') /\
  (MessageTypeAt t g v r -> MessageTypeAt t g' v' r' -> g = g' /\ v = v' /\ r = r').
Proof. exact names_unique. Qed.
Print Assumptions C18_unique.
