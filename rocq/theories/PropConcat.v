(** Texts one behind the other: property theorems. *)
From Coq Require Import List NArith ZArith Bool String Ascii.
From Verif Require Import Base Token Scanner Ast Parser Api LexSpec SimSpec Regular ConcatSpec GramCase DocCase Concat.
Import ListNotations.

(** C49: take two texts of the documented grammar, the second without byte order
    mark, syntax and edition, and put a newline between them.  Parse accepts the
    whole.  Syntax, edition and statements of the first text are what they are
    without the second text, with all their fields, positions and comments.  Then
    come the statements of the second text, with all their fields and comments,
    and with their positions moved by the bytes and lines in front.  Only the
    comments in front of the first of them may differ.  In permissive mode the
    second text does not begin with a semicolon.
    Missing for C49: texts outside the documented grammar; and the semicolon, for
    which it is false (the theorem below). *)
Theorem C49_partial : forall opts c a b pr1 pr2, c = config_of opts -> readable a -> readable b -> documented c a pr1 -> documented c b pr2 ->
  p_syntax pr2 = None -> p_edition pr2 = None -> ~ starts_with_bom b -> (cfg_permissive c = false \/ forall e l, p_body pr2 <> VEmpty e :: l) ->
  exists pr vs cs w, Parse opts a = Ok pr1 /\ Parse opts b = Ok pr2 /\ Parse opts (a ++ NL :: b) = Ok pr /\
    p_syntax pr = p_syntax pr1 /\ p_edition pr = p_edition pr1 /\
    p_body pr1 = vs ++ map VComment cs /\ p_body pr = vs ++ w /\ moved_below a (p_body pr2) w.
Proof. exact concat_texts. Qed.
Print Assumptions C49_partial.
Example C49_case : readable (lit case_text) /\ readable (lit doc_text) /\ documented (config_of []) (lit case_text) case_proto /\ documented (config_of []) (lit doc_text) doc_proto /\
  p_syntax doc_proto = None /\ p_edition doc_proto = None /\ ~ starts_with_bom (lit doc_text) /\ (forall e l, p_body doc_proto <> VEmpty e :: l) /\
  p_body doc_proto <> [] /\ p_body case_proto <> [].
Proof. exact concat_case. Qed.

(** C49 refuted: a message, and a text that is one semicolon with two elements;
    together they are one message. *)
Theorem C49_refuted : exists v pr, Parse [] (lit brace_text) = Ok pr /\ p_body pr = [v] /\
  Parse [] (lit ";") = Ok (mkProto None None [VEmpty (mkEmpty None); VNil] []) /\
  exists pr' v', Parse [] (lit brace_text ++ NL :: lit ";") = Ok pr' /\ p_body pr' = [v'].
Proof. exact concat_semicolon. Qed.
Print Assumptions C49_refuted.
