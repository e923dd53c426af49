(** Properties of every element and comment of the AST of any accepted input:
    property theorems. *)
From Coq Require Import List NArith ZArith Bool String Ascii.
From Verif Require Import Base Token Scanner Ast Parser Api Spec Direct LexSpec Tree ShapeParse.
Import ListNotations.

(** A case for all theorems below: an accepted text and a field in a group in a message *)
Example shape_case_ : Parse [] shape_text = Ok shape_proto /\
  exists g f s c, element shape_proto (EStmt (VGroupField g)) /\ g_body g = [VField f] /\ element shape_proto (EStmt (VField f)) /\
    f_name f = lit "a" /\ g_inline g = Some c /\ In c (e_all_comments (EStmt (VGroupField g))) /\ c_raw c = lit "/* g */" /\
    p_syntax shape_proto = Some s /\ sy_version s = lit "proto2".
Proof. exact shape_case. Qed.

(** C28: a comment anywhere in the AST is a block comment or a line comment, IsCStyle
    tells which, and Lines returns its body split at newlines. *)
Theorem C28 : forall opts input pr e c, Parse opts input = Ok pr -> element pr e -> In c (e_all_comments e) ->
  (exists b, c_raw c = lit "/*" ++ b ++ lit "*/" /\ IsCStyle c = true /\ unlines (Lines c) = b /\ Forall (fun l => ~ In NL l) (Lines c)) \/
  (exists b, c_raw c = lit "//" ++ b /\ ~ In NL b /\ IsCStyle c = false /\ Lines c = [b]).
Proof. exact comment_lines. Qed.
Print Assumptions C28.

(** C29: the two quotes are quotes, but need not be the same (C29_quotes). *)
Theorem C29 : forall opts input pr s, Parse opts input = Ok pr -> p_syntax pr = Some s ->
  ((sy_version s = lit "proto2" /\ Version s = 2%Z) \/ (sy_version s = lit "proto3" /\ Version s = 3%Z)) /\
  exists q q', is_quote_mark q /\ is_quote_mark q' /\ sy_versionQuote s = q ++ sy_version s ++ q'.
Proof. exact syntax_version. Qed.
Print Assumptions C29.
Theorem C29_quotes : exists pr s, Parse [] (lit "syntax = 'proto3"";") = Ok pr /\ p_syntax pr = Some s /\ sy_versionQuote s = lit "'proto3""".
Proof. exact quote_mismatch. Qed.
Print Assumptions C29_quotes.

(** C30, all parts but one: names, numbers, labels, map keys, reserved, groups.  Of
    the oneof only that it has a field or an option; a field is false
    (C30_refuted_oneof). *)
Theorem C30_partial : forall opts input pr e, Parse opts input = Ok pr -> element pr e -> proper e.
Proof. exact proper_element. Qed.
Print Assumptions C30_partial.
