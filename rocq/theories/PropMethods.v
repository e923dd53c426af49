(** The exported Parse methods outside of ParseProto: property theorems. *)
From Coq Require Import List NArith ZArith Bool String Ascii.
From Verif Require Import Base Token Scanner LexSpec ScanRefine Lexer Ast Parser Api RefineFile GroupSpec Grammar MethodSpec Methods MethodCase.
Import ListNotations.

(** C48: a program made a lexer for a readable text and let methods read statements in any order, so that the items
    [ts ++ fol] are still to be read, and [ts] is a statement the next method is for.  That method answers with the node of this
    statement, and the lexer stands in front of [fol].  (What follows a block must not be a semicolon if the parser is
    permissive, what follows the comments must not be a comment.)
    Missing for C48: statements with the productions the parser accepts beyond the language. *)
Theorem C48_partial : forall perm bic n fn input, readable input -> (List.length input < n)%nat ->
  forall A B (m : M A) (wrap : B -> A) G fits s ts x fol, Stands perm bic n fn input s (ts ++ fol) -> reads perm bic n A B m wrap G fits -> G false ts x -> fits ts fol ->
  exists s', m s = (Ok (wrap x), s') /\ Layout true (pos s') (rest s') fol.
Proof. exact method_complete. Qed.
Print Assumptions C48_partial.
Example C48_partial_case : exists s2 s3, readable (lit meth_text) /\ Stands true false 100 [] (lit meth_text) s2 (mseg 6 9 ++ mseg 15 1) /\
  Message true false false [] None (mseg 6 9) meth_message /\ Grammar.closed true false (mseg 6 9) (mseg 15 1) /\
  ParseMessage true false 100 s2 = (Ok meth_message, s3) /\ rest s3 = lit " option" /\ b_name meth_message = lit "M" /\ b_body meth_message = [VField meth_field].
Proof. exact meth_case. Qed.

(** C48, the other direction: whatever a method answers, the text it took from the lexer is laid out as a statement
    with this node, up to white space behind it, and the position of the lexer is that of the text left.
    Missing: texts with groups that are not settled (as in C01). *)
Theorem C48_taken_partial : forall perm bic n fn input, readable input -> (List.length input < n)%nat -> settled input ->
  forall A B (m : M A) (wrap : B -> A) G fits s x s', Gone perm bic n fn input s -> reads perm bic n A B m wrap G fits -> m s = (Ok (wrap x), s') ->
  exists ts p sp, G true ts x /\ Lay false (pos s) (rest s) ts p (sp ++ rest s') /\ Spaces sp /\ pos s' = posafter p sp.
Proof. exact method_sound. Qed.
Print Assumptions C48_taken_partial.
Example C48_taken_partial_case : exists s2 s3, readable (lit meth_text) /\ settled (lit meth_text) /\ Gone true false 100 [] (lit meth_text) s2 /\
  ParseMessage true false 100 s2 = (Ok meth_message, s3) /\ rest s2 = lit " message M { int32 x = 1; } option" /\ rest s3 = lit " option".
Proof. exact meth_case2. Qed.

(** C48: ParseSyntax and ParseEdition that find no header answer nil and read nothing. *)
Theorem C48_nil_partial : forall perm bic n fn input, readable input -> (List.length input < n)%nat -> settled input ->
  forall s s', Gone perm bic n fn input s -> ParseSyntax s = (Ok None, s') \/ ParseEdition s = (Ok None, s') -> rest s' = rest s /\ pos s' = pos s.
Proof. exact no_header. Qed.
Print Assumptions C48_nil_partial.
Example C48_nil_partial_case : exists s s', Gone true false 100 [] (lit meth_text) s /\ ParseSyntax s = (Ok None, s') /\ ParseEdition s = (Ok None, s') /\ s <> s' /\ rest s = lit meth_text.
Proof. exact meth_none. Qed.
