(** The texts and trees the theorems about accepted texts speak of.  Specification only. *)
From Coq Require Import List NArith ZArith Bool String Ascii.
From Verif Require Import Base Token Scanner Lexing ScanRefine Ast Api LexSpec Tree Grammar.
Import ListNotations.
Open Scope Z_scope.

(** the text is one of the documented grammar (without the productions the parser does not have), with this AST *)
Definition documented (c : ParseConfig) (input : list rune) (pr : proto) : Prop :=
  exists its, Layout true (mkPos (cfg_filename c) 0 1 1) input its /\
    File (cfg_permissive c) (cfg_bodyIncludingComments c) false (cfg_filename c) its pr.
(** The text is settled, or the AST has no empty statement in a message or group, or
    the text is one of the documented grammar.  What is left out are texts, not settled, with a
    group whose error the parser took for a statement. *)
Definition ordinary (c : ParseConfig) (input : list rune) (pr : proto) : Prop :=
  regular input pr \/ documented c input pr.
