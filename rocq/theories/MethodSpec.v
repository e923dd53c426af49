(** Specification of the exported Parse methods of parser.Parser when a program calls
    them itself, on a lexer of its own: which statement of the grammar each reads. *)
From Coq Require Import List NArith ZArith Bool String Ascii.
From Verif Require Import Base Token Scanner Lexer Ast Parser Api RefineFile Grammar.
Import ListNotations.

(** [reads perm bic n m wrap G fits]: the method [m] reads the statements of the production [G]
    (whose first argument allows the productions the parser accepts beyond the
    language) and answers with [wrap] of their node; [fits ts fol]: the items [fol]
    may follow the statement [ts].  [n] is the fuel of the recursion on
    messages, perm and bic are the options given to parser.NewParser. *)
Inductive reads (perm bic : bool) (n : nat) : forall A B : Type, M A -> (B -> A) -> (bool -> list item -> B -> Prop) -> (list item -> list item -> Prop) -> Prop :=
| reads_syntax : reads perm bic n _ _ ParseSyntax Some (fun j => Syntax j [] None) (fun _ _ => True)
| reads_edition : reads perm bic n _ _ ParseEdition Some (fun j => Edition j [] None) (fun _ _ => True)
| reads_import : reads perm bic n _ _ ParseImport (fun x => x) (fun j => Import j [] None) (fun _ _ => True)
| reads_package : reads perm bic n _ _ ParsePackage (fun x => x) (fun _ => Package [] None) (fun _ _ => True)
| reads_option : reads perm bic n _ _ (ParseOption perm) (fun x => x) (fun j => Option perm j [] None) (fun _ _ => True)
| reads_field : reads perm bic n _ _ (ParseField perm) (fun x => x) (fun j => Field perm j [] None) (fun _ _ => True)
| reads_mapField : reads perm bic n _ _ (ParseMapField perm) (fun x => x) (fun j => MapField perm j [] None) (fun _ _ => True)
| reads_reserved : reads perm bic n _ _ ParseReserved (fun x => x) (fun j => Reserved j [] None) (fun _ _ => True)
| reads_declaration : reads perm bic n _ _ ParseDeclaration (fun x => x) (fun j => Declaration j [] None) (fun _ _ => True)
| reads_extensions : reads perm bic n _ _ ParseExtensions (fun x => x) (fun j => Extensions j [] None) (fun _ _ => True)
| reads_oneof : reads perm bic n _ _ (ParseOneof perm) (fun x => x) (fun j => Oneof perm j [] None) (closed perm false)
| reads_enum : reads perm bic n _ _ (ParseEnum perm bic) (fun x => x) (fun j => Enum perm bic j [] None) (closed perm false)
| reads_extend : reads perm bic n _ _ (ParseExtend perm bic) (fun x => x) (fun j => Extend perm bic j [] None) (closed perm false)
| reads_service : reads perm bic n _ _ (ParseService perm bic) (fun x => x) (fun j => Service perm bic j [] None) (closed perm false)
| reads_message : reads perm bic n _ _ (ParseMessage perm bic n) (fun x => x) (fun j => Message perm bic j [] None) (closed perm false)
| reads_group : reads perm bic n _ _ (ParseGroupField (parseMessageBody perm bic n)) (fun x => x)
    (fun j ts g => MessageStmt perm bic j [] None ts (VGroupField g)) (closed perm false)
| reads_comments : reads perm bic n _ _ ParseComments nodes (fun _ ts cs => ts = coms cs) (fun _ => no_com).

(** [Stands s its]: a program that made a lexer for the text and let methods read statements one after
    the other has the lexer in state [s], and the items [its] are still to be read. *)
Inductive Stands (perm bic : bool) (n : nat) (fn : str) (input : list rune) : st -> list item -> Prop :=
| stands_start its : Layout true (pos0 fn) input its -> Stands perm bic n fn input (init_st fn input) its
| stands_read A B (m : M A) (wrap : B -> A) G fits s ts x fol s' :
    Stands perm bic n fn input s (ts ++ fol) -> reads perm bic n A B m wrap G fits -> G false ts x -> fits ts fol ->
    m s = (Ok (wrap x), s') -> Stands perm bic n fn input s' fol.

(** [Gone s]: the lexer is in state [s] after some methods have answered without an error. *)
Inductive Gone (perm bic : bool) (n : nat) (fn : str) (input : list rune) : st -> Prop :=
| gone_start : Gone perm bic n fn input (init_st fn input)
| gone_read A B (m : M A) (wrap : B -> A) G fits s a s' :
    Gone perm bic n fn input s -> reads perm bic n A B m wrap G fits -> m s = (Ok a, s') -> Gone perm bic n fn input s'.
