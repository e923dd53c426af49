(** Model of protoparser.go: options and Parse. *)
From Coq Require Import List NArith ZArith Bool String Ascii DecimalString.
From Verif Require Import Base Token Scanner Lexer Ast Parser.
Import ListNotations.

(** protoparser.go:12-17 ParseConfig *)
Record ParseConfig := mkConfig {
  cfg_debug : bool; cfg_permissive : bool; cfg_bodyIncludingComments : bool; cfg_filename : str }.

(** protoparser.go:20-49 Option and its constructors.  The type Option is a
    Go function type; only the four exported constructors are modelled. *)
Inductive ParseOpt :=
| WithDebug (b : bool)
| WithPermissive (b : bool)
| WithBodyIncludingComments (b : bool)
| WithFilename (f : str).

Definition apply_opt (c : ParseConfig) (o : ParseOpt) : ParseConfig :=
  match o with
  | WithDebug b => mkConfig b (cfg_permissive c) (cfg_bodyIncludingComments c) (cfg_filename c)
  | WithPermissive b => mkConfig (cfg_debug c) b (cfg_bodyIncludingComments c) (cfg_filename c)
  | WithBodyIncludingComments b => mkConfig (cfg_debug c) (cfg_permissive c) b (cfg_filename c)
  | WithFilename f => mkConfig (cfg_debug c) (cfg_permissive c) (cfg_bodyIncludingComments c) f
  end.

(** protoparser.go:53-58 *)
Definition config_of (opts : list ParseOpt) : ParseConfig :=
  fold_left apply_opt opts (mkConfig false true false []).

(** protoparser.go:52-70 Parse over the decoded input runes, with fuel. *)
Definition parse_fuel (n : nat) (opts : list ParseOpt) (input : list rune) : res proto :=
  let c := config_of opts in
  fst (ParseProto (cfg_permissive c) (cfg_bodyIncludingComments c) n
                  (init_st (cfg_filename c) input)).

(** The fuel used by [Parse] is two more than the number of input runes;
    theorems state for which inputs it is enough. *)
Definition Parse (opts : list ParseOpt) (input : list rune) : res proto :=
  parse_fuel (S (S (List.length input))) opts input.

(** Parse on bytes. *)
Definition ParseBytes (opts : list ParseOpt) (input : list N) : res proto :=
  Parse opts (utf8_decode input).

(** Small observers of the AST. *)

(** strings.HasPrefix, TrimPrefix, TrimSuffix (Go standard library) *)
Fixpoint strip_prefix (p s : str) : option str :=
  match p, s with
  | [], _ => Some s
  | a :: p', b :: s' => if (a =? b)%N then strip_prefix p' s' else None
  | _ :: _, [] => None
  end.
Definition HasPrefix (s p : str) : bool := match strip_prefix p s with Some _ => true | None => false end.
Definition TrimPrefix (s p : str) : str := match strip_prefix p s with Some r => r | None => s end.
Definition TrimSuffix (s p : str) : str :=
  match strip_prefix (rev p) (rev s) with Some r => rev r | None => s end.
(** strings.Split(s, "\n") *)
Fixpoint split_nl (cur : str) (s : str) : list str :=
  match s with
  | [] => [cur]
  | c :: s' => if (c =? NL)%N then cur :: split_nl [] s' else split_nl (cur ++ [c]) s'
  end.

(** parser/comment.go:25-27 IsCStyle *)
Definition IsCStyle (c : comment) : bool := HasPrefix (c_raw c) (lit "/*").
(** parser/comment.go:30-39 Lines *)
Definition Lines (c : comment) : list str :=
  let raw := c_raw c in
  let raw := if IsCStyle c then TrimSuffix (TrimPrefix raw (lit "/*")) (lit "*/")
             else TrimPrefix raw (lit "//") in
  split_nl [] raw.

(** parser/syntax.go:43-52 Version *)
Definition Version (s : syntax) : Z :=
  if str_eqb (sy_version s) (lit "proto3") then 3%Z
  else if str_eqb (sy_version s) (lit "proto2") then 2%Z
  else 0%Z.

(** fmt's %d of an int *)
Definition fmt_d (z : Z) : str := lit (NilZero.string_of_int (Z.to_int z)).
(** parser/meta/position.go:20-27 Position.String *)
Definition PosString (p : mpos) : str :=
  (match Filename p with [] => lit "<input>" | f => f end)
  ++ [ch ":"] ++ fmt_d (Line p) ++ [ch ":"] ++ fmt_d (Column p).
