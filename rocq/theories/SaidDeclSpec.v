(** What a declaration of an extension range says: specification. *)
From Coq Require Import List NArith ZArith Bool String Ascii.
From Verif Require Import Base Token Scanner Ast.
Import ListNotations.

Definition keys : list str := map lit ["number"; "full_name"; "type"; "repeated"; "reserved"]%string.
(** The tokens [ts] give the keys the values [kvs], in this order. *)
Inductive Given : list str -> list (str * str) -> Prop :=
| gv_nil : Given [] []
| gv_cons sep k v ts kvs : sep = [] \/ sep = [lit ","] -> In k keys -> Given ts kvs -> Given (sep ++ [k; lit ":"; v] ++ ts) ((k, v) :: kvs).
(** the last value given for the key, nothing if there is none *)
Definition Value_of (k : str) (kvs : list (str * str)) (v : str) : Prop :=
  (exists a b, kvs = a ++ (k, v) :: b /\ ~ In k (map fst b)) \/ (v = [] /\ ~ In k (map fst kvs)).
(** The fields of [d] are what the tokens say. *)
Definition Declares (ts : list str) (d : declaration) : Prop :=
  exists body kvs res rep,
    ts = [lit "declaration"; lit "="; lit "{"] ++ body ++ [lit "}"] /\ Given body kvs /\
    Value_of (lit "number") kvs (d_number d) /\ Value_of (lit "full_name") kvs (d_fullName d) /\ Value_of (lit "type") kvs (d_type d) /\
    Value_of (lit "reserved") kvs res /\ (d_reserved d = true <-> res = lit "true") /\
    Value_of (lit "repeated") kvs rep /\ (d_repeated d = true <-> rep = lit "true").
