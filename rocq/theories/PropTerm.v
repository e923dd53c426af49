(** Termination: property theorems. *)
From Coq Require Import List NArith ZArith Bool String Ascii.
From Verif Require Import Base Token Scanner Lexer Ast Parser Api ScanRefine Diverge Total FuelMono Spec Explode GroupSpec SettledCase.
Import ListNotations.

(** C01: there is an input on which Parse does not return, whatever the options:
    no amount of fuel is enough for it. *)
Theorem C01_refuted : exists input, forall n opts, parse_fuel n opts input = Fuel.
Proof. exact diverges. Qed.
Print Assumptions C01_refuted.

(** C01: how it fails to return.  Each iteration of the loop of parseMessageBody
    comes back to the head of the loop with one more statement and with a
    longer text to read. *)
Theorem C01_loop_grows_refuted : forall perm bic k m ilc j stmts s, loop_state k s ->
  exists s', loop_state (S k) s' /\ List.length (rest s') = S (List.length (rest s)) /\
    messageBody_loop perm bic (parseMessageBody perm bic (S (S (S m)))) ilc (S j) stmts s =
    messageBody_loop perm bic (parseMessageBody perm bic (S (S (S m)))) ilc j (stmts ++ [VEmpty (mkEmpty None)]) s'.
Proof. exact loop_grows. Qed.
Print Assumptions C01_loop_grows_refuted.

(** C01, the positive part: Parse does return on every settled text that has no NUL:
    behind each heading of a group ("group Name = 1 {") all comments are closed and the words
    "extensions" and "reserved" do not occur.  (The fuel of the model, two
    more than the number of characters, bounds every loop and every recursion;
    any larger amount does as well.)  Missing for C01: other files with groups, for
    which it is false. *)
Theorem C01_partial : forall n opts input, (List.length input < n)%nat -> nonul input -> settled input ->
  parse_fuel n opts input <> Fuel.
Proof. exact parse_total. Qed.
Print Assumptions C01_partial.
Example C01_partial_case : (nonul (lit "message A { B group = 1; }") /\ no_groups (lit "message A { B group = 1; }")) /\
  (nonul (lit settled_text) /\ settled (lit settled_text) /\ ~ no_groups (lit settled_text)).
Proof. exact total_case. Qed.

(** C01: what the fuel of the model is.  Once an amount is enough, every larger
    amount gives the same outcome: the outcome of Parse is that of the code, and
    an input for which no amount is enough is one on which the code does not
    return. *)
Theorem C01_fuel_partial : forall n n' opts input, (n <= n')%nat -> parse_fuel n opts input <> Fuel ->
  parse_fuel n' opts input = parse_fuel n opts input.
Proof. exact fuel_enough. Qed.
Print Assumptions C01_fuel_partial.
Example C01_fuel_case : parse_fuel 4 [] (lit "message A { B x = 1; }") <> Fuel /\ parse_fuel 1 [] (lit "message A { B x = 1; }") = Fuel.
Proof. exact fuel_case. Qed.

(** C36: no polynomial in the length of the text bounds the size of the error. *)
Theorem C36_refuted : forall opts (c b : nat), exists input e, Parse opts input = Err e /\
  (N.of_nat (c * List.length input ^ b) < err_size e)%N.
Proof. exact no_polynomial. Qed.
Print Assumptions C36_refuted.

(** C36: how.  For [d] nested groups, a text of 10*d+19 characters, the last part
    of the error shows an identifier of 2^d characters where the text has one of
    a single character. *)
Theorem C36_nested_refuted : forall opts d, List.length (nested d) = (10 * d + 19)%nat /\
  exists e p, Parse opts (nested d) = Err (EPair e (ELex p ";" (repeat (ch "b") (2 ^ d)))).
Proof. exact (fun opts d => conj (nested_length d) (nested_error opts d)). Qed.
Print Assumptions C36_nested_refuted.
