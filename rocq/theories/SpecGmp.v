(** How GMP reads a number from a string (its documentation of mpz_set_str); independent of the code. *)
From Coq Require Import String Ascii List ZArith NArith.
From Verif Require Import Base SpecLexer SpecGrammar SpecInfo.
Import ListNotations.
Open Scope string_scope.

Definition blank (c : ascii) : Prop := c = " "%char \/ between 9 13 c.
(** [s] without its white space. *)
Inductive squeezed : string -> string -> Prop :=
| sq_end : squeezed "" ""
| sq_blank c s t : blank c -> squeezed s t -> squeezed (String c s) t
| sq_char c s t : ~ blank c -> squeezed s t -> squeezed (String c s) (String c t).
(** White space, perhaps a minus sign, and digits between which there may be white space; what follows a NUL
    byte is not read. *)
Definition gmp_number (b : N) (s : string) (z : Z) : Prop :=
  exists t spaces sign c body digits n, c_part s t /\ t = spaces ++ sign ++ String c body /\ only blank spaces /\ ~ blank c /\
    squeezed (String c body) digits /\ Reads b digits n /\ (sign = "" /\ z = Z.of_N n \/ sign = "-" /\ z = (- Z.of_N n)%Z).
