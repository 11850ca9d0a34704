(** Constraints that have no key in common (C96). *)
From Coq Require Import String List ZArith.
From Verif Require Import Base Token Ast Info Interpreter SpecSemantics.
Import ListNotations.

(** No key is mentioned by both, and not both use the priority. *)
Definition separate (e f : expr) : Prop := (forall n, mentions e n -> ~ mentions f n) /\ ~ (has_attribute e /\ has_attribute f).
(** Every constraint of the first list is separate from every one of the second. *)
Definition all_separate (l l' : list expr) : Prop := forall e f, In e l -> In f l' -> separate e f.
