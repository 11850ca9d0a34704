(** Constraints that consist of several requirements, independent of the code. *)
From Coq Require Import List.
From Verif Require Import Ast.
Import ListNotations.

(** [Clauses e l]: [e] consists of the requirements [l], joined by && or ; in any grouping. (A requirement may itself be a
    conjunction: [l] need not be the finest division.) *)
Inductive Clauses : expr -> list expr -> Prop :=
| cl_one e : Clauses e [e]
| cl_and m a b l l' : Clauses a l -> Clauses b l' -> Clauses (EBin m OAND a b) (l ++ l').
