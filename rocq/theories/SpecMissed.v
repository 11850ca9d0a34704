(** Questions that Z3 cannot answer (C59, C88, C89, C96). *)
From Coq Require Import String List ZArith NArith.
From Verif Require Import Base Token Ast AstConstructors Info Interpreter Z3 Symbolic SpecSymbolic SpecSession SpecSingle.
Import ListNotations.

(** Z3 finds no model of the satisfiable formulas [q]. *)
Definition misses (check : solver) (q : list term) : Prop := satisfiable q /\ check q = None.
(** Adding a constraint asks Z3 for a model of the formulas so far, and of these and the constraint's. *)
Definition misses_adding (check : solver) (cs : constraint_solver) (e : expr) (src : csource) : Prop :=
  misses check (assertions (cs_stack cs)) \/
  exists u, EvaluateConstraintSymbolically (cs_env cs) src e = Ok u /\ misses check (assertions (cs_stack cs) ++ [u]).
(** The table without its constraint. *)
Definition without_constraint (t : table_info) : table_info := mkTable (ti_id t) (ti_name t) None (ti_source t) (ti_keys_by_id t) (ti_keys_by_name t).
(** Creating a solver adds the table's constraint to a solver for the table without it. *)
Definition misses_creating (check : solver) (t : table_info) (skip : string -> outcome bool) : Prop :=
  exists cs e, Create check (without_constraint t) skip = Ok cs /\ ti_constraint t = Some e /\ misses_adding check cs e (ti_source t).
(** Enumerating asks for an entry, and adds the text that excludes it. *)
Definition misses_enumerating (num : N -> string) (check : solver) (pton : inet_pton6) (ks : list key_info) (skip : string -> outcome bool) (cs : constraint_solver) : Prop :=
  exists entries cs', Enumerates num check pton ks skip cs entries cs' /\
    (misses check (assertions (cs_stack cs')) \/
     exists entry text, ConcretizeEntry check cs' = Ok entry /\ excluding num ks skip entry text /\ overlooks check pton cs' text).
