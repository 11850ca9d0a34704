(** Asking a function that remembers (C104). *)
From Coq Require Import String List ZArith NArith Sorted.
From Verif Require Import Base Num Token Ast Info ConstraintInfo Interpreter Z3 Symbolic SpecSemantics.
Import ListNotations.

(** Asked for [names] one after the other from state [s], [ask] gives these answers and ends in [s']. *)
Inductive Replies {S : Type} (ask : S -> string -> outcome bool * S) : S -> list string -> list (string * outcome bool) -> S -> Prop :=
| rp_done s : Replies ask s [] [] s
| rp_next s n ns a s1 al s2 : ask s n = (a, s1) -> Replies ask s1 ns al s2 -> Replies ask s (n :: ns) ((n, a) :: al) s2.
(** The names of the keys of a table, each once, in byte order. *)
Definition in_byte_order (t : table_info) (names : list string) : Prop :=
  StronglySorted (fun a b => string_ltb a b = true) names /\ forall n, In n names <-> In n (map fst (ti_keys_by_name t)).
(** [skip] is a function without memory that gives these answers. *)
Definition gives (al : list (string * outcome bool)) (skip : string -> outcome bool) : Prop := forall n a, In (n, a) al -> skip n = a.
(** The solver with [skip] in place of its function. *)
Definition with_skip (skip : string -> outcome bool) (cs : constraint_solver) : constraint_solver := mkCS (cs_table cs) (cs_env cs) skip (cs_stack cs).
Definition outcome_map {A B} (f : A -> B) (r : outcome A) : outcome B := match r with Ok a => Ok (f a) | Err c m => Err c m | Crash w => Crash w end.
(** Without the fields of the keys that [now] leaves out. *)
Definition without_fields (now : string -> outcome bool) (ks : list key_info) (en : p4_entry) : p4_entry :=
  mkEntry (pe_table_id en) (filter (fun f => existsb (fun k => N.eqb (k_id k) (fm_id f) && match now (k_name k) with Ok false => true | _ => false end)%bool ks) (pe_match en)) (pe_action en) (pe_priority en).
