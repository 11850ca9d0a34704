(** A table without some of its keys, and a conversation with a solver (C99). *)
From Coq Require Import String List ZArith NArith.
From Verif Require Import Base Num Token Ast AstConstructors Parser Info TypeChecker ConstraintInfo Z3 Symbolic SpecSemantics SpecSymbolic SpecSolver.
Import ListNotations.

(** [t'] is [t] without the keys that [skip] leaves out. [ks] are the keys of [t]. *)
Record lacking (skip : string -> outcome bool) (t : table_info) (ks : list key_info) (t' : table_info) : Prop := {
  wo_keys : table_keys t ks;
  wo_rest : table_keys t' (live_keys skip ks);
  wo_id : ti_id t' = ti_id t;
  wo_name : ti_name t' = ti_name t;
  wo_constraint : ti_constraint t' = ti_constraint t;
  wo_source : ti_source t' = ti_source t;
  (** [skip] answers for every key. *)
  wo_asked : forall k, In k ks -> exists b, skip (k_name k) = Ok b;
  (** Entries of both tables have a priority, or those of neither. *)
  wo_priority : prioritized ks -> prioritized (live_keys skip ks) }.
(** Leave out nothing. *)
Definition keep_all : string -> outcome bool := fun _ => Ok false.

(** What a caller learns when adding constraints: accepted, refused, or an error. *)
Definition told (r : outcome bool) : option bool := match r with Ok b => Some b | _ => None end.
(** Adding constraints one after the other: the answers, and the solver at the end. *)
Fixpoint conversation (check : solver) (pton : inet_pton6) (cs : constraint_solver) (texts : list string) : list (option bool) * constraint_solver :=
  match texts with
  | [] => ([], cs)
  | text :: texts' =>
      let (r, cs1) := AddConstraintString check pton cs text in
      let (l, cs2) := conversation check pton cs1 texts' in
      (told r :: l, cs2)
  end.

(** The program in which table [id] is declared without the match fields that [skip] leaves out. *)
Definition drop_fields (skip : string -> outcome bool) (d : p4_table) : p4_table :=
  mkP4Table (pt_preamble d) (filter (fun f => match skip (mf_name f) with Ok false => true | _ => false end) (pt_match_fields d)).
Definition drop_keys (skip : string -> outcome bool) (id : N) (p : p4info) : p4info :=
  mkP4Info (map (fun d => if N.eqb (pr_id (pt_preamble d)) id then drop_fields skip d else d) (p4_tables p)) (p4_actions p).
