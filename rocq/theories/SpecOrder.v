(** Loaded programs that differ only in the order in which their hash maps are traversed, and what the
    answer may depend on that order for, independent of the interpreter's code. *)
From Coq Require Import String List ZArith NArith Permutation.
From Verif Require Import Base Num Token Ast AstConstructors Info ConstraintInfo Interpreter Z3 Symbolic SpecTyping SpecSemantics.
Import ListNotations.
Open Scope string_scope.

Definition table_reordered (t t' : table_info) : Prop :=
  ti_id t = ti_id t' /\ ti_name t = ti_name t' /\ ti_constraint t = ti_constraint t' /\ ti_source t = ti_source t' /\
  Permutation (ti_keys_by_id t) (ti_keys_by_id t') /\ Permutation (ti_keys_by_name t) (ti_keys_by_name t').
Definition action_reordered (a a' : action_info) : Prop :=
  ai_id a = ai_id a' /\ ai_name a = ai_name a' /\ ai_constraint a = ai_constraint a' /\ ai_source a = ai_source a' /\
  Permutation (ai_params_by_id a) (ai_params_by_id a') /\ Permutation (ai_params_by_name a) (ai_params_by_name a').
Inductive both {A} (R : A -> A -> Prop) : option A -> option A -> Prop :=
| both_none : both R None None
| both_some a b : R a b -> both R (Some a) (Some b).
(** The same tables and actions under the same ids. *)
Record reordered (ci ci' : constraint_info) : Prop := {
  ro_tables : forall id, both table_reordered (GetTableInfoOrNull ci id) (GetTableInfoOrNull ci' id);
  ro_actions : forall id, both action_reordered (GetActionInfoOrNull ci id) (GetActionInfoOrNull ci' id) }.
(** [missing ks l k]: the match fields [l] lack the key [k], which has no value that it takes when omitted. *)
Definition missing (ks : list key_info) (l : list field_match) (k : key_info) : Prop :=
  In k ks /\ omitted k l /\ forall v, ~ wildcard (k_type k) v.
(** [complaint tn k o]: the answer [o] for an entry of table [tn] is about the missing key [k]. *)
Definition in_table (tn : string) : string := "';  while parsing P4RT table entry for table '" ++ tn ++ "':".
Inductive complaint (tn : string) (k : key_info) : outcome string -> Prop :=
| cm_exact w : k_type k = TExact w -> complaint tn k (Err InvalidArgument ("missing exact match key '" ++ k_name k ++ in_table tn))
| cm_range w : k_type k = TRange w -> (w < 0)%Z -> complaint tn k (Crash GmpAbort)
| cm_other : (forall w, ~ match_type w (k_type k)) ->
    complaint tn k (Err Internal ("Key '" ++ k_name k ++ "' of invalid match type detected at runtime: ;  while parsing P4RT table entry for table '" ++ tn ++ "':")).
(** A solver is made for a table and then asked several things, one after the other: to add a constraint
    given as an expression or as a text, or for an entry. *)
Inductive request := AddsExpression (e : expr) (src : csource) | AddsText (text : string) | WantsEntry.
Inductive reply := Added (o : outcome bool) | Entry (o : outcome p4_entry).
Section Asking.
  Variables (check : solver) (pton : inet_pton6).
  Fixpoint replies (cs : constraint_solver) (l : list request) : list reply :=
    match l with
    | [] => []
    | AddsExpression e src :: l => let r := AddConstraint check cs e src in Added (fst r) :: replies (snd r) l
    | AddsText text :: l => let r := AddConstraintString check pton cs text in Added (fst r) :: replies (snd r) l
    | WantsEntry :: l => Entry (ConcretizeEntry check cs) :: replies cs l
    end.
  Definition conversation (t : table_info) (skip : string -> outcome bool) (l : list request) : outcome (list reply) :=
    bind (Create check t skip) (fun cs => Ok (replies cs l)).
End Asking.
