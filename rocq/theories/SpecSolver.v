(** Uses of a ConstraintSolver: the sequences of API calls and what was accepted. *)
From Coq Require Import String List ZArith Bool.
From Verif Require Import Base Token Ast AstConstructors Info TypeChecker Parser Interpreter Z3 Symbolic.
Import ListNotations.
Open Scope string_scope.

Section Use.
  Variable check : solver.
  Variable pton : inet_pton6.
  Variable t : table_info.
  Variable skip : string -> outcome bool.
  (** Where the constraints given as text come from, for error messages. *)
  Definition text_source (text : string) : csource := mkCSource text (mkLoc 0 0 (SrcTable (ti_name t))).
  (** [History cs l]: [cs] results from Create and any number of calls of both variants of
      AddConstraint; [l] are the table's own constraint and those for which AddConstraint
      returned true, type checked, in order. *)
  Inductive History : constraint_solver -> list expr -> Prop :=
  | hi_create cs : Create check t skip = Ok cs -> History cs (match ti_constraint t with Some e => [e] | None => [] end)
  | hi_added cs l e src cs' : History cs l -> AddConstraint check cs e src = (Ok true, cs') -> History cs' (l ++ [e])
  | hi_refused cs l e src r cs' : History cs l -> AddConstraint check cs e src = (r, cs') -> r <> Ok true -> History cs' l
  | hi_added_text cs l text e0 e cs' : History cs l -> AddConstraintString check pton cs text = (Ok true, cs') ->
      ParseConstraint pton kTableConstraint (text_source text) = Ok e0 -> InferTable e0 t = Ok e -> History cs' (l ++ [e])
  | hi_refused_text cs l text r cs' : History cs l -> AddConstraintString check pton cs text = (r, cs') -> r <> Ok true -> History cs' l.
  (** The keys of the table that the solver handles. *)
  Definition live (k : key_info) : Prop := skip (k_name k) = Ok false.
  Definition live_keys (ks : list key_info) : list key_info := filter (fun k => match skip (k_name k) with Ok false => true | _ => false end) ks.
  Definition skipped (k : key_info) : Prop := skip (k_name k) = Ok true.
End Use.
