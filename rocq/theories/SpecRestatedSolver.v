(** C63, continued: constraints given to a constraint solver that are written differently. *)
From Coq Require Import String List.
From Verif Require Import Base Ast Parser AstConstructors Info SpecInfo SpecRobust SpecSolver.
Import ListNotations.

(** Two texts that read as the same tree, up to source positions, or of which neither can be read. *)
Definition same_reading (pton : inet_pton6) (t t' : table_info) (text text' : string) : Prop :=
  (exists e e', reads_as pton kTableConstraint (text_source t text) e /\ reads_as pton kTableConstraint (text_source t' text') e' /\ Renamed eq e e') \/
  (forall e, ~ reads_as pton kTableConstraint (text_source t text) e) /\ (forall e, ~ reads_as pton kTableConstraint (text_source t' text') e).
(** Both say yes, both say no, or both fail. *)
Definition same_decision (o o' : outcome bool) : Prop := forall b, o = Ok b <-> o' = Ok b.
