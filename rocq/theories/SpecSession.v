(** Adding several constraints to a solver, one after the other (C72, C73). *)
From Coq Require Import String List ZArith.
From Verif Require Import Base Num Token Ast AstConstructors Parser Info TypeChecker Z3 Symbolic SpecLexer SpecGrammar SpecTyping SpecSemantics SpecInfo SpecSymbolic SpecSolver SpecReading.
Import ListNotations.

(** [Accepts cs texts cs']: adding the texts in this order is answered with true every time, and leads from [cs] to [cs']. *)
Inductive Accepts (check : solver) (pton : inet_pton6) : constraint_solver -> list string -> constraint_solver -> Prop :=
| ac_none cs : Accepts check pton cs [] cs
| ac_one cs text cs1 texts cs' : AddConstraintString check pton cs text = (Ok true, cs1) -> Accepts check pton cs1 texts cs' -> Accepts check pton cs (text :: texts) cs'.
(** The text reads as [e], a constraint the solver can handle. *)
Definition usable (pton : inet_pton6) (t : table_info) (ks : list key_info) (skip : string -> outcome bool) (text : string) (e : expr) : Prop :=
  reads_as pton kTableConstraint (text_source t text) e /\ solvable t ks skip e.
(** What Z3 is asked when the text is added: whether the formulas so far are satisfiable, and whether they and that of the text are. *)
Definition asked (pton : inet_pton6) (cs : constraint_solver) (text : string) (q : list term) : Prop :=
  q = assertions (cs_stack cs) \/
  exists e0 e src u, ParseConstraint pton kTableConstraint (text_source (cs_table cs) text) = Ok e0 /\ InferTable e0 (cs_table cs) = Ok e /\
    EvaluateConstraintSymbolically (cs_env cs) src e = Ok u /\ q = (assertions (cs_stack cs) ++ [u])%list.
(** Z3 finds no model of satisfiable formulas when the text is added. *)
Definition overlooks (check : solver) (pton : inet_pton6) (cs : constraint_solver) (text : string) : Prop :=
  exists q, asked pton cs text q /\ satisfiable q /\ check q = None.
(** This happens after some of the texts have been accepted. *)
Definition gets_stuck (check : solver) (pton : inet_pton6) (cs : constraint_solver) (texts : list string) : Prop :=
  exists before text after cs1, texts = (before ++ text :: after)%list /\ Accepts check pton cs before cs1 /\ overlooks check pton cs1 text.
