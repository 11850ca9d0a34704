(** What a ConstraintSolver asks of Z3 (C92). *)
From Coq Require Import String List ZArith.
From Verif Require Import Base Token Ast AstConstructors Info Parser Interpreter Z3 Symbolic.
Import ListNotations.
Open Scope Z_scope.

(** Two decision procedures that answer "sat" to the same formulas. The models may differ. *)
Definition same_answers (check check' : solver) : Prop := forall q, check q <> None <-> check' q <> None.
(** What a client may ask for after Create, and the answers to a sequence of such requests with the state left behind. *)
Inductive request := AddTree (e : expr) (src : csource) | AddText (text : string).
Definition perform (check : solver) (pton : inet_pton6) (cs : constraint_solver) (r : request) : outcome bool * constraint_solver :=
  match r with
  | AddTree e src => AddConstraint check cs e src
  | AddText text => AddConstraintString check pton cs text
  end.
Fixpoint replies (check : solver) (pton : inet_pton6) (cs : constraint_solver) (rs : list request) : list (outcome bool) * constraint_solver :=
  match rs with
  | [] => ([], cs)
  | r :: rs' => let (b, cs') := perform check pton cs r in let (bs, cs'') := replies check pton cs' rs' in (b :: bs, cs'')
  end.
(** The number of nodes of a formula, and of several. *)
Fixpoint formula_size (t : term) : Z :=
  match t with
  | ZBoolVal _ | ZIntVal _ | ZBVVal _ _ | ZConst _ _ => 1
  | ZNot a | ZNeg a | ZBVNeg a | ZInt2BV _ a => 1 + formula_size a
  | ZEq a b | ZDistinct a b | ZAnd a b | ZOr a b | ZImplies a b | ZICmp _ a b | ZSCmp _ a b | ZSub a b | ZBVAnd a b | ZShl a b | ZLshr a b => 1 + formula_size a + formula_size b
  end.
Definition total {A} (f : A -> Z) (l : list A) : Z := fold_right (fun a n => f a + n) 0 l.
