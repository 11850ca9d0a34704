(** Which parts of a constraint are worked on when an entry is checked (C77). Positions as in SpecWork.v. *)
From Coq Require Import List Bool ZArith.
From Verif Require Import Base Token Ast Info SpecGrammar SpecTyping SpecSemantics SpecOutcome.
Import ListNotations.

Section Reach.
  (** The truth values that parts of the constraint have. *)
  Variable holds : expr -> bool -> Prop.
  Inductive operand_of : expr -> expr -> Prop :=
  | op_not m a : operand_of (ENot m a) a
  | op_neg m a : operand_of (ENeg m a) a
  | op_cast m a : operand_of (ECast m a) a
  | op_field m f a : operand_of (EField m f a) a.
  (** [Evaluates e p q]: to get the value of [e], which stands at [p], the part at [q] is evaluated. Second operands of connectives are
      evaluated only if the first does not decide. *)
  Inductive Evaluates : expr -> list bool -> list bool -> Prop :=
  | el_self e p : Evaluates e p p
  | el_one e a p q : operand_of e a -> Evaluates a (false :: p) q -> Evaluates e p q
  | el_first m o a b p q : Evaluates a (false :: p) q -> Evaluates (EBin m o a b) p q
  | el_compared m o a b p q : comparison o -> Evaluates b (true :: p) q -> Evaluates (EBin m o a b) p q
  | el_needed m o a b p q x : connective o -> holds a x -> ~ left_decides o x -> Evaluates b (true :: p) q -> Evaluates (EBin m o a b) p q.
  (** [Searched e p s q]: the search for the reason why [e] has its truth value comes to the part [s], which stands at [q]. *)
  Inductive Searched : expr -> list bool -> expr -> list bool -> Prop :=
  | sr_self e p : Searched e p e p
  | sr_not m e p s q : Searched e (false :: p) s q -> Searched (ENot m e) p s q
  | sr_left m o a b x p s q : connective o -> holds a x -> left_decides o x -> Searched a (false :: p) s q -> Searched (EBin m o a b) p s q
  | sr_right m o a b y p s q : connective o -> holds b y -> right_decides o y -> Searched b (true :: p) s q -> Searched (EBin m o a b) p s q.
  (** [Reason e p s q]: the part [s] at [q] is the one reported (Explained of SpecOutcome.v, with positions). *)
  Inductive Reason : expr -> list bool -> expr -> list bool -> Prop :=
  | rs_bool m b p : Reason (EBool m b) p (EBool m b) p
  | rs_compare m o a b p : comparison o -> Reason (EBin m o a b) p (EBin m o a b) p
  | rs_not m e p s q : Reason e (false :: p) s q -> Reason (ENot m e) p s q
  | rs_none m o a b x y p : connective o -> holds a x -> holds b y -> ~ left_decides o x -> ~ right_decides o y -> Reason (EBin m o a b) p (EBin m o a b) p
  | rs_left m o a b x y p s q : connective o -> holds a x -> holds b y -> left_decides o x -> ~ right_decides o y -> Reason a (false :: p) s q -> Reason (EBin m o a b) p s q
  | rs_right m o a b x y p s q : connective o -> holds a x -> holds b y -> ~ left_decides o x -> right_decides o y -> Reason b (true :: p) s q -> Reason (EBin m o a b) p s q
  | rs_both_left m o a b x y p s q t r i j : connective o -> holds a x -> holds b y -> left_decides o x -> right_decides o y ->
      Reason a (false :: p) s q -> Reason b (true :: p) t r -> Nodes s i -> Nodes t j -> (i <= j)%Z -> Reason (EBin m o a b) p s q
  | rs_both_right m o a b x y p s q t r i j : connective o -> holds a x -> holds b y -> left_decides o x -> right_decides o y ->
      Reason a (false :: p) s q -> Reason b (true :: p) t r -> Nodes s i -> Nodes t j -> (j < i)%Z -> Reason (EBin m o a b) p t r.
  (** [Measured e p q]: to get the size of [e], that of the negation or binary expression at [q] is computed. *)
  Inductive Measured : expr -> list bool -> list bool -> Prop :=
  | ms_not m e p : Measured (ENot m e) p p
  | ms_binary m o a b p : Measured (EBin m o a b) p p
  | ms_under_not m e p q : Measured e (false :: p) q -> Measured (ENot m e) p q
  | ms_first m o a b p q : Measured a (false :: p) q -> Measured (EBin m o a b) p q
  | ms_second m o a b p q : Measured b (true :: p) q -> Measured (EBin m o a b) p q.
  (** Searching evaluates both operands of the connectives it comes to... *)
  Definition SearchEvaluates (e : expr) (p q : list bool) : Prop :=
    exists m o a b p', connective o /\ Searched e p (EBin m o a b) p' /\ (Evaluates a (false :: p') q \/ Evaluates b (true :: p') q).
  (** ... and measures the reasons found in both, if both decide. *)
  Definition SearchMeasures (e : expr) (p q : list bool) : Prop :=
    exists m o a b p' x y s ps t pt, connective o /\ Searched e p (EBin m o a b) p' /\ holds a x /\ left_decides o x /\ holds b y /\ right_decides o y /\
      Reason a (false :: p') s ps /\ Reason b (true :: p') t pt /\ (Measured s ps q \/ Measured t pt q).
  (** The work of checking a constraint: none but evaluation if it holds. *)
  Inductive work_on (e : expr) (evaluated sized searched : list (list bool)) : Prop :=
  | wo_true : holds e true -> (forall q, In q evaluated <-> Evaluates e [] q) -> sized = [] -> searched = [] -> work_on e evaluated sized searched
  | wo_false : holds e false -> (forall q, In q evaluated <-> Evaluates e [] q \/ SearchEvaluates e [] q) -> (forall q, In q sized <-> SearchMeasures e [] q) ->
      (forall q, In q searched <-> exists s, Searched e [] s q) -> work_on e evaluated sized searched.
End Reach.
