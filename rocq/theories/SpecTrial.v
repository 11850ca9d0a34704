(** A procedure that answers the solver's questions by trying all values (C100). It is not part of the code: it shows
    what a correct answer of Z3 is, and that one can always be given. *)
From Coq Require Import String List ZArith Bool.
From Verif Require Import Base Num Token Ast AstConstructors Parser Info Z3 Symbolic SpecSemantics SpecSymbolic SpecSolver SpecSession SpecSkip.
Import ListNotations.

(** The symbols of a formula. *)
Fixpoint occurring (u : term) : list (string * sort) :=
  match u with
  | ZBoolVal _ | ZIntVal _ | ZBVVal _ _ => []
  | ZConst n s => [(n, s)]
  | ZNot a | ZNeg a | ZBVNeg a | ZInt2BV _ a => occurring a
  | ZEq a b | ZDistinct a b | ZAnd a b | ZOr a b | ZImplies a b | ZICmp _ a b | ZSCmp _ a b | ZSub a b | ZBVAnd a b | ZShl a b | ZLshr a b => occurring a ++ occurring b
  end.
Definition same_symbol (x y : string * sort) : bool := (String.eqb (fst x) (fst y) && sort_eqb (snd x) (snd y))%bool.
(** Each symbol once. *)
Fixpoint once (l : list (string * sort)) : list (string * sort) :=
  match l with
  | [] => []
  | x :: l' => if existsb (same_symbol x) l' then once l' else x :: once l'
  end.
(** The numbers from 0 to [n]. *)
Definition up_to (n : Z) : list Z := map Z.of_nat (seq 0 (Z.to_nat (n + 1))).
(** All values of a sort, integers from 0 to [top]. *)
Definition values (top : Z) (s : sort) : list zval :=
  match s with
  | SBool => [VB false; VB true]
  | SInt => map VI (up_to top)
  | SBV w => map (VV w) (up_to (2 ^ w - 1))
  end.
(** All ways to give values to symbols. *)
Fixpoint choices (top : Z) (l : list (string * sort)) : list (list ((string * sort) * zval)) :=
  match l with
  | [] => [[]]
  | x :: l' => flat_map (fun v => map (cons (x, v)) (choices top l')) (values top (snd x))
  end.
Definition chosen (c : list ((string * sort) * zval)) : model := fun n s =>
  match find (fun b => same_symbol (fst b) (n, s)) c with Some b => Some (snd b) | None => None end.
(** Try them all. *)
Definition trial (top : Z) : solver := fun q =>
  find (fun m => forallb (fun u => zval_eqb (zeval (complete m) u) (VB true)) q) (map chosen (choices top (once (flat_map occurring q)))).

(** [top] is at least every prefix length and, if entries have a priority, every priority. *)
Definition high_enough (top : Z) (ks : list key_info) (skip : string -> outcome bool) : Prop :=
  (forall k w, In k ks -> live skip k -> k_type k = TLpm w -> (w <= top)%Z) /\ (prioritized ks -> (2147483647 <= top)%Z).

(** When the texts are added in this order, Z3 never overlooks a model. *)
Definition attentive (check : solver) (pton : inet_pton6) (cs : constraint_solver) (texts : list string) : Prop :=
  forall before text after, texts = (before ++ text :: after)%list -> ~ overlooks check pton (snd (conversation check pton cs before)) text.
