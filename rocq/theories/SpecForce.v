(** Which parts of a constraint force its truth value, independent of the code (C85). *)
From Coq Require Import String List ZArith Bool.
From Verif Require Import Base Token Ast SpecTyping SpecSemantics.
Import ListNotations.

(** [Could q b e v]: the truth value of [e] could be [v] if its part at position [q] had the truth value [b]
    and everything beside the way to that part were anything. *)
Inductive Could (b : bool) : list bool -> expr -> bool -> Prop :=
| cd_here e : Could b [] e b
| cd_not m e q x : Could b q e x -> Could b (false :: q) (ENot m e) (negb x)
| cd_left m o e f q x y : connective o -> Could b q e x -> Could b (false :: q) (EBin m o e f) (truth o x y)
| cd_right m o e f q x y : connective o -> Could b q f y -> Could b (true :: q) (EBin m o e f) (truth o x y)
| cd_other e d q y : (forall m a, e <> ENot m a) -> (forall m o a c, connective o -> e <> EBin m o a c) -> Could b (d :: q) e y.
(** The part of [e] at [q] forces the truth value [v] of [e], by having the truth value [b]. *)
Definition Forces (e : expr) (q : list bool) (b v : bool) : Prop := forall x, Could b q e x -> x = v.
