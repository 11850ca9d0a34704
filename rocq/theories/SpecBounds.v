(** How large what is computed from a constraint can get (C75). *)
From Coq Require Import String List ZArith.
From Verif Require Import Base Token Ast.
Open Scope Z_scope.

(** The location lies in a text of [n] bytes that starts at [l0]: at most [n] lines or columns further. *)
Definition within (l0 : loc) (n : Z) (l : loc) : Prop :=
  l_line l0 <= l_line l <= l_line l0 + n /\ Z.min 0 (l_col l0) <= l_col l <= Z.max 0 (l_col l0) + n.
(** A nonnegative int32. *)
Definition counts (z : Z) : Prop := 0 <= z < 2 ^ 31.
Definition countable (l : loc) : Prop := counts (l_line l) /\ counts (l_col l).
(** Nodes of a tree, and the longest path in it. *)
Fixpoint nodes (e : expr) : Z :=
  match e with
  | EBin _ _ a b => 1 + nodes a + nodes b
  | ENot _ a | ENeg _ a | ECast _ a | EField _ _ a => 1 + nodes a
  | _ => 1
  end.
Fixpoint height (e : expr) : Z :=
  match e with
  | EBin _ _ a b => 1 + Z.max (height a) (height b)
  | ENot _ a | ENeg _ a | ECast _ a | EField _ _ a => 1 + height a
  | _ => 1
  end.
