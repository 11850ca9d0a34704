(** What reading a constraint may cost (C98). *)
From Coq Require Import String List ZArith.
From Verif Require Import Base Token Ast SpecBounds.
Import ListNotations.
Open Scope Z_scope.

(** The number of expressions around each node of [e], added up for all nodes; [n] expressions are around [e] itself. *)
Fixpoint depths (n : Z) (e : expr) : Z :=
  n + match e with
      | EBin _ _ a b => depths (n + 1) a + depths (n + 1) b
      | ENot _ a | ENeg _ a | ECast _ a | EField _ _ a => depths (n + 1) a
      | _ => 0
      end.

(** The constraint [true && true && ... && true] with [n] conjunctions. *)
Fixpoint conjunction (n : nat) : String.string :=
  match n with O => "true " | S m => "true && " ++ conjunction m end%string.
