(** Positions in an expression (C77). *)
From Coq Require Import List Bool.
From Verif Require Import Base Token Ast Info Interpreter.
Import ListNotations.

(** The positions of the nodes of [e], which itself stands at [p]: the first operand of the node at [q] is at [false :: q], the second at [true :: q]. *)
Fixpoint positions (e : expr) (p : list bool) : list (list bool) :=
  p :: match e with
       | EBin _ _ a b => positions a (false :: p) ++ positions b (true :: p)
       | ENot _ a | ENeg _ a | ECast _ a | EField _ _ a => positions a (false :: p)
       | _ => []
       end.
(** [l] lists nodes of [e], each at most once. *)
Definition each_once (e : expr) (l : list (list bool)) : Prop := NoDup l /\ incl l (positions e []).
(** The actions an entry gives. *)
Definition given_actions (entry : p4_entry) : list p4_action :=
  match pe_action entry with
  | Some (TAction a) => [a]
  | Some (TActionSet l) => l
  | _ => []
  end.
