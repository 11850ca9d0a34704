(** Two outcomes that a caller who ignores the text of errors cannot tell apart. *)
From Coq Require Import String.
From Verif Require Import Base.

(** The same answer letter for letter, an error of the same kind, or the same end of the program. *)
Definition same_report {A} (o o' : outcome A) : Prop :=
  match o, o' with
  | Ok a, Ok a' => a = a'
  | Err c _, Err c' _ => c = c'
  | Crash w, Crash w' => w = w'
  | _, _ => False
  end.
