(** C116: programs that differ only in the names of tables and actions. *)
From Coq Require Import String List ZArith NArith.
From Verif Require Import Base Info Symbolic SpecOrder.
Import ListNotations.

(** Numbers and annotations are the same. *)
Definition same_but_name (p p' : preamble) : Prop := pr_id p = pr_id p' /\ pr_annotations p = pr_annotations p'.
Definition other_names (p p' : p4info) : Prop :=
  Forall2 (fun d d' => same_but_name (pt_preamble d) (pt_preamble d') /\ pt_match_fields d = pt_match_fields d') (p4_tables p) (p4_tables p') /\
  Forall2 (fun d d' => same_but_name (pad_preamble d) (pad_preamble d') /\ pad_params d = pad_params d') (p4_actions p) (p4_actions p').

(** Outcomes that agree but for texts: results are related by [R], errors have the same code, crashes the same cause. *)
Definition similar {A B} (R : A -> B -> Prop) (o : outcome A) (o' : outcome B) : Prop :=
  match o, o' with
  | Ok a, Ok a' => R a a'
  | Err c _, Err c' _ => c = c'
  | Crash w, Crash w' => w = w'
  | _, _ => False
  end.
(** Both accept, or both explain a violation. *)
Definition same_verdict (text text' : string) : Prop := text = ""%string <-> text' = ""%string.
(** What a solver replies, one by one: constraints are accepted and refused alike, errors have the same code, and entries are the same. *)
Definition same_reply (r r' : reply) : Prop :=
  match r, r' with
  | Added o, Added o' => similar eq o o'
  | Entry o, Entry o' => o = o'
  | _, _ => False
  end.
