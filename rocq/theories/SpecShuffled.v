(** C38, continued: declarations whose match fields and parameters are listed in another order. *)
From Coq Require Import List Permutation.
From Verif Require Import Base Info.
Import ListNotations.

Definition shuffled_table (d d' : p4_table) : Prop := pt_preamble d = pt_preamble d' /\ Permutation (pt_match_fields d) (pt_match_fields d').
Definition shuffled_action (d d' : p4_action_decl) : Prop := pad_preamble d = pad_preamble d' /\ Permutation (pad_params d) (pad_params d').
(** Tables, actions, match fields and parameters may all be listed in another order. *)
Definition shuffled (p p' : p4info) : Prop :=
  (exists l, Permutation (p4_tables p) l /\ Forall2 shuffled_table l (p4_tables p')) /\
  (exists l, Permutation (p4_actions p) l /\ Forall2 shuffled_action l (p4_actions p')).
