(** C62, continued: a table with other names for its keys, and a constraint solver that skips the same keys. *)
From Coq Require Import String List ZArith NArith.
From Verif Require Import Base Ast Info.
Import ListNotations.

(** The same keys in the same order, with other names. *)
Definition same_but_names (skip skip' : string -> outcome bool) (ks ks' : list key_info) : Prop :=
  Forall2 (fun k k' => k_id k = k_id k' /\ k_type k = k_type k' /\ skip (k_name k) = skip' (k_name k')) ks ks'.
(** [n'] is the new name of the key named [n]. *)
Definition new_name (ks ks' : list key_info) (n n' : string) : Prop :=
  exists k k', In (k, k') (combine ks ks') /\ k_name k = n /\ k_name k' = n'.
