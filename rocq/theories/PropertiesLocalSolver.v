(** C60: solvers depend only on the declaration of their table. *)
From Coq Require Import String List ZArith NArith.
From Verif Require Import Base Ast Info ConstraintInfo Interpreter Z3 Symbolic SpecOrder InfoFacts InfoFacts2 SymDemo PropertiesParser PropertiesVerdict PropertiesInfo.
Import ListNotations.
Open Scope string_scope.

(** A solver for the table with a given number replies the same to everything, whatever else the program declares. *)
Theorem C60_solver : forall check pton p p' ci ci' id skip requests, P4ToConstraintInfo pton p = Ok ci -> P4ToConstraintInfo pton p' = Ok ci' ->
  (forall d, table_id d = id -> (In d (p4_tables p) <-> In d (p4_tables p'))) ->
  match GetTableInfoOrNull ci id, GetTableInfoOrNull ci' id with
  | Some t, Some t' => conversation check pton t skip requests = conversation check pton t' skip requests
  | None, None => True
  | _, _ => False
  end.
Proof.
  intros check pton p p' ci ci' id skip rs H H' Ht. apply info_lookup in H as (H1 & _). apply info_lookup in H' as (H1' & _).
  assert (GetTableInfoOrNull ci id = GetTableInfoOrNull ci' id) as E; [|rewrite <- E; destruct (GetTableInfoOrNull ci id); [reflexivity|exact I]].
  assert (forall t, GetTableInfoOrNull ci id = Some t <-> GetTableInfoOrNull ci' id = Some t) as K.
  { intros t. rewrite H1, H1'. split; intros (d & Hd & Hid & E); exists d; (split; [|auto]); apply (Ht d (eq_sym Hid)); exact Hd. }
  destruct (GetTableInfoOrNull ci id) as [x|], (GetTableInfoOrNull ci' id) as [y|]; try reflexivity; [now apply K|symmetry; now apply K|now apply K].
Qed.
Print Assumptions C60_solver.
(** The table of SymDemo.v alone, and between two others and next to an action. *)
Definition crowd : p4info := mkP4Info
  [mkP4Table (mkPre 2 "sy" [restriction "entry" ["e == 1"]]) [mkMF 1 "e" 4 (MMatchType MTExact)]; sy_decl; mkP4Table (mkPre 4 "u" []) []]
  [mkP4ActionDecl (mkPre 3 "sy" [restriction "action" ["v < 9"]]) [mkAP 1 "v" 8 ""]].
Definition crowd_ci : constraint_info := Eval vm_compute in the (mkInfo [] []) (P4ToConstraintInfo pton1 crowd).
Example C60_solver_case : P4ToConstraintInfo pton1 (mkP4Info [sy_decl] []) = Ok sy_ci /\ P4ToConstraintInfo pton1 crowd = Ok crowd_ci /\
  (forall d, table_id d = 3%N -> (In d [sy_decl] <-> In d (p4_tables crowd))) /\ GetTableInfoOrNull crowd_ci 3 = Some sy_table /\
  conversation sy_check pton1 sy_table sy_skip [AddsText sy_more; AddsText "false"; WantsEntry] = Ok [Added (Ok true); Added (Ok false); Entry (Ok sy_entry)].
Proof.
  split; [vm_compute; reflexivity|]. split; [vm_compute; reflexivity|]. split.
  - intros d Hd. split; [intros [<-|[]]; right; now left|]. intros [<-|[<-|[<-|[]]]]; [discriminate Hd|now left|discriminate Hd].
  - split; vm_compute; reflexivity.
Qed.
