(** C117: runs of p4check that differ in messages only. *)
From Coq Require Import String List ZArith.
From Verif Require Import Base Num Cli.
Import ListNotations.
Open Scope string_scope.

(** What is printed about an entry: the same, or errors with the same code, or explanations. *)
Inductive same_report : string -> string -> Prop :=
| sr_same s : same_report s s
| sr_error code m m' : same_report ("Error: " ++ code ++ ": " ++ m) ("Error: " ++ code ++ ": " ++ m')
| sr_reason m m' : same_report ("All " ++ m) ("All " ++ m').
(** Reports on the files of the given names. *)
Fixpoint output (names reports : list string) : string :=
  match names, reports with
  | n :: names, r :: reports => "### P4Constraints Table Entry Test #######################" ++ nl ++ "=== Input Table Entry File ===" ++ nl ++ n ++ nl ++ "=== Output ===" ++ nl ++ r ++ output names reports
  | _, _ => ""
  end.
(** Both exit with 1 and print no report; or both exit with 0, have nothing to complain about, and print one report for each file. *)
Definition same_run (names : list string) (r r' : run) : Prop :=
  r_exit r = 1%Z /\ r_exit r' = 1%Z /\ r_stdout r = "" /\ r_stdout r' = "" \/
  r_exit r = 0%Z /\ r_exit r' = 0%Z /\ r_stderr r = "" /\ r_stderr r' = "" /\
  exists reports reports', List.length reports = List.length names /\ Forall2 same_report reports reports' /\ r_stdout r = output names reports /\ r_stdout r' = output names reports'.
