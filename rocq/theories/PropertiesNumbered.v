(** C34, continued: which table and which actions an entry is judged by. *)
From Coq Require Import String List ZArith NArith Bool.
From Verif Require Import Base Num Token Ast Info TypeChecker Interpreter SpecSemantics SpecExplain SpecInfo PropertiesInterpreter PropertiesExplain EntryFacts PropertiesVerdict PropertiesEntries.
Import ListNotations.
Open Scope string_scope.

(** Numbers of tables and of actions are unique. *)
Definition numbered (ci : constraint_info) : Prop := NoDup (map fst (ci_tables ci)) /\ NoDup (map fst (ci_actions ci)).
(** The table of exactly the number in the entry has no constraint, or a Boolean one that is true of the entry; the actions likewise. *)
Theorem C34_by_number : forall ci entry, numbered ci -> (ReasonEntryViolatesConstraint entry ci = Ok "" <->
  (exists t, In (pe_table_id entry, t) (ci_tables ci) /\
     (ti_constraint t = None \/ exists e ctx, ti_constraint t = Some e /\ e_type e = TBool /\ ParseTableEntry entry t = Ok ctx /\ value_of ctx e = Ok (VBool true))) /\
  direct entry /\
  forall a, In a (actions_of entry) -> exists i, In (pa_id a, i) (ci_actions ci) /\
     (ai_constraint i = None \/ exists e ctx, ai_constraint i = Some e /\ e_type e = TBool /\ ParseAction a i = Ok ctx /\ value_of ctx e = Ok (VBool true))).
Proof.
  intros ci entry [HT HA]. rewrite C34_accepted_iff. unfold table_holds, action_holds, GetTableInfoOrNull, GetActionInfoOrNull. pose proof (fun k v => afind_iff N.eqb N.eqb_eq _ k v HT) as FT. pose proof (fun k v => afind_iff N.eqb N.eqb_eq _ k v HA) as FA. split.
  - intros ((t & Ht & H) & Hd & Ha). split; [exists t; split; [now apply FT|exact H]|]. split; [exact Hd|]. intros a Hi. destruct (Ha a Hi) as (i & Hf & H'). exists i. split; [now apply FA|exact H'].
  - intros ((t & Ht & H) & Hd & Ha). split; [exists t; split; [now apply FT|exact H]|]. split; [exact Hd|]. intros a Hi. destruct (Ha a Hi) as (i & Hf & H'). exists i. split; [now apply FA|exact H'].
Qed.
Print Assumptions C34_by_number.
Example C34_by_number_case : numbered demo_ci /\ ReasonEntryViolatesConstraint (set_entry [good_action; good_action]) demo_ci = Ok "".
Proof. split; [|vm_compute; reflexivity]. split; vm_compute; repeat (constructor; [intros H; repeat destruct H as [H|H]; try discriminate H; exact H|]); constructor. Qed.
