(** Programs and entries that differ only in the numbers of tables, match fields, actions and parameters. *)
From Coq Require Import String List ZArith NArith.
From Verif Require Import Base Info.
Import ListNotations.

(** Which new number stands for which old one. Those of match fields are particular to a table (old and new number),
    those of parameters to an action. *)
Record numbering := mkNumbering {
  of_tables : N -> N -> Prop; of_fields : N -> N -> N -> N -> Prop;
  of_actions : N -> N -> Prop; of_params : N -> N -> N -> N -> Prop }.
Definition one_to_one (R : N -> N -> Prop) : Prop := forall a a' b b', R a a' -> R b b' -> (a = b <-> a' = b').
Definition faithful (n : numbering) : Prop :=
  one_to_one (of_tables n) /\ (forall t t', one_to_one (of_fields n t t')) /\ one_to_one (of_actions n) /\ (forall a a', one_to_one (of_params n a a')).
Definition same_preamble (R : N -> N -> Prop) (p p' : preamble) : Prop :=
  R (pr_id p) (pr_id p') /\ pr_name p = pr_name p' /\ pr_annotations p = pr_annotations p'.
Definition renumbered_table (n : numbering) (d d' : p4_table) : Prop :=
  same_preamble (of_tables n) (pt_preamble d) (pt_preamble d') /\
  Forall2 (fun f f' => of_fields n (pr_id (pt_preamble d)) (pr_id (pt_preamble d')) (mf_id f) (mf_id f') /\ mf_name f = mf_name f' /\ mf_bitwidth f = mf_bitwidth f' /\ mf_match f = mf_match f')
    (pt_match_fields d) (pt_match_fields d').
Definition renumbered_action (n : numbering) (d d' : p4_action_decl) : Prop :=
  same_preamble (of_actions n) (pad_preamble d) (pad_preamble d') /\
  Forall2 (fun f f' => of_params n (pr_id (pad_preamble d)) (pr_id (pad_preamble d')) (ap_id f) (ap_id f') /\ ap_name f = ap_name f' /\ ap_bitwidth f = ap_bitwidth f' /\ ap_type_name f = ap_type_name f')
    (pad_params d) (pad_params d').
Definition renumbered (n : numbering) (p p' : p4info) : Prop :=
  Forall2 (renumbered_table n) (p4_tables p) (p4_tables p') /\ Forall2 (renumbered_action n) (p4_actions p) (p4_actions p').
(** Entries. Numbers that are not declared have new numbers too. *)
Definition renumbered_call (n : numbering) (a a' : p4_action) : Prop :=
  of_actions n (pa_id a) (pa_id a') /\ Forall2 (fun x x' => of_params n (pa_id a) (pa_id a') (fst x) (fst x') /\ snd x = snd x') (pa_params a) (pa_params a').
Inductive renumbered_calls (n : numbering) : option table_action -> option table_action -> Prop :=
| rc_none : renumbered_calls n None None
| rc_one a a' : renumbered_call n a a' -> renumbered_calls n (Some (TAction a)) (Some (TAction a'))
| rc_set l l' : Forall2 (renumbered_call n) l l' -> renumbered_calls n (Some (TActionSet l)) (Some (TActionSet l'))
| rc_member i i' : renumbered_calls n (Some (TMemberId i)) (Some (TMemberId i'))
| rc_group i i' : renumbered_calls n (Some (TGroupId i)) (Some (TGroupId i'))
| rc_unset : renumbered_calls n (Some TActionNotSet) (Some TActionNotSet).
Definition renumbered_entry (n : numbering) (e e' : p4_entry) : Prop :=
  of_tables n (pe_table_id e) (pe_table_id e') /\
  Forall2 (fun f f' => of_fields n (pe_table_id e) (pe_table_id e') (fm_id f) (fm_id f') /\ fm_value f = fm_value f') (pe_match e) (pe_match e') /\
  renumbered_calls n (pe_action e) (pe_action e') /\ pe_priority e = pe_priority e'.
