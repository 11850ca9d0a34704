(** Declarations that get new match fields or parameters, independent of the code. *)
From Coq Require Import String List ZArith NArith Bool Permutation.
From Verif Require Import Base Info.
Import ListNotations.
Open Scope string_scope.

(** A match field that entries may leave out: it then matches everything. *)
Inductive omittable : match_field -> Prop :=
| om_ternary i n w : omittable (mkMF i n w (MMatchType MTTernary))
| om_lpm i n w : omittable (mkMF i n w (MMatchType MTLpm))
| om_range i n w : (0 <= w)%Z -> omittable (mkMF i n w (MMatchType MTRange))
| om_optional i n w : omittable (mkMF i n w (MMatchType MTOptional)).
(** [d'] is [d] with new match fields, with ids and names of their own. *)
Definition grown_table (d d' : p4_table) : Prop :=
  pt_preamble d' = pt_preamble d /\
  exists new, Permutation (pt_match_fields d') (pt_match_fields d ++ new) /\ Forall omittable new /\
    NoDup (map mf_id (pt_match_fields d ++ new)) /\ NoDup (map mf_name (pt_match_fields d ++ new)).
(** [d'] is [d] with new parameters. *)
Definition grown_action (d d' : p4_action_decl) : Prop :=
  pad_preamble d' = pad_preamble d /\
  exists new, Permutation (pad_params d') (pad_params d ++ new) /\
    NoDup (map ap_id (pad_params d ++ new)) /\ NoDup (map ap_name (pad_params d ++ new)).
Definition grown (p p' : p4info) : Prop :=
  Forall2 grown_table (p4_tables p) (p4_tables p') /\ Forall2 grown_action (p4_actions p) (p4_actions p').

(** * What is left of entries without the new fields and parameters *)
Definition trimmed_match (d : p4_table) (l : list field_match) : list field_match :=
  filter (fun f => existsb (fun m => N.eqb (mf_id m) (fm_id f)) (pt_match_fields d)) l.
Definition trimmed_args (d : p4_action_decl) (l : list (N * string)) : list (N * string) :=
  filter (fun x => existsb (fun m => N.eqb (ap_id m) (fst x)) (pad_params d)) l.
Inductive trimmed_action (p : p4info) (a : p4_action) : p4_action -> Prop :=
| ta_known d : In d (p4_actions p) -> pr_id (pad_preamble d) = pa_id a -> trimmed_action p a (mkP4Action (pa_id a) (trimmed_args d (pa_params a)))
| ta_unknown : (forall d, In d (p4_actions p) -> pr_id (pad_preamble d) <> pa_id a) -> trimmed_action p a a.
Inductive trimmed_target (p : p4info) : option table_action -> option table_action -> Prop :=
| tt_none : trimmed_target p None None
| tt_action a a' : trimmed_action p a a' -> trimmed_target p (Some (TAction a)) (Some (TAction a'))
| tt_set l l' : Forall2 (trimmed_action p) l l' -> trimmed_target p (Some (TActionSet l)) (Some (TActionSet l'))
| tt_other x : (forall a, x <> TAction a) -> (forall l, x <> TActionSet l) -> trimmed_target p (Some x) (Some x).
(** [entry'] is what [entry] says about the fields and parameters that [p] declares. *)
Definition trimmed (p : p4info) (entry entry' : p4_entry) : Prop :=
  exists d act, In d (p4_tables p) /\ pr_id (pt_preamble d) = pe_table_id entry /\ trimmed_target p (pe_action entry) act /\
    entry' = mkEntry (pe_table_id entry) (trimmed_match d (pe_match entry)) act (pe_priority entry).
