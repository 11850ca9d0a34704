(** Match fields that change their kind, and entries that are translated accordingly,
    independent of the code. *)
From Coq Require Import String List ZArith NArith.
From Verif Require Import Base Info Interpreter SpecLexer SpecGrammar SpecSemantics.
Import ListNotations.
Open Scope Z_scope.

(** A kind of match that can express all matches of another kind. *)
Inductive more_general : p4_match_type -> p4_match_type -> Prop :=
| mg_exact_ternary : more_general MTExact MTTernary
| mg_exact_optional : more_general MTExact MTOptional
| mg_exact_lpm : more_general MTExact MTLpm
| mg_exact_range : more_general MTExact MTRange
| mg_optional_ternary : more_general MTOptional MTTernary
| mg_lpm_ternary : more_general MTLpm MTTernary.
(** [f'] is [f], possibly with a more general kind of match. *)
Definition recast_field (f f' : match_field) : Prop :=
  f' = f \/
  exists k k', more_general k k' /\ 0 <= mf_bitwidth f /\ mf_match f = MMatchType k /\
    f' = mkMF (mf_id f) (mf_name f) (mf_bitwidth f) (MMatchType k').
Definition recast_table (d d' : p4_table) : Prop :=
  pt_preamble d' = pt_preamble d /\ Forall2 recast_field (pt_match_fields d) (pt_match_fields d').
Definition recast (p p' : p4info) : Prop :=
  Forall2 recast_table (p4_tables p) (p4_tables p') /\ p4_actions p' = p4_actions p.

(** [same_match w k k' v v']: the match [v] of kind [k] is [v'] in kind [k'], for fields of
    [w] bits: the same number with all bits, or the same prefix. *)
Inductive same_match (w : Z) : p4_match_type -> p4_match_type -> field_match_value -> field_match_value -> Prop :=
| sm_exact_ternary s m : unsigned m = 2 ^ w - 1 -> same_match w MTExact MTTernary (FMExact s) (FMTernary s m)
| sm_exact_optional s : same_match w MTExact MTOptional (FMExact s) (FMOptional s)
| sm_exact_lpm s : same_match w MTExact MTLpm (FMExact s) (FMLpm s w)
| sm_exact_range s : same_match w MTExact MTRange (FMExact s) (FMRange s s)
| sm_optional_ternary s m : unsigned m = 2 ^ w - 1 -> same_match w MTOptional MTTernary (FMOptional s) (FMTernary s m)
| sm_lpm_ternary s p m : 0 <= p <= w -> unsigned m = 2 ^ w - 2 ^ (w - p) -> same_match w MTLpm MTTernary (FMLpm s p) (FMTernary s m).
(** The same for a field that may have changed. *)
Definition recast_value (f f' : match_field) (v v' : field_match_value) : Prop :=
  f' = f /\ v' = v \/
  exists k k', mf_match f = MMatchType k /\ mf_match f' = MMatchType k' /\ same_match (mf_bitwidth f) k k' v v'.
(** Entries must give a match for every exact match field. *)
Definition gives_exact (d : p4_table) (entry : p4_entry) : Prop :=
  forall f, In f (pt_match_fields d) -> mf_match f = MMatchType MTExact -> exists x, In x (pe_match entry) /\ fm_id x = mf_id f.
(** The entry [entry'] for [d'] says what [entry] says for [d]; omitted fields stay omitted. *)
Definition recast_entry (d d' : p4_table) (entry entry' : p4_entry) : Prop :=
  pe_table_id entry' = pe_table_id entry /\ pe_action entry' = pe_action entry /\ pe_priority entry' = pe_priority entry /\
  Forall2 (fun x x' => fm_id x' = fm_id x /\
    forall f f', In f (pt_match_fields d) -> In f' (pt_match_fields d') -> mf_id f = fm_id x -> mf_id f' = fm_id x ->
      recast_value f f' (fm_value x) (fm_value x')) (pe_match entry) (pe_match entry').
