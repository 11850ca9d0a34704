(** Programs whose constraints were rewritten with laws (C84). *)
From Coq Require Import String List ZArith NArith.
From Verif Require Import Base Token Ast AstConstructors Parser Info Interpreter SpecLexer SpecGrammar SpecTyping SpecSemantics SpecInfo SpecMisc SpecLaws.
Import ListNotations.

(** No constraint on both sides, or constraints one of which can be rewritten to the other. *)
Inductive rewritten_restriction (pton : inet_pton6) (ck : constraint_kind) (G : scope) (pre pre' : preamble) : Prop :=
| wr_none : unrestricted ck pre -> unrestricted ck pre' -> rewritten_restriction pton ck G pre pre'
| wr_some cs cs' e e' : restricted ck pre cs -> restricted ck pre' cs' -> reads_as pton ck cs e -> reads_as pton ck cs' e' -> Rewrites G e e' ->
    rewritten_restriction pton ck G pre pre'.
(** Names, other annotations and the place of the text may differ. *)
Definition rewritten_table (pton : inet_pton6) (d d' : p4_table) : Prop :=
  pr_id (pt_preamble d) = pr_id (pt_preamble d') /\ pt_match_fields d = pt_match_fields d' /\
  forall ks, Forall2 key_decl (pt_match_fields d) ks -> rewritten_restriction pton kTableConstraint (key_scope ks) (pt_preamble d) (pt_preamble d').
Definition rewritten_action (pton : inet_pton6) (d d' : p4_action_decl) : Prop :=
  pr_id (pad_preamble d) = pr_id (pad_preamble d') /\ pad_params d = pad_params d' /\
  forall ps, Forall2 param_decl (pad_params d) ps -> rewritten_restriction pton kActionConstraint (param_scope ps) (pad_preamble d) (pad_preamble d').
Definition rewritten (pton : inet_pton6) (p p' : p4info) : Prop :=
  Forall2 (rewritten_table pton) (p4_tables p) (p4_tables p') /\ Forall2 (rewritten_action pton) (p4_actions p) (p4_actions p').

(** Constraints the checker evaluates: of tables, those that do not order exact keys; of actions, those without attributes. *)
Definition workable (pton : inet_pton6) (p : p4info) : Prop :=
  (forall d ks cs e, In d (p4_tables p) -> Forall2 key_decl (pt_match_fields d) ks -> restricted kTableConstraint (pt_preamble d) cs -> reads_as pton kTableConstraint cs e ->
     ~ orders_exact (key_scope ks) e) /\
  (forall d cs e, In d (p4_actions p) -> restricted kActionConstraint (pad_preamble d) cs -> reads_as pton kActionConstraint cs e -> ~ has_attribute e).
(** The actions of the entry get all their arguments. *)
Definition all_passed (p : p4info) (acts : list p4_action) : Prop :=
  forall a d f, In a acts -> In d (p4_actions p) -> pr_id (pad_preamble d) = pa_id a -> In f (pad_params d) -> exists s, In (ap_id f, s) (pa_params a).
