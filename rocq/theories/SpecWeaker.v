(** Loosening constraints (C97), independent of the code. *)
From Coq Require Import String List ZArith NArith.
From Verif Require Import Base Token Ast AstConstructors Parser Info Interpreter SpecLexer SpecGrammar SpecTyping SpecSemantics SpecInfo SpecMisc SpecLaws SpecRewritten.
Import ListNotations.

(** Well-typed conditions. Attributes have values in tables only. *)
Definition condition (G : scope) (e : expr) : Prop :=
  Typed G e TBool /\ literals e /\ (has_attribute e -> exists keys, G = InTable keys).

(** * Single steps. Locations are irrelevant. *)
Inductive Looser : expr -> expr -> Prop :=
| ls_false m a : Looser (EBool m false) a
| ls_true m a : Looser a (EBool m true)
| ls_more_left m a b : Looser a (EBin m OOR a b)
| ls_more_right m a b : Looser b (EBin m OOR a b)
| ls_drop_right m a b : Looser (EBin m OAND a b) a
| ls_drop_left m a b : Looser (EBin m OAND a b) b
| ls_conditional m a b : Looser b (EBin m OIMPLIES a b)
| ls_and_or m n a b : Looser (EBin m OAND a b) (EBin n OOR a b)
| ls_lt_le m n a b : Looser (EBin m OLT a b) (EBin n OLE a b)
| ls_gt_ge m n a b : Looser (EBin m OGT a b) (EBin n OGE a b)
| ls_eq_le m n a b : Looser (EBin m OEQ a b) (EBin n OLE a b)
| ls_eq_ge m n a b : Looser (EBin m OEQ a b) (EBin n OGE a b)
| ls_lt_ne m n a b : Looser (EBin m OLT a b) (EBin n ONE a b)
| ls_gt_ne m n a b : Looser (EBin m OGT a b) (EBin n ONE a b).

(** * Loosening any parts of a constraint, or tightening them where they are negated.
    [part] are further replacements of parts. *)
Inductive Loosens (G : scope) (part : expr -> expr -> Prop) : expr -> expr -> Prop :=
| lo_alike a b : Alike a b -> condition G a -> condition G b -> Loosens G part a b
| lo_step a b : Looser a b -> condition G a -> condition G b -> Loosens G part a b
| lo_part a b : part a b -> condition G a -> condition G b -> Loosens G part a b
| lo_trans a b c : Loosens G part a b -> Loosens G part b c -> Loosens G part a c
| lo_not m n a b : Loosens G part b a -> Loosens G part (ENot m a) (ENot n b)
| lo_and m n a b c d : Loosens G part a b -> Loosens G part c d -> Loosens G part (EBin m OAND a c) (EBin n OAND b d)
| lo_or m n a b c d : Loosens G part a b -> Loosens G part c d -> Loosens G part (EBin m OOR a c) (EBin n OOR b d)
| lo_implies m n a b c d : Loosens G part b a -> Loosens G part c d -> Loosens G part (EBin m OIMPLIES a c) (EBin n OIMPLIES b d).

(** Whenever one condition is true, so is the other. *)
Definition entails (G : scope) (e f : expr) : Prop :=
  forall r, env_ok G r -> Den G r e (VBool true) -> Den G r f (VBool true).

(** * Programs with looser constraints *)
(** No constraint any more, or a looser one. *)
Inductive loosened_restriction (pton : inet_pton6) (ck : constraint_kind) (G : scope) (pre pre' : preamble) : Prop :=
| wl_none : unrestricted ck pre' -> loosened_restriction pton ck G pre pre'
| wl_some cs cs' e e' : restricted ck pre cs -> restricted ck pre' cs' -> reads_as pton ck cs e -> reads_as pton ck cs' e' -> Loosens G (entails G) e e' ->
    loosened_restriction pton ck G pre pre'.
Definition loosened_table (pton : inet_pton6) (d d' : p4_table) : Prop :=
  pr_id (pt_preamble d) = pr_id (pt_preamble d') /\ pt_match_fields d = pt_match_fields d' /\
  forall ks, Forall2 key_decl (pt_match_fields d) ks -> loosened_restriction pton kTableConstraint (key_scope ks) (pt_preamble d) (pt_preamble d').
Definition loosened_action (pton : inet_pton6) (d d' : p4_action_decl) : Prop :=
  pr_id (pad_preamble d) = pr_id (pad_preamble d') /\ pad_params d = pad_params d' /\
  forall ps, Forall2 param_decl (pad_params d) ps -> loosened_restriction pton kActionConstraint (param_scope ps) (pad_preamble d) (pad_preamble d').
Definition loosened (pton : inet_pton6) (p p' : p4info) : Prop :=
  Forall2 (loosened_table pton) (p4_tables p) (p4_tables p') /\ Forall2 (loosened_action pton) (p4_actions p) (p4_actions p').
