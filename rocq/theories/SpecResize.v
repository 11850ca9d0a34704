(** Match fields and parameters that change their width, independent of the code. *)
From Coq Require Import String List ZArith NArith.
From Verif Require Import Base Token Ast AstConstructors Parser Info Interpreter SpecLexer SpecGrammar SpecTyping SpecSemantics SpecInfo.
Import ListNotations.
Open Scope Z_scope.

(** [f'] is [f], or an exact or range field with another width; neither width is below [N]. *)
Definition resized_field (N : Z) (f f' : match_field) : Prop :=
  f' = f \/
  exists k w', (k = MTExact \/ k = MTRange) /\ mf_match f = MMatchType k /\ N <= mf_bitwidth f /\ N <= w' /\
    f' = mkMF (mf_id f) (mf_name f) w' (MMatchType k).
Definition resized_param (N : Z) (x x' : action_param) : Prop :=
  x' = x \/ exists w', N <= ap_bitwidth x /\ N <= w' /\ x' = mkAP (ap_id x) (ap_name x) w' (ap_type_name x).
Definition resized_table (N : Z) (d d' : p4_table) : Prop :=
  pt_preamble d' = pt_preamble d /\ Forall2 (resized_field N) (pt_match_fields d) (pt_match_fields d').
Definition resized_action (N : Z) (d d' : p4_action_decl) : Prop :=
  pad_preamble d' = pad_preamble d /\ Forall2 (resized_param N) (pad_params d) (pad_params d').
Definition resized (N : Z) (p p' : p4info) : Prop :=
  Forall2 (resized_table N) (p4_tables p) (p4_tables p') /\ Forall2 (resized_action N) (p4_actions p) (p4_actions p').
(** The entry gives the range fields whose width changes. *)
Definition gives_ranges (d d' : p4_table) (entry : p4_entry) : Prop :=
  forall f, In f (pt_match_fields d) -> ~ In f (pt_match_fields d') -> mf_match f = MMatchType MTRange -> exists x, In x (pe_match entry) /\ fm_id x = mf_id f.

(** [compared a b e]: [e] contains a comparison of [a] with [b], in either order. *)
Inductive compared (a b : expr) : expr -> Prop :=
| cd_left m o : comparison o -> compared a b (EBin m o a b)
| cd_right m o : comparison o -> compared a b (EBin m o b a)
| cd_not m e : compared a b e -> compared a b (ENot m e)
| cd_neg m e : compared a b e -> compared a b (ENeg m e)
| cd_in_left m o e e' : compared a b e -> compared a b (EBin m o e e')
| cd_in_right m o e e' : compared a b e' -> compared a b (EBin m o e e')
| cd_field m f e : compared a b e -> compared a b (EField m f e).
(** Integers that are compared with anything else are literals below [2 ^ N]. *)
Definition small_literals (N : Z) (G : scope) (e : expr) : Prop :=
  forall a b t, compared a b e -> Typed G a TInt -> Typed G b t -> t <> TInt ->
    exists m s n, a = EInt m s /\ Decimal s n /\ Z.of_N n < 2 ^ N.
(** The same for the constraint of a declaration, if it has one. *)
Definition small_table (pton : inet_pton6) (N : Z) (d : p4_table) : Prop :=
  forall ks cs e, Forall2 key_decl (pt_match_fields d) ks -> restricted kTableConstraint (pt_preamble d) cs -> reads_as pton kTableConstraint cs e ->
    small_literals N (key_scope ks) e.
Definition small_action (pton : inet_pton6) (N : Z) (d : p4_action_decl) : Prop :=
  forall ps cs e, Forall2 param_decl (pad_params d) ps -> restricted kActionConstraint (pad_preamble d) cs -> reads_as pton kActionConstraint cs e ->
    small_literals N (param_scope ps) e.
