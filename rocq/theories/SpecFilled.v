(** Putting known values into a constraint (C101), independent of the code. *)
From Coq Require Import String List ZArith NArith.
From Verif Require Import Base Token Ast AstConstructors Parser Info Interpreter SpecLexer SpecGrammar SpecTyping SpecSemantics SpecInfo SpecMisc SpecLaws SpecSymbolic SpecSolver SpecReading.
Import ListNotations.

(** How a number is written in a constraint. *)
Inductive Numeral : Z -> expr -> Prop :=
| nm_int m s n : Decimal s n -> Numeral (Z.of_N n) (EInt m s)
| nm_neg m m' s n : Decimal s n -> Numeral (- Z.of_N n) (ENeg m (EInt m' s)).

Section Filled.
  (** Comparisons, and those of them in which parts of fixed width may be filled in. *)
  Variables (cmp : ty -> binop -> value -> value -> bool -> Prop) (ok : binop -> Prop) (G : scope) (r : env).
  (** [Fixed w a z]: [a] is a number of [w] bits, or the value of an exact key, namely [z]. *)
  Inductive Fixed (w : Z) (a : expr) (z : Z) : Prop :=
  | fx_bit : Typed G a (TBit w) -> Meant cmp G r a (VInt z) -> (0 <= z < 2 ^ w)%Z -> Fixed w a z
  | fx_exact : Typed G a (TExact w) -> Meant cmp G r a (VExact z) -> (0 <= z < 2 ^ w)%Z -> Fixed w a z.
  (** If [b] is a number of arbitrary precision then it fits [w] bits. *)
  Definition within (w : Z) (b : expr) : Prop := Typed G b TInt -> exists z, Meant cmp G r b (VInt z) /\ (0 <= z < 2 ^ w)%Z.
  (** [Filled e f]: [f] is [e] with some parts replaced by what they are for the values [r] of the keys, parameters and attributes. *)
  Inductive Filled : expr -> expr -> Prop :=
  | fl_alike a b : Alike a b -> Filled a b
  | fl_trans a b c : Filled a b -> Filled b c -> Filled a c
  | fl_bool m a x : Typed G a TBool -> Meant cmp G r a (VBool x) -> Filled a (EBool m x)
  | fl_int a z b : Typed G a TInt -> Meant cmp G r a (VInt z) -> Numeral z b -> Filled a b
  | fl_left m m' o a b c w z : ok o -> comparison o -> Fixed w a z -> Numeral z c -> within w b -> Filled (EBin m o a b) (EBin m' o c b)
  | fl_right m m' o a b c w z : ok o -> comparison o -> Fixed w b z -> Numeral z c -> within w a -> Filled (EBin m o a b) (EBin m' o a c)
  | fl_not m m' a b : Filled a b -> Filled (ENot m a) (ENot m' b)
  | fl_neg m m' a b : Filled a b -> Filled (ENeg m a) (ENeg m' b)
  | fl_bin m m' o a b c d : Filled a b -> Filled c d -> Filled (EBin m o a c) (EBin m' o b d).
End Filled.

(** * The checker *)
(** Any comparison. *)
Definition Known : scope -> env -> expr -> expr -> Prop := Filled unordered_exact (fun _ => True).
Inductive known_restriction (pton : inet_pton6) (ck : constraint_kind) (G : scope) (given : env -> Prop) (pre pre' : preamble) : Prop :=
| kr_none : unrestricted ck pre -> unrestricted ck pre' -> known_restriction pton ck G given pre pre'
| kr_some cs cs' e e' : restricted ck pre cs -> restricted ck pre' cs' -> reads_as pton ck cs e -> reads_as pton ck cs' e' -> (forall r, given r -> Known G r e e') ->
    known_restriction pton ck G given pre pre'.
(** The table's constraint, with known values of the entry put in. *)
Definition known_table (pton : inet_pton6) (entry : p4_entry) (d d' : p4_table) : Prop :=
  pr_id (pt_preamble d) = pr_id (pt_preamble d') /\ pt_match_fields d = pt_match_fields d' /\
  forall ks, Forall2 key_decl (pt_match_fields d) ks -> pr_id (pt_preamble d) = pe_table_id entry ->
    known_restriction pton kTableConstraint (key_scope ks)
      (fun r => exists key, r = TableEnv key (pe_priority entry) /\ forall n v, key n = Some v <-> Assigned ks (pe_match entry) n v) (pt_preamble d) (pt_preamble d').
(** The constraints of its actions. *)
Definition known_action (pton : inet_pton6) (actions : list p4_action) (d d' : p4_action_decl) : Prop :=
  pr_id (pad_preamble d) = pr_id (pad_preamble d') /\ pad_params d = pad_params d' /\
  forall ps a, Forall2 param_decl (pad_params d) ps -> In a actions -> pr_id (pad_preamble d) = pa_id a ->
    known_restriction pton kActionConstraint (param_scope ps)
      (fun r => exists param, r = ActionEnv param /\ forall n z, param n = Some z <-> Passed ps (pa_params a) n z) (pad_preamble d) (pad_preamble d').
Definition known (pton : inet_pton6) (entry : p4_entry) (actions : list p4_action) (p p' : p4info) : Prop :=
  Forall2 (known_table pton entry) (p4_tables p) (p4_tables p') /\ Forall2 (known_action pton actions) (p4_actions p) (p4_actions p').

(** * The solver *)
(** Comparisons for equality only. *)
Definition Settled : scope -> env -> expr -> expr -> Prop := Filled signed_order equality.
(** [f] is [e] with values put in that the constraints [l] settle. *)
Definition settles (t : table_info) (ks : list key_info) (skip : string -> outcome bool) (l : list expr) (e f : expr) : Prop :=
  forall fields p key, well_formed (live_keys skip ks) fields -> (prioritized ks -> priority_ok p) -> (forall n v, key n = Some v <-> Assigned (live_keys skip ks) fields n v) ->
    Forall (fun c => Meant signed_order (InTable (ti_keys_by_name t)) (TableEnv key p) c (VBool true)) l -> Settled (InTable (ti_keys_by_name t)) (TableEnv key p) e f.
