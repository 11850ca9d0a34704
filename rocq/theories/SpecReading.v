(** Readings of constraints that differ from SpecSemantics.v only in what comparisons mean. *)
From Coq Require Import String Ascii List ZArith NArith Bool.
From Verif Require Import Base Token Ast AstConstructors Parser Info TypeChecker Interpreter Z3 Symbolic SpecLexer SpecGrammar SpecTyping SpecSemantics SpecInfo SpecSymbolic SpecSolver.
Import ListNotations.
Open Scope string_scope.

Section Reading.
  (** [cmp t o u v x]: comparing the values [u] and [v] of type [t] with [o] gives [x]. *)
  Variable cmp : ty -> binop -> value -> value -> bool -> Prop.
  Variables (G : scope) (r : env).
  (** [Meant e v]: the constraint [e] (as written: no casts) is read as [v]. *)
  Inductive Meant : expr -> value -> Prop :=
  | mn_bool m b : Meant (EBool m b) (VBool b)
  | mn_int m s n : Decimal s n -> Meant (EInt m s) (VInt (Z.of_N n))
  | mn_key key p m n v : r = TableEnv key p -> key n = Some v -> Meant (EKey m n) v
  | mn_param param m n z : r = ActionEnv param -> param n = Some z -> Meant (EParam m n) (VInt z)
  | mn_priority key p m : r = TableEnv key p -> Meant (EAttr m "priority") (VInt p)
  | mn_not m e b : Meant e (VBool b) -> Meant (ENot m e) (VBool (negb b))
  | mn_neg m e z : Meant e (VInt z) -> Meant (ENeg m e) (VInt (- z))
  | mn_left m o a b x y : connective o -> Meant a (VBool x) -> (forall y', truth o x y' = y) -> Meant (EBin m o a b) (VBool y)
  | mn_both m o a b x y : connective o -> Meant a (VBool x) -> Meant b (VBool y) -> Meant (EBin m o a b) (VBool (truth o x y))
  | mn_compare m o a b ta tb t u v u' v' x : comparison o -> Typed G a ta -> Typed G b tb -> common ta tb t ->
      Meant a u -> Meant b v -> Converts ta t u u' -> Converts tb t v v' -> cmp t o u' v' x -> Meant (EBin m o a b) (VBool x)
  | mn_field m f e v z : Meant e v -> Field f v z -> Meant (EField m f e) (VInt z).
End Reading.

(** As documented. *)
Definition documented (t : ty) (o : binop) (u v : value) (x : bool) : Prop := comparable o u v /\ (x = true <-> Compares o u v).
(** The checker: values of exact keys have no order. *)
Definition unordered_exact (t : ty) (o : binop) (u v : value) (x : bool) : Prop :=
  documented t o u v x /\ ~ (ordering o /\ exists w, t = TExact w).
(** The solver: the order of fixed-width numbers is that of two's complement. *)
Definition twos_complement (t : ty) (v : value) : value :=
  let signed w z := (if z <? 2 ^ (w - 1) then z else z - 2 ^ w)%Z in
  match t, v with
  | TBit w, VInt z => VInt (signed w z)
  | TExact w, VExact z => VExact (signed w z)
  | _, _ => v
  end.
Definition signed_order (t : ty) (o : binop) (u v : value) (x : bool) : Prop :=
  equality o /\ documented t o u v x \/ ordering o /\ documented t o (twos_complement t u) (twos_complement t v) x.

(** * Declarations *)
(** What the declaration's constraint says about an entry's match fields and priority, if it has one:
    [x] is the reading of the constraint for the values the fields give the keys. *)
Definition table_says (pton : inet_pton6) (d : p4_table) (entry : p4_entry) (x : bool) : Prop :=
  exists ks cs e key, Forall2 key_decl (pt_match_fields d) ks /\ restricted kTableConstraint (pt_preamble d) cs /\ reads_as pton kTableConstraint cs e /\
    consistent ks (pe_match entry) /\ (forall n v, key n = Some v <-> Assigned ks (pe_match entry) n v) /\
    Typed (key_scope ks) e TBool /\ Meant unordered_exact (key_scope ks) (TableEnv key (pe_priority entry)) e (VBool x).
(** The same for an action's arguments. *)
Definition action_says (pton : inet_pton6) (d : p4_action_decl) (a : p4_action) (x : bool) : Prop :=
  exists ps cs e param, Forall2 param_decl (pad_params d) ps /\ restricted kActionConstraint (pad_preamble d) cs /\ reads_as pton kActionConstraint cs e /\
    acceptable ps (pa_params a) /\ (forall n z, param n = Some z <-> Passed ps (pa_params a) n z) /\
    Typed (param_scope ps) e TBool /\ Meant unordered_exact (param_scope ps) (ActionEnv param) e (VBool x).
Definition table_allows pton d entry : Prop := unrestricted kTableConstraint (pt_preamble d) \/ table_says pton d entry true.
Definition action_allows pton d a : Prop := unrestricted kActionConstraint (pad_preamble d) \/ action_says pton d a true.

(** * Solving *)
Section Solving.
  Variables (t : table_info) (ks : list key_info) (skip : string -> outcome bool).
  (** The constraint, as written, is well-typed and uses only keys that are not skipped, and the
      priority only if entries have one. *)
  Definition solvable (e : expr) : Prop :=
    Typed (InTable (ti_keys_by_name t)) e TBool /\ literals e /\
    (forall n, mentions e n -> exists k, In k (live_keys skip ks) /\ k_name k = n) /\ (has_attribute e -> prioritized ks).
  (** The entry with match fields [fields] for the keys that are not skipped, and priority [p], is well-formed
      and all the constraints [l] hold of it, as the solver reads them. *)
  Definition solution (l : list expr) (fields : list field_match) (p : Z) : Prop :=
    well_formed (live_keys skip ks) fields /\ (prioritized ks -> priority_ok p) /\
    exists key, (forall n v, key n = Some v <-> Assigned (live_keys skip ks) fields n v) /\
      Forall (fun e => Meant signed_order (InTable (ti_keys_by_name t)) (TableEnv key p) e (VBool true)) l.
  Definition written (l0 l : list expr) : Prop := Forall2 (fun e0 e => InferTable e0 t = Ok e /\ literals e0) l0 l.
End Solving.

(** * Loading *)
(** A declaration that can be loaded: supported keys with different ids and names, and no constraint or a
    constraint that can be read and has a type. *)
Definition loadable_table (pton : inet_pton6) (d : p4_table) : Prop :=
  exists ks, Forall2 key_decl (pt_match_fields d) ks /\ NoDup (map mf_id (pt_match_fields d)) /\ NoDup (map mf_name (pt_match_fields d)) /\
    (unrestricted kTableConstraint (pt_preamble d) \/
     exists cs e t, restricted kTableConstraint (pt_preamble d) cs /\ reads_as pton kTableConstraint cs e /\ Typed (key_scope ks) e t).
Definition loadable_action (pton : inet_pton6) (d : p4_action_decl) : Prop :=
  exists ps, Forall2 param_decl (pad_params d) ps /\ NoDup (map ap_id (pad_params d)) /\ NoDup (map ap_name (pad_params d)) /\
    (unrestricted kActionConstraint (pad_preamble d) \/
     exists cs e t, restricted kActionConstraint (pad_preamble d) cs /\ reads_as pton kActionConstraint cs e /\ Typed (param_scope ps) e t).
