(** Canonical P4Runtime matches and their solver encoding, independent of
    symbolic_interpreter.cc. Terms, assignments and solvers are those of Z3.v. *)
From Coq Require Import String Ascii List ZArith NArith Bool.
From Verif Require Import Base Num Token Ast Info Interpreter Z3 SpecLexer SpecTyping SpecSemantics.
Import ListNotations.
Open Scope string_scope.

(** * P4Runtime *)
(** Byte strings in canonical form: nonempty, shortest, and fitting [w] bits. *)
Definition canonical_bytes (w : Z) (s : string) : Prop :=
  s <> "" /\ (s = str1 NUL \/ forall r, s <> String NUL r) /\ (unsigned s < 2 ^ w)%Z.
(** All bits of [v] are bits of [m]. *)
Definition masked (v m : Z) : Prop := forall i, Z.testbit v i = true -> Z.testbit m i = true.
(** [v] has no bits below position [n]. *)
Definition multiple_of_power (v n : Z) : Prop := exists k, v = (k * 2 ^ n)%Z.
(** [canonical_match t f v]: in a well-formed entry a key of type [t] may be matched
    by [f], or omitted if [f] is [None]; this means [v]. *)
Inductive canonical_match : ty -> option field_match_value -> value -> Prop :=
| ca_exact w s : canonical_bytes w s -> canonical_match (TExact w) (Some (FMExact s)) (VExact (unsigned s))
| ca_ternary w s m : canonical_bytes w s -> canonical_bytes w m -> unsigned m <> 0%Z -> masked (unsigned s) (unsigned m) ->
    canonical_match (TTernary w) (Some (FMTernary s m)) (VTernary (unsigned s) (unsigned m))
| ca_ternary_any w : canonical_match (TTernary w) None (VTernary 0 0)
| ca_optional w s : canonical_bytes w s -> canonical_match (TOptional w) (Some (FMOptional s)) (VTernary (unsigned s) (2 ^ w - 1))
| ca_optional_any w : canonical_match (TOptional w) None (VTernary 0 0)
| ca_lpm w s p : canonical_bytes w s -> (1 <= p <= w)%Z -> multiple_of_power (unsigned s) (w - p) ->
    canonical_match (TLpm w) (Some (FMLpm s p)) (VLpm (unsigned s) p)
| ca_lpm_any w : canonical_match (TLpm w) None (VLpm 0 0).
(** P4Runtime priorities. *)
Definition priority_ok (p : Z) : Prop := (1 <= p <= 2147483647)%Z.
(** Tables whose entries have a priority. *)
Definition prioritized (ks : list key_info) : Prop :=
  exists k w, In k ks /\ (k_type k = TTernary w \/ k_type k = TOptional w).

(** * Solvers *)
(** A symbol of bit-vector sort stands for a number of that width. *)
Definition well_sorted (m : assignment) : Prop :=
  forall n, (forall w, (0 < w)%Z -> exists v, m n (SBV w) = VV w v /\ (0 <= v < 2 ^ w)%Z) /\
            (exists z, m n SInt = VI z) /\ (exists b, m n SBool = VB b).
Definition satisfies (m : assignment) (l : list term) : Prop := forall t, In t l -> zeval m t = VB true.
Definition satisfiable (l : list term) : Prop := exists m, well_sorted m /\ satisfies m l.
(** Models satisfy what was asserted (with default values for symbols they do not mention). *)
Definition sound_solver (check : solver) : Prop :=
  forall l m, check l = Some m -> well_sorted (complete m) /\ satisfies (complete m) l.
(** "unsat" and "unknown" are only answered for unsatisfiable assertions. *)
Definition complete_solver (check : solver) : Prop := forall l, satisfiable l -> check l <> None.

(** * Encoding *)
(** The symbols for a key. (Names end at the first NUL character.) *)
Definition symbols (k : key_info) : list (string * sort) :=
  match k_type k with
  | TExact w => [(c_str (k_name k), SBV w)]
  | TTernary w | TOptional w => [(c_str (k_name k), SBV w); (c_str (k_name k ++ "_mask"), SBV w)]
  | TLpm w => [(c_str (k_name k), SBV w); (c_str (k_name k ++ "_prefix_length"), SInt)]
  | _ => []
  end.
(** [pictures m k v]: the assignment [m] gives the symbols of [k] the value [v]. *)
Inductive pictures (m : assignment) (k : key_info) : value -> Prop :=
| pi_exact w z : k_type k = TExact w -> m (c_str (k_name k)) (SBV w) = VV w z -> pictures m k (VExact z)
| pi_ternary w z x : k_type k = TTernary w \/ k_type k = TOptional w ->
    m (c_str (k_name k)) (SBV w) = VV w z -> m (c_str (k_name k ++ "_mask")) (SBV w) = VV w x -> pictures m k (VTernary z x)
| pi_lpm w z p : k_type k = TLpm w ->
    m (c_str (k_name k)) (SBV w) = VV w z -> m (c_str (k_name k ++ "_prefix_length")) SInt = VI p -> pictures m k (VLpm z p).
Definition pictures_priority (m : assignment) (p : Z) : Prop := m "priority" SInt = VI p.
(** No symbol is used twice. *)
Definition apart (ks : list key_info) : Prop := NoDup (("priority", SInt) :: concat (map symbols ks)).
(** Keys the solver can represent. *)
Definition representable (k : key_info) : Prop :=
  exists w, (0 < w)%Z /\ (k_type k = TExact w \/ k_type k = TTernary w \/ k_type k = TLpm w \/ k_type k = TOptional w).

(** [reorders G r e]: for the entry [r], some ordered comparison in [e] of fixed-width
    numbers has exactly one operand whose topmost bit is set. *)
Inductive reorders (G : scope) (r : env) : expr -> Prop :=
| ro_here m o a b ta tb t w u v u' v' x y : ordering o -> Typed G a ta -> Typed G b tb -> common ta tb t -> width t w ->
    Den G r a u -> Den G r b v -> Converts ta t u u' -> Converts tb t v v' -> numeral u' x -> numeral v' y ->
    (x < 2 ^ (w - 1) <= y \/ y < 2 ^ (w - 1) <= x)%Z -> reorders G r (EBin m o a b)
| ro_not m e : reorders G r e -> reorders G r (ENot m e)
| ro_left m o a b : reorders G r a -> reorders G r (EBin m o a b)
| ro_right m o a b : reorders G r b -> reorders G r (EBin m o a b).

(** * Entries *)
(** [well_formed ks l]: the match fields [l] match each of [ks] canonically or omit it
    where that is allowed, at most once, and match nothing else. *)
Record well_formed (ks : list key_info) (l : list field_match) : Prop := {
  wf_once : NoDup (map fm_id l);
  wf_known : forall f, In f l -> exists k v, In k ks /\ k_id k = fm_id f /\ canonical_match (k_type k) (Some (fm_value f)) v;
  wf_omitted : forall k, In k ks -> omitted k l -> exists v, canonical_match (k_type k) None v }.
(** P4Runtime widths are nonnegative 32-bit integers. *)
Definition int32_widths (ks : list key_info) : Prop := forall k w, In k ks -> width (k_type k) w -> (0 <= w <= 2147483647)%Z.
