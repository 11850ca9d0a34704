(** Constraints that single out entries, and enumerating the entries of a solver with them (C89, C90). *)
From Coq Require Import String List ZArith NArith Permutation.
From Verif Require Import Base Token Ast AstConstructors Info TypeChecker Interpreter Z3 Symbolic SpecLexer SpecGrammar SpecParser SpecTyping SpecSemantics SpecSymbolic SpecSolver SpecIdioms.
Import ListNotations.
Open Scope string_scope.

(** * Constraints *)
(** The names of the keys can be written in constraints: they are identifiers, or identifiers joined by dots. *)
Definition identifiers (ks : list key_info) : Prop :=
  forall k, In k ks -> exists id ids, k_name k = String.concat "." (id :: ids) /\ Forall ident (id :: ids).
Definition field_is (s : surface) (f : string) (n : N) : surface := SBin EQ (SField s f) (SNum n).
(** [Pins s v q]: the constraint [q] says, field by field, that the key [s] has the value [v]. *)
Inductive Pins (s : surface) : value -> surface -> Prop :=
| pin_exact z : Pins s (VExact (Z.of_N z)) (field_is s "value" z)
| pin_ternary z m : Pins s (VTernary (Z.of_N z) (Z.of_N m)) (SBin AND (field_is s "value" z) (field_is s "mask" m))
| pin_lpm z p : Pins s (VLpm (Z.of_N z) (Z.of_N p)) (SBin AND (field_is s "value" z) (field_is s "prefix_length" p))
| pin_range l h : Pins s (VRange (Z.of_N l) (Z.of_N h)) (SBin AND (field_is s "low" l) (field_is s "high" h)).
(** [Describes ks fields l q]: the constraint [q] says that every key of [l] has the value that an entry with match
    fields [fields] gives it. *)
Inductive Describes (ks : list key_info) (fields : list field_match) : list key_info -> surface -> Prop :=
| ds_none : Describes ks fields [] (SBool true)
| ds_key k l s v q rest : names ks s k -> Assigned ks fields (k_name k) v -> Pins s v q -> Describes ks fields l rest ->
    Describes ks fields (k :: l) (SBin AND q rest).
(** The same, and the priority is [p]. *)
Inductive describes (ks : list key_info) (fields : list field_match) : Z -> surface -> Prop :=
| ds_all q n : Describes ks fields ks q -> describes ks fields (Z.of_N n) (SBin AND (SBin EQ (SAttr "priority") (SNum n)) q).
(** One of several entries. *)
Inductive Lists (ks : list key_info) : list (list field_match * Z) -> surface -> Prop :=
| ls_none : Lists ks [] (SBool false)
| ls_one fields p l q rest : describes ks fields p q -> Lists ks l rest -> Lists ks ((fields, p) :: l) (SBin OR q rest).
(** Match fields that give the keys the same values. *)
Definition match_alike (ks : list key_info) (fields fields' : list field_match) : Prop :=
  forall n v, Assigned ks fields n v <-> Assigned ks fields' n v.
(** The numbers in the match fields fit the widths of the keys. *)
Inductive fits_key (w : Z) : field_match_value -> Prop :=
| fk_exact s : (unsigned s < 2 ^ w)%Z -> fits_key w (FMExact s)
| fk_ternary s m : (unsigned s < 2 ^ w)%Z -> (unsigned m < 2 ^ w)%Z -> fits_key w (FMTernary s m)
| fk_lpm s p : (unsigned s < 2 ^ w)%Z -> (0 <= p)%Z -> fits_key w (FMLpm s p)
| fk_range l h : (unsigned l < 2 ^ w)%Z -> (unsigned h < 2 ^ w)%Z -> fits_key w (FMRange l h)
| fk_optional s : (unsigned s < 2 ^ w)%Z -> fits_key w (FMOptional s).
Definition fitting (ks : list key_info) (fields : list field_match) : Prop :=
  forall f k w, In f fields -> In k ks -> k_id k = fm_id f -> width (k_type k) w -> fits_key w (fm_value f).

(** [listable ks allowed]: entries (match fields and priority) whose numbers fit the keys. *)
Definition listable (ks : list key_info) (allowed : list (list field_match * Z)) : Prop :=
  forall fields p, In (fields, p) allowed -> consistent ks fields /\ fitting ks fields /\ (0 <= p)%Z.
(** The entry has the values and the priority of one of the list. *)
Definition among (ks : list key_info) (allowed : list (list field_match * Z)) (entry : p4_entry) : Prop :=
  exists fields, In (fields, pe_priority entry) allowed /\ match_alike ks fields (pe_match entry).

(** * Enumerating *)
(** The text that excludes the entry: not all keys that the solver handles have the values of the entry, or the priority
    is another one (if the table's entries have priorities). It can be written down. [num] gives the decimal notation of numbers. *)
Definition excluding (num : N -> string) (ks : list key_info) (skip : string -> outcome bool) (entry : p4_entry) (text : string) : Prop :=
  exists q, printable q /\ (prioritized ks /\ describes (live_keys skip ks) (pe_match entry) (pe_priority entry) q \/
             ~ prioritized ks /\ Describes (live_keys skip ks) (pe_match entry) (live_keys skip ks) q) /\
    text = text_of (print num (SNot q)).
(** The entries have the same match fields, in any order, and the same priority if the table's entries have one. *)
Definition is_entry (ks : list key_info) (entry : p4_entry) (fields : list field_match) (p : Z) : Prop :=
  Permutation (pe_match entry) fields /\ (prioritized ks -> pe_priority entry = p).
(** [Enumerates cs entries cs']: concretizing an entry and adding the text that excludes it, again and again, gives
    these entries. *)
Inductive Enumerates (num : N -> string) (check : solver) (pton : inet_pton6) (ks : list key_info) (skip : string -> outcome bool) :
  constraint_solver -> list p4_entry -> constraint_solver -> Prop :=
| en_none cs : Enumerates num check pton ks skip cs [] cs
| en_one cs entry text cs1 entries cs' : ConcretizeEntry check cs = Ok entry -> excluding num ks skip entry text ->
    AddConstraintString check pton cs text = (Ok true, cs1) -> Enumerates num check pton ks skip cs1 entries cs' ->
    Enumerates num check pton ks skip cs (entry :: entries) cs'.
