(** The numbers of an entry that the solver keeps in one variable. *)
From Coq Require Import String Ascii List ZArith NArith Bool.
From Verif Require Import Base Token Ast AstConstructors Info Interpreter Z3 SpecLexer SpecTyping SpecSemantics SpecSymbolic SpecSolver SpecReading.
Import ListNotations.
Open Scope string_scope.

(** [stored k v n s z]: the number [z], a part of the value [v] of the key [k], is stored in a variable of
    sort [s] that is named [n]. *)
Inductive stored (k : key_info) : value -> string -> sort -> Z -> Prop :=
| st_exact w z : k_type k = TExact w -> stored k (VExact z) (k_name k) (SBV w) z
| st_value w z x : k_type k = TTernary w \/ k_type k = TOptional w -> stored k (VTernary z x) (k_name k) (SBV w) z
| st_mask w z x : k_type k = TTernary w \/ k_type k = TOptional w -> stored k (VTernary z x) (k_name k ++ "_mask") (SBV w) x
| st_prefix w z l : k_type k = TLpm w -> stored k (VLpm z l) (k_name k) (SBV w) z
| st_length w z l : k_type k = TLpm w -> stored k (VLpm z l) (k_name k ++ "_prefix_length") SInt l.

Section Shared.
  Variables (ks : list key_info) (skip : string -> outcome bool) (fields : list field_match) (p : Z).
  (** [Needs n s z]: the entry with match fields [fields] and priority [p] needs the variable of sort [s] whose name
      is [n] to be [z]. (Names end at the first NUL character.) *)
  Inductive Needs : string -> sort -> Z -> Prop :=
  | ne_key k v n s z : In k (live_keys skip ks) -> Assigned (live_keys skip ks) fields (k_name k) v -> stored k v n s z -> Needs (c_str n) s z
  | ne_priority : prioritized ks -> Needs "priority" SInt p.
  (** No variable needs to be two numbers. *)
  Definition coherent : Prop := forall n s z z', Needs n s z -> Needs n s z' -> z = z'.
End Shared.

(** A solution whose parts fit the variables. *)
Definition coherent_solution (t : table_info) (ks : list key_info) (skip : string -> outcome bool) (l : list expr) (fields : list field_match) (p : Z) : Prop :=
  solution t ks skip l fields p /\ coherent ks skip fields p.

(** Names under which no variable is shared: they have no NUL characters, and no key is named like the mask
    of a ternary or optional key of the same width. *)
Definition plain_names (ks : list key_info) : Prop :=
  (forall k, In k ks -> ~ In NUL (list_ascii_of_string (k_name k))) /\
  ~ exists k k' w, In k ks /\ In k' ks /\ (k_type k = TTernary w \/ k_type k = TOptional w) /\ width (k_type k') w /\ k_name k' = k_name k ++ "_mask".
