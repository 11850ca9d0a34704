(** What a ConstraintSolver cannot represent, and what it says then; independent of the encoder's code. *)
From Coq Require Import String List ZArith NArith.
From Verif Require Import Base Token Ast Info Interpreter SpecTyping SpecSemantics SpecSymbolic SpecSolver.
Import ListNotations.
Open Scope string_scope.

Definition absent (n : string) : string := "Key not found: '" ++ n ++ "'".
Definition no_ranges : string := "Range matches are not currently supported by the p4-constraints symbolic representation.".
Definition not_boolean : string := "expected a constraint of type boolean, but got:" ++ nl.
Definition contradictory : string := "Stored constraints are unsatisfiable. Constraint solver must hold a satisfiable constraint at all times.".
Definition no_solution : string := "Constraints are not satisfiable.".
Definition unsatisfiable (text : string) : string :=
  "TableInfo provided an unsatisfiable constraint. ConstraintSolver must contain a satisfiable constraint at all times so creation failed." ++ nl ++ " Unsatisfiable Constraint: " ++ text.

Section Constraint.
  (** The names in scope and their types; the names for which there are symbols; whether there is one for the priority. *)
  Variables (G : scope) (known : string -> Prop) (priority : Prop).
  Definition Clear (e : expr) : Prop := (forall n, mentions e n -> known n) /\ (has_attribute e -> priority).
  Definition with_range (a b : expr) : Prop := exists ta tb w, Typed G a ta /\ Typed G b tb /\ common ta tb (TRange w).
  (** [Unknown e c text]: the first thing in [e], from the left, for which there is no symbol. What is compared with a range on the right
      comes before the range. *)
  Inductive Unknown : expr -> code -> string -> Prop :=
  | un_key m n : ~ known n -> Unknown (EKey m n) NotFound (absent n)
  | un_priority m : ~ priority -> Unknown (EAttr m "priority") NotFound (absent "priority")
  | un_field m f e c s : Unknown e c s -> Unknown (EField m f e) c s
  | un_not m e c s : Unknown e c s -> Unknown (ENot m e) c s
  | un_neg m e c s : Unknown e c s -> Unknown (ENeg m e) c s
  | un_left m o a b c s : Unknown a c s -> Unknown (EBin m o a b) c s
  | un_range m o a b : Clear a -> with_range a b -> Unknown (EBin m o a b) Unimplemented no_ranges
  | un_right m o a b c s : Clear a -> ~ with_range a b -> Unknown b c s -> Unknown (EBin m o a b) c s.
End Constraint.

Section Table.
  Variables (ks : list key_info) (skip : string -> outcome bool).
  (** The keys for which there are symbols. *)
  Definition known (n : string) : Prop := exists k, In k ks /\ k_name k = n /\ live skip k.
  (** [Refused k c text]: there is a problem with the key [k]. *)
  Inductive Refused (k : key_info) : code -> string -> Prop :=
  | rf_asked c m : skip (k_name k) = Err c m -> Refused k c m
  | rf_kind : live skip k -> (forall w, ~ width (k_type k) w) -> Refused k InvalidArgument ("expected a type with bitwidth, but got: " ++ TypeName (k_type k))
  | rf_empty : live skip k -> width (k_type k) 0 -> Refused k InvalidArgument "expected a key type with bitwidth > 0, but got: "
  | rf_range w : live skip k -> k_type k = TRange w -> w <> 0%Z -> Refused k Unimplemented no_ranges.
  (** The first key, in the order of the bytes of their names, with a problem. *)
  Definition first_refused (k : key_info) (c : code) (m : string) : Prop :=
    In k ks /\ Refused k c m /\ forall k' c' m', In k' ks -> Refused k' c' m' -> k' = k \/ String.compare (k_name k) (k_name k') = Lt.
End Table.
(** The same table without its constraint. *)
Definition bare (t : table_info) : table_info := mkTable (ti_id t) (ti_name t) None (ti_source t) (ti_keys_by_id t) (ti_keys_by_name t).
