(** Declarative typing rules of the constraint language, independent of the type
    checker's code. *)
From Coq Require Import String List ZArith.
From Verif Require Import Base Token Ast Info.
Import ListNotations.
Open Scope string_scope.

(** * Conversions *)
(** The match types of width [w]. *)
Inductive match_type (w : Z) : ty -> Prop :=
| mt_exact : match_type w (TExact w)
| mt_ternary : match_type w (TTernary w)
| mt_lpm : match_type w (TLpm w)
| mt_range : match_type w (TRange w)
| mt_optional : match_type w (TOptional w).
(** Single conversions: the diagram at type_checker.cc:80-84. *)
Inductive step : ty -> ty -> Prop :=
| step_int w : step TInt (TBit w)
| step_bit w t : match_type w t -> step (TBit w) t.
(** Conversions, also over several steps. *)
Inductive below : ty -> ty -> Prop :=
| below_step a b : step a b -> below a b
| below_trans a b c : below a b -> below b c -> below a c.
Definition convertible (a b : ty) : Prop := a = b \/ below a b.
(** [c] is the least common type of [a] and [b]. *)
Definition common (a b c : ty) : Prop :=
  convertible a c /\ convertible b c /\ forall d, convertible a d -> convertible b d -> convertible c d.

(** * Typing *)
(** What names mean: keys in table constraints, parameters in action constraints. *)
Inductive scope :=
| InTable (keys : list (string * key_info))
| InAction (params : list (string * key_info)).
Definition declared (l : list (string * key_info)) (n : string) (t : ty) : Prop :=
  exists k, In (n, k) l /\ k_type k = t.
Definition usable (t : ty) : Prop := t <> TUnknown /\ forall n, t <> TUnsupported n.
(** Fields of match types. *)
Inductive has_field : ty -> string -> ty -> Prop :=
| f_exact w : has_field (TExact w) "value" (TBit w)
| f_ternary_v w : has_field (TTernary w) "value" (TBit w)
| f_ternary_m w : has_field (TTernary w) "mask" (TBit w)
| f_lpm_v w : has_field (TLpm w) "value" (TBit w)
| f_lpm_p w : has_field (TLpm w) "prefix_length" TInt
| f_range_l w : has_field (TRange w) "low" (TBit w)
| f_range_h w : has_field (TRange w) "high" (TBit w)
| f_optional_v w : has_field (TOptional w) "value" (TBit w)
| f_optional_m w : has_field (TOptional w) "mask" (TBit w).
Inductive connective : binop -> Prop := c_and : connective OAND | c_or : connective OOR | c_implies : connective OIMPLIES.
Inductive equality : binop -> Prop := c_eq : equality OEQ | c_ne : equality ONE.
Inductive ordering : binop -> Prop := c_lt : ordering OLT | c_le : ordering OLE | c_gt : ordering OGT | c_ge : ordering OGE.
(** Types with an order. *)
Inductive has_order : ty -> Prop :=
| o_int : has_order TInt | o_bit w : has_order (TBit w) | o_exact w : has_order (TExact w).

(** [Typed G e t]: in scope [G] the constraint [e], without casts, has type [t]. *)
Inductive Typed (G : scope) : expr -> ty -> Prop :=
| T_bool m b : Typed G (EBool m b) TBool
| T_int m s : Typed G (EInt m s) TInt
| T_key keys m n t : G = InTable keys -> declared keys n t -> usable t -> Typed G (EKey m n) t
| T_param params m n t : G = InAction params -> declared params n t -> usable t -> Typed G (EParam m n) t
| T_attr m : Typed G (EAttr m "priority") TInt
| T_not m e : Typed G e TBool -> Typed G (ENot m e) TBool
| T_neg m e : Typed G e TInt -> Typed G (ENeg m e) TInt
| T_conn m o a b : connective o -> Typed G a TBool -> Typed G b TBool -> Typed G (EBin m o a b) TBool
| T_eq m o a b ta tb t : equality o -> Typed G a ta -> Typed G b tb -> common ta tb t -> Typed G (EBin m o a b) TBool
| T_ord m o a b ta tb t : ordering o -> Typed G a ta -> Typed G b tb -> common ta tb t -> has_order t ->
    Typed G (EBin m o a b) TBool
| T_field m f e t t' : Typed G e t -> has_field t f t' -> Typed G (EField m f e) t'.

(** * Annotated trees *)
(** The tree without casts and types. *)
Fixpoint bare (e : expr) : expr :=
  let s m := mkMeta (m_start m) (m_end m) TNotSet in
  match e with
  | EBool m b => EBool (s m) b
  | EInt m x => EInt (s m) x
  | EKey m n => EKey (s m) n
  | EParam m n => EParam (s m) n
  | ENot m a => ENot (s m) (bare a)
  | ENeg m a => ENeg (s m) (bare a)
  | ECast _ a => bare a
  | EBin m o a b => EBin (s m) o (bare a) (bare b)
  | EField m f a => EField (s m) f (bare a)
  | EAttr m n => EAttr (s m) n
  | ENotSet m => ENotSet (s m)
  end.
(** [Annotated G e]: every node of [e] carries its type; operands of comparisons
    have the same type; casts are single conversions, located at their operand. *)
Inductive Annotated (G : scope) : expr -> Prop :=
| A_bool m b : m_type m = TBool -> Annotated G (EBool m b)
| A_int m s : m_type m = TInt -> Annotated G (EInt m s)
| A_key keys m n : G = InTable keys -> declared keys n (m_type m) -> usable (m_type m) -> Annotated G (EKey m n)
| A_param params m n : G = InAction params -> declared params n (m_type m) -> usable (m_type m) -> Annotated G (EParam m n)
| A_attr m : m_type m = TInt -> Annotated G (EAttr m "priority")
| A_not m e : m_type m = TBool -> Annotated G e -> e_type e = TBool -> Annotated G (ENot m e)
| A_neg m e : m_type m = TInt -> Annotated G e -> e_type e = TInt -> Annotated G (ENeg m e)
| A_cast m e : Annotated G e -> step (e_type e) (m_type m) -> m_start m = e_start e -> m_end m = e_end e ->
    Annotated G (ECast m e)
| A_conn m o a b : m_type m = TBool -> connective o -> Annotated G a -> Annotated G b ->
    e_type a = TBool -> e_type b = TBool -> Annotated G (EBin m o a b)
| A_eq m o a b : m_type m = TBool -> equality o -> Annotated G a -> Annotated G b -> e_type a = e_type b ->
    Annotated G (EBin m o a b)
| A_ord m o a b : m_type m = TBool -> ordering o -> Annotated G a -> Annotated G b -> e_type a = e_type b ->
    has_order (e_type a) -> Annotated G (EBin m o a b)
| A_field m f e : Annotated G e -> has_field (e_type e) f (m_type m) -> Annotated G (EField m f e).
(** A cast occurs somewhere in the tree. *)
Inductive has_cast : expr -> Prop :=
| hc_here m e : has_cast (ECast m e)
| hc_not m e : has_cast e -> has_cast (ENot m e)
| hc_neg m e : has_cast e -> has_cast (ENeg m e)
| hc_left m o a b : has_cast a -> has_cast (EBin m o a b)
| hc_right m o a b : has_cast b -> has_cast (EBin m o a b)
| hc_field m f e : has_cast e -> has_cast (EField m f e).

(** The two ways to call the type checker. *)
Inductive in_scope : option action_info -> option table_info -> scope -> Prop :=
| is_table t : NoDup (map fst (ti_keys_by_name t)) -> in_scope None (Some t) (InTable (ti_keys_by_name t))
| is_action a : NoDup (map fst (ai_params_by_name a)) -> in_scope (Some a) None (InAction (ai_params_by_name a)).
