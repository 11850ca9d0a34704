(** What "an expression a failed type check leaves behind" is measured against. *)
From Coq Require Import String List.
From Verif Require Import Base Token Ast Info InPlace SpecTyping.

(** [retyped e e']: the same tree, apart from the types written on its nodes. Nodes
    without a case carry no information and are compared as they are. *)
Definition same_place (m m' : meta) : Prop := m_start m = m_start m' /\ m_end m = m_end m'.
Inductive retyped : expr -> expr -> Prop :=
| rt_bool m m' b : same_place m m' -> retyped (EBool m b) (EBool m' b)
| rt_int m m' s : same_place m m' -> retyped (EInt m s) (EInt m' s)
| rt_key m m' n : same_place m m' -> retyped (EKey m n) (EKey m' n)
| rt_param m m' n : same_place m m' -> retyped (EParam m n) (EParam m' n)
| rt_not m m' a a' : same_place m m' -> retyped a a' -> retyped (ENot m a) (ENot m' a')
| rt_neg m m' a a' : same_place m m' -> retyped a a' -> retyped (ENeg m a) (ENeg m' a')
| rt_cast m m' a a' : same_place m m' -> retyped a a' -> retyped (ECast m a) (ECast m' a')
| rt_bin m m' o a a' b b' : same_place m m' -> retyped a a' -> retyped b b' -> retyped (EBin m o a b) (EBin m' o a' b')
| rt_field m m' f a a' : same_place m m' -> retyped a a' -> retyped (EField m f a) (EField m' f a')
| rt_attr m m' n : same_place m m' -> retyped (EAttr m n) (EAttr m' n)
| rt_unset m : retyped (ENotSet m) (ENotSet m).

(** Calling the type checker on [e] with one declaration reports success. *)
Definition accepted (ai : option action_info) (ti : option table_info) (e : expr) : Prop :=
  fst (InferInPlace ai ti e) = Ok tt.
(** What the caller holds afterwards. *)
Definition left_with (ai : option action_info) (ti : option table_info) (e : expr) : expr :=
  snd (InferInPlace ai ti e).

(** * Where a failed check stops *)
(** [finished G e e']: [e] has been checked; [e'] carries all its types and casts. *)
Definition finished (G : scope) (e e' : expr) : Prop := bare e' = bare e /\ Annotated G e'.
Definition write (t : ty) (m : meta) : meta := mkMeta (m_start m) (m_end m) t.
(** The names a scope declares for keys and for parameters. *)
Definition names_key (G : scope) (n : string) (t : ty) : Prop := exists keys, G = InTable keys /\ declared keys n t.
Definition names_param (G : scope) (n : string) (t : ty) : Prop := exists params, G = InAction params /\ declared params n t.

(** [stopped G e e']: a check from left to right, operands first, went wrong in [e] and
    left [e']: what comes before that place is finished, the nodes above it and all that
    comes after it are as they were. *)
Inductive stopped (G : scope) : expr -> expr -> Prop :=
| st_key m n : (forall t, ~ names_key G n t) -> stopped G (EKey m n) (EKey m n)
| st_key_type m n t : names_key G n t -> ~ usable t -> stopped G (EKey m n) (EKey (write t m) n)
| st_param m n : (forall t, ~ names_param G n t) -> stopped G (EParam m n) (EParam m n)
| st_param_type m n t : names_param G n t -> ~ usable t -> stopped G (EParam m n) (EParam (write t m) n)
| st_attr m n : n <> "priority"%string -> stopped G (EAttr m n) (EAttr m n)
| st_cast m e : stopped G (ECast m e) (ECast m e)
| st_unset m : stopped G (ENotSet m) (ENotSet m)
| st_not_in m e e' : stopped G e e' -> stopped G (ENot m e) (ENot m e')
| st_not m e e' : finished G e e' -> e_type e' <> TBool -> stopped G (ENot m e) (ENot m e')
| st_neg_in m e e' : stopped G e e' -> stopped G (ENeg m e) (ENeg m e')
| st_neg m e e' : finished G e e' -> e_type e' <> TInt -> stopped G (ENeg m e) (ENeg m e')
| st_field_in m f e e' : stopped G e e' -> stopped G (EField m f e) (EField m f e')
| st_field m f e e' : finished G e e' -> (forall t, ~ has_field (e_type e') f t) -> stopped G (EField m f e) (EField m f e')
| st_left m o a b a' : stopped G a a' -> stopped G (EBin m o a b) (EBin m o a' b)
| st_right m o a b a' b' : finished G a a' -> stopped G b b' -> stopped G (EBin m o a b) (EBin m o a' b')
| st_conn m o a b a' b' : connective o -> finished G a a' -> finished G b b' ->
    ~ (e_type a' = TBool /\ e_type b' = TBool) -> stopped G (EBin m o a b) (EBin m o a' b')
| st_unify m o a b a' b' : equality o \/ ordering o -> finished G a a' -> finished G b b' ->
    (forall t, ~ common (e_type a') (e_type b') t) -> stopped G (EBin m o a b) (EBin m o a' b')
| st_order m o a b a' b' : ordering o -> finished G a a' -> finished G b b' ->
    e_type a' = e_type b' -> ~ has_order (e_type a') -> stopped G (EBin m o a b) (EBin m o a' b')
| st_operator m a b a' b' : finished G a a' -> finished G b b' ->
    stopped G (EBin m UNKNOWN_OPERATOR a b) (EBin m UNKNOWN_OPERATOR a' b').
