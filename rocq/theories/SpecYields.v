(** What an arbitrary constraint tree evaluates to, whether or not a type checker has
    seen it: every part that is reached must have a value that fits its type label. *)
From Coq Require Import String List ZArith Bool.
From Verif Require Import Base Num Token Ast Info Interpreter SpecTyping SpecSemantics.
Import ListNotations.
Open Scope string_scope.

(** Conversion of a number to a type. *)
Inductive becomes : Z -> ty -> value -> Prop :=
| be_bit z w : (0 <= w)%Z -> becomes z (TBit w) (VInt (z mod 2 ^ w))
| be_exact z w : becomes z (TExact w) (VExact z)
| be_ternary z w : (0 <= w)%Z -> becomes z (TTernary w) (VTernary z (2 ^ w - 1))
| be_optional z w : (0 <= w)%Z -> becomes z (TOptional w) (VTernary z (2 ^ w - 1))
| be_lpm z w : becomes z (TLpm w) (VLpm z w)
| be_range z w : becomes z (TRange w) (VRange z z).
(** Connectives, from the left: the right operand may not matter. *)
Inductive settled : binop -> bool -> bool -> Prop :=
| se_and : settled OAND false false
| se_or : settled OOR true true
| se_implies : settled OIMPLIES false true.
Inductive left_open : binop -> bool -> Prop :=
| lo_and : left_open OAND true
| lo_or : left_open OOR false
| lo_implies : left_open OIMPLIES true.

Section Yields.
  Variable r : env.
  Inductive Yields : expr -> value -> Prop :=
  | yi_bool m b : of_type (m_type m) (VBool b) -> Yields (EBool m b) (VBool b)
  | yi_int m s z : mpz_set_str s 10 = Some z -> of_type (m_type m) (VInt z) -> Yields (EInt m s) (VInt z)
  | yi_key m n v key p : r = TableEnv key p -> key n = Some v -> of_type (m_type m) v -> Yields (EKey m n) v
  | yi_param m n z param : r = ActionEnv param -> param n = Some z -> of_type (m_type m) (VInt z) -> Yields (EParam m n) (VInt z)
  | yi_attr m key p : r = TableEnv key p -> of_type (m_type m) (VInt p) -> Yields (EAttr m "priority") (VInt p)
  | yi_not m e b : Yields e (VBool b) -> of_type (m_type m) (VBool (negb b)) -> Yields (ENot m e) (VBool (negb b))
  | yi_neg m e z : Yields e (VInt z) -> of_type (m_type m) (VInt (- z)) -> Yields (ENeg m e) (VInt (- z))
  | yi_cast m e z v : Yields e (VInt z) -> becomes z (m_type m) v -> Yields (ECast m e) v
  | yi_eq m o a b u v x : equality o -> Yields a u -> Yields b v -> (x = true <-> Compares o u v) -> of_type (m_type m) (VBool x) -> Yields (EBin m o a b) (VBool x)
  | yi_ord m o a b u v x : ordering o -> Yields a (VInt u) -> Yields b (VInt v) -> (x = true <-> Compares o (VInt u) (VInt v)) -> of_type (m_type m) (VBool x) -> Yields (EBin m o a b) (VBool x)
  | yi_left m o a b x y : Yields a (VBool x) -> settled o x y -> of_type (m_type m) (VBool y) -> Yields (EBin m o a b) (VBool y)
  | yi_right m o a b x y : Yields a (VBool x) -> left_open o x -> Yields b (VBool y) -> of_type (m_type m) (VBool y) -> Yields (EBin m o a b) (VBool y)
  | yi_field m f e v z : Yields e v -> Field f v z -> of_type (m_type m) (VInt z) -> Yields (EField m f e) (VInt z).
End Yields.

(** What a caller provides besides the tree: values for the names. *)
Inductive provides : ctx_value -> env -> Prop :=
| pr_table name prio keys : provides (CtxTable name prio keys) (TableEnv (fun n => assoc_find String.eqb n keys) prio)
| pr_action i name params : provides (CtxAction i name params) (ActionEnv (fun n => assoc_find String.eqb n params)).
(** Reasons for which evaluating a tree may crash: a conversion to a negative width, or a part that cannot be quoted. *)
Inductive hazard (unquotable : loc -> loc -> Prop) : expr -> Prop :=
| hz_cast m e w : width (m_type m) w -> (w < 0)%Z -> hazard unquotable (ECast m e)
| hz_quote e : unquotable (e_start e) (e_end e) -> hazard unquotable e.
