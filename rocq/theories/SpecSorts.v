(** When the solver can make sense of an arbitrary constraint tree, whether or not
    a type checker has seen it: the sorts of the Z3 expressions it stands for. *)
From Coq Require Import String List ZArith Bool.
From Verif Require Import Base Num Token Ast Info Interpreter Z3 Symbolic SpecLexer SpecSolver SpecSymbolic.
Import ListNotations.
Open Scope string_scope.

(** A Z3 expression of a sort, or a match: the sorts of its components. *)
Inductive sorting :=
| One (s : sort)
| Exactly (s : sort)
| Masked (s m : sort)
| Prefixed (s p : sort).
(** Keys of a table. *)
Inductive key_sorting : ty -> sorting -> Prop :=
| kso_exact w : key_sorting (TExact w) (Exactly (SBV w))
| kso_ternary w : key_sorting (TTernary w) (Masked (SBV w) (SBV w))
| kso_optional w : key_sorting (TOptional w) (Masked (SBV w) (SBV w))
| kso_lpm w : key_sorting (TLpm w) (Prefixed (SBV w) SInt).
(** Fields of matches. *)
Inductive component : sorting -> string -> sort -> Prop :=
| co_exact s : component (Exactly s) "value" s
| co_masked s m : component (Masked s m) "value" s
| co_mask s m : component (Masked s m) "mask" m
| co_prefixed s p : component (Prefixed s p) "value" s
| co_length s p : component (Prefixed s p) "prefix_length" p.
(** What a conversion to a type yields. *)
Inductive converted : sort -> ty -> sorting -> Prop :=
| cv_bit w : (0 < w)%Z -> converted SInt (TBit w) (One (SBV w))
| cv_exact s w : converted s (TExact w) (Exactly s)
| cv_ternary s w : (0 < w)%Z -> converted s (TTernary w) (Masked s (SBV w))
| cv_optional s w : (0 < w)%Z -> converted s (TOptional w) (Masked s (SBV w))
| cv_lpm s w : converted s (TLpm w) (Prefixed s SInt).
(** Operators on Z3 expressions of two sorts. *)
Inductive compatible : binop -> sort -> sort -> Prop :=
| cp_eq s : compatible OEQ s s
| cp_ne s : compatible ONE s s
| cp_int o : In o [OLT; OLE; OGT; OGE] -> compatible o SInt SInt
| cp_bits o w : In o [OLT; OLE; OGT; OGE] -> compatible o (SBV w) (SBV w)
| cp_bool o : In o [OAND; OOR; OIMPLIES] -> compatible o SBool SBool.
(** Operators on operands. *)
Inductive combines : binop -> sorting -> sorting -> Prop :=
| cb_one o a b : compatible o a b -> combines o (One a) (One b)
| cb_exact o a b : compatible o a b -> combines o (Exactly a) (Exactly b)
| cb_masked o a m : o = OEQ \/ o = ONE -> combines o (Masked a m) (Masked a m)
| cb_prefixed o a p : o = OEQ \/ o = ONE -> combines o (Prefixed a p) (Prefixed a p).

Section Sorts.
  (** The keys of the table and those the solver was told to leave out. *)
  Variable ks : list key_info.
  Variable skip : string -> outcome bool.
  Definition key_at (n : string) (s : sorting) : Prop := exists k, In k ks /\ live skip k /\ k_name k = n /\ key_sorting (k_type k) s.
  (** The name of the key whose field is accessed: protobuf reads the name of anything else as empty. *)
  Definition name_of (e : expr) : string := match e with EKey _ n => n | _ => "" end.
  Inductive Sorts : expr -> sorting -> Prop :=
  | so_bool m b : Sorts (EBool m b) (One SBool)
  | so_int m s n : mpz_set_str s 10 = Some n -> Sorts (EInt m s) (One SInt)
  | so_key m n s : key_at n s -> Sorts (EKey m n) s
  | so_attr m : prioritized ks -> Sorts (EAttr m "priority") (One SInt)
  | so_not m e : Sorts e (One SBool) -> Sorts (ENot m e) (One SBool)
  | so_neg_int m e : Sorts e (One SInt) -> Sorts (ENeg m e) (One SInt)
  | so_neg_bits m e w : Sorts e (One (SBV w)) -> Sorts (ENeg m e) (One (SBV w))
  | so_cast m e s c : Sorts e (One s) -> converted s (m_type m) c -> Sorts (ECast m e) c
  | so_field m f e s c : key_at (name_of e) s -> component s f c -> Sorts (EField m f e) (One c)
  | so_bin m o a b s u : Sorts a s -> Sorts b u -> combines o s u -> Sorts (EBin m o a b) (One SBool).

  (** Operands of which Z3 is asked for something it does not have. *)
  Inductive clash : binop -> sorting -> sorting -> Prop :=
  | cl_one o a b : o <> UNKNOWN_OPERATOR -> ~ compatible o a b -> clash o (One a) (One b)
  | cl_exact o a b : o <> UNKNOWN_OPERATOR -> ~ compatible o a b -> clash o (Exactly a) (Exactly b)
  | cl_masked o a m b n : o = OEQ \/ o = ONE -> (a, m) <> (b, n) -> clash o (Masked a m) (Masked b n)
  | cl_prefixed o a p b q : o = OEQ \/ o = ONE -> (a, p) <> (b, q) -> clash o (Prefixed a p) (Prefixed b q).
  (** What is wrong with a subexpression. *)
  Inductive reason :=
  | NoSuchOperation          (* Z3 is asked for something it does not have *)
  | Missing                  (* a key or attribute the solver does not know *)
  | Unsupported              (* parameters of actions, conversions to ranges *)
  | Invalid                  (* none of the forms the language has *)
  | Misused (e : expr).      (* [e] is a match where an expression is needed *)
  Definition single (s : sorting) : Prop := exists a, s = One a.
  (** Expressions that are wrong although their operands are in order. *)
  Inductive wrong : expr -> reason -> Prop :=
  | wr_int m s : mpz_set_str s 10 = None -> wrong (EInt m s) NoSuchOperation
  | wr_key m n : (forall s, ~ key_at n s) -> wrong (EKey m n) Missing
  | wr_param m n : wrong (EParam m n) Unsupported
  | wr_attr m n : n <> "priority" \/ ~ prioritized ks -> wrong (EAttr m n) Missing
  | wr_unset m : wrong (ENotSet m) Invalid
  | wr_not m e s : Sorts e (One s) -> s <> SBool -> wrong (ENot m e) NoSuchOperation
  | wr_not_match m e s : Sorts e s -> ~ single s -> wrong (ENot m e) (Misused e)
  | wr_neg m e : Sorts e (One SBool) -> wrong (ENeg m e) NoSuchOperation
  | wr_neg_match m e s : Sorts e s -> ~ single s -> wrong (ENeg m e) (Misused e)
  | wr_cast_match m e s : Sorts e s -> ~ single s -> wrong (ECast m e) (Misused e)
  | wr_cast_bit m e w s : Sorts e (One s) -> m_type m = TBit w -> (s <> SInt \/ w <= 0)%Z -> wrong (ECast m e) NoSuchOperation
  | wr_cast_mask m e w s : Sorts e (One s) -> m_type m = TTernary w \/ m_type m = TOptional w -> (w <= 0)%Z -> wrong (ECast m e) NoSuchOperation
  | wr_cast_range m e w s : Sorts e (One s) -> m_type m = TRange w -> wrong (ECast m e) Unsupported
  | wr_cast m e s : Sorts e (One s) -> TypeBitwidth (m_type m) = None -> wrong (ECast m e) Invalid
  | wr_field_key m f e : (forall s, ~ key_at (name_of e) s) -> wrong (EField m f e) Missing
  | wr_field m f e s : key_at (name_of e) s -> (forall c, ~ component s f c) -> wrong (EField m f e) Invalid
  | wr_bin m o a b s u : Sorts a s -> Sorts b u -> clash o s u -> wrong (EBin m o a b) NoSuchOperation
  | wr_bin_form m o a b s u : Sorts a s -> Sorts b u -> ~ combines o s u -> ~ clash o s u -> wrong (EBin m o a b) Invalid.
  (** The first wrong subexpression: operands before operators, left before right. *)
  Inductive FirstWrong : expr -> reason -> Prop :=
  | fw_here e r : wrong e r -> FirstWrong e r
  | fw_not m e r : FirstWrong e r -> FirstWrong (ENot m e) r
  | fw_neg m e r : FirstWrong e r -> FirstWrong (ENeg m e) r
  | fw_cast m e r : FirstWrong e r -> FirstWrong (ECast m e) r
  | fw_left m o a b r : FirstWrong a r -> FirstWrong (EBin m o a b) r
  | fw_right m o a b s r : Sorts a s -> FirstWrong b r -> FirstWrong (EBin m o a b) r.
  (** A constraint that can be used, and what is wrong with one that cannot be used. *)
  Definition constrains (e : expr) : Prop := e_type e = TBool /\ Sorts e (One SBool).
  Inductive Flaw : expr -> reason -> Prop :=
  | fl_type e : e_type e <> TBool -> Flaw e Invalid
  | fl_in e r : e_type e = TBool -> FirstWrong e r -> Flaw e r
  | fl_match e s : e_type e = TBool -> Sorts e s -> ~ single s -> Flaw e (Misused e)
  | fl_sort e s : e_type e = TBool -> Sorts e (One s) -> s <> SBool -> Flaw e NoSuchOperation.
End Sorts.

(** What the caller sees. *)
Definition seen {A} (src : csource) (r : reason) (o : outcome A) : Prop :=
  match r with
  | NoSuchOperation => o = Crash Z3Exception
  | Missing => exists m, o = Err NotFound m
  | Unsupported => exists m, o = Err Unimplemented m
  | Invalid => exists m, o = Err InvalidArgument m
  | Misused e => o = RuntimeTypeError src e "Expected an expression that evaluates to a "
  end.
