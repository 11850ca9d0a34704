(** The fragment of Z3 (through z3++.h) that symbolic_interpreter.cc uses: sorts,
    terms, the z3++ overloads that build them, their standard SMT-LIB meaning,
    models and the printing of bit-vector values. Z3 is not part of /repo; this
    file is part of the trusted base. *)
From Coq Require Import String Ascii List ZArith NArith Bool.
From Verif Require Import Base Num.
Import ListNotations.
Open Scope Z_scope.

(** z3::sort: Booleans, integers, bit-vectors of w bits. *)
Inductive sort := SBool | SInt | SBV (w : Z).
(** Equality of sorts. *)
Definition sort_eqb (a b : sort) : bool :=
  match a, b with
  | SBool, SBool | SInt, SInt => true
  | SBV v, SBV w => Z.eqb v w
  | _, _ => false
  end.

(** The four ordered comparisons. *)
Inductive icmp := ILe | ILt | IGe | IGt.

(** z3::expr. *)
Inductive term :=
| ZBoolVal (b : bool)
| ZIntVal (z : Z)
| ZBVVal (w v : Z)                     (* v is reduced modulo 2^w when evaluated *)
| ZConst (name : string) (s : sort)
| ZEq (a b : term)
| ZDistinct (a b : term)
| ZNot (a : term)
| ZAnd (a b : term)
| ZOr (a b : term)
| ZImplies (a b : term)
| ZICmp (c : icmp) (a b : term)        (* Z3_mk_le etc. *)
| ZSCmp (c : icmp) (a b : term)        (* Z3_mk_bvsle etc.: SIGNED comparison *)
| ZNeg (a : term)                      (* Z3_mk_unary_minus *)
| ZBVNeg (a : term)                    (* Z3_mk_bvneg *)
| ZSub (a b : term)
| ZInt2BV (w : Z) (a : term)
| ZBVAnd (a b : term)
| ZShl (a b : term)
| ZLshr (a b : term).

(** z3::expr::get_sort(). *)
Fixpoint sort_of (t : term) : sort :=
  match t with
  | ZBoolVal _ => SBool
  | ZIntVal _ => SInt
  | ZBVVal w _ => SBV w
  | ZConst _ s => s
  | ZEq _ _ | ZDistinct _ _ | ZNot _ | ZAnd _ _ | ZOr _ _ | ZImplies _ _
  | ZICmp _ _ _ | ZSCmp _ _ _ => SBool
  | ZNeg _ | ZSub _ _ => SInt
  | ZBVNeg a => sort_of a
  | ZInt2BV w _ => SBV w
  | ZBVAnd a _ | ZShl a _ | ZLshr a _ => sort_of a
  end.

(** The z3++ overloads. On a sort mismatch Z3 reports an error, which z3++ turns
    into an exception (check_error), or an assertion of z3++ fails. *)
Definition sort_error {A} : outcome A := Crash Z3Exception.
(** operator==(expr, expr), operator!=(expr, expr). *)
Definition z3_eq (a b : term) : outcome term :=
  if sort_eqb (sort_of a) (sort_of b) then Ok (ZEq a b) else sort_error.
(** operator!=(expr, expr). *)
Definition z3_ne (a b : term) : outcome term :=
  if sort_eqb (sort_of a) (sort_of b) then Ok (ZDistinct a b) else sort_error.
(** operator<, <=, >, >=: Z3_mk_lt ... on integers, Z3_mk_bvslt ... on bit-vectors. *)
Definition z3_cmp (c : icmp) (a b : term) : outcome term :=
  match sort_of a, sort_of b with
  | SInt, SInt => Ok (ZICmp c a b)
  | SBV v, SBV w => if Z.eqb v w then Ok (ZSCmp c a b) else sort_error
  | _, _ => sort_error
  end.
(** z3::expr::is_bool(). *)
Definition is_sbool (t : term) : bool := sort_eqb (sort_of t) SBool.
(** operator&&(expr, expr). *)
Definition z3_and (a b : term) : outcome term :=
  if is_sbool a && is_sbool b then Ok (ZAnd a b) else sort_error.
(** operator||(expr, expr). *)
Definition z3_or (a b : term) : outcome term :=
  if is_sbool a && is_sbool b then Ok (ZOr a b) else sort_error.
(** z3::implies(expr, expr). *)
Definition z3_implies (a b : term) : outcome term :=
  if is_sbool a && is_sbool b then Ok (ZImplies a b) else sort_error.
(** operator!(expr). *)
Definition z3_not (a : term) : outcome term :=
  if is_sbool a then Ok (ZNot a) else sort_error.
(** operator-(expr): Z3_mk_unary_minus on integers, Z3_mk_bvneg on bit-vectors. *)
Definition z3_minus (a : term) : outcome term :=
  match sort_of a with
  | SInt => Ok (ZNeg a)
  | SBV _ => Ok (ZBVNeg a)
  | SBool => sort_error
  end.
(** z3::int2bv(n, a); z3++ converts the int n to unsigned. Widths <= 0 are not
    valid bit-vector widths (negative ones become huge): treated as failure. *)
Definition z3_int2bv (w : Z) (a : term) : outcome term :=
  if Z.ltb 0 w && sort_eqb (sort_of a) SInt then Ok (ZInt2BV w a) else sort_error.
(** context::bv_val(int, unsigned). *)
Definition z3_bv_val (v w : Z) : outcome term :=
  if Z.ltb 0 w then Ok (ZBVVal w v) else sort_error.
(** context::bv_const(name, width), int_const(name): the C
    string ends at the first NUL. *)
Definition z3_bv_const (name : string) (w : Z) : outcome term :=
  if Z.ltb 0 w then Ok (ZConst (c_str name) (SBV w)) else sort_error.
(** context::int_const(name). *)
Definition z3_int_const (name : string) : term := ZConst (c_str name) SInt.
(** context::int_val(text): Z3_mk_numeral. Simplified to what mpz_set_str
    accepts (the argument is always a canonical decimal). *)
Definition z3_int_val (s : string) : outcome term :=
  match mpz_set_str s 10 with
  | Some z => Ok (ZIntVal z)
  | None => sort_error
  end.

(** Values. *)
Inductive zval := VB (b : bool) | VI (z : Z) | VV (w v : Z).
(** The meaning of a constant symbol of a given sort. *)
Definition assignment := string -> sort -> zval.

(** The Boolean of a value. *)
Definition as_bool (v : zval) : bool := match v with VB b => b | _ => false end.
(** The number of a value; bit-vectors unsigned. *)
Definition as_int (v : zval) : Z := match v with VI z => z | VV _ z => z | VB _ => 0 end.
(** The width of a bit-vector value. *)
Definition as_width (v : zval) : Z := match v with VV w _ => w | _ => 0 end.
(** Two's complement reading of a w-bit value. *)
Definition signed (w v : Z) : Z := if Z.ltb v (2 ^ (w - 1)) then v else v - 2 ^ w.
(** Equality of values. *)
Definition zval_eqb (a b : zval) : bool :=
  match a, b with
  | VB x, VB y => Bool.eqb x y
  | VI x, VI y => Z.eqb x y
  | VV v x, VV w y => Z.eqb v w && Z.eqb x y
  | _, _ => false
  end.
(** The meaning of the four comparisons. *)
Definition icmp_holds (c : icmp) (a b : Z) : bool :=
  match c with ILe => Z.leb a b | ILt => Z.ltb a b | IGe => Z.geb a b | IGt => Z.gtb a b end.

(** SMT-LIB semantics (theories Ints and FixedSizeBitVectors, int2bv modulo 2^w). *)
Fixpoint zeval (m : assignment) (t : term) : zval :=
  match t with
  | ZBoolVal b => VB b
  | ZIntVal z => VI z
  | ZBVVal w v => VV w (v mod 2 ^ w)
  | ZConst n s => m n s
  | ZEq a b => VB (zval_eqb (zeval m a) (zeval m b))
  | ZDistinct a b => VB (negb (zval_eqb (zeval m a) (zeval m b)))
  | ZNot a => VB (negb (as_bool (zeval m a)))
  | ZAnd a b => VB (as_bool (zeval m a) && as_bool (zeval m b))
  | ZOr a b => VB (as_bool (zeval m a) || as_bool (zeval m b))
  | ZImplies a b => VB (implb (as_bool (zeval m a)) (as_bool (zeval m b)))
  | ZICmp c a b => VB (icmp_holds c (as_int (zeval m a)) (as_int (zeval m b)))
  | ZSCmp c a b =>
      let va := zeval m a in let vb := zeval m b in
      VB (icmp_holds c (signed (as_width va) (as_int va)) (signed (as_width vb) (as_int vb)))
  | ZNeg a => VI (- as_int (zeval m a))
  | ZBVNeg a => let v := zeval m a in VV (as_width v) ((- as_int v) mod 2 ^ as_width v)
  | ZSub a b => VI (as_int (zeval m a) - as_int (zeval m b))
  | ZInt2BV w a => VV w (as_int (zeval m a) mod 2 ^ w)
  | ZBVAnd a b => let v := zeval m a in VV (as_width v) (Z.land (as_int v) (as_int (zeval m b)))
  | ZShl a b => let v := zeval m a in
                VV (as_width v) (Z.shiftl (as_int v) (as_int (zeval m b)) mod 2 ^ as_width v)
  | ZLshr a b => let v := zeval m a in
                 VV (as_width v) (Z.shiftr (as_int v) (as_int (zeval m b)))
  end.

(** z3::model: an interpretation for some constants. *)
Definition model := string -> sort -> option zval.
(** model.eval(e, /*model_completion=*/true): constants without interpretation
    get a default value of their sort. *)
Definition default_zval (s : sort) : zval :=
  match s with SBool => VB false | SInt => VI 0 | SBV w => VV w 0 end.
(** The assignment that a completed model stands for. *)
Definition complete (m : model) : assignment :=
  fun n s => match m n s with Some v => v | None => default_zval s end.

(** A value of the right sort (bit-vectors in range). *)
Definition has_sort (v : zval) (s : sort) : bool :=
  match v, s with
  | VB _, SBool => true
  | VI _, SInt => true
  | VV w x, SBV w' => Z.eqb w w' && Z.leb 0 x && Z.ltb x (2 ^ w)
  | _, _ => false
  end.

(** solver.check() followed by get_model(): [Some m] is sat, [None] unsat or
    unknown. *)
Definition solver := list term -> option model.

(** expr::to_string of a bit-vector value: hexadecimal if the width is a multiple
    of 4, otherwise binary, always with all digits. *)
Definition bv_to_string (w v : Z) : string :=
  (if Z.eqb (w mod 4) 0 then "#x" ++ pad0 (Z.to_nat (w / 4)) (print_N 16 (Z.to_N v))
   else "#b" ++ bits_string (Z.to_nat w) (Z.to_N v))%string.
