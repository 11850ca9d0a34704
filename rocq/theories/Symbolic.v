(** Model of p4_constraints/backend/symbolic_interpreter.{h,cc}. Texts of Z3
    expressions and DebugStrings in error messages are not modelled. *)
From Coq Require Import String Ascii List ZArith NArith Bool.
From Verif Require Import Base Num Token Ast Quote AstConstructors Parser Info TypeChecker Interpreter Z3.
Import ListNotations.
Open Scope string_scope.

(** symbolic_interpreter.h:49-83. *)
Inductive symbolic_key :=
| SymExact (v : term)
| SymTernary (v m : term)
| SymLpm (v plen : term).

(** symbolic_interpreter.h:85-89. *)
Record sym_env := mkEnv {
  se_keys : list (string * symbolic_key);
  se_attrs : list (string * term) }.

(** symbolic_interpreter.h, SymbolicEvalResult. *)
Inductive sym_result := RKey (k : symbolic_key) | RTerm (t : term).

(** gutils/collections.h:27-33, FindPtrOrStatus. *)
Definition FindPtrOrStatus {V} (m : list (string * V)) (k : string) : outcome V :=
  match assoc_find String.eqb k m with
  | Some v => Ok v
  | None => Err NotFound ("Key not found: '" ++ k ++ "'")
  end.

(** symbolic_interpreter.cc:54-77. *)
Definition GetFieldAccess (k : symbolic_key) (field : string) : outcome term :=
  match k with
  | SymExact v =>
      if String.eqb field "value" then Ok v
      else Err InvalidArgument ("Exact has no field '" ++ field ++ "'")
  | SymTernary v m =>
      if String.eqb field "value" then Ok v
      else if String.eqb field "mask" then Ok m
      else Err InvalidArgument ("Ternary has no field " ++ dq ++ field ++ dq)
  | SymLpm v p =>
      if String.eqb field "value" then Ok v
      else if String.eqb field "prefix_length" then Ok p
      else Err InvalidArgument ("LPM has no field " ++ dq ++ field ++ dq)
  end.

(** symbolic_interpreter.cc:824-834. *)
Definition GetValue (k : symbolic_key) := GetFieldAccess k "value".
(** symbolic_interpreter.cc:828-830. *)
Definition GetMask (k : symbolic_key) := GetFieldAccess k "mask".
(** symbolic_interpreter.cc:832-834. *)
Definition GetPrefixLength (k : symbolic_key) := GetFieldAccess k "prefix_length".

(** symbolic_interpreter.cc:142-171, on z3 expressions. *)
Definition bin_terms (l : term) (op : binop) (r : term) : outcome term :=
  match op with
  | OEQ => z3_eq l r
  | ONE => z3_ne l r
  | OGT => z3_cmp IGt l r
  | OGE => z3_cmp IGe l r
  | OLT => z3_cmp ILt l r
  | OLE => z3_cmp ILe l r
  | OAND => z3_and l r
  | OOR => z3_or l r
  | OIMPLIES => z3_implies l r
  | UNKNOWN_OPERATOR => Err InvalidArgument "got invalid binary operation: 0"
  end.

(** symbolic_interpreter.cc:132-138, EnsureBinopIsEqualsOrNotEquals. *)
Definition eq_or_ne (op : binop) : outcome unit :=
  match op with
  | OEQ | ONE => Ok tt
  | _ => Err InvalidArgument "Expected binary operation to be EQ or NE, but got: "
  end.

(** symbolic_interpreter.cc:179-197 and 199-218: two components. *)
Definition bin_pair (a1 a2 : term) (op : binop) (b1 b2 : term) : outcome term :=
  check* eq_or_ne op;
  let* x := bin_terms a1 op b1 in
  let* y := bin_terms a2 op b2 in
  match op with ONE => z3_or x y | _ => z3_and x y end.

(** symbolic_interpreter.cc:173-177, 220-233: on symbolic keys. *)
Definition bin_keys (l : symbolic_key) (op : binop) (r : symbolic_key) : outcome term :=
  match l, r with
  | SymExact a, SymExact b => bin_terms a op b
  | SymTernary a m, SymTernary b n => bin_pair a m op b n
  | SymLpm a p, SymLpm b q => bin_pair a p op b q
  | _, _ => Err InvalidArgument "Expected key1 and key2 to have the same type, but got: "
  end.

(** symbolic_interpreter.cc:235-249: on evaluation results. *)
Definition bin_results (l : sym_result) (op : binop) (r : sym_result) : outcome term :=
  match l, r with
  | RTerm a, RTerm b => bin_terms a op b
  | RKey a, RKey b => bin_keys a op b
  | _, _ => Err InvalidArgument "Expected expr1 and expr2 to have the same result type, but got: "
  end.

(** symbolic_interpreter.cc:251-302, EvalTypeCast. *)
Definition EvalTypeCast (t : term) (to : ty) : outcome sym_result :=
  let* w := annotate (TypeBitwidthOrStatus to)
              ("expressions can only be cast to types with bitwidths, but got: " ++ TypeName to) in
  match to with
  | TBit _ => let* r := z3_int2bv w t in Ok (RTerm r)
  | TExact _ => Ok (RKey (SymExact t))
  | TOptional _ | TTernary _ => let* m := z3_bv_val (-1) w in Ok (RKey (SymTernary t m))
  | TLpm _ => Ok (RKey (SymLpm t (ZIntVal w)))
  | TRange _ => Err Unimplemented
      "Range matches are not currently supported by the p4-constraints symbolic representation."
  | _ => Err InvalidArgument ("cannot cast expression to type " ++ TypeName to)
  end.

(** symbolic_interpreter.cc:309-327, EvalSymbolicallyTo<z3::expr>, after evaluation. *)
Definition to_term (src : csource) (e : expr) (r : sym_result) : outcome term :=
  match r with
  | RTerm t => Ok t
  | RKey _ => RuntimeTypeError src e "Expected an expression that evaluates to a "
  end.

(** symbolic_interpreter.cc:329-412, EvalSymbolically. *)
Fixpoint EvalSymbolically (env : sym_env) (src : csource) (e : expr) : outcome sym_result :=
  match e with
  | EBool _ b => Ok (RTerm (ZBoolVal b))
  | ENot _ a =>
      let* r := EvalSymbolically env src a in
      let* t := to_term src a r in
      let* t' := z3_not t in Ok (RTerm t')
  | EInt _ s => let* t := z3_int_val s in Ok (RTerm t)
  | ENeg _ a =>
      let* r := EvalSymbolically env src a in
      let* t := to_term src a r in
      let* t' := z3_minus t in Ok (RTerm t')
  | EKey _ k => let* sk := FindPtrOrStatus (se_keys env) k in Ok (RKey sk)
  | EParam _ _ => Err Unimplemented "TODO: b/293656077 - Support action constraints"
  | EField _ field a =>
      let* sk := FindPtrOrStatus (se_keys env) (e_key a) in
      let* t := GetFieldAccess sk field in Ok (RTerm t)
  | EAttr _ name => let* t := FindPtrOrStatus (se_attrs env) name in Ok (RTerm t)
  | EBin _ op l r =>
      let* rl := EvalSymbolically env src l in
      let* rr := EvalSymbolically env src r in
      let* t := bin_results rl op rr in Ok (RTerm t)
  | ECast m a =>
      let* r := EvalSymbolically env src a in
      let* t := to_term src a r in
      EvalTypeCast t (m_type m)
  | ENotSet _ => Err InvalidArgument "got invalid expression: "
  end.

(** symbolic_interpreter.cc:667-679, EvaluateConstraintSymbolically. *)
Definition EvaluateConstraintSymbolically (env : sym_env) (src : csource) (e : expr) : outcome term :=
  if negb (is_bool_type (e_type e)) then
    Err InvalidArgument ("expected a constraint of type boolean, but got:" ++ nl)
  else
    let* r := EvalSymbolically env src e in
    to_term src e r.

(** symbolic_interpreter.cc:416-451, BitstringToP4RuntimeBytestring. The loop:
    [acc] is the byte under construction, [n] the number of its bits, [seen]
    whether a non-zero byte was seen. *)
Fixpoint bits_loop (s : string) (acc n : N) (seen : bool) : string :=
  match s with
  | EmptyString => EmptyString
  | String c s' =>
      let acc := ((acc * 2) mod 256 + (if Ascii.eqb c "1" then 1 else 0))%N in
      if N.eqb n 7 then
        if (seen || negb (N.eqb acc 0))%bool then String (ascii_of_N acc) (bits_loop s' 0 0 true)
        else bits_loop s' 0 0 seen
      else bits_loop s' acc (n + 1) seen
  end.
(** symbolic_interpreter.cc:416-451, the padding before the loop and the zero byte after it. *)
Definition BitstringToP4RuntimeBytestring (bits : string) (w : Z) : string :=
  (* C++ % truncates; std::string(8 - w % 8, '0') *)
  let r := Z.rem w 8 in
  let padded := if negb (Z.eqb r 0) then repeat_char (Z.to_nat (8 - r)) "0" ++ bits else bits in
  let bytes := bits_loop padded 0 0 false in
  if String.eqb bytes "" then str1 NUL else bytes.

(** absl::HexStringToBytes (not in /repo) for strings of even length; a
    non-hexadecimal character counts as 0 (kHexValueLenient). *)
Definition hex_value (c : ascii) : N :=
  match digit_value c with Some d => if N.ltb d 16 then d else 0 | None => 0 end%N.
(** absl::HexStringToBytes (not in /repo), two digits per byte. *)
Fixpoint HexStringToBytes (s : string) : string :=
  match s with
  | String a (String b s') => String (ascii_of_N (hex_value a * 16 + hex_value b)) (HexStringToBytes s')
  | _ => EmptyString
  end.

(** symbolic_interpreter.cc:455-468, HexstringToP4RuntimeBytestring. *)
Fixpoint strip_zero_digits (s : string) : string :=
  match s with
  | String c s' => if Ascii.eqb c "0" then strip_zero_digits s' else s
  | EmptyString => EmptyString
  end.
(** symbolic_interpreter.cc:455-468. *)
Definition HexstringToP4RuntimeBytestring (hex : string) : string :=
  let h := strip_zero_digits hex in
  if String.eqb h "" then str1 NUL
  else HexStringToBytes (if Nat.odd (String.length h) then String "0" h else h).

(** symbolic_interpreter.cc:470-482. *)
Definition Z3BitvectorValueToP4RuntimeBytestring (v : string) (w : Z) : outcome string :=
  match strip_prefix "#x" v with
  | Some h => Ok (HexstringToP4RuntimeBytestring h)
  | None =>
      match strip_prefix "#b" v with
      | Some b => Ok (BitstringToP4RuntimeBytestring b w)
      | None => Err InvalidArgument
                  ("Expected a Z3 bitvector value starting with '#x' or '#b', but got '" ++ v ++ "'.")
      end
  end.

(** model.eval(e, true).to_string() for a bit-vector expression. *)
Definition eval_bv_string (m : model) (t : term) : string :=
  match zeval (complete m) t with
  | VV w v => bv_to_string w v
  | _ => ""
  end.
(** expr::get_numeral_int(): throws if the value is not a machine int. *)
Definition get_numeral_int (v : zval) : outcome Z :=
  match v with
  | VI z => if (Z.leb (-2147483648) z && Z.leb z 2147483647)%bool then Ok z else Crash Z3Exception
  | _ => Crash Z3Exception
  end.

(** symbolic_interpreter.cc:484-581, ConcretizeKey. *)
Definition ConcretizeKey (sk : symbolic_key) (ki : key_info) (m : model) : outcome (option field_match) :=
  let* w := TypeBitwidthOrStatus (k_type ki) in
  let bytes (t : term) := Z3BitvectorValueToP4RuntimeBytestring (eval_bv_string m t) w in
  match k_type ki with
  | TExact _ =>
      let* v := GetValue sk in
      let* b := bytes v in
      Ok (Some (mkFM (k_id ki) (FMExact b)))
  | TOptional _ | TTernary _ =>
      let* mask := GetMask sk in
      let* is_zero := match sort_of mask with
                      | SBV mw => z3_eq mask (ZBVVal mw 0)
                      | SInt => z3_eq mask (ZIntVal 0)
                      | SBool => sort_error
                      end in
      if as_bool (zeval (complete m) is_zero) then Ok None
      else
        let* v := GetValue sk in
        match k_type ki with
        | TOptional _ =>
            let* b := bytes v in
            Ok (Some (mkFM (k_id ki) (FMOptional b)))
        | _ =>
            let* b := bytes v in
            let* bm := bytes mask in
            Ok (Some (mkFM (k_id ki) (FMTernary b bm)))
        end
  | TLpm _ =>
      let* plen := GetPrefixLength sk in
      let* p := get_numeral_int (zeval (complete m) plen) in
      if Z.eqb p 0 then Ok None
      else
        let* v := GetValue sk in
        let* b := bytes v in
        Ok (Some (mkFM (k_id ki) (FMLpm b p)))
  | TRange _ => Err Unimplemented
      "Range matches are not currently supported by the p4-constraints symbolic representation."
  | _ => Err InvalidArgument "expected a match type, but got: "
  end.

(** symbolic_interpreter.cc:587-657, AddSymbolicKey: the key and the assertions
    added to the solver. *)
Definition AddSymbolicKey (ki : key_info) : outcome (symbolic_key * list term) :=
  let* w := TypeBitwidthOrStatus (k_type ki) in
  if Z.eqb w 0 then Err InvalidArgument "expected a key type with bitwidth > 0, but got: "
  else
    match k_type ki with
    | TExact _ =>
        let* v := z3_bv_const (k_name ki) w in
        Ok (SymExact v, [])
    | TOptional _ | TTernary _ =>
        let* v := z3_bv_const (k_name ki) w in
        let* m := z3_bv_const (k_name ki ++ "_mask") w in
        let canonical := ZEq (ZBVAnd m v) v in
        let optional := match k_type ki with
                        | TOptional _ => [ZOr (ZEq m (ZBVVal w 0)) (ZEq m (ZBVVal w (-1)))]
                        | _ => []
                        end in
        Ok (SymTernary v m, canonical :: optional)
    | TLpm _ =>
        let* v := z3_bv_const (k_name ki) w in
        let p := z3_int_const (k_name ki ++ "_prefix_length") in
        let suffix := ZInt2BV w (ZSub (ZIntVal w) p) in
        Ok (SymLpm v p,
            [ZAnd (ZAnd (ZICmp IGe p (ZIntVal 0)) (ZICmp ILe p (ZIntVal w)))
                  (ZEq (ZShl (ZLshr v suffix) suffix) v)])
    | TRange _ => Err Unimplemented
        "Range matches are not currently supported by the p4-constraints symbolic representation."
    | _ => Err InvalidArgument "expected a match type, but got: "
    end.

(** symbolic_interpreter.h:80. *)
Definition kSymbolicPriorityAttributeName : string := "priority".
(** symbolic_interpreter.cc:659-665, AddSymbolicPriority. *)
Definition AddSymbolicPriority : term * list term :=
  let p := z3_int_const kSymbolicPriorityAttributeName in
  (p, [ZICmp IGt p (ZIntVal 0); ZICmp ILe p (ZIntVal 2147483647)]).

(** symbolic_interpreter.h:96-144: the state of a ConstraintSolver. [cs_stack] is
    the assertion stack of the z3::solver, innermost scope first; the function
    skip_key_named is assumed pure. *)
Record constraint_solver := mkCS {
  cs_table : table_info;
  cs_env : sym_env;
  cs_skip : string -> outcome bool;
  cs_stack : list (list term) }.
(** z3::solver::assertions(), oldest first. *)
Definition assertions (st : list (list term)) : list term := concat (rev st).
(** z3::solver::add, into the innermost scope. *)
Definition solver_add (t : term) (st : list (list term)) : list (list term) :=
  match st with
  | [] => [[t]]
  | top :: st' => (top ++ [t])%list :: st'
  end.
(** z3::solver::push. *)
Definition solver_push (st : list (list term)) := [] :: st.
(** z3::solver::pop. *)
Definition solver_pop (st : list (list term)) := tl st.
(** The solver object with another assertion stack. *)
Definition set_stack (cs : constraint_solver) st := mkCS (cs_table cs) (cs_env cs) (cs_skip cs) st.

Section WithZ3.
  Variable check : solver.   (* solver.check() and get_model() *)
  Variable pton : inet_pton6.

  (** solver_->check() == z3::sat, as at symbolic_interpreter.cc:731-750. *)
  Definition is_sat (st : list (list term)) : bool :=
    match check (assertions st) with Some _ => true | None => false end.

  (** symbolic_interpreter.cc:731-750, AddConstraint(ast::Expression, ConstraintSource).
      z3::solver::add throws if the expression is not Boolean. Simplified: the
      empty scope it then leaves on the stack, which asserts nothing, is omitted. *)
  Definition AddConstraint (cs : constraint_solver) (e : expr) (src : csource)
      : outcome bool * constraint_solver :=
    if negb (is_sat (cs_stack cs)) then
      (Err Internal ("Stored constraints are unsatisfiable. Constraint solver must " ++
                     "hold a satisfiable constraint at all times."), cs)
    else
      match EvaluateConstraintSymbolically (cs_env cs) src e with
      | Err c m => (Err c m, cs)
      | Crash w => (Crash w, cs)
      | Ok t =>
          if negb (is_sbool t) then (sort_error, cs)
          else
          let st := solver_add t (solver_push (cs_stack cs)) in
          if negb (is_sat st) then (Ok false, set_stack cs (solver_pop st))
          else (Ok true, set_stack cs st)
      end.

  (** symbolic_interpreter.cc:752-769, AddConstraint(string_view). *)
  Definition AddConstraintString (cs : constraint_solver) (text : string)
      : outcome bool * constraint_solver :=
    let src := mkCSource text (mkLoc 0 0 (SrcTable (ti_name (cs_table cs)))) in
    match (let* e := ParseConstraint pton kTableConstraint src in InferTable e (cs_table cs)) with
    | Ok e => AddConstraint cs e src
    | Err c m => (Err c m, cs)
    | Crash w => (Crash w, cs)
    end.

  (** symbolic_interpreter.cc:781-799, the loop of Create. *)
  Fixpoint create_keys (skip : string -> outcome bool) (l : list (string * key_info))
      (prio : bool) (keys : list (string * symbolic_key)) (asserted : list term)
      : outcome (bool * list (string * symbolic_key) * list term) :=
    match l with
    | [] => Ok (prio, keys, asserted)
    | (name, ki) :: l' =>
        let prio := match k_type ki with TTernary _ | TOptional _ => true | _ => prio end in
        let* skipped := skip name in
        if skipped then create_keys skip l' prio keys asserted
        else
          let* (k, asserts) := AddSymbolicKey ki in
          create_keys skip l' prio (keys ++ [(name, k)]) (asserted ++ asserts)
    end.

  (** symbolic_interpreter.cc:771-822, ConstraintSolver::Create. *)
  Definition Create (t : table_info) (skip : string -> outcome bool) : outcome constraint_solver :=
    let* (prio, keys, asserted) := create_keys skip (Ordered (ti_keys_by_name t)) false [] [] in
    let '(attrs, asserted) :=
      if prio then ([(kSymbolicPriorityAttributeName, fst AddSymbolicPriority)],
                    (asserted ++ snd AddSymbolicPriority)%list)
      else ([], asserted) in
    let cs := mkCS t (mkEnv keys attrs) skip [asserted] in
    match ti_constraint t with
    | None => Ok cs
    | Some e =>
        match AddConstraint cs e (ti_source t) with
        | (Ok true, cs') => Ok cs'
        | (Ok false, _) => Err InvalidArgument
            ("TableInfo provided an unsatisfiable constraint. " ++
             "ConstraintSolver must contain a satisfiable constraint at all times so creation failed." ++
             nl ++ " Unsatisfiable Constraint: " ++ cs_string (ti_source t))
        | (Err c m, _) => Err c m
        | (Crash w, _) => Crash w
        end
    end.

  (** symbolic_interpreter.cc:695-711, the loop of ConcretizeEntry. *)
  Fixpoint concretize_keys (cs : constraint_solver) (m : model) (l : list (string * key_info))
      (acc : list field_match) : outcome (list field_match) :=
    match l with
    | [] => Ok acc
    | (name, ki) :: l' =>
        let* skipped := cs_skip cs name in
        if skipped then concretize_keys cs m l' acc
        else
          let* sk := FindPtrOrStatus (se_keys (cs_env cs)) name in
          let* fm := ConcretizeKey sk ki m in
          concretize_keys cs m l' (match fm with Some f => (acc ++ [f])%list | None => acc end)
    end.

  (** symbolic_interpreter.cc:683-729, ConcretizeEntry. *)
  Definition ConcretizeEntry (cs : constraint_solver) : outcome p4_entry :=
    match check (assertions (cs_stack cs)) with
    | None => Err Internal "Constraints are not satisfiable."
    | Some m =>
        let* fields := concretize_keys cs m (Ordered (ti_keys_by_name (cs_table cs))) [] in
        let* priority :=
          match assoc_find String.eqb kSymbolicPriorityAttributeName (se_attrs (cs_env cs)) with
          | None => Ok 0%Z
          | Some t =>
              match t with
              | ZConst n s =>
                  match m n s with
                  | Some v => get_numeral_int v
                  | None => Err InvalidArgument
                      "A priority SymbolicAttribute existed, but it was not constrained."
                  end
              | _ => Crash Z3Exception   (* decl() of a non-constant: never built *)
              end
          end in
        Ok (mkEntry (ti_id (cs_table cs)) fields None priority)
    end.
End WithZ3.
