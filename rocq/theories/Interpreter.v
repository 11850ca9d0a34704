(** Model of p4_constraints/backend/interpreter.{h,cc} and errors.cc. *)
From Coq Require Import String Ascii List ZArith NArith Bool.
From Verif Require Import Base Num Token Ast Quote Info TypeChecker.
Import ListNotations.
Open Scope string_scope.

(** interpreter.h:56-84: runtime representations (EvalResult). *)
Inductive value :=
| VBool (b : bool)
| VInt (z : Z)
| VExact (v : Z)
| VTernary (v m : Z)
| VLpm (v plen : Z)
| VRange (lo hi : Z).

(** interpreter.h: TableEntry, ActionInvocation, EvaluationContext. *)
Inductive ctx_value :=
| CtxTable (table_name : string) (priority : Z) (keys : list (string * value))
| CtxAction (action_id : N) (action_name : string) (params : list (string * Z)).
(** interpreter.h:167-170, EvaluationContext: what is checked, and the source of the constraint. *)
Record eval_context := mkCtx { ec_ctx : ctx_value; ec_src : csource }.

(** interpreter.h: operator== on Exact/Ternary/Lpm/Range and variant equality. *)
Definition value_eqb (a b : value) : bool :=
  match a, b with
  | VBool x, VBool y => Bool.eqb x y
  | VInt x, VInt y => Z.eqb x y
  | VExact x, VExact y => Z.eqb x y
  | VTernary x m, VTernary y n => Z.eqb x y && Z.eqb m n
  | VLpm x m, VLpm y n => Z.eqb x y && Z.eqb m n
  | VRange x m, VRange y n => Z.eqb x y && Z.eqb m n
  | _, _ => false
  end.

(** interpreter.cc:62-74. *)
Definition P4IDToString (id : N) : string :=
  let short := N.land id 16777215 in
  let hex := pad0 8 (print_N 16 id) in
  if N.eqb short id then dec_N id ++ " (0x" ++ hex ++ ")"
  else dec_N short ++ " (full ID: " ++ dec_N id ++ " (0x" ++ hex ++ "))".

(** interpreter.cc:76-100. *)
Definition EvalResultToString (v : value) : string :=
  match v with
  | VBool b => if b then "true" else "false"
  | VInt z => dec z
  | VExact z => "Exact{.value = " ++ dec z ++ "}"
  | VTernary z m => "Ternary{.value = " ++ dec z ++ ", .mask = " ++ dec m ++ "}"
  | VLpm z p => "Lpm{.value = " ++ dec z ++ ", .prefix_length = " ++ dec p ++ "}"
  | VRange l h => "Range{.low = " ++ dec l ++ ", .high = " ++ dec h ++ "}"
  end.

(** interpreter.cc:104-117. *)
Fixpoint strip_leading_zeros (s : string) : string :=
  match s with
  | EmptyString => EmptyString
  | String c s' => if Ascii.eqb c NUL then strip_leading_zeros s' else s
  end.
(** interpreter.cc:104-117, ParseP4RTInteger. *)
Definition ParseP4RTInteger (s : string) : Z := Z.of_N (be_value 0 (strip_leading_zeros s)).

(** mpz_class(1) << w: the int is converted to mp_bitcnt_t; a negative int becomes
    a shift of at least 2^63 bits, on which GMP aborts. *)
Definition shl1 (w : Z) : outcome Z := if Z.ltb w 0 then Crash GmpAbort else Ok (2 ^ w)%Z.

(** interpreter.cc:119-122. *)
Definition MaxValueForBitwidth (w : Z) : outcome Z :=
  let* d := shl1 w in Ok (d - 1)%Z.

(** Helper of the functions below: the error for a match kind that does not fit the key's type. *)
Definition inconsistent {A} : outcome A :=
  Err Internal "RET_CHECK failure: P4RT table entry inconsistent with P4 program".

(** interpreter.cc:125-183, ParseKey. *)
Definition ParseKey (f : field_match) (t : table_info) : outcome (string * value) :=
  match assoc_find N.eqb (fm_id f) (ti_keys_by_id t) with
  | None => Err InvalidArgument ("unknown table key with ID " ++ P4IDToString (fm_id f))
  | Some key =>
      match fm_value f with
      | FMExact v =>
          match k_type key with
          | TExact _ => Ok (k_name key, VExact (ParseP4RTInteger v))
          | _ => inconsistent
          end
      | FMTernary v m =>
          match k_type key with
          | TTernary _ => Ok (k_name key, VTernary (ParseP4RTInteger v) (ParseP4RTInteger m))
          | _ => inconsistent
          end
      | FMLpm v p =>
          match k_type key with
          | TLpm _ => Ok (k_name key, VLpm (ParseP4RTInteger v) p)
          | _ => inconsistent
          end
      | FMRange l h =>
          match k_type key with
          | TRange _ => Ok (k_name key, VRange (ParseP4RTInteger l) (ParseP4RTInteger h))
          | _ => inconsistent
          end
      | FMOptional v =>
          match k_type key with
          | TOptional w =>
              let* m := MaxValueForBitwidth w in
              Ok (k_name key, VTernary (ParseP4RTInteger v) m)
          | _ => inconsistent
          end
      | FMOther => Err InvalidArgument "unsupported P4RT field match type 100"
      | FMNotSet => Err InvalidArgument "unsupported P4RT field match type 0"
      end
  end.

(** interpreter.cc:189-198, the explicitly present keys. *)
Fixpoint parse_fields (t : table_info) (l : list field_match) (keys : list (string * value))
    : outcome (list (string * value)) :=
  match l with
  | [] => Ok keys
  | f :: l' =>
      let* (name, v) := ParseKey f t in
      match assoc_insert String.eqb name v keys with
      | None => Err InvalidArgument
                  ("duplicate match on key " ++ name ++ " with ID " ++ P4IDToString (fm_id f))
      | Some keys' => parse_fields t l' keys'
      end
  end.

(** interpreter.cc:204-233: default value of an omitted key. *)
Definition default_value (k : key_info) : outcome value :=
  match k_type k with
  | TExact _ => Err InvalidArgument ("missing exact match key '" ++ k_name k ++ "'")
  | TTernary _ | TOptional _ => Ok (VTernary 0 0)
  | TLpm _ => Ok (VLpm 0 0)
  | TRange w => let* m := MaxValueForBitwidth w in Ok (VRange 0 m)
  | _ => Err Internal ("Key '" ++ k_name k ++ "' of invalid match type detected at runtime: ")
  end.

(** interpreter.cc:200-233. [l] is keys_by_name in its iteration order. *)
Fixpoint fill_defaults (l : list (string * key_info)) (keys : list (string * value))
    : outcome (list (string * value)) :=
  match l with
  | [] => Ok keys
  | (name, k) :: l' =>
      match assoc_find String.eqb name keys with
      | Some _ => fill_defaults l' keys
      | None =>
          let* v := default_value k in
          fill_defaults l' (keys ++ [(name, v)])
      end
  end.

(** interpreter.cc:185-245, ParseTableEntry. *)
Definition ParseTableEntry (e : p4_entry) (t : table_info) : outcome eval_context :=
  let* keys := parse_fields t (pe_match e) [] in
  let* keys := fill_defaults (ti_keys_by_name t) keys in
  Ok (mkCtx (CtxTable (ti_name t) (pe_priority e) keys) (ti_source t)).

(** interpreter.cc:252-265, the loop of ParseAction. (The id is converted to
    int32_t and back to uint32_t, which is the identity.) *)
Fixpoint parse_params (a : action_info) (l : list (N * string)) (params : list (string * Z))
    : outcome (list (string * Z)) :=
  match l with
  | [] => Ok params
  | (id, v) :: l' =>
      match assoc_find N.eqb id (ai_params_by_id a) with
      | None => Err InvalidArgument ("unknown action param with ID " ++ P4IDToString id)
      | Some p =>
          match assoc_find String.eqb (k_name p) params with
          | Some _ => Err InvalidArgument ("duplicate action param with ID " ++ P4IDToString id)
          | None => parse_params a l' (params ++ [(k_name p, ParseP4RTInteger v)])
          end
      end
  end.

(** interpreter.cc:247-275, ParseAction. *)
Definition ParseAction (x : p4_action) (a : action_info) : outcome eval_context :=
  let* params := parse_params a (pa_params x) [] in
  Ok (mkCtx (CtxAction (pa_id x) (ai_name a) params) (ai_source a)).

(** errors.cc:15-26, RuntimeTypeError followed by [<< text]. *)
Definition RuntimeTypeError {A} (src : csource) (e : expr) (text : string) : outcome A :=
  QuotedError Internal "Runtime type error: " src (e_start e) (e_end e) text.

(** interpreter.h: EvaluationCache, keyed by expression pointer (see Ast.path);
    [None] models nullptr. *)
Definition eval_cache := option (list (path * bool)).

(** Results of the evaluator: a StatusOr and the updated cache. *)
Definition res (A : Type) : Type := (outcome A * eval_cache)%type.
(** ASSIGN_OR_RETURN on results that carry the evaluation cache. *)
Definition rbind {A B} (r : res A) (f : A -> eval_cache -> res B) : res B :=
  match r with
  | (Ok a, c) => f a c
  | (Err k m, c) => (Err k m, c)
  | (Crash w, c) => (Crash w, c)
  end.

(** interpreter.cc:786-818, DynamicTypeCheck: whether it returns OK. *)
Definition DynamicTypeOk (t : ty) (v : value) : bool :=
  match t, v with
  | TBool, VBool _ => true
  | TInt, VInt _ | TBit _, VInt _ => true
  | TExact _, VExact _ => true
  | TTernary _, VTernary _ _ | TOptional _, VTernary _ _ => true
  | TLpm _, VLpm _ _ => true
  | TRange _, VRange _ _ => true
  | _, _ => false
  end.
(** interpreter.cc:786-818, DynamicTypeCheck. *)
Definition DynamicTypeCheck (src : csource) (e : expr) (v : value) : outcome value :=
  if DynamicTypeOk (e_type e) v then Ok v
  else RuntimeTypeError src e ("unexpected runtime representation of type " ++ TypeName (e_type e)).

(** interpreter.cc:312-365, EvalAndCastTo after the operand [e] was evaluated to [v]. *)
Definition CastTo (src : csource) (t : ty) (e : expr) (v : value) : outcome value :=
  let error := RuntimeTypeError src e
                 ("cannot cast expression of type " ++ TypeName (e_type e) ++ " to type " ++ TypeName t) in
  match v with
  | VInt z =>
      match t with
      | TBit w =>
          let* d := shl1 w in
          (* operator% truncates towards zero *)
          let r := Z.rem z d in
          Ok (VInt (if Z.ltb r 0 then r + d else r)%Z)
      | TExact _ => Ok (VExact z)
      | TTernary w | TOptional w =>
          let* d := shl1 w in Ok (VTernary z (d - 1)%Z)
      | TLpm w => Ok (VLpm z w)
      | TRange _ => Ok (VRange z z)
      | _ => error
      end
  | _ => error
  end.

(** interpreter.cc:443-476, struct EvalFieldAccess. [inr] is the type name in the error. *)
Definition EvalFieldAccess (field : string) (v : value) : value + string :=
  match v with
  | VExact z => if String.eqb field "value" then inl (VInt z) else inr "exact"
  | VTernary z m =>
      if String.eqb field "value" then inl (VInt z)
      else if String.eqb field "mask" then inl (VInt m) else inr "ternary"
  | VLpm z p =>
      if String.eqb field "value" then inl (VInt z)
      else if String.eqb field "prefix_length" then inl (VInt p) else inr "lpm"
  | VRange l h =>
      if String.eqb field "low" then inl (VInt l)
      else if String.eqb field "high" then inl (VInt h) else inr "range"
  | VBool _ => inr "bool"
  | VInt _ => inr "int"
  end.

(** interpreter.cc:394-405, ordered comparison of integers. *)
Definition ordered (op : binop) (l r : Z) : bool :=
  match op with
  | OGT => Z.gtb l r
  | OGE => Z.geb l r
  | OLT => Z.ltb l r
  | OLE => Z.leb l r
  | _ => false
  end.

Section Eval.
  Variable ctx : eval_context.
  Let src := ec_src ctx.

  Section Aux.
    (** The recursive calls to Eval. *)
    Variable ev : expr -> path -> eval_cache -> res value.

    (** interpreter.cc:281-298, EvalToBool. *)
    Definition eval_to_bool (e : expr) (p : path) (c : eval_cache) : res bool :=
      match match c with Some m => assoc_find path_eqb p m | None => None end with
      | Some b => (Ok b, c)
      | None =>
          rbind (ev e p c) (fun v c =>
            match v with
            | VBool b => (Ok b, option_map (cache_insert p b) c)
            | _ => (RuntimeTypeError src e "expected expression of type bool", c)
            end)
      end.

    (** interpreter.cc:301-310, EvalToInt. *)
    Definition eval_to_int (e : expr) (p : path) (c : eval_cache) : res Z :=
      rbind (ev e p c) (fun v c =>
        match v with
        | VInt z => (Ok z, c)
        | _ => (RuntimeTypeError src e "expected expression of integral type", c)
        end).
    (** interpreter.cc:389-393, EvalToInt with the annotation of an ordered comparison. *)
    Definition eval_to_int_annotated (e : expr) (p : path) (c : eval_cache) : res Z :=
      let '(o, c) := eval_to_int e p c in (annotate o " in ordered comparison", c).
  End Aux.

  (** interpreter.cc:664-780 (Eval_) wrapped by 824-830 (Eval): one fixpoint. *)
  Fixpoint Eval (e : expr) (p : path) (c : eval_cache) {struct e} : res value :=
    rbind
      match e with
      | EBool _ b => (Ok (VBool b), c)
      | EInt _ s =>
          match mpz_set_str s 10 with
          | Some z => (Ok (VInt z), c)
          | None => (Err Internal ("AST invariant violated; invalid decimal string: " ++ s), c)
          end
      | EKey _ key =>
          match ec_ctx ctx with
          | CtxAction _ _ _ =>
              (RuntimeTypeError src e "Found a reference to a key in an action constraint.", c)
          | CtxTable name _ keys =>
              match assoc_find String.eqb key keys with
              | None => (RuntimeTypeError src e ("unknown key " ++ key ++ " in table " ++ name), c)
              | Some v => (Ok v, c)
              end
          end
      | EParam _ param =>
          match ec_ctx ctx with
          | CtxTable _ _ _ =>
              (RuntimeTypeError src e "Found a reference to an action parameter in a table constraint.", c)
          | CtxAction _ name params =>
              match assoc_find String.eqb param params with
              | None => (RuntimeTypeError src e
                           ("unknown action parameter " ++ param ++ " in action " ++ name), c)
              | Some z => (Ok (VInt z), c)
              end
          end
      | EAttr _ name =>
          match ec_ctx ctx with
          | CtxAction _ _ _ =>
              (RuntimeTypeError src e "The constraint context does not contain a TableEntry.", c)
          | CtxTable _ priority _ =>
              if String.eqb name "priority" then (Ok (VInt priority), c)
              else (RuntimeTypeError src e ("unknown attribute '" ++ name ++ "'"), c)
          end
      | ENot _ a =>
          rbind (eval_to_bool Eval a (false :: p) c) (fun b c => (Ok (VBool (negb b)), c))
      | ENeg _ a =>
          rbind (eval_to_int Eval a (false :: p) c) (fun z c => (Ok (VInt (- z)), c))
      | ECast m a =>
          rbind (Eval a (false :: p) c) (fun v c => (CastTo src (m_type m) a v, c))
      | EBin _ op l r =>
          (* interpreter.cc:367-441, EvalBinaryExpression *)
          match op with
          | OEQ | ONE =>
              rbind (Eval l (false :: p) c) (fun vl c =>
              rbind (Eval r (true :: p) c) (fun vr c =>
                (Ok (VBool (match op with OEQ => value_eqb vl vr | _ => negb (value_eqb vl vr) end)), c)))
          | OGT | OGE | OLT | OLE =>
              rbind (eval_to_int_annotated Eval l (false :: p) c) (fun zl c =>
              rbind (eval_to_int_annotated Eval r (true :: p) c) (fun zr c =>
                (Ok (VBool (ordered op zl zr)), c)))
          | OAND | OOR | OIMPLIES =>
              rbind (eval_to_bool Eval l (false :: p) c) (fun bl c =>
                let right := rbind (eval_to_bool Eval r (true :: p) c) (fun br c => (Ok (VBool br), c)) in
                match op with
                | OAND => if bl then right else (Ok (VBool false), c)
                | OOR => if bl then (Ok (VBool true), c) else right
                | _ => if bl then right else (Ok (VBool true), c)
                end)
          | UNKNOWN_OPERATOR =>
              (Err Internal "unknown binary operator UNKNOWN_OPERATOR encountered at runtime", c)
          end
      | EField _ field a =>
          rbind (Eval a (false :: p) c) (fun v c =>
            match EvalFieldAccess field v with
            | inl v' => (Ok v', c)
            | inr tyname =>
                (RuntimeTypeError src e ("value of type " ++ tyname ++ " has no field " ++ field), c)
            end)
      | ENotSet _ => (Err InvalidArgument "invalid expression: ", c)
      end
      (fun v c => (DynamicTypeCheck src e v, c)).

  (** interpreter.cc:281-298, EvalToBool. *)
  Definition EvalToBool := eval_to_bool Eval.
  (** interpreter.cc:301-310, EvalToInt. *)
  Definition EvalToInt := eval_to_int Eval.

  (** Result of the explainer: the chosen subexpression and its path. *)
  Definition eres (A : Type) : Type := (outcome A * eval_cache * option size_cache)%type.
  (** ASSIGN_OR_RETURN on results that carry both caches. *)
  Definition ebind {A B} (r : eres A) (f : A -> eval_cache -> option size_cache -> eres B) : eres B :=
    match r with
    | (Ok a, c, s) => f a c s
    | (Err k m, c, s) => (Err k m, c, s)
    | (Crash w, c, s) => (Crash w, c, s)
    end.
  (** A call of an evaluation function from the search, interpreter.cc:480-588: the size cache is unchanged. *)
  Definition lift_eval {A} (r : res A) (s : option size_cache) : eres A :=
    let '(o, c) := r in (o, c, s).
  (** A call of Size from the search, interpreter.cc:480-588: the evaluation cache is unchanged. *)
  Definition lift_size {A} (r : outcome A * option size_cache) (c : eval_cache) : eres A :=
    let '(o, s) := r in (o, c, s).

  (** interpreter.cc:480-588, MinimalSubexpressionLeadingToEvalResult. *)
  Fixpoint MinimalSubexpression (e : expr) (p : path) (c : eval_cache) (s : option size_cache)
      {struct e} : eres (expr * path) :=
    match e with
    | EBool _ _ => (Ok (e, p), c, s)
    | ENot _ a => MinimalSubexpression a (false :: p) c s
    | EBin _ op l r =>
        match op with
        | OEQ | ONE | OGT | OGE | OLT | OLE => (Ok (e, p), c, s)
        | OAND | OOR | OIMPLIES =>
            ebind (lift_eval (EvalToBool l (false :: p) c) s) (fun bl c s =>
            ebind (lift_eval (EvalToBool r (true :: p) c) s) (fun br c s =>
              let cand_l := match op with OOR => bl | _ => negb bl end in
              let cand_r := match op with OAND => negb br | _ => br end in
              match cand_l, cand_r with
              | false, false => (Ok (e, p), c, s)
              | true, false => MinimalSubexpression l (false :: p) c s
              | false, true => MinimalSubexpression r (true :: p) c s
              | true, true =>
                  ebind (MinimalSubexpression l (false :: p) c s) (fun s0 c s =>
                  ebind (MinimalSubexpression r (true :: p) c s) (fun s1 c s =>
                  ebind (lift_size (Size (fst s0) (snd s0) s) c) (fun n0 c s =>
                  ebind (lift_size (Size (fst s1) (snd s1) s) c) (fun n1 c s =>
                    (Ok (if Z.leb n0 n1 then s0 else s1), c, s)))))
              end))
        | UNKNOWN_OPERATOR =>
            (Err Internal "unknown binary operator UNKNOWN_OPERATOR encountered at runtime", c, s)
        end
    | _ => (Err Internal
              ("Explanation search should terminate at boolean expressions" ++ nl ++
               " Non-boolean expression reached: "), c, s)
    end.

  (** gutils::Ordered: sorted by key (gutils/ordered_map.h). *)
  Fixpoint insert_sorted {V} (kv : string * V) (l : list (string * V)) : list (string * V) :=
    match l with
    | [] => [kv]
    | kv' :: l' => if string_ltb (fst kv) (fst kv') then kv :: l else kv' :: insert_sorted kv l'
    end.
  (** gutils/ordered_map.h:23-28, Ordered. *)
  Definition Ordered {V} (l : list (string * V)) : list (string * V) := fold_right insert_sorted [] l.

  (** interpreter.cc:605-655: the text returned for a violation. *)
  Definition violation_text (explanation : expr) (truth_value : bool) (reason : string) : string :=
    let relevant := GetVariables explanation in
    let pick {V} (show : string * V -> string) (l : list (string * V)) :=
      concat_strings (map (fun kv => if mem_string (fst kv) relevant then show kv else "") (Ordered l)) in
    let head (what : string) :=
      "All " ++ what ++ " must " ++ (if truth_value then "not " else "") ++ "satisfy:" ++ nl ++ nl ++
      reason ++ nl ++ "But your entry does" ++ (if truth_value then "" else " not") ++ "." ++ nl in
    match ec_ctx ctx with
    | CtxTable name priority keys =>
        head "entries" ++ ">>>Relevant Entry Info<<<" ++ nl ++
        "Table Name: " ++ dq ++ name ++ dq ++ nl ++ "Priority:" ++ dec priority ++ nl ++
        pick (fun kv => "Field: " ++ dq ++ fst kv ++ dq ++ " -> Value: " ++
                        EvalResultToString (snd kv) ++ nl) keys
    | CtxAction _ name params =>
        head "actions" ++ ">>>Relevant Action Info<<<" ++ nl ++
        "Action Name: " ++ dq ++ name ++ dq ++ nl ++
        pick (fun kv => "Param name: " ++ dq ++ fst kv ++ dq ++ " -> Value: " ++ dec (snd kv) ++ nl) params
    end.

  (** interpreter.cc:591-656, ExplainConstraintViolation. The caches are local to
      the caller and dropped afterwards. *)
  Definition ExplainConstraintViolation (e : expr) (c : eval_cache) (s : option size_cache)
      : outcome string :=
    match MinimalSubexpression e [] c s with
    | (o, c, s) =>
        let* (explanation, p) := o in
        let* truth_value := fst (EvalToBool explanation p c) in
        let* reason := QuoteSubConstraint src (e_start explanation) (e_end explanation) in
        Ok (violation_text explanation truth_value reason)
    end.

  (** The common tail of interpreter.cc:850-863 and 914-923: evaluate [e] and
      explain a violation. *)
  Definition check_constraint (e : expr) : outcome string :=
    match EvalToBool e [] (Some []) with
    | (o, c) =>
        let* ok := o in
        if ok then Ok "" else ExplainConstraintViolation e c (Some [])
    end.
End Eval.

(** interpreter.cc:832-864, for an action. DebugString is not modelled. *)
Definition ReasonActionViolates (ci : constraint_info) (a : p4_action) : outcome string :=
  match GetActionInfoOrNull ci (pa_id a) with
  | None => Err InvalidArgument ("action entry with unknown action ID " ++ P4IDToString (pa_id a))
  | Some ai =>
      match ai_constraint ai with
      | None => Ok ""
      | Some e =>
          if negb (is_bool_type (e_type e)) then
            Err InvalidArgument ("action " ++ ai_name ai ++ " has non-boolean constraint: ")
          else
            let* ctx := annotate (ParseAction a ai)
                          (" while parsing P4RT table entry for action '" ++ ai_name ai ++ "':") in
            check_constraint ctx e
      end
  end.

(** interpreter.cc:866-877, for an action profile action set. *)
Fixpoint ReasonActionSetViolates (ci : constraint_info) (l : list p4_action) : outcome string :=
  match l with
  | [] => Ok ""
  | a :: l' =>
      let* reason := ReasonActionViolates ci a in
      if String.eqb reason "" then ReasonActionSetViolates ci l' else Ok reason
  end.

(** interpreter.cc:901-924, the table constraint part. *)
Definition ReasonTableViolates (t : table_info) (entry : p4_entry) : outcome string :=
  match ti_constraint t with
  | None => Ok ""
  | Some e =>
      if negb (is_bool_type (e_type e)) then
        Err InvalidArgument ("table " ++ ti_name t ++ " has non-boolean constraint: ")
      else
        let* ctx := annotate (ParseTableEntry entry t)
                      (" while parsing P4RT table entry for table '" ++ ti_name t ++ "':") in
        check_constraint ctx e
  end.

(** interpreter.cc:883-946, the public ReasonEntryViolatesConstraint. *)
Definition ReasonEntryViolatesConstraint (entry : p4_entry) (ci : constraint_info) : outcome string :=
  match GetTableInfoOrNull ci (pe_table_id entry) with
  | None => Err InvalidArgument ("table entry with unknown table ID " ++ P4IDToString (pe_table_id entry))
  | Some t =>
      let* reason := ReasonTableViolates t entry in
      if negb (String.eqb reason "") then Ok reason
      else
        match pe_action entry with
        | None => Ok ""
        | Some (TAction a) => ReasonActionViolates ci a
        | Some (TMemberId _) | Some (TGroupId _) =>
            Err InvalidArgument
              "action restrictions not supported for entries with the given kind of action: "
        | Some (TActionSet l) => ReasonActionSetViolates ci l
        | Some TActionNotSet => Err InvalidArgument "unknown action type 0"
        end
  end.
