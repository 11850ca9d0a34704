(** Model of the debug build of the lexer, parser, type checker, interpreter and
    constraint_info: the same functions as in Lexer.v, Parser.v, TypeChecker.v,
    Interpreter.v and ConstraintInfo.v, with every DCHECK of these files executed.
    [None] is the abort of a failed DCHECK. (The DCHECK at token.cc:124 runs once,
    when the program starts; it is [map_dcheck].) *)
From Coq Require Import String Ascii List ZArith NArith Bool.
From Verif Require Import Base Num Regex Token Ast Lexer Quote AstConstructors Parser Info
  TypeChecker ConstraintInfo Interpreter.
Import ListNotations.
Open Scope string_scope.

(** A run of the debug build: aborted, or with the result of the release build. *)
Definition debug (A : Type) : Type := option A.
(** DCHECK(b); [k] is what follows. *)
Definition dcheck {A} (b : bool) (k : debug A) : debug A := if b then k else None.
(** What follows a call that did not abort. *)
Definition dlet {A B} (d : debug A) (f : A -> debug B) : debug B :=
  match d with Some a => f a | None => None end.
(** ASSIGN_OR_RETURN (gutils/status_macros.h) in a debug build. *)
Definition dbind {A B} (d : debug (outcome A)) (f : A -> debug (outcome B)) : debug (outcome B) :=
  match d with
  | Some (Ok a) => f a
  | Some (Err c m) => Some (Err c m)
  | Some (Crash w) => Some (Crash w)
  | None => None
  end.
(** ASSIGN_OR_RETURN (gutils/status_macros.h:37-67) on a call that may abort. *)
Notation "'let+' x ':=' e 'in' k" := (dbind e (fun x => k))
  (at level 200, x pattern, e at level 100, k at level 200, right associativity).
(** ASSIGN_OR_RETURN on a call without DCHECKs. *)
Notation "'let++' x ':=' e 'in' k" := (dbind (Some e) (fun x => k))
  (at level 200, x pattern, e at level 100, k at level 200, right associativity).

(** token.cc:119-127: inserting every keyword into an empty map; DCHECK at 124. *)
Fixpoint map_dcheck (l : list kind) (m : list (string * kind)) : debug (list (string * kind)) :=
  match l with
  | [] => Some m
  | k :: l' =>
      match assoc_insert String.eqb (KindToKeyword k) k m with
      | Some m' => map_dcheck l' m'
      | None => None
      end
  end.

(** lexer.cc:38-69; DCHECK at 64. *)
Fixpoint dSwallow (fuel : nat) (input : string) (l : loc) : debug (string * loc) :=
  match fuel with
  | O => dcheck (String.eqb input "") (Some (input, l))
  | S fuel' =>
      match first_match kCommentRegexp input with
      | None => dcheck (String.eqb input "") (Some (input, l))
      | Some h =>
          let end_of_comment := capture "end_of_comment" h in
          let comment := capture "comment" h in
          let newline := capture "newline" h in
          if negb (String.eqb end_of_comment "") then
            Some (h_rest h, add_col (slen end_of_comment) l)
          else if negb (String.eqb comment "") then
            dSwallow fuel' (h_rest h) (add_col (slen comment) l)
          else if negb (String.eqb newline "") then
            dSwallow fuel' (h_rest h) (next_line l)
          else
            dSwallow fuel' (h_rest h) l
      end
  end.

(** lexer.cc:131-195, with both locations the loop keeps; DCHECK_EQ at 134. *)
Fixpoint dtokenize_loop (fuel : nat) (input : string) (start current : loc)
    : debug (list token * string * loc * loc) :=
  match fuel with
  | O => Some ([], input, start, current)
  | S fuel' =>
      match first_match kTokenPattern input with
      | None => Some ([], input, start, current)
      | Some h =>
          dcheck (loc_eq start current)
          (let cap n := capture n h in
           let lexeme := h_text h in
           let rest := h_rest h in
           let cur := add_col (slen lexeme) current in
           if (nonempty (cap "whitespace") || nonempty (cap "comment"))%bool then
             dtokenize_loop fuel' rest cur cur
           else if nonempty (cap "newline") then
             dtokenize_loop fuel' rest (next_line cur) (next_line cur)
           else if nonempty (cap "begin_multiline_comment") then
             dlet (dSwallow (String.length rest) rest cur) (fun '(rest', cur') =>
               dtokenize_loop fuel' rest' cur' cur')
           else
             let '(k, text) :=
               if nonempty (cap "keyword") then
                 (match KeywordToKind lexeme with Some k => k | None => UNEXPECTED_CHAR end, lexeme)
               else if nonempty (cap "id") then (ID, lexeme)
               else if nonempty (cap "binary") then (BINARY, cap "binary")
               else if nonempty (cap "octary") then (OCTARY, cap "octary")
               else if nonempty (cap "decimal") then (DECIMAL, cap "decimal")
               else if nonempty (cap "hexadec") then (HEXADEC, cap "hexadec")
               else if nonempty (cap "string") then (STRING, strip_quotes (cap "string"))
               else (UNEXPECTED_CHAR, lexeme) in
             dlet (dtokenize_loop fuel' rest cur cur) (fun '(ts, rem, s', c') =>
               Some (mkTok k text start cur :: ts, rem, s', c')))
      end
  end.

(** lexer.cc:115-211. *)
Definition dTokenize (c : csource) : debug (list token) :=
  dlet (dtokenize_loop (S (String.length (cs_string c))) (cs_string c) (cs_loc c) (cs_loc c))
    (fun '(ts, rem, s, l) =>
      Some (ts ++
            match rem with
            | EmptyString => [mkTok END_OF_INPUT "" s l]
            | String ch _ => [mkTok UNEXPECTED_CHAR (str1 ch) s (add_col 1 l)]
            end)%list).

Section Stream.
  Variable pton : inet_pton6.
  Variable ck : constraint_kind.
  Variable src : csource.
  Variable eof : loc.

  (** parser.cc:233-372, as Parser.parse_above and Parser.extend; DCHECK at 352. *)
  Fixpoint dparse_above (fuel : nat) (ts : list token) (ctx : nat) {struct fuel}
    : debug (outcome (expr * list token)) :=
    match fuel with
    | O => Some (Crash ModelOutOfFuel)
    | S fuel' =>
        let t := Peek eof ts in
        let ts := tl ts in
        let+ (ast, ts) :=
          match t_kind t with
          | TRUE | FALSE =>
              let++ a := MakeBooleanConstant t in Some (Ok (a, ts))
          | BINARY | OCTARY | DECIMAL | HEXADEC =>
              let++ a := MakeIntegerConstant t in Some (Ok (a, ts))
          | ID =>
              if kind_eqb (t_kind (Peek eof ts)) LPAR then
                let++ (string_token, ts) := ExpectTokenKind src eof STRING (tl ts) in
                let++ (rpar_token, ts) := ExpectTokenKind src eof RPAR ts in
                let++ a := MakeNetworkAddressIntegerConstant pton (t_text t) (t_text string_token)
                             (t_start t) (t_end rpar_token) in
                Some (Ok (a, ts))
              else
                let++ (ids, ts) := parse_ids src eof ts in
                let++ a := MakeVariable (t :: ids) ck in
                Some (Ok (a, ts))
          | DOUBLE_COLON =>
              let++ (attribute_name, ts) := ExpectTokenKind src eof ID ts in
              let++ a := MakeAttributeAccess t attribute_name in
              Some (Ok (a, ts))
          | BANG =>
              let+ (a, ts) := dparse_above fuel' ts (TokenPrecedence BANG) in
              let++ a := MakeBooleanNegation t a in
              Some (Ok (a, ts))
          | MINUS =>
              let+ (a, ts) := dparse_above fuel' ts (TokenPrecedence MINUS) in
              let++ a := MakeArithmeticNegation t a in
              Some (Ok (a, ts))
          | LPAR =>
              let+ (a, ts) := dparse_above fuel' ts 0 in
              let++ (_, ts) := ExpectTokenKind src eof RPAR ts in
              Some (Ok (a, ts))
          | _ => Some (Unexpected t initial_kinds src)
          end in
        dextend fuel' ast ts ctx
    end
  (** parser.cc:308-372, as [extend] of Parser.v. *)
  with dextend (fuel : nat) (ast : expr) (ts : list token) (ctx : nat) {struct fuel}
    : debug (outcome (expr * list token)) :=
    match fuel with
    | O => Some (Crash ModelOutOfFuel)
    | S fuel' =>
        let t := Peek eof ts in
        match t_kind t with
        | END_OF_INPUT | RPAR => Some (Ok (ast, ts))
        | DOUBLE_COLON | AND | SEMICOLON | OR | IMPLIES | EQ | NE | GT | GE | LT | LE =>
            let prec := TokenPrecedence (t_kind t) in
            if (Nat.eqb ctx prec &&
                match TokenAssociativity (t_kind t) with ANONE => true | _ => false end)%bool then
              Some (ParseError t src
                ("operator " ++ KindToKeyword (t_kind t) ++
                 " is non-associative; enclose expression to the left of the operator in '(' and ')' to disambiguate?"))
            else if (Nat.ltb prec ctx ||
                     (Nat.eqb ctx prec &&
                      match TokenAssociativity (t_kind t) with ALEFT => true | _ => false end))%bool then
              Some (Ok (ast, ts))
            else
              let ts := tl ts in
              dcheck (Nat.ltb ctx prec ||
                      (Nat.eqb ctx prec &&
                       match TokenAssociativity (t_kind t) with ARIGHT => true | _ => false end))%bool
              (let next := t_kind (Peek eof ts) in
               if (kind_eqb (t_kind t) SEMICOLON &&
                   (kind_eqb next END_OF_INPUT || kind_eqb next RPAR))%bool then
                 Some (Ok (ast, ts))
               else if kind_eqb (t_kind t) DOUBLE_COLON then
                 let++ (field, ts) := ExpectTokenKind src eof ID ts in
                 let++ ast := MakeFieldAccess ast field in
                 dextend fuel' ast ts ctx
               else
                 let+ (another, ts) := dparse_above fuel' ts prec in
                 let++ ast := MakeBinaryExpression t ast another in
                 dextend fuel' ast ts ctx)
        | _ => Some (Unexpected t extension_kinds src)
        end
    end.
End Stream.

(** parser.cc:380-388. *)
Definition dParseTokens (pton : inet_pton6) (ck : constraint_kind) (tokens : list token)
    (src : csource) : debug (outcome expr) :=
  let eof := eof_location tokens in
  let+ (ast, rest) := dparse_above pton ck src eof (parse_fuel tokens) tokens 0 in
  let++ (_, _) := ExpectTokenKind src eof END_OF_INPUT rest in
  Some (Ok ast).

(** parser.cc:394-398. *)
Definition dParseConstraint (pton : inet_pton6) (ck : constraint_kind) (src : csource)
    : debug (outcome expr) :=
  dlet (dTokenize src) (fun ts => dParseTokens pton ck ts src).

(** TypeBitwidth(t).value_or(-1) (type_checker.cc:146, interpreter.cc:321). *)
Definition bitwidth_or_minus1 (t : ty) : Z := match TypeBitwidth t with Some w => w | None => (-1)%Z end.

(** type_checker.cc:141-160; DCHECK_NE at 147 and DCHECK_EQ at 158. *)
Definition dCastTransitivelyTo (e : expr) (target : ty) : debug expr :=
  dlet
    (if StrictlyAbove target (e_type e) && tycase_eqb (type_case (e_type e)) CInt then
       dcheck (negb (Z.eqb (bitwidth_or_minus1 target) (-1)))
         (Some (WrapWithCast e (TBit (bitwidth_or_minus1 target))))
     else Some e)
    (fun e1 =>
      let e2 :=
        if StrictlyAbove target (e_type e1) && tycase_eqb (type_case (e_type e1)) CBit then
          WrapWithCast e1 target
        else e1 in
      dcheck (ty_eqb (e_type e2) target) (Some e2)).

(** type_checker.cc:174-186. *)
Definition dUnify (left right : expr) (src : csource) : debug (outcome (ty * expr * expr)) :=
  match LeastUpperBound (e_type left) (e_type right) with
  | None => Some (StaticTypeError src (e_start left) (e_end right)
              ("cannot unify types " ++ TypeName (e_type left) ++ " and " ++ TypeName (e_type right)))
  | Some t =>
      dlet (dCastTransitivelyTo left t) (fun left' =>
      dlet (dCastTransitivelyTo right t) (fun right' =>
        Some (Ok (t, left', right'))))
  end.

(** type_checker.cc:231-425. Only the cases with operands can reach a DCHECK: the
    others are those of TypeChecker.Infer. *)
Fixpoint dInfer (ai : option action_info) (ti : option table_info) (e : expr) : debug (outcome expr) :=
  let++ src := GetConstraintSource ai ti in
  match ai, ti with
  | Some _, Some _ => Some (Err Internal "Both action_info and table_info are nullptr.")
  | None, None => Some (Err Internal "Both action_info and table_info are not nullptr.")
  | _, _ =>
    match e with
    | EBool _ _ | EInt _ _ | EKey _ _ | EParam _ _ | ECast _ _ | EAttr _ _ | ENotSet _ =>
        Some (Infer ai ti e)
    | ENot m sub =>
        let+ sub := dInfer ai ti sub in
        Some (if is_bool_type (e_type sub) then Ok (set_type TBool (ENot m sub))
              else StaticTypeError src (e_start sub) (e_end sub)
                     ("expected type bool, got " ++ TypeName (e_type sub)))
    | ENeg m sub =>
        let+ sub := dInfer ai ti sub in
        Some (if is_int_type (e_type sub) then Ok (set_type TInt (ENeg m sub))
              else StaticTypeError src (e_start sub) (e_end sub)
                     ("expected type int, got " ++ TypeName (e_type sub)))
    | EBin m op l r =>
        let+ l := dInfer ai ti l in
        let+ r := dInfer ai ti r in
        match op with
        | OAND | OOR | OIMPLIES =>
            Some (if negb (is_bool_type (e_type l)) then
                    StaticTypeError src (e_start l) (e_end l)
                      ("expected type bool, got " ++ TypeName (e_type l))
                  else if negb (is_bool_type (e_type r)) then
                    StaticTypeError src (e_start r) (e_end r)
                      ("expected type bool, got " ++ TypeName (e_type r))
                  else Ok (set_type TBool (EBin m op l r)))
        | OGT | OGE | OLT | OLE | OEQ | ONE =>
            let+ (t, l', r') := dUnify l r src in
            Some (if match op with OEQ | ONE => false | _ => negb (TypeHasOrdering t) end then
                    StaticTypeError src (e_start e) (e_end e)
                      ("operand type " ++ TypeName t ++ " does not support ordered comparison")
                  else Ok (set_type TBool (EBin m op l' r')))
        | UNKNOWN_OPERATOR => Some (Err Internal "unknown binary operator UNKNOWN_OPERATOR")
        end
    | EField m field sub =>
        let+ sub := dInfer ai ti sub in
        Some (match FieldTypeOfCompositeType (e_type sub) field with
              | None => StaticTypeError src (e_start e) (e_end e)
                          ("expression of type " ++ TypeName (e_type sub) ++ " has no field '" ++ field ++ "'")
              | Some t => Ok (set_type t (EField m field sub))
              end)
    end
  end.

(** interpreter.cc:312-365, after the operand was evaluated to [v]; DCHECK_NE at 322. *)
Definition dCastTo (src : csource) (t : ty) (e : expr) (v : value) : debug (outcome value) :=
  match v with
  | VInt _ => dcheck (negb (Z.eqb (bitwidth_or_minus1 t) (-1))) (Some (CastTo src t e v))
  | _ => Some (CastTo src t e v)
  end.

(** Results of the evaluator in a debug build. *)
Definition drbind {A B} (r : debug (res A)) (f : A -> eval_cache -> debug (res B)) : debug (res B) :=
  match r with
  | Some (Ok a, c) => f a c
  | Some (Err k m, c) => Some (Err k m, c)
  | Some (Crash w, c) => Some (Crash w, c)
  | None => None
  end.

Section Eval.
  Variable ctx : eval_context.
  Let src := ec_src ctx.

  Section Aux.
    Variable ev : expr -> path -> eval_cache -> debug (res value).

    (** interpreter.cc:281-298. *)
    Definition deval_to_bool (e : expr) (p : path) (c : eval_cache) : debug (res bool) :=
      match match c with Some m => assoc_find path_eqb p m | None => None end with
      | Some b => Some (Ok b, c)
      | None =>
          drbind (ev e p c) (fun v c =>
            Some match v with
                 | VBool b => (Ok b, option_map (cache_insert p b) c)
                 | _ => (RuntimeTypeError src e "expected expression of type bool", c)
                 end)
      end.

    (** interpreter.cc:301-310. *)
    Definition deval_to_int (e : expr) (p : path) (c : eval_cache) : debug (res Z) :=
      drbind (ev e p c) (fun v c =>
        Some match v with
             | VInt z => (Ok z, c)
             | _ => (RuntimeTypeError src e "expected expression of integral type", c)
             end).
    (** interpreter.cc:389-393, as [eval_to_int_annotated] of Interpreter.v. *)
    Definition deval_to_int_annotated (e : expr) (p : path) (c : eval_cache) : debug (res Z) :=
      dlet (deval_to_int e p c) (fun '(o, c) => Some (annotate o " in ordered comparison", c)).
  End Aux.

  (** interpreter.cc:664-780 wrapped by 824-830; leaves as in Interpreter.Eval. *)
  Fixpoint dEval (e : expr) (p : path) (c : eval_cache) {struct e} : debug (res value) :=
    match e with
    | EBool _ _ | EInt _ _ | EKey _ _ | EParam _ _ | EAttr _ _ | ENotSet _ => Some (Eval ctx e p c)
    | _ =>
    drbind
      match e with
      | ENot _ a =>
          drbind (deval_to_bool dEval a (false :: p) c) (fun b c => Some (Ok (VBool (negb b)), c))
      | ENeg _ a =>
          drbind (deval_to_int dEval a (false :: p) c) (fun z c => Some (Ok (VInt (- z)), c))
      | ECast m a =>
          drbind (dEval a (false :: p) c) (fun v c =>
            dlet (dCastTo src (m_type m) a v) (fun o => Some (o, c)))
      | EBin _ op l r =>
          match op with
          | OEQ | ONE =>
              drbind (dEval l (false :: p) c) (fun vl c =>
              drbind (dEval r (true :: p) c) (fun vr c =>
                Some (Ok (VBool (match op with OEQ => value_eqb vl vr | _ => negb (value_eqb vl vr) end)), c)))
          | OGT | OGE | OLT | OLE =>
              drbind (deval_to_int_annotated dEval l (false :: p) c) (fun zl c =>
              drbind (deval_to_int_annotated dEval r (true :: p) c) (fun zr c =>
                Some (Ok (VBool (ordered op zl zr)), c)))
          | OAND | OOR | OIMPLIES =>
              drbind (deval_to_bool dEval l (false :: p) c) (fun bl c =>
                let right := drbind (deval_to_bool dEval r (true :: p) c)
                               (fun br c => Some (Ok (VBool br), c)) in
                match op with
                | OAND => if bl then right else Some (Ok (VBool false), c)
                | OOR => if bl then Some (Ok (VBool true), c) else right
                | _ => if bl then right else Some (Ok (VBool true), c)
                end)
          | UNKNOWN_OPERATOR =>
              Some (Err Internal "unknown binary operator UNKNOWN_OPERATOR encountered at runtime", c)
          end
      | EField _ field a =>
          drbind (dEval a (false :: p) c) (fun v c =>
            Some match EvalFieldAccess field v with
                 | inl v' => (Ok v', c)
                 | inr tyname =>
                     (RuntimeTypeError src e ("value of type " ++ tyname ++ " has no field " ++ field), c)
                 end)
      | _ => Some (Eval ctx e p c)
      end
      (fun v c => Some (DynamicTypeCheck src e v, c))
    end.

  (** interpreter.cc:281-298, EvalToBool. *)
  Definition dEvalToBool := deval_to_bool dEval.

  (** As [ebind] of Interpreter.v. *)
  Definition debind {A B} (r : debug (eres A))
      (f : A -> eval_cache -> option size_cache -> debug (eres B)) : debug (eres B) :=
    match r with
    | Some (Ok a, c, s) => f a c s
    | Some (Err k m, c, s) => Some (Err k m, c, s)
    | Some (Crash w, c, s) => Some (Crash w, c, s)
    | None => None
    end.
  (** As [lift_eval] of Interpreter.v. *)
  Definition dlift_eval {A} (r : debug (res A)) (s : option size_cache) : debug (eres A) :=
    dlet r (fun '(o, c) => Some (o, c, s)).

  (** interpreter.cc:480-588. *)
  Fixpoint dMinimal (e : expr) (p : path) (c : eval_cache) (s : option size_cache)
      {struct e} : debug (eres (expr * path)) :=
    match e with
    | ENot _ a => dMinimal a (false :: p) c s
    | EBin _ ((OAND | OOR | OIMPLIES) as op) l r =>
        debind (dlift_eval (dEvalToBool l (false :: p) c) s) (fun bl c s =>
        debind (dlift_eval (dEvalToBool r (true :: p) c) s) (fun br c s =>
          let cand_l := match op with OOR => bl | _ => negb bl end in
          let cand_r := match op with OAND => negb br | _ => br end in
          match cand_l, cand_r with
          | false, false => Some (Ok (e, p), c, s)
          | true, false => dMinimal l (false :: p) c s
          | false, true => dMinimal r (true :: p) c s
          | true, true =>
              debind (dMinimal l (false :: p) c s) (fun s0 c s =>
              debind (dMinimal r (true :: p) c s) (fun s1 c s =>
              debind (Some (lift_size (Size (fst s0) (snd s0) s) c)) (fun n0 c s =>
              debind (Some (lift_size (Size (fst s1) (snd s1) s) c)) (fun n1 c s =>
                Some (Ok (if Z.leb n0 n1 then s0 else s1), c, s)))))
          end))
    | _ => Some (MinimalSubexpression ctx e p c s)
    end.

  (** interpreter.cc:591-656. *)
  Definition dExplain (e : expr) (c : eval_cache) (s : option size_cache) : debug (outcome string) :=
    dlet (dMinimal e [] c s) (fun '(o, c, s) =>
      let++ (explanation, p) := o in
      let+ truth_value := dlet (dEvalToBool explanation p c) (fun r => Some (fst r)) in
      let++ reason := QuoteSubConstraint src (e_start explanation) (e_end explanation) in
      Some (Ok (violation_text ctx explanation truth_value reason))).

  (** interpreter.cc:849-863 and 914-923. *)
  Definition dcheck_constraint (e : expr) : debug (outcome string) :=
    dlet (dEvalToBool e [] (Some [])) (fun '(o, c) =>
      let++ ok := o in
      if ok then Some (Ok "") else dExplain e c (Some [])).
End Eval.

(** interpreter.cc:832-864. *)
Definition dReasonActionViolates (ci : constraint_info) (a : p4_action) : debug (outcome string) :=
  match GetActionInfoOrNull ci (pa_id a) with
  | None => Some (Err InvalidArgument ("action entry with unknown action ID " ++ P4IDToString (pa_id a)))
  | Some ai =>
      match ai_constraint ai with
      | None => Some (Ok "")
      | Some e =>
          if negb (is_bool_type (e_type e)) then
            Some (Err InvalidArgument ("action " ++ ai_name ai ++ " has non-boolean constraint: "))
          else
            let++ ctx := annotate (ParseAction a ai)
                           (" while parsing P4RT table entry for action '" ++ ai_name ai ++ "':") in
            dcheck_constraint ctx e
      end
  end.

(** interpreter.cc:866-877. *)
Fixpoint dReasonActionSetViolates (ci : constraint_info) (l : list p4_action) : debug (outcome string) :=
  match l with
  | [] => Some (Ok "")
  | a :: l' =>
      let+ reason := dReasonActionViolates ci a in
      if String.eqb reason "" then dReasonActionSetViolates ci l' else Some (Ok reason)
  end.

(** interpreter.cc:901-924. *)
Definition dReasonTableViolates (t : table_info) (entry : p4_entry) : debug (outcome string) :=
  match ti_constraint t with
  | None => Some (Ok "")
  | Some e =>
      if negb (is_bool_type (e_type e)) then
        Some (Err InvalidArgument ("table " ++ ti_name t ++ " has non-boolean constraint: "))
      else
        let++ ctx := annotate (ParseTableEntry entry t)
                       (" while parsing P4RT table entry for table '" ++ ti_name t ++ "':") in
        dcheck_constraint ctx e
  end.

(** interpreter.cc:883-946. *)
Definition dReasonEntryViolatesConstraint (entry : p4_entry) (ci : constraint_info)
    : debug (outcome string) :=
  match GetTableInfoOrNull ci (pe_table_id entry) with
  | None => Some (Err InvalidArgument
              ("table entry with unknown table ID " ++ P4IDToString (pe_table_id entry)))
  | Some t =>
      let+ reason := dReasonTableViolates t entry in
      if negb (String.eqb reason "") then Some (Ok reason)
      else
        match pe_action entry with
        | None => Some (Ok "")
        | Some (TAction a) => dReasonActionViolates ci a
        | Some (TMemberId _) | Some (TGroupId _) =>
            Some (Err InvalidArgument
              "action restrictions not supported for entries with the given kind of action: ")
        | Some (TActionSet l) => dReasonActionSetViolates ci l
        | Some TActionNotSet => Some (Err InvalidArgument "unknown action type 0")
        end
  end.

Section WithPton.
  Variable pton : inet_pton6.

  (** constraint_info.cc:231-276. *)
  Definition dParseTableInfo (t : p4_table) : debug (outcome table_info) :=
    let pre := pt_preamble t in
    let++ (by_id, by_name) :=
      insert_keys ("table " ++ pr_name pre ++ " has duplicate key: ")
        (map ParseMatchField (pt_match_fields t)) [] [] in
    let++ cs := ExtractConstraint kTableConstraint pre in
    match cs with
    | None => Some (Ok (mkTable (pr_id pre) (pr_name pre) None default_csource by_id by_name))
    | Some cs =>
        let+ e := dParseConstraint pton kTableConstraint cs in
        let+ e' := dInfer None (Some (mkTable (pr_id pre) (pr_name pre) (Some e) cs by_id by_name)) e in
        Some (Ok (mkTable (pr_id pre) (pr_name pre) (Some e') cs by_id by_name))
    end.

  (** constraint_info.cc:278-322. *)
  Definition dParseActionInfo (a : p4_action_decl) : debug (outcome action_info) :=
    let pre := pad_preamble a in
    let++ (by_id, by_name) :=
      insert_keys ("action " ++ pr_name pre ++ " has duplicate param: ")
        (map ParseParam (pad_params a)) [] [] in
    let++ cs := ExtractConstraint kActionConstraint pre in
    match cs with
    | None => Some (Ok (mkAction (pr_id pre) (pr_name pre) None default_csource by_id by_name))
    | Some cs =>
        let+ e := dParseConstraint pton kActionConstraint cs in
        let+ e' := dInfer (Some (mkAction (pr_id pre) (pr_name pre) (Some e) cs by_id by_name)) None e in
        Some (Ok (mkAction (pr_id pre) (pr_name pre) (Some e') cs by_id by_name))
    end.

  (** constraint_info.cc:362-371 and 373-382. *)
  Fixpoint dcollect {D I} (parse : D -> debug (outcome I)) (id : D -> N) (dup : string) (l : list D)
      (by_id : list (N * I)) (errors : list string) : debug (outcome (list (N * I) * list string)) :=
    match l with
    | [] => Some (Ok (by_id, errors))
    | d :: l' =>
        dlet (parse d) (fun o =>
          match o with
          | Ok i =>
              match assoc_insert N.eqb (id d) i by_id with
              | Some by_id' => dcollect parse id dup l' by_id' errors
              | None => dcollect parse id dup l' by_id (errors ++ [dup])
              end
          | Err _ m => dcollect parse id dup l' by_id (errors ++ [m])
          | Crash w => Some (Crash w)
          end)
    end.

  (** constraint_info.cc:354-398. *)
  Definition dP4ToConstraintInfo (p : p4info) : debug (outcome constraint_info) :=
    let+ (tables, errors) :=
      dcollect dParseTableInfo (fun t => pr_id (pt_preamble t)) "duplicate table: " (p4_tables p) [] [] in
    let+ (actions, errors) :=
      dcollect dParseActionInfo (fun a => pr_id (pad_preamble a)) "duplicate action: " (p4_actions p) [] errors in
    Some (match errors with
          | [] => Ok (mkInfo actions tables)
          | _ => Err InvalidArgument
                   ("P4Info to constraint info translation failed with the following errors:" ++ nl ++ "- " ++
                    join (nl ++ "- ") (map (fun m => m ++ nl) errors))
          end).
End WithPton.
