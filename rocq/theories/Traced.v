(** Model of the work done when a constraint is checked: the functions of Interpreter.v and
    Ast.v (Size) with a log of the expressions they work on. *)
From Coq Require Import String Ascii List ZArith NArith Bool.
From Verif Require Import Base Num Token Ast Quote Info TypeChecker Interpreter.
Import ListNotations.
Open Scope string_scope.

(** A result with the expressions (by their paths) that were evaluated on the way. *)
Definition logged (A : Type) : Type := (A * list path)%type.
(** As [rbind] of Interpreter.v; the logs are appended. *)
Definition lbind {A B} (r : logged (res A)) (f : A -> eval_cache -> logged (res B)) : logged (res B) :=
  match r with
  | ((Ok a, c), t) => let '(r', t') := f a c in (r', (t ++ t')%list)
  | ((Err k m, c), t) => ((Err k m, c), t)
  | ((Crash w, c), t) => ((Crash w, c), t)
  end.
(** A result on whose way nothing is logged. *)
Definition silent {A} (r : A) : logged A := (r, []).

Section Eval.
  Variable ctx : eval_context.
  Let src := ec_src ctx.

  Section Aux.
    Variable ev : expr -> path -> eval_cache -> logged (res value).

    (** interpreter.cc:281-298. *)
    Definition leval_to_bool (e : expr) (p : path) (c : eval_cache) : logged (res bool) :=
      match match c with Some m => assoc_find path_eqb p m | None => None end with
      | Some b => silent (Ok b, c)
      | None =>
          lbind (ev e p c) (fun v c => silent
            match v with
            | VBool b => (Ok b, option_map (cache_insert p b) c)
            | _ => (RuntimeTypeError src e "expected expression of type bool", c)
            end)
      end.

    (** interpreter.cc:301-310. *)
    Definition leval_to_int (e : expr) (p : path) (c : eval_cache) : logged (res Z) :=
      lbind (ev e p c) (fun v c => silent
        match v with
        | VInt z => (Ok z, c)
        | _ => (RuntimeTypeError src e "expected expression of integral type", c)
        end).
    (** interpreter.cc:389-393, as [eval_to_int_annotated] of Interpreter.v. *)
    Definition leval_to_int_annotated (e : expr) (p : path) (c : eval_cache) : logged (res Z) :=
      let '((o, c), t) := leval_to_int e p c in ((annotate o " in ordered comparison", c), t).
  End Aux.

  (** interpreter.cc:664-780 wrapped by 824-830: entering Eval for the expression at [p] is logged. Leaves as in Interpreter.Eval. *)
  Fixpoint lEval (e : expr) (p : path) (c : eval_cache) {struct e} : logged (res value) :=
    let '(r, t) :=
      match e with
      | EBool _ _ | EInt _ _ | EKey _ _ | EParam _ _ | EAttr _ _ | ENotSet _ => silent (Eval ctx e p c)
      | _ =>
      lbind
        match e with
        | ENot _ a =>
            lbind (leval_to_bool lEval a (false :: p) c) (fun b c => silent (Ok (VBool (negb b)), c))
        | ENeg _ a =>
            lbind (leval_to_int lEval a (false :: p) c) (fun z c => silent (Ok (VInt (- z)), c))
        | ECast m a =>
            lbind (lEval a (false :: p) c) (fun v c => silent (CastTo src (m_type m) a v, c))
        | EBin _ op l r =>
            match op with
            | OEQ | ONE =>
                lbind (lEval l (false :: p) c) (fun vl c =>
                lbind (lEval r (true :: p) c) (fun vr c =>
                  silent (Ok (VBool (match op with OEQ => value_eqb vl vr | _ => negb (value_eqb vl vr) end)), c)))
            | OGT | OGE | OLT | OLE =>
                lbind (leval_to_int_annotated lEval l (false :: p) c) (fun zl c =>
                lbind (leval_to_int_annotated lEval r (true :: p) c) (fun zr c =>
                  silent (Ok (VBool (ordered op zl zr)), c)))
            | OAND | OOR | OIMPLIES =>
                lbind (leval_to_bool lEval l (false :: p) c) (fun bl c =>
                  let right := lbind (leval_to_bool lEval r (true :: p) c) (fun br c => silent (Ok (VBool br), c)) in
                  match op with
                  | OAND => if bl then right else silent (Ok (VBool false), c)
                  | OOR => if bl then silent (Ok (VBool true), c) else right
                  | _ => if bl then right else silent (Ok (VBool true), c)
                  end)
            | UNKNOWN_OPERATOR =>
                silent (Err Internal "unknown binary operator UNKNOWN_OPERATOR encountered at runtime", c)
            end
        | EField _ field a =>
            lbind (lEval a (false :: p) c) (fun v c => silent
              match EvalFieldAccess field v with
              | inl v' => (Ok v', c)
              | inr tyname =>
                  (RuntimeTypeError src e ("value of type " ++ tyname ++ " has no field " ++ field), c)
              end)
        | _ => silent (Eval ctx e p c)
        end
        (fun v c => silent (DynamicTypeCheck src e v, c))
      end in
    (r, p :: t).

  (** interpreter.cc:281-298, EvalToBool. *)
  Definition lEvalToBool := leval_to_bool lEval.

  (** ast.cc:254-294: computing the size of a binary expression or negation (no cached result) is logged. *)
  Fixpoint lSize (e : expr) (p : path) (c : option size_cache) : logged (outcome Z * option size_cache) :=
    match match c with Some m => assoc_find path_eqb p m | None => None end with
    | Some n => silent (Ok n, c)
    | None =>
        let store (n : Z) (c : option size_cache) := option_map (cache_insert p n) c in
        match e with
        | EBin _ _ a b =>
            match lSize a (false :: p) c with
            | ((Ok na, c1), t1) =>
                match lSize b (true :: p) c1 with
                | ((Ok nb, c2), t2) => ((Ok (1 + na + nb)%Z, store (1 + na + nb)%Z c2), p :: t1 ++ t2)
                | ((Err k m, c2), t2) => ((Err k m, c2), p :: t1 ++ t2)
                | ((Crash w, c2), t2) => ((Crash w, c2), p :: t1 ++ t2)
                end
            | ((Err k m, c1), t1) => ((Err k m, c1), p :: t1)
            | ((Crash w, c1), t1) => ((Crash w, c1), p :: t1)
            end
        | ENot _ a =>
            match lSize a (false :: p) c with
            | ((Ok na, c1), t1) => ((Ok (1 + na)%Z, store (1 + na)%Z c1), p :: t1)
            | ((Err k m, c1), t1) => ((Err k m, c1), p :: t1)
            | ((Crash w, c1), t1) => ((Crash w, c1), p :: t1)
            end
        | _ => silent (Size e p c)
        end
    end%list.

  (** Results of the search for an explanation: evaluated expressions, sized expressions, visited expressions. *)
  Record work := mkWork { evaluated : list path; sized : list path; searched : list path }.
  (** Nothing done. *)
  Definition no_work : work := mkWork [] [] [].
  (** One work after the other. *)
  Definition plus (a b : work) : work :=
    mkWork (evaluated a ++ evaluated b) (sized a ++ sized b) (searched a ++ searched b).
  (** As [ebind] of Interpreter.v; the works are added. *)
  Definition wbind {A B} (r : eres A * work) (f : A -> eval_cache -> option size_cache -> eres B * work) : eres B * work :=
    match r with
    | ((Ok a, c, s), w) => let '(r', w') := f a c s in (r', plus w w')
    | ((Err k m, c, s), w) => ((Err k m, c, s), w)
    | ((Crash x, c, s), w) => ((Crash x, c, s), w)
    end.
  (** As [lift_eval] of Interpreter.v. *)
  Definition llift_eval {A} (r : logged (res A)) (s : option size_cache) : eres A * work :=
    let '((o, c), t) := r in ((o, c, s), mkWork t [] []).
  (** As [lift_size] of Interpreter.v. *)
  Definition llift_size {A} (r : logged (outcome A * option size_cache)) (c : eval_cache) : eres A * work :=
    let '((o, s), t) := r in ((o, c, s), mkWork [] t []).

  (** interpreter.cc:480-588. *)
  Fixpoint lMinimal (e : expr) (p : path) (c : eval_cache) (s : option size_cache) {struct e} : eres (expr * path) * work :=
    let '(r, w) :=
      match e with
      | ENot _ a => lMinimal a (false :: p) c s
      | EBin _ ((OAND | OOR | OIMPLIES) as op) l r =>
          wbind (llift_eval (lEvalToBool l (false :: p) c) s) (fun bl c s =>
          wbind (llift_eval (lEvalToBool r (true :: p) c) s) (fun br c s =>
            let cand_l := match op with OOR => bl | _ => negb bl end in
            let cand_r := match op with OAND => negb br | _ => br end in
            match cand_l, cand_r with
            | false, false => ((Ok (e, p), c, s), no_work)
            | true, false => lMinimal l (false :: p) c s
            | false, true => lMinimal r (true :: p) c s
            | true, true =>
                wbind (lMinimal l (false :: p) c s) (fun s0 c s =>
                wbind (lMinimal r (true :: p) c s) (fun s1 c s =>
                wbind (llift_size (lSize (fst s0) (snd s0) s) c) (fun n0 c s =>
                wbind (llift_size (lSize (fst s1) (snd s1) s) c) (fun n1 c s =>
                  ((Ok (if Z.leb n0 n1 then s0 else s1), c, s), no_work)))))
            end))
      | _ => (MinimalSubexpression ctx e p c s, no_work)
      end in
    (r, plus (mkWork [] [] [p]) w).

  (** interpreter.cc:591-656. *)
  Definition lExplain (e : expr) (c : eval_cache) (s : option size_cache) : outcome string * work :=
    match lMinimal e [] c s with
    | ((Ok (explanation, p), c, s), w) =>
        let '((o, _), t) := lEvalToBool explanation p c in
        (let* truth_value := o in
         let* reason := QuoteSubConstraint src (e_start explanation) (e_end explanation) in
         Ok (violation_text ctx explanation truth_value reason), plus w (mkWork t [] []))
    | ((Err k m, _, _), w) => (Err k m, w)
    | ((Crash x, _, _), w) => (Crash x, w)
    end.

  (** interpreter.cc:849-863 and 914-923. *)
  Definition lcheck_constraint (e : expr) : outcome string * work :=
    match lEvalToBool e [] (Some []) with
    | ((Ok ok, c), t) =>
        if ok then (Ok "", mkWork t [] [])
        else let '(o, w) := lExplain e c (Some []) in (o, plus (mkWork t [] []) w)
    | ((Err k m, _), t) => (Err k m, mkWork t [] [])
    | ((Crash x, _), t) => (Crash x, mkWork t [] [])
    end.
End Eval.

(** One check of a constraint: the constraint, its text, and the work. *)
Record checked := mkChecked { ck_expr : expr; ck_text : string; ck_work : work }.

(** interpreter.cc:832-864. *)
Definition lReasonActionViolates (ci : constraint_info) (a : p4_action) : outcome string * list checked :=
  match GetActionInfoOrNull ci (pa_id a) with
  | None => (Err InvalidArgument ("action entry with unknown action ID " ++ P4IDToString (pa_id a)), [])
  | Some ai =>
      match ai_constraint ai with
      | None => (Ok "", [])
      | Some e =>
          if negb (is_bool_type (e_type e)) then
            (Err InvalidArgument ("action " ++ ai_name ai ++ " has non-boolean constraint: "), [])
          else
            match annotate (ParseAction a ai)
                    (" while parsing P4RT table entry for action '" ++ ai_name ai ++ "':") with
            | Ok ctx => let '(o, w) := lcheck_constraint ctx e in (o, [mkChecked e (cs_string (ai_source ai)) w])
            | Err k m => (Err k m, [])
            | Crash x => (Crash x, [])
            end
      end
  end.

(** interpreter.cc:866-877. *)
Fixpoint lReasonActionSetViolates (ci : constraint_info) (l : list p4_action) : outcome string * list checked :=
  match l with
  | [] => (Ok "", [])
  | a :: l' =>
      match lReasonActionViolates ci a with
      | (Ok reason, t) =>
          if String.eqb reason "" then let '(o, t') := lReasonActionSetViolates ci l' in (o, (t ++ t')%list)
          else (Ok reason, t)
      | (Err k m, t) => (Err k m, t)
      | (Crash x, t) => (Crash x, t)
      end
  end.

(** interpreter.cc:901-924. *)
Definition lReasonTableViolates (t : table_info) (entry : p4_entry) : outcome string * list checked :=
  match ti_constraint t with
  | None => (Ok "", [])
  | Some e =>
      if negb (is_bool_type (e_type e)) then
        (Err InvalidArgument ("table " ++ ti_name t ++ " has non-boolean constraint: "), [])
      else
        match annotate (ParseTableEntry entry t)
                (" while parsing P4RT table entry for table '" ++ ti_name t ++ "':") with
        | Ok ctx => let '(o, w) := lcheck_constraint ctx e in (o, [mkChecked e (cs_string (ti_source t)) w])
        | Err k m => (Err k m, [])
        | Crash x => (Crash x, [])
        end
  end.

(** interpreter.cc:883-946: the public function with the checks it makes. *)
Definition lReasonEntryViolatesConstraint (entry : p4_entry) (ci : constraint_info) : outcome string * list checked :=
  match GetTableInfoOrNull ci (pe_table_id entry) with
  | None => (Err InvalidArgument ("table entry with unknown table ID " ++ P4IDToString (pe_table_id entry)), [])
  | Some t =>
      match lReasonTableViolates t entry with
      | (Ok reason, log) =>
          if negb (String.eqb reason "") then (Ok reason, log)
          else
            let '(o, log') :=
              match pe_action entry with
              | None => (Ok "", [])
              | Some (TAction a) => lReasonActionViolates ci a
              | Some (TMemberId _) | Some (TGroupId _) =>
                  (Err InvalidArgument
                     "action restrictions not supported for entries with the given kind of action: ", [])
              | Some (TActionSet l) => lReasonActionSetViolates ci l
              | Some TActionNotSet => (Err InvalidArgument "unknown action type 0", [])
              end in
            (o, (log ++ log')%list)
      | (Err k m, log) => (Err k m, log)
      | (Crash x, log) => (Crash x, log)
      end
  end.
