(** The solver with a skip_key_named that has a memory: a std::function may give
    different answers to the same question over time. Symbolic.v assumes that it does
    not. Here every call takes the state of the function and gives the next one. *)
From Coq Require Import String List ZArith NArith Bool.
From Verif Require Import Base Num Token Ast AstConstructors Parser Info TypeChecker ConstraintInfo Interpreter Z3 Symbolic.
Import ListNotations.
Open Scope string_scope.
Open Scope list_scope.

(** symbolic_interpreter.h:140-143: the function is a member of the solver. Here it is an
    argument of the two operations that call it, and this stands in its place:
    AddConstraint (symbolic_interpreter.cc:731-769) does not call it. *)
Definition uncalled : string -> outcome bool := fun _ => Ok false.

Section Calls.
  Context {S : Type}.
  Variable ask : S -> string -> outcome bool * S.   (* skip_key_named *)
  Variable check : solver.   (* solver.check() and get_model() *)

  (** symbolic_interpreter.cc:781-799, the loop of Create. *)
  Fixpoint create_keys_asking (s : S) (l : list (string * key_info)) (prio : bool) (keys : list (string * symbolic_key)) (asserted : list term)
      : outcome (bool * list (string * symbolic_key) * list term) * S :=
    match l with
    | [] => (Ok (prio, keys, asserted), s)
    | (name, ki) :: l' =>
        let prio := match k_type ki with TTernary _ | TOptional _ => true | _ => prio end in
        match ask s name with
        | (Ok true, s') => create_keys_asking s' l' prio keys asserted
        | (Ok false, s') =>
            match AddSymbolicKey ki with
            | Ok (k, asserts) => create_keys_asking s' l' prio (keys ++ [(name, k)]) (asserted ++ asserts)
            | Err c m => (Err c m, s')
            | Crash w => (Crash w, s')
            end
        | (Err c m, s') => (Err c m, s')
        | (Crash w, s') => (Crash w, s')
        end
    end.
  (** symbolic_interpreter.cc:771-822, ConstraintSolver::Create. *)
  Definition CreateAsking (s : S) (t : table_info) : outcome constraint_solver * S :=
    let (r, s') := create_keys_asking s (Ordered (ti_keys_by_name t)) false [] [] in
    (let* (prio, keys, asserted) := r in
     let '(attrs, asserted) :=
       if prio then ([(kSymbolicPriorityAttributeName, fst AddSymbolicPriority)], (asserted ++ snd AddSymbolicPriority)) else ([], asserted) in
     let cs := mkCS t (mkEnv keys attrs) uncalled [asserted] in
     match ti_constraint t with
     | None => Ok cs
     | Some e =>
         match AddConstraint check cs e (ti_source t) with
         | (Ok true, cs') => Ok cs'
         | (Ok false, _) => Err InvalidArgument
             ("TableInfo provided an unsatisfiable constraint. " ++
              "ConstraintSolver must contain a satisfiable constraint at all times so creation failed." ++
              nl ++ " Unsatisfiable Constraint: " ++ cs_string (ti_source t))%string
         | (Err c m, _) => Err c m
         | (Crash w, _) => Crash w
         end
     end, s').

  (** symbolic_interpreter.cc:695-711, the loop of ConcretizeEntry. *)
  Fixpoint concretize_keys_asking (cs : constraint_solver) (m : model) (s : S) (l : list (string * key_info)) (acc : list field_match) : outcome (list field_match) * S :=
    match l with
    | [] => (Ok acc, s)
    | (name, ki) :: l' =>
        match ask s name with
        | (Ok true, s') => concretize_keys_asking cs m s' l' acc
        | (Ok false, s') =>
            match (let* sk := FindPtrOrStatus (se_keys (cs_env cs)) name in ConcretizeKey sk ki m) with
            | Ok fm => concretize_keys_asking cs m s' l' (match fm with Some f => acc ++ [f] | None => acc end)
            | Err c e => (Err c e, s')
            | Crash w => (Crash w, s')
            end
        | (Err c e, s') => (Err c e, s')
        | (Crash w, s') => (Crash w, s')
        end
    end.
  (** symbolic_interpreter.cc:683-729, ConcretizeEntry. *)
  Definition ConcretizeEntryAsking (s : S) (cs : constraint_solver) : outcome p4_entry * S :=
    match check (assertions (cs_stack cs)) with
    | None => (Err Internal "Constraints are not satisfiable.", s)
    | Some m =>
        let (r, s') := concretize_keys_asking cs m s (Ordered (ti_keys_by_name (cs_table cs))) [] in
        (let* fields := r in
         let* priority :=
           match assoc_find String.eqb kSymbolicPriorityAttributeName (se_attrs (cs_env cs)) with
           | None => Ok 0%Z
           | Some t =>
               match t with
               | ZConst n so =>
                   match m n so with
                   | Some v => get_numeral_int v
                   | None => Err InvalidArgument
                       "A priority SymbolicAttribute existed, but it was not constrained."
                   end
               | _ => Crash Z3Exception   (* decl() of a non-constant: never built *)
               end
           end in
         Ok (mkEntry (ti_id (cs_table cs)) fields None priority), s')
    end.
End Calls.
