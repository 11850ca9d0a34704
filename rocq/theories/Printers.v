(** The printers of values, keys and symbolic results (operator<< and AbslStringify), used in error messages and by tests. *)
From Coq Require Import String Ascii List ZArith NArith Bool.
From Verif Require Import Base Num Token Ast Info Interpreter Z3 Symbolic.
Open Scope string_scope.

(** interpreter.h:102-124, operator<< of Integer, Exact, Ternary, Lpm and Range. There is none of the whole EvalResult; for its
    Boolean the stream prints 0 or 1 (std::ostream, not in /repo). *)
Definition print_value (v : value) : string :=
  match v with
  | VBool b => if b then "1" else "0"
  | VInt z => dec z
  | VExact z => "Exact{.value = " ++ dec z ++ "}"
  | VTernary z m => "Ternary{.value = " ++ dec z ++ ", .mask = " ++ dec m ++ "}"
  | VLpm z p => "Lpm{.value = " ++ dec z ++ ", .prefix_length = " ++ dec p ++ "}"
  | VRange l h => "Range{.low = " ++ dec l ++ ", .high = " ++ dec h ++ "}"
  end.

Section Texts.
  Variable to_string : term -> string.   (* z3::expr::to_string, not in /repo *)
  Variable ShortDebugString : ty -> string.   (* of ast.Type, protobuf, not in /repo *)

  (** symbolic_interpreter.h:162-177 and 184-195, AbslStringify and operator<< of the three kinds of SymbolicKey. *)
  Definition print_symbolic_key (k : symbolic_key) : string :=
    match k with
    | SymExact v => "SymbolicExact{ value: '" ++ to_string v ++ "' }"
    | SymTernary v m => "SymbolicTernary{ value: '" ++ to_string v ++ "' mask: '" ++ to_string m ++ "' }"
    | SymLpm v p => "SymbolicLpm{ value: '" ++ to_string v ++ "' prefix_length: '" ++ to_string p ++ "' }"
    end.
  (** symbolic_interpreter.h:178-182, AbslStringify of SymbolicAttribute. *)
  Definition print_symbolic_attribute (v : term) : string := "SymbolicAttribute{ value: '" ++ to_string v ++ "' }".
  (** symbolic_interpreter.h:201-218, AbslStringify and operator<< of SymbolicEvalResult. *)
  Definition print_symbolic_result (r : sym_result) : string :=
    match r with
    | RKey k => print_symbolic_key k
    | RTerm t => "z3_expr{ '" ++ to_string t ++ "' }"
    end.
  (** constraint_info.h:61-65 and 137-139, AbslStringify and operator<< of KeyInfo. *)
  Definition print_key_info (k : key_info) : string :=
    "KeyInfo{ id: " ++ dec_N (k_id k) ++ "; name: " ++ dq ++ k_name k ++ dq ++ "; type: { " ++ ShortDebugString (k_type k) ++ " }; }".
End Texts.
