(** Specifications for C51-C53. *)
From Coq Require Import String List ZArith NArith.
From Verif Require Import Base Token Ast Quote Info ConstraintInfo Interpreter Cli.
Import ListNotations.
Open Scope string_scope.

(** * Trees *)
(** The operands of boolean operators and comparisons. *)
Inductive Operand : expr -> expr -> Prop :=
| od_not m e : Operand (ENot m e) e
| od_left m o a b : Operand (EBin m o a b) a
| od_right m o a b : Operand (EBin m o a b) b.
(** The same tree, apart from the locations and types of its nodes. *)
Inductive Alike : expr -> expr -> Prop :=
| al_bool m m' b : Alike (EBool m b) (EBool m' b)
| al_int m m' s : Alike (EInt m s) (EInt m' s)
| al_key m m' n : Alike (EKey m n) (EKey m' n)
| al_param m m' n : Alike (EParam m n) (EParam m' n)
| al_not m m' e e' : Alike e e' -> Alike (ENot m e) (ENot m' e')
| al_neg m m' e e' : Alike e e' -> Alike (ENeg m e) (ENeg m' e')
| al_cast m m' e e' : Alike e e' -> Alike (ECast m e) (ECast m' e')
| al_bin m m' o a a' b b' : Alike a a' -> Alike b b' -> Alike (EBin m o a b) (EBin m' o a' b')
| al_field m m' f e e' : Alike e e' -> Alike (EField m f e) (EField m' f e')
| al_attr m m' n : Alike (EAttr m n) (EAttr m' n)
| al_notset m m' : Alike (ENotSet m) (ENotSet m').
(** A parameter, or an unset node, that is compared or combined as it is. *)
Inductive Uncounted : expr -> Prop :=
| un_param m n : Uncounted (EParam m n)
| un_notset m : Uncounted (ENotSet m)
| un_operand e s : Operand e s -> Uncounted s -> Uncounted e.

(** * p4check *)
(** The id of the table in its lower 24 bits, the kind of object above. *)
Definition local_id (id : N) : N := (id mod 2 ^ 24)%N.
Definition is_table_id (id : N) : Prop := (id / 2 ^ 24 = 2)%N.
(** What is printed for a file, after its name. *)
Inductive Report (ci : constraint_info) : file p4_entry -> string -> Prop :=
| rp_missing : Report ci FileMissing ("not found" ++ nl ++ nl)
| rp_bad : Report ci FileBad ("unable to parse" ++ nl ++ nl)
| rp_error e e' c m : pe_table_id e' = (2 * 2 ^ 24 + local_id (pe_table_id e))%N -> pe_match e' = pe_match e -> pe_action e' = pe_action e -> pe_priority e' = pe_priority e ->
    ReasonEntryViolatesConstraint e' ci = Err c m -> Report ci (FileOk e) ("Error: " ++ code_name c ++ ": " ++ m ++ nl ++ nl)
| rp_satisfied e e' : pe_table_id e' = (2 * 2 ^ 24 + local_id (pe_table_id e))%N -> pe_match e' = pe_match e -> pe_action e' = pe_action e -> pe_priority e' = pe_priority e ->
    ReasonEntryViolatesConstraint e' ci = Ok "" -> Report ci (FileOk e) ("Constraint satisfied" ++ nl ++ nl)
| rp_violated e e' r : pe_table_id e' = (2 * 2 ^ 24 + local_id (pe_table_id e))%N -> pe_match e' = pe_match e -> pe_action e' = pe_action e -> pe_priority e' = pe_priority e ->
    ReasonEntryViolatesConstraint e' ci = Ok r -> r <> "" -> Report ci (FileOk e) (r ++ nl).
Inductive Printed (ci : constraint_info) : string * file p4_entry -> string -> Prop :=
| pr_file name f r : Report ci f r ->
    Printed ci (name, f) ("### P4Constraints Table Entry Test #######################" ++ nl ++ "=== Input Table Entry File ===" ++ nl ++ name ++ nl ++ "=== Output ===" ++ nl ++ r).
