(** Model of p4_constraints/cli/p4check.cc, after the command line was parsed. *)
From Coq Require Import String Ascii List ZArith NArith Bool.
From Verif Require Import Base Num Token Ast Quote AstConstructors Info ConstraintInfo Interpreter.
Import ListNotations.
Open Scope string_scope.

(** p4check.cc:55-61. p4::config::v1::P4Ids::TABLE is 0x02; ids are uint32. *)
Definition CoerceToTableId (id : N) : N := N.lor (N.land id 16777215) (N.shiftl 2 24).

(** p4check.cc:63-66, ToString(status). *)
Definition ToString (c : code) (m : string) : string := code_name c ++ ": " ++ m.

(** An input file: missing, not a text proto of the right type, or its contents.
    File access and TextFormat::Parse are not modelled. *)
Inductive file (A : Type) := FileMissing | FileBad | FileOk (a : A).
Arguments FileMissing {A}. Arguments FileBad {A}. Arguments FileOk {A} a.

(** p4check.cc:96-101. *)
Definition coerce_table (t : p4_table) : p4_table :=
  let p := pt_preamble t in
  mkP4Table (mkPre (CoerceToTableId (pr_id p)) (pr_name p) (pr_annotations p)) (pt_match_fields t).
(** p4check.cc:96-101, the loop over the tables. *)
Definition coerce_p4info (p : p4info) : p4info := mkP4Info (map coerce_table (p4_tables p)) (p4_actions p).
(** p4check.cc:134-138. *)
Definition coerce_entry (e : p4_entry) : p4_entry :=
  mkEntry (CoerceToTableId (pe_table_id e)) (pe_match e) (pe_action e) (pe_priority e).

(** p4check.cc:110-149: what is printed for one entry file. *)
Definition entry_header (name : string) : string :=
  "### P4Constraints Table Entry Test #######################" ++ nl ++
  "=== Input Table Entry File ===" ++ nl ++ name ++ nl ++ "=== Output ===" ++ nl.
(** p4check.cc:110-149, the outcome for one entry file. *)
Definition entry_report (ci : constraint_info) (f : file p4_entry) : outcome string :=
  match f with
  | FileMissing => Ok ("not found" ++ nl ++ nl)
  | FileBad => Ok ("unable to parse" ++ nl ++ nl)
  | FileOk e =>
      match ReasonEntryViolatesConstraint (coerce_entry e) ci with
      | Err c m => Ok ("Error: " ++ ToString c m ++ nl ++ nl)
      | Ok r => Ok ((if String.eqb r "" then "Constraint satisfied" ++ nl else r) ++ nl)
      | Crash w => Crash w
      end
  end.
(** p4check.cc:110-149, the loop over the entry files. *)
Fixpoint entry_reports (ci : constraint_info) (l : list (string * file p4_entry)) : outcome string :=
  match l with
  | [] => Ok ""
  | (name, f) :: l' =>
      let* r := entry_report ci f in
      let* rest := entry_reports ci l' in
      Ok (entry_header name ++ r ++ rest)
  end.

(** p4check.cc:68-152, main: exit code, standard output and standard error. A crash is
    the outcome of the whole run; what was printed before it may be lost in buffers
    and is not modelled. *)
Record run := mkRun { r_exit : Z; r_stdout : string; r_stderr : string }.
(** p4check.cc:68-152, main. *)
Definition p4check (pton : inet_pton6) (flag : string) (p : file p4info)
    (entries : list (string * file p4_entry)) : outcome run :=
  if String.eqb flag "" then Ok (mkRun 1 "" ("Missing argument: --p4info=<file>" ++ nl))
  else
    match p with
    | FileMissing => Ok (mkRun 1 "" ("Unable to open p4info file: " ++ flag ++ nl))
    | FileBad => Ok (mkRun 1 "" ("Unable to parse p4info file: " ++ flag ++ nl))
    | FileOk p =>
        match P4ToConstraintInfo pton (coerce_p4info p) with
        | Err _ m => Ok (mkRun 1 "" m)
        | Crash w => Crash w
        | Ok ci => let* out := entry_reports ci entries in Ok (mkRun 0 out "")
        end
    end.
