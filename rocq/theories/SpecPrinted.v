(** What p4check says about the contents of its files; independent of the code. *)
From Coq Require Import String Ascii List ZArith NArith.
From Verif Require Import Base Num Token Ast Lexer AstConstructors Info Parser ConstraintInfo Cli SpecLexer SpecInfo SpecReading SpecMisc.
Import ListNotations.
Open Scope string_scope.

(** Tables are named by the lower 24 bits of an id, actions by the whole id. *)
Definition names_table (p : p4info) (e : p4_entry) (d : p4_table) : Prop :=
  In d (p4_tables p) /\ local_id (pr_id (pt_preamble d)) = local_id (pe_table_id e).
Definition names_action (p : p4info) (a : p4_action) (d : p4_action_decl) : Prop :=
  In d (p4_actions p) /\ pr_id (pad_preamble d) = pa_id a.
(** The actions of an entry that does not refer to a member or a group. *)
Definition performs (e : p4_entry) (l : list p4_action) : Prop :=
  pe_action e = None /\ l = [] \/ (exists a, pe_action e = Some (TAction a) /\ l = [a]) \/ pe_action e = Some (TActionSet l).
(** The table's constraint and those of all actions hold, or there is none. *)
Definition permitted (pton : inet_pton6) (p : p4info) (e : p4_entry) : Prop :=
  (exists d, names_table p e d /\ table_allows pton d e) /\
  exists l, performs e l /\ forall a, In a l -> exists d, names_action p a d /\ action_allows pton d a.
(** The table's constraint does not hold; or it does, and that of an action does not. *)
Definition forbidden (pton : inet_pton6) (p : p4info) (e : p4_entry) : Prop :=
  exists d, names_table p e d /\
    (table_says pton d e false \/
     table_allows pton d e /\ exists l pre a post d', performs e l /\ l = (pre ++ a :: post)%list /\
       (forall b, In b pre -> exists d'', names_action p b d'' /\ action_allows pton d'' b) /\
       names_action p a d' /\ action_says pton d' a false).
Definition begins (start s : string) : Prop := exists rest, s = start ++ rest.
(** What is written to standard error if the P4Info cannot be used. *)
Inductive Complaint (pton : inet_pton6) (flag : string) : file p4info -> string -> Prop :=
| cp_flag f : flag = "" -> Complaint pton flag f ("Missing argument: --p4info=<file>" ++ nl)
| cp_missing : flag <> "" -> Complaint pton flag FileMissing ("Unable to open p4info file: " ++ flag ++ nl)
| cp_bad : flag <> "" -> Complaint pton flag FileBad ("Unable to parse p4info file: " ++ flag ++ nl)
| cp_load p p' c m : flag <> "" ->
    (* the same declarations, with table ids *)
    p4_actions p' = p4_actions p ->
    Forall2 (fun d d' => pt_match_fields d' = pt_match_fields d /\ pr_name (pt_preamble d') = pr_name (pt_preamble d) /\ pr_annotations (pt_preamble d') = pr_annotations (pt_preamble d) /\
                         is_table_id (pr_id (pt_preamble d')) /\ local_id (pr_id (pt_preamble d')) = local_id (pr_id (pt_preamble d))) (p4_tables p) (p4_tables p') ->
    P4ToConstraintInfo pton p' = Err c m -> Complaint pton flag (FileOk p) m.
(** How codes are written. *)
Definition written_codes : list (code * string) :=
  [(InvalidArgument, "INVALID_ARGUMENT"); (Internal, "INTERNAL"); (Unimplemented, "UNIMPLEMENTED"); (NotFound, "NOT_FOUND"); (UnknownCode, "UNKNOWN")].
