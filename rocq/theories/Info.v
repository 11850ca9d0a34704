(** Data types of p4_constraints/backend/constraint_info.h and of the parts of
    P4Info / P4Runtime protobufs the code reads. *)
From Coq Require Import String Ascii List ZArith NArith Bool.
From Verif Require Import Base Num Token Ast.
Import ListNotations.

(** constraint_info.h: struct KeyInfo / ParamInfo (same fields). *)
Record key_info := mkKey { k_id : N; k_name : string; k_type : ty }.
(** constraint_info.h:52-59, ParamInfo: the same fields as KeyInfo. *)
Definition param_info := key_info.

(** constraint_info.h: struct TableInfo. *)
Record table_info := mkTable {
  ti_id : N; ti_name : string;
  ti_constraint : option expr; ti_source : csource;
  ti_keys_by_id : list (N * key_info);
  ti_keys_by_name : list (string * key_info) }.

(** constraint_info.h: struct ActionInfo. *)
Record action_info := mkAction {
  ai_id : N; ai_name : string;
  ai_constraint : option expr; ai_source : csource;
  ai_params_by_id : list (N * param_info);
  ai_params_by_name : list (string * param_info) }.

(** constraint_info.h: struct ConstraintInfo. *)
Record constraint_info := mkInfo {
  ci_actions : list (N * action_info);
  ci_tables : list (N * table_info) }.

(** constraint_info.cc:326-338, GetAttributeInfo (the name of AttributeInfo is
    its argument). *)
Definition GetAttributeInfo (name : string) : option ty :=
  if String.eqb name "priority" then Some TInt else None.

(** constraint_info.cc:340-345. *)
Definition GetTableInfoOrNull (ci : constraint_info) (id : N) : option table_info :=
  assoc_find N.eqb id (ci_tables ci).
(** constraint_info.cc:347-352, GetActionInfoOrNull. *)
Definition GetActionInfoOrNull (ci : constraint_info) (id : N) : option action_info :=
  assoc_find N.eqb id (ci_actions ci).

(** p4/v1/p4runtime.proto, message FieldMatch. *)
Inductive field_match_value :=
| FMExact (value : string)
| FMTernary (value mask : string)
| FMLpm (value : string) (prefix_len : Z)
| FMRange (low high : string)
| FMOptional (value : string)
| FMOther                       (* google.protobuf.Any other *)
| FMNotSet.
(** p4.v1.FieldMatch (p4runtime.proto, not in /repo). *)
Record field_match := mkFM { fm_id : N; fm_value : field_match_value }.

(** p4/v1/p4runtime.proto, messages Action, TableAction, TableEntry. *)
Record p4_action := mkP4Action { pa_id : N; pa_params : list (N * string) }.
(** p4.v1.TableAction (p4runtime.proto, not in /repo). *)
Inductive table_action :=
| TAction (a : p4_action)
| TMemberId (id : N)
| TGroupId (id : N)
| TActionSet (l : list p4_action)
| TActionNotSet.
(** p4.v1.TableEntry (p4runtime.proto, not in /repo), the fields that are read. *)
Record p4_entry := mkEntry {
  pe_table_id : N; pe_match : list field_match;
  pe_action : option table_action; pe_priority : Z }.

(** p4/config/v1/p4info.proto: Preamble, MatchField, Action.Param, Table, Action, P4Info. *)
Record preamble := mkPre { pr_id : N; pr_name : string; pr_annotations : list string }.
(** p4.config.v1.MatchField.MatchType (p4info.proto, not in /repo). *)
Inductive p4_match_type := MTUnspecified | MTExact | MTLpm | MTTernary | MTRange | MTOptional
                         | MTUnknownEnum (n : Z).
(** The oneof match of p4.config.v1.MatchField. *)
Inductive p4_match := MMatchType (t : p4_match_type) | MOther (s : string) | MNotSet.
(** p4.config.v1.MatchField. *)
Record match_field := mkMF { mf_id : N; mf_name : string; mf_bitwidth : Z; mf_match : p4_match }.
(** p4.config.v1.Action.Param. *)
Record action_param := mkAP { ap_id : N; ap_name : string; ap_bitwidth : Z; ap_type_name : string }.
(** p4.config.v1.Table, the fields that are read. *)
Record p4_table := mkP4Table { pt_preamble : preamble; pt_match_fields : list match_field }.
(** p4.config.v1.Action, the fields that are read. *)
Record p4_action_decl := mkP4ActionDecl { pad_preamble : preamble; pad_params : list action_param }.
(** p4.config.v1.P4Info, the fields that are read. *)
Record p4info := mkP4Info { p4_tables : list p4_table; p4_actions : list p4_action_decl }.
