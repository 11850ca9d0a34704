(** What a failed load reports, independent of the code. *)
From Coq Require Import String List ZArith NArith.
From Verif Require Import Base Token Info.
Import ListNotations.
Open Scope string_scope.

(** A list of errors as it is shown. *)
Fixpoint items (es : list string) : string :=
  match es with
  | [] => ""
  | e :: es => nl ++ "- " ++ e ++ nl ++ items es
  end.
Definition listed (es : list string) : string := "P4Info to constraint info translation failed with the following errors:" ++ items es.
(** [Report fine fails id dup taken ds es]: the declarations [ds], in this order, have the errors [es],
    when [taken] are the ids of preceding declarations without an error. A declaration that is fine by
    itself has an error if its id is taken. *)
Inductive Report {decl} (fine : decl -> Prop) (fails : decl -> string -> Prop) (id : decl -> N) (dup : string) : list N -> list decl -> list string -> Prop :=
| rp_nil taken : Report fine fails id dup taken [] []
| rp_fails taken d ds m es : fails d m -> Report fine fails id dup taken ds es -> Report fine fails id dup taken (d :: ds) (m :: es)
| rp_taken taken d ds es : fine d -> In (id d) taken -> Report fine fails id dup taken ds es -> Report fine fails id dup taken (d :: ds) (dup :: es)
| rp_fine taken d ds es : fine d -> ~ In (id d) taken -> Report fine fails id dup (id d :: taken) ds es -> Report fine fails id dup taken (d :: ds) es.
Definition one_table (d : p4_table) : p4info := mkP4Info [d] [].
Definition one_action (d : p4_action_decl) : p4info := mkP4Info [] [d].
