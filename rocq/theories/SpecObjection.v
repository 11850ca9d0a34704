(** What is said about an entry that does not fit the program, independent of the interpreter's code. *)
From Coq Require Import String Ascii List ZArith NArith.
From Verif Require Import Base Num Token Ast AstConstructors Info TypeChecker SpecLexer SpecGrammar SpecTyping SpecSemantics SpecInfo.
Import ListNotations.
Open Scope string_scope.

(** * Ids *)
Definition hex_digit (n : N) : ascii := nth (N.to_nat n) (list_ascii_of_string "0123456789abcdef") "?"%char.
Fixpoint hex (digits : nat) (n : N) : string :=
  match digits with
  | O => ""
  | S k => hex k (n / 16) ++ String (hex_digit (n mod 16)) ""
  end.
(** An id is written in decimal and in hexadecimal. The upper 8 bits of its 32 bits tell what kind of object it stands for; an id in which
    they are not zero is preceded by the one without them. *)
Definition id_text (id : N) : string :=
  let plain := dec (Z.of_N id) ++ " (0x" ++ hex 8 id ++ ")" in
  if (id <? 16777216)%N then plain else dec (Z.of_N (id mod 16777216)) ++ " (full ID: " ++ plain ++ ")".
Definition uint32 (id : N) : Prop := (id < 4294967296)%N.
Definition wire (entry : p4_entry) : Prop := uint32 (pe_table_id entry) /\ forall f, In f (pe_match entry) -> uint32 (fm_id f).
Definition wire_action (a : p4_action) : Prop := uint32 (pa_id a) /\ forall id s, In (id, s) (pa_params a) -> uint32 id.

(** * Match fields and arguments *)
(** Match fields with which nothing is wrong. *)
Definition in_order (ks : list key_info) (l : list field_match) : Prop :=
  NoDup (map fm_id l) /\ forall f, In f l -> exists k v, In k ks /\ k_id k = fm_id f /\ field_value (k_type k) (fm_value f) v.
(** What is wrong with the match field [f] that comes after [pre]. (The message for [bf_kind] also cites the line of the code and the
    condition that failed; these are not modelled, see Base.v.) *)
Inductive bad_field (ks : list key_info) (pre : list field_match) (f : field_match) : code -> string -> Prop :=
| bf_unknown : (forall k, In k ks -> k_id k <> fm_id f) -> bad_field ks pre f InvalidArgument ("unknown table key with ID " ++ id_text (fm_id f))
| bf_kind : misfit ks f -> bad_field ks pre f Internal "RET_CHECK failure: P4RT table entry inconsistent with P4 program"
| bf_other k : In k ks -> k_id k = fm_id f -> fm_value f = FMOther -> bad_field ks pre f InvalidArgument "unsupported P4RT field match type 100"
| bf_unset k : In k ks -> k_id k = fm_id f -> fm_value f = FMNotSet -> bad_field ks pre f InvalidArgument "unsupported P4RT field match type 0"
| bf_twice k v : In k ks -> k_id k = fm_id f -> field_value (k_type k) (fm_value f) v -> In (fm_id f) (map fm_id pre) ->
    bad_field ks pre f InvalidArgument ("duplicate match on key " ++ k_name k ++ " with ID " ++ id_text (fm_id f)).
(** Arguments of an action with which nothing is wrong: [acceptable] (SpecSemantics.v). *)
Inductive bad_argument (ps : list key_info) (pre : list (N * string)) (id : N) : string -> Prop :=
| ba_unknown : (forall q, In q ps -> k_id q <> id) -> bad_argument ps pre id ("unknown action param with ID " ++ id_text id)
| ba_twice q : In q ps -> k_id q = id -> In id (map fst pre) -> bad_argument ps pre id ("duplicate action param with ID " ++ id_text id).
Definition while_parsing (what name : string) : string := ";  while parsing P4RT table entry for " ++ what ++ " '" ++ name ++ "':".

(** * Entries and actions *)
(** [constrained pton d ks e t]: the table has the keys [ks] and the constraint [e], of type [t]. *)
Definition constrained (pton : inet_pton6) (d : p4_table) (ks : list key_info) (e : expr) (t : ty) : Prop :=
  exists cs, Forall2 key_decl (pt_match_fields d) ks /\ restricted kTableConstraint (pt_preamble d) cs /\ reads_as pton kTableConstraint cs e /\ Typed (key_scope ks) e t.
Definition constrained_action (pton : inet_pton6) (d : p4_action_decl) (ps : list key_info) (e : expr) (t : ty) : Prop :=
  exists cs, Forall2 param_decl (pad_params d) ps /\ restricted kActionConstraint (pad_preamble d) cs /\ reads_as pton kActionConstraint cs e /\ Typed (param_scope ps) e t.
(** What is wrong with an entry, its actions aside and apart from missing keys. (Where a message ends in a colon and a blank, the message
    of the code goes on with a dump of the constraint or entry, which is not modelled.) *)
Inductive objection (pton : inet_pton6) (p : p4info) (entry : p4_entry) : code -> string -> Prop :=
| ob_table : (forall d, In d (p4_tables p) -> pr_id (pt_preamble d) <> pe_table_id entry) ->
    objection pton p entry InvalidArgument ("table entry with unknown table ID " ++ id_text (pe_table_id entry))
| ob_type d ks e t : In d (p4_tables p) -> pr_id (pt_preamble d) = pe_table_id entry -> constrained pton d ks e t -> t <> TBool ->
    objection pton p entry InvalidArgument ("table " ++ pr_name (pt_preamble d) ++ " has non-boolean constraint: ")
| ob_field d ks e a f b c m : In d (p4_tables p) -> pr_id (pt_preamble d) = pe_table_id entry -> constrained pton d ks e TBool ->
    pe_match entry = (a ++ f :: b)%list -> in_order ks a -> bad_field ks a f c m ->
    objection pton p entry c (m ++ while_parsing "table" (pr_name (pt_preamble d))).
(** What is wrong with an action. *)
Inductive action_objection (pton : inet_pton6) (p : p4info) (x : p4_action) : string -> Prop :=
| ao_action : (forall d, In d (p4_actions p) -> pr_id (pad_preamble d) <> pa_id x) -> action_objection pton p x ("action entry with unknown action ID " ++ id_text (pa_id x))
| ao_type d ps e t : In d (p4_actions p) -> pr_id (pad_preamble d) = pa_id x -> constrained_action pton d ps e t -> t <> TBool ->
    action_objection pton p x ("action " ++ pr_name (pad_preamble d) ++ " has non-boolean constraint: ")
| ao_argument d ps e a id s b m : In d (p4_actions p) -> pr_id (pad_preamble d) = pa_id x -> constrained_action pton d ps e TBool ->
    pa_params x = (a ++ (id, s) :: b)%list -> acceptable ps a -> bad_argument ps a id m ->
    action_objection pton p x (m ++ while_parsing "action" (pr_name (pad_preamble d))).
(** What is said about an action that is given by reference, or not given. *)
Inductive no_action : option table_action -> string -> Prop :=
| na_member i : no_action (Some (TMemberId i)) "action restrictions not supported for entries with the given kind of action: "
| na_group i : no_action (Some (TGroupId i)) "action restrictions not supported for entries with the given kind of action: "
| na_unset : no_action (Some TActionNotSet) "unknown action type 0".
