(** What checking an entry reports, including failures and their status codes, independent of the code. *)
From Coq Require Import String Ascii List ZArith NArith Bool Sorted.
From Verif Require Import Base Num Token Ast AstConstructors Quote Info TypeChecker Interpreter SpecLexer SpecGrammar SpecParser SpecTyping SpecSemantics SpecInfo SpecExplain SpecCrash SpecReading.
Import ListNotations.
Open Scope string_scope.

(** Either an answer, which is empty if the entry is accepted and an explanation otherwise, or a failure. *)
Inductive verdict := Says (text : string) | Failed (c : code).
Definition reports (o : outcome string) (v : verdict) : Prop :=
  match v with Says text => o = Ok text | Failed c => exists m, o = Err c m end.

(** * Explanations *)
Section Explaining.
  (** The truth values that parts of the constraint have. *)
  Variable holds : expr -> bool -> Prop.
  Definition left_decides (o : binop) (x : bool) : Prop := forall y y', truth o x y = truth o x y'.
  Definition right_decides (o : binop) (y : bool) : Prop := forall x x', truth o x y = truth o x' y.
  (** [Explained e s]: the part [s] explains the truth value of [e]. A part explains itself unless it is
      a negation, or a connective with an operand that decides alone. Of two such operands, that
      with the shorter explanation is taken. *)
  Inductive Explained : expr -> expr -> Prop :=
  | xp_bool m b : Explained (EBool m b) (EBool m b)
  | xp_compare m o a b : comparison o -> Explained (EBin m o a b) (EBin m o a b)
  | xp_not m e s : Explained e s -> Explained (ENot m e) s
  | xp_none m o a b x y : connective o -> holds a x -> holds b y -> ~ left_decides o x -> ~ right_decides o y -> Explained (EBin m o a b) (EBin m o a b)
  | xp_left m o a b x y s : connective o -> holds a x -> holds b y -> left_decides o x -> ~ right_decides o y -> Explained a s -> Explained (EBin m o a b) s
  | xp_right m o a b x y s : connective o -> holds a x -> holds b y -> ~ left_decides o x -> right_decides o y -> Explained b s -> Explained (EBin m o a b) s
  | xp_both_left m o a b x y s t i j : connective o -> holds a x -> holds b y -> left_decides o x -> right_decides o y ->
      Explained a s -> Explained b t -> Nodes s i -> Nodes t j -> (i <= j)%Z -> Explained (EBin m o a b) s
  | xp_both_right m o a b x y s t i j : connective o -> holds a x -> holds b y -> left_decides o x -> right_decides o y ->
      Explained a s -> Explained b t -> Nodes s i -> Nodes t j -> (j < i)%Z -> Explained (EBin m o a b) t.
  (** [Unexplained e c]: there is no explanation of the truth value of [e], and the failure is [c]: a
      connective has a second operand without a truth value, or explanations whose sizes
      are to be compared have none. *)
  Inductive Unexplained : expr -> code -> Prop :=
  | ux_not m e c : Unexplained e c -> Unexplained (ENot m e) c
  | ux_value m o a b x : connective o -> holds a x -> (forall y, ~ holds b y) -> Unexplained (EBin m o a b) Internal
  | ux_left m o a b x y c : connective o -> holds a x -> holds b y -> left_decides o x -> Unexplained a c -> Unexplained (EBin m o a b) c
  | ux_right m o a b x y c : connective o -> holds a x -> holds b y -> ~ left_decides o x -> right_decides o y -> Unexplained b c -> Unexplained (EBin m o a b) c
  | ux_right_too m o a b x y s c : connective o -> holds a x -> holds b y -> left_decides o x -> right_decides o y ->
      Explained a s -> Unexplained b c -> Unexplained (EBin m o a b) c
  | ux_size m o a b x y s t : connective o -> holds a x -> holds b y -> left_decides o x -> right_decides o y ->
      Explained a s -> Explained b t -> ~ (exists i j, Nodes s i /\ Nodes t j) -> Unexplained (EBin m o a b) InvalidArgument.
  (** [Judged report e v]: the verdict of the boolean constraint [e]; [report s x text] says how an
      explanation [s] with truth value [x] is told. *)
  Inductive Judged (report : expr -> bool -> string -> Prop) (e : expr) : verdict -> Prop :=
  | jd_true : holds e true -> Judged report e (Says "")
  | jd_false s x text : holds e false -> Explained e s -> holds s x -> report s x text -> Judged report e (Says text)
  | jd_unexplained c : holds e false -> Unexplained e c -> Judged report e (Failed c)
  | jd_none : (forall x, ~ holds e x) -> Judged report e (Failed Internal).
End Explaining.

(** * Texts *)
Definition told (what : string) (x : bool) (quote : string) : string :=
  "All " ++ what ++ " must " ++ (if x then "not " else "") ++ "satisfy:" ++ nl ++ nl ++ quote ++ nl ++ "But your entry does" ++ (if x then "" else " not") ++ "." ++ nl.
Definition written_value (v : value) : string :=
  match v with
  | VBool true => "true" | VBool false => "false" | VInt z => dec z
  | VExact z => "Exact{.value = " ++ dec z ++ "}"
  | VTernary z m => "Ternary{.value = " ++ dec z ++ ", .mask = " ++ dec m ++ "}"
  | VLpm z n => "Lpm{.value = " ++ dec z ++ ", .prefix_length = " ++ dec n ++ "}"
  | VRange l h => "Range{.low = " ++ dec l ++ ", .high = " ++ dec h ++ "}"
  end.
(** In the order of their bytes. *)
Definition before {V} (a b : string * V) : Prop := String.compare (fst a) (fst b) = Lt.
Definition table_report (name : string) (cs : csource) (key : string -> option value) (priority : Z) (s : expr) (x : bool) (text : string) : Prop :=
  exists quote l, QuoteSubConstraint cs (e_start s) (e_end s) = Ok quote /\ StronglySorted before l /\ (forall n v, In (n, v) l <-> mentions s n /\ key n = Some v) /\
    text = told "entries" x quote ++ ">>>Relevant Entry Info<<<" ++ nl ++ "Table Name: " ++ dq ++ name ++ dq ++ nl ++ "Priority:" ++ dec priority ++ nl ++
           String.concat "" (map (fun kv => "Field: " ++ dq ++ fst kv ++ dq ++ " -> Value: " ++ written_value (snd kv) ++ nl) l).
Definition action_report (name : string) (cs : csource) (param : string -> option Z) (s : expr) (x : bool) (text : string) : Prop :=
  exists quote l, QuoteSubConstraint cs (e_start s) (e_end s) = Ok quote /\ StronglySorted before l /\ (forall n v, In (n, v) l <-> mentions s n /\ param n = Some v) /\
    text = told "actions" x quote ++ ">>>Relevant Action Info<<<" ++ nl ++ "Action Name: " ++ dq ++ name ++ dq ++ nl ++
           String.concat "" (map (fun kv => "Param name: " ++ dq ++ fst kv ++ dq ++ " -> Value: " ++ dec (snd kv) ++ nl) l).

(** * Entries *)
(** The match fields do not fit the keys. *)
Inductive faulty (ks : list key_info) (l : list field_match) : code -> Prop :=
| fl_misfit a f b : l = (a ++ f :: b)%list -> all_fine ks a -> misfit ks f -> faulty ks l Internal
| fl_other a f b : l = (a ++ f :: b)%list -> all_fine ks a -> ~ fine ks a f -> ~ misfit ks f -> faulty ks l InvalidArgument
| fl_missing k w : all_fine ks l -> In k ks -> omitted k l -> k_type k = TExact w -> faulty ks l InvalidArgument
| fl_unsupported k : all_fine ks l -> In k ks -> omitted k l -> (forall w, ~ match_type w (k_type k)) -> faulty ks l Internal.
Inductive table_outcome (pton : inet_pton6) (d : p4_table) (entry : p4_entry) : verdict -> Prop :=
| tv_free : unrestricted kTableConstraint (pt_preamble d) -> table_outcome pton d entry (Says "")
| tv_type ks cs e t : Forall2 key_decl (pt_match_fields d) ks -> restricted kTableConstraint (pt_preamble d) cs -> reads_as pton kTableConstraint cs e ->
    Typed (key_scope ks) e t -> t <> TBool -> table_outcome pton d entry (Failed InvalidArgument)
| tv_faulty ks cs e c : Forall2 key_decl (pt_match_fields d) ks -> restricted kTableConstraint (pt_preamble d) cs -> reads_as pton kTableConstraint cs e ->
    Typed (key_scope ks) e TBool -> faulty ks (pe_match entry) c -> table_outcome pton d entry (Failed c)
| tv_judged ks cs e key v : Forall2 key_decl (pt_match_fields d) ks -> restricted kTableConstraint (pt_preamble d) cs -> reads_as pton kTableConstraint cs e ->
    Typed (key_scope ks) e TBool -> consistent ks (pe_match entry) -> (forall n v, key n = Some v <-> Assigned ks (pe_match entry) n v) ->
    Judged (fun s x => Meant unordered_exact (key_scope ks) (TableEnv key (pe_priority entry)) s (VBool x))
      (table_report (pr_name (pt_preamble d)) cs key (pe_priority entry)) e v -> table_outcome pton d entry v.
Inductive action_outcome (pton : inet_pton6) (d : p4_action_decl) (a : p4_action) : verdict -> Prop :=
| av_free : unrestricted kActionConstraint (pad_preamble d) -> action_outcome pton d a (Says "")
| av_type ps cs e t : Forall2 param_decl (pad_params d) ps -> restricted kActionConstraint (pad_preamble d) cs -> reads_as pton kActionConstraint cs e ->
    Typed (param_scope ps) e t -> t <> TBool -> action_outcome pton d a (Failed InvalidArgument)
| av_faulty ps cs e : Forall2 param_decl (pad_params d) ps -> restricted kActionConstraint (pad_preamble d) cs -> reads_as pton kActionConstraint cs e ->
    Typed (param_scope ps) e TBool -> ~ acceptable ps (pa_params a) -> action_outcome pton d a (Failed InvalidArgument)
| av_judged ps cs e param v : Forall2 param_decl (pad_params d) ps -> restricted kActionConstraint (pad_preamble d) cs -> reads_as pton kActionConstraint cs e ->
    Typed (param_scope ps) e TBool -> acceptable ps (pa_params a) -> (forall n z, param n = Some z <-> Passed ps (pa_params a) n z) ->
    Judged (fun s x => Meant unordered_exact (param_scope ps) (ActionEnv param) s (VBool x)) (action_report (pr_name (pad_preamble d)) cs param) e v -> action_outcome pton d a v.
(** The actions are checked in order, until one is not accepted. *)
Inductive actions_outcome (pton : inet_pton6) (p : p4info) : list p4_action -> verdict -> Prop :=
| sv_none : actions_outcome pton p [] (Says "")
| sv_unknown a l : (forall d, In d (p4_actions p) -> pr_id (pad_preamble d) <> pa_id a) -> actions_outcome pton p (a :: l) (Failed InvalidArgument)
| sv_stop d a l v : In d (p4_actions p) -> pr_id (pad_preamble d) = pa_id a -> action_outcome pton d a v -> v <> Says "" -> actions_outcome pton p (a :: l) v
| sv_next d a l v : In d (p4_actions p) -> pr_id (pad_preamble d) = pa_id a -> action_outcome pton d a (Says "") -> actions_outcome pton p l v -> actions_outcome pton p (a :: l) v.
Definition action_list (entry : p4_entry) : option (list p4_action) :=
  match pe_action entry with None => Some [] | Some (TAction a) => Some [a] | Some (TActionSet l) => Some l | _ => None end.
Inductive entry_outcome (pton : inet_pton6) (p : p4info) (entry : p4_entry) : verdict -> Prop :=
| nv_unknown : (forall d, In d (p4_tables p) -> pr_id (pt_preamble d) <> pe_table_id entry) -> entry_outcome pton p entry (Failed InvalidArgument)
| nv_table d v : In d (p4_tables p) -> pr_id (pt_preamble d) = pe_table_id entry -> table_outcome pton d entry v -> v <> Says "" -> entry_outcome pton p entry v
| nv_indirect d : In d (p4_tables p) -> pr_id (pt_preamble d) = pe_table_id entry -> table_outcome pton d entry (Says "") -> action_list entry = None ->
    entry_outcome pton p entry (Failed InvalidArgument)
| nv_actions d l v : In d (p4_tables p) -> pr_id (pt_preamble d) = pe_table_id entry -> table_outcome pton d entry (Says "") -> action_list entry = Some l ->
    actions_outcome pton p l v -> entry_outcome pton p entry v.

(** Every declared constraint can be quoted. *)
Definition legible (pton : inet_pton6) (p : p4info) : Prop :=
  forall ck cs e, declares p ck cs -> reads_as pton ck cs e -> displayable cs e.
(** Every key is matched in one of the five ways that P4 defines. *)
Definition standard_keys (p : p4info) : Prop := forall d f, In d (p4_tables p) -> In f (pt_match_fields d) -> exists m, mf_match f = MMatchType m.
