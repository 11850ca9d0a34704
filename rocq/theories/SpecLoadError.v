(** Why a declaration of a P4Info does not load, and what is then reported; independent of constraint_info.cc. *)
From Coq Require Import String Ascii List ZArith NArith.
From Verif Require Import Base Token Lexer Ast Quote AstConstructors Parser Info TypeChecker SpecLexer SpecGrammar SpecTyping SpecSemantics SpecInfo SpecFault SpecBlame SpecAddress SpecReport.
Import ListNotations.
Open Scope string_scope.

(** What is reported: a plain sentence, a part of a constraint with what is wrong with it, or a token that cannot come where it stands. *)
Inductive reason :=
| Says (m : string)
| Shows (cs : csource) (a b : loc) (label text : string)
| Misplaced (cs : csource) (t : token).
(** The error message. Normally a part of a constraint is quoted in front of what is said about it; if it cannot be quoted this is said instead. *)
Definition shown (cs : csource) (a b : loc) (label text : string) : outcome string :=
  match QuoteSubConstraint cs a b with
  | Ok quote => Ok (quote ++ label ++ text)
  | Err k m => Ok ("Failed to quote sub-constraint: " ++ StableStatusToString k m ++ text)
  | Crash w => Crash w
  end.
Inductive worded : reason -> outcome string -> Prop :=
| wd_says m : worded (Says m) (Ok m)
| wd_shows cs a b label text : worded (Shows cs a b label text) (shown cs a b label text)
| wd_unexpected cs t h text : complaint t h text -> worded (Misplaced cs t) (shown cs (t_start t) (t_end t) "Parse error: " text).

(** The answer when this is the only error. *)
Definition reported {A} (o : outcome string) : outcome A :=
  match o with
  | Ok m | Err _ m => Err InvalidArgument (listed [m])
  | Crash w => Crash w
  end.

(** * Keys and parameters *)
(** The declarations [fs] stand for [ks], no two of which have an id or a name in common. *)
Definition in_order {F} (declares : F -> key_info -> Prop) (fs : list F) (ks : list key_info) : Prop :=
  Forall2 declares fs ks /\ NoDup (map k_id ks) /\ NoDup (map k_name ks).
(** [f] is declared after [a], in which nothing is wrong. *)
Definition comes_after {F} (declares : F -> key_info -> Prop) (fs a : list F) (f : F) (ks : list key_info) : Prop :=
  (exists b, fs = (a ++ f :: b)%list) /\ in_order declares a ks.
(** The first thing wrong is that [f] has the id or the name of a preceding one. *)
Definition repeats {F} (declares : F -> key_info -> Prop) (fs : list F) : Prop :=
  exists a f ks k, comes_after declares fs a f ks /\ declares f k /\ (In (k_id k) (map k_id ks) \/ In (k_name k) (map k_name ks)).
(** A match field whose way of matching is not given, or is none that exists. *)
Inductive not_a_key : match_field -> string -> Prop :=
| nk_unspecified i n w : not_a_key (mkMF i n w (MMatchType MTUnspecified)) "match key of invalid MatchType: UNSPECIFIED"
| nk_unknown i n w x : not_a_key (mkMF i n w (MMatchType (MTUnknownEnum x))) "match key of invalid MatchType: "
| nk_unset i n w : not_a_key (mkMF i n w MNotSet) "unknown MatchField.match case: 0".

(** * Annotations *)
Definition declared_as (ck : constraint_kind) : string := match ck with kTableConstraint => "table " | kActionConstraint => "action " end.
Definition annotated (ck : constraint_kind) (pre : preamble) (t : string) : Prop :=
  t <> "" /\ exists r f n, Notes ck (pr_annotations pre) "" 0 (Some r) f n /\ c_part r t.
Definition syntax_error (ck : constraint_kind) (pre : preamble) (what : string) : string :=
  "In " ++ declared_as ck ++ pr_name pre ++ ":" ++ nl ++ "Syntax error: " ++ keyword ck ++ what.
Inductive text_reason (pton : inet_pton6) (ck : constraint_kind) (pre : preamble) (G : scope) : reason -> Prop :=
| tr_open t : annotated ck pre t -> (forall s, t <> "(" ++ dq ++ s ++ dq ++ ")") ->
    text_reason pton ck pre G (Says (syntax_error ck pre (" must be enclosed in '(" ++ dq ++ "' and '" ++ dq ++ ")'")))
| tr_quotes s : annotated ck pre ("(" ++ dq ++ s ++ dq ++ ")") ->
    (forall ss, ss <> [] -> Forall (without DQUOTE) ss -> s <> String.concat (dq ++ " " ++ dq) ss) ->
    text_reason pton ck pre G (Says (syntax_error ck pre (" was parsed with unexpected quotation marks (" ++ dq ++
      "). Ensure you aren't using any quotation marks in a comment. Otherwise, this suggests a parser assumption was violated, likely due to a p4c frontend change, or `@p4runtime_translation` support being added.")))
| tr_stuck cs u t : restricted ck pre cs -> stuck_at pton ck (Tokenize cs) u t -> text_reason pton ck pre G (Misplaced cs t)
| tr_address cs u id st m : restricted ck pre cs -> bad_address_at pton ck (Tokenize cs) u id st -> address_error pton (t_text id) (t_text st) m ->
    text_reason pton ck pre G (Says m)
| tr_type cs e a b why : restricted ck pre cs -> reads_as pton ck cs e -> fault G e a b why -> text_reason pton ck pre G (Shows cs a b "Type error: " why).

(** * Declarations *)
Inductive table_reason (pton : inet_pton6) (d : p4_table) : reason -> Prop :=
| tb_key a f ks m : comes_after key_decl (pt_match_fields d) a f ks -> not_a_key f m -> table_reason pton d (Says m)
| tb_repeated : repeats key_decl (pt_match_fields d) -> table_reason pton d (Says ("table " ++ pr_name (pt_preamble d) ++ " has duplicate key: "))
| tb_text ks r : in_order key_decl (pt_match_fields d) ks -> text_reason pton kTableConstraint (pt_preamble d) (key_scope ks) r -> table_reason pton d r.
Inductive action_reason (pton : inet_pton6) (d : p4_action_decl) : reason -> Prop :=
| ac_repeated : repeats param_decl (pad_params d) -> action_reason pton d (Says ("action " ++ pr_name (pad_preamble d) ++ " has duplicate param: "))
| ac_text ps r : in_order param_decl (pad_params d) ps -> text_reason pton kActionConstraint (pad_preamble d) (param_scope ps) r -> action_reason pton d r.
