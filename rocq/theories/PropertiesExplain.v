(** C31-C36: explanations, overall verdicts and errors. *)
From Coq Require Import String Ascii List ZArith NArith Bool Lia Permutation.
From Verif Require Import Base Num Token Ast Lexer Quote AstConstructors Parser Info TypeChecker ConstraintInfo Interpreter SpecLexer SpecGrammar SpecParser SpecTyping SpecSemantics SpecInfo SpecExplain
  StrFacts NumFacts LiteralFacts ParserFacts4 TypeFacts EvalFacts SemFacts SemFacts2 EntryFacts ExplainFacts VerdictFacts InfoFacts InfoFacts2 InterpFacts InterpFacts2 QuoteFacts3 ExplainFacts2 PropertiesParser PropertiesTypes PropertiesInfo PropertiesInterpreter PropertiesVerdict.
Import ListNotations.
Open Scope string_scope.

(** * What is checked *)
(** The constraint [e], in context [ctx], that checking [entry] involves: the one of
    its table, or of one of its actions. *)
Definition actions_of (entry : p4_entry) : list p4_action :=
  match pe_action entry with Some (TAction a) => [a] | Some (TActionSet l) => l | _ => [] end.
Inductive Checked (ci : constraint_info) (entry : p4_entry) : eval_context -> expr -> Prop :=
| ck_table t e ctx : GetTableInfoOrNull ci (pe_table_id entry) = Some t -> ti_constraint t = Some e -> ParseTableEntry entry t = Ok ctx -> Checked ci entry ctx e
| ck_action a i e ctx : In a (actions_of entry) -> GetActionInfoOrNull ci (pa_id a) = Some i -> ai_constraint i = Some e -> ParseAction a i = Ok ctx -> Checked ci entry ctx e.
Lemma actions_cases ci entry t text : GetTableInfoOrNull ci (pe_table_id entry) = Some t -> ReasonEntryViolatesConstraint entry ci = Ok text -> text <> "" ->
  ReasonTableViolates t entry = Ok text \/ (ReasonTableViolates t entry = Ok "" /\ exists pre a post, actions_of entry = (pre ++ a :: post)%list /\ Forall (fun a => ReasonActionViolates ci a = Ok "") pre /\ ReasonActionViolates ci a = Ok text).
Proof.
  intros Ht H Hne. unfold ReasonEntryViolatesConstraint in H. rewrite Ht in H. apply bind_ok in H as (r & Hr & H). destruct (String.eqb_spec r "") as [->|Hn]; cbn [negb] in H.
  - right. split; [exact Hr|]. unfold actions_of. destruct (pe_action entry) as [[a|i|i|l|]|]; try discriminate.
    + exists [], a, []. split; [reflexivity|]. split; [constructor|exact H].
    + now apply action_set_rejects in H.
    + apply Ok_inj in H. congruence.
  - left. apply Ok_inj in H. now subst.
Qed.
(** A violation is one of a constraint that was checked. *)
Lemma violation_checked ci entry text : ReasonEntryViolatesConstraint entry ci = Ok text -> text <> "" -> exists ctx e, Checked ci entry ctx e /\ check ctx e = Ok text.
Proof.
  intros H Hne. destruct (GetTableInfoOrNull ci (pe_table_id entry)) as [t|] eqn:Ht; [|unfold ReasonEntryViolatesConstraint in H; rewrite Ht in H; discriminate].
  destruct (actions_cases _ _ _ _ Ht H Hne) as [Hr|(_ & pre & a & post & El & _ & Hr)].
  - apply table_ok in Hr as [(_ & E)|(e & ctx & He & _ & Hp & Hc)]; [contradiction|]. exists ctx, e. split; [eapply ck_table; eauto|exact Hc].
  - apply action_verdict in Hr as (i & Hi & [(_ & E)|(e & ctx & He & _ & Hp & Hc)]); [contradiction|]. exists ctx, e. split; [|exact Hc]. eapply ck_action; eauto. rewrite El. apply in_or_app. right. now left.
Qed.

(** * C31 *)
(** The text quotes a subexpression [s] and states its truth value [b]. *)
Definition text_start (ctx : eval_context) (s : expr) (b : bool) (text : string) : Prop :=
  exists quoted rest, QuoteSubConstraint (ec_src ctx) (e_start s) (e_end s) = Ok quoted /\
    text = "All " ++ (match ec_ctx ctx with CtxTable _ _ _ => "entries" | _ => "actions" end) ++ " must " ++ (if b then "not " else "") ++ "satisfy:" ++ nl ++ nl ++ quoted ++ nl ++
           "But your entry does" ++ (if b then "" else " not") ++ "." ++ nl ++ rest.
Lemma text_starts ctx s b r : QuoteSubConstraint (ec_src ctx) (e_start s) (e_end s) = Ok r -> text_start ctx s b (violation_text ctx s b r).
Proof.
  intros H. unfold violation_text. exists r. destruct (ec_ctx ctx) as [n p k|i n k] eqn:E; eexists; (split; [exact H|]); rewrite !sapp_assoc; reflexivity.
Qed.
Theorem C31_sufficient_reason : forall ci entry text, ReasonEntryViolatesConstraint entry ci = Ok text -> text <> "" ->
  exists ctx e q s b, Checked ci entry ctx e /\ At e q s /\ value_of ctx s = Ok (VBool b) /\ text_start ctx s b text /\ value_of ctx e = Ok (VBool false) /\
    forall ctx' v, value_of ctx' s = Ok (VBool b) -> value_of ctx' e = Ok (VBool v) -> v = false.
Proof.
  intros ci entry text H Hne. destruct (violation_checked _ _ _ H Hne) as (ctx & e & Hck & Hc). destruct (check_explained ctx e text Hne Hc) as (Hf & s & q & b & r & [Hb _] & Hs & Hq & ->).
  exists ctx, e, q, s, b. split; [exact Hck|]. split; [exact (Blamable_At _ _ _ _ Hb)|]. split; [rewrite value_ev; now apply ev_bool_ok|]. split; [now apply text_starts|]. split; [rewrite value_ev; now apply ev_bool_ok|].
  intros ctx' v H1 H2. rewrite value_ev in *. destruct (sufficient ctx e q s Hb false Hf) as (bs & Hbs & Hall). assert (bs = b) as -> by (eapply holds_fun; eauto).
  apply (Hall ctx' v); now apply ev_bool_ok.
Qed.
Print Assumptions C31_sufficient_reason.
(** In particular for other entries of the table: if the blamed subexpression has the
    same truth value, they are not accepted. *)
Theorem C31_other_entries : forall ci entry t text, GetTableInfoOrNull ci (pe_table_id entry) = Some t -> ReasonTableViolates t entry = Ok text -> text <> "" ->
  exists ctx e q s b, ti_constraint t = Some e /\ ParseTableEntry entry t = Ok ctx /\ At e q s /\ value_of ctx s = Ok (VBool b) /\ text_start ctx s b text /\
    forall entry' ctx', pe_table_id entry' = pe_table_id entry -> ParseTableEntry entry' t = Ok ctx' -> value_of ctx' s = Ok (VBool b) -> ReasonEntryViolatesConstraint entry' ci <> Ok "".
Proof.
  intros ci entry t text Ht H Hne. apply table_ok in H as [(_ & E)|(e & ctx & He & Hty & Hp & Hc)]; [contradiction|]. destruct (check_explained ctx e text Hne Hc) as (Hf & s & q & b & r & [Hb _] & Hs & Hq & ->).
  exists ctx, e, q, s, b. split; [exact He|]. split; [exact Hp|]. split; [exact (Blamable_At _ _ _ _ Hb)|]. split; [rewrite value_ev; now apply ev_bool_ok|]. split; [now apply text_starts|].
  intros x ctx' Hid Hp' Hv Hx. unfold ReasonEntryViolatesConstraint in Hx. rewrite Hid, Ht in Hx. apply bind_ok in Hx as (r' & Hr & Hx). assert (r' = "") as ->.
  { destruct (String.eqb_spec r' "") as [E|En]; [exact E|]. cbn [negb] in Hx. now apply Ok_inj in Hx. }
  apply table_ok in Hr as [(E & _)|(e' & c & He' & _ & Hpc & Hcc)]; [congruence|]. assert (e' = e) as -> by congruence. assert (c = ctx') as -> by congruence. apply check_accepts in Hcc.
  destruct (sufficient ctx e q s Hb false Hf) as (bs & Hbs & Hall). assert (bs = b) as -> by (eapply holds_fun; eauto). rewrite value_ev in Hv. apply ev_bool_ok in Hv. discriminate (Hall ctx' true Hv Hcc).
Qed.
Print Assumptions C31_other_entries.
Definition bad_entry : p4_entry := mkEntry 3 [mkFM 1 (FMExact "a"); mkFM 2 (FMTernary "b" "c")] None 2.
Example C31_case : exists text, ReasonEntryViolatesConstraint bad_entry demo_ci = Ok text /\ text <> "".
Proof. eexists. split; [vm_compute; reflexivity|discriminate]. Qed.

(** * C32 *)
(** No candidate is smaller, and among equally small ones the first is chosen. Candidates
    are the subexpressions reached by descending into operands that decide alone. *)
Theorem C32_minimal_partial : forall ci entry text, ReasonEntryViolatesConstraint entry ci = Ok text -> text <> "" ->
  exists ctx e q s b, Checked ci entry ctx e /\ value_of ctx s = Ok (VBool b) /\ text_start ctx s b text /\
    let holds := fun e b => value_of ctx e = Ok (VBool b) in
    Blamable holds e q s /\
    forall q' s' n n', Blamable holds e q' s' -> Nodes s n -> Nodes s' n' -> (n < n')%Z \/ (n = n' /\ (q' = q \/ left_of q q')).
Proof.
  intros ci entry text H Hne. destruct (violation_checked _ _ _ H Hne) as (ctx & e & Hck & Hc). destruct (check_explained ctx e text Hne Hc) as (Hf & s & q & b & r & [Hb Hmin] & Hs & Hq & ->).
  exists ctx, e, q, s, b. split; [exact Hck|]. split; [rewrite value_ev; now apply ev_bool_ok|]. split; [now apply text_starts|].
  assert (forall e b, holds ctx e b <-> value_of ctx e = Ok (VBool b)) as Hh by (intros e1 b1; rewrite value_ev; apply ev_bool_ok). cbn. split.
  - eapply blamable_ext; [|exact Hb]. exact Hh.
  - intros q' s' n n' Hb' Hn Hn'. destruct (Hmin q' s' n n') as [Hle He]; [|exact Hn|exact Hn'|].
    + eapply blamable_ext; [|exact Hb']. intros; symmetry; apply Hh.
    + destruct (Z.eq_dec n n') as [->|]; [right; auto|left; lia].
Qed.
Print Assumptions C32_minimal_partial.
(** The smaller of two false conjuncts is blamed, here the right one. *)
Definition small_decl : p4_table := mkP4Table (mkPre 1 "t" [restriction "entry" ["(k == 1 || k == 2) && k == 3"]]) [mkMF 1 "k" 8 (MMatchType MTExact)].
Example C32_case : exists ci text ctx e s b, P4ToConstraintInfo pton1 (mkP4Info [small_decl] []) = Ok ci /\
  ReasonEntryViolatesConstraint (mkEntry 1 [mkFM 1 (FMExact "a")] None 0) ci = Ok text /\ text <> "" /\
  Checked ci (mkEntry 1 [mkFM 1 (FMExact "a")] None 0) ctx e /\ At e [true] s /\ text_start ctx s b text.
Proof.
  eexists _, _, _, _, _, false. split; [vm_compute; reflexivity|]. split; [vm_compute; reflexivity|]. split; [discriminate|].
  split; [eapply ck_table; vm_compute; reflexivity|]. split; [eapply at_child; [apply ch_right|constructor]|].
  eexists _, _. split; [vm_compute; reflexivity|cbn; reflexivity].
Qed.
(** The smallest sufficient subexpression is not always chosen. *)
Definition clumsy_decl : p4_table := mkP4Table (mkPre 1 "t" [restriction "entry" ["false || k == 1"]]) [mkMF 1 "k" 8 (MMatchType MTExact)].
Theorem C32_minimal_refuted : exists ci entry text ctx e q s b q' s' n n', P4ToConstraintInfo pton1 (mkP4Info [clumsy_decl] []) = Ok ci /\
  ReasonEntryViolatesConstraint entry ci = Ok text /\ Checked ci entry ctx e /\ At e q s /\ value_of ctx s = Ok (VBool b) /\ text_start ctx s b text /\
  (* a smaller subexpression *)
  At e q' s' /\ Nodes s n /\ Nodes s' n' /\ (n' < n)%Z /\
  (* whose value is sufficient as well *)
  value_of ctx s' = Ok (VBool false) /\ (forall ctx' v, value_of ctx' s' = Ok (VBool false) -> value_of ctx' e = Ok (VBool v) -> v = false) /\
  (* though the whole constraint was blamed *)
  q = [].
Proof.
  eexists _, (mkEntry 1 [mkFM 1 (FMExact "a")] None 0), _, _, _, [], _, false, [true], _, 5%Z, 3%Z. split; [vm_compute; reflexivity|]. split; [vm_compute; reflexivity|].
  split; [eapply ck_table; vm_compute; reflexivity|]. split; [constructor|]. split; [vm_compute; reflexivity|]. split; [eexists _, _; split; [vm_compute; reflexivity|cbn; reflexivity]|].
  split; [eapply at_child; [apply ch_right|constructor]|]. split; [apply size_Nodes; vm_compute; reflexivity|]. split; [apply size_Nodes; vm_compute; reflexivity|]. split; [lia|]. split; [vm_compute; reflexivity|]. split; [|reflexivity].
  intros ctx' v H1 H2. match type of H2 with value_of _ (EBin ?m _ ?a ?b) = _ => destruct (proj1 (proj2 (C28_short_circuit ctx' m OOR a b c_or eq_refl)) false) as (Hiff & _) end.
  - reflexivity.
  - intros []; reflexivity.
  - apply Hiff in H2. rewrite H1 in H2. apply Ok_inj in H2. now injection H2.
Qed.
Print Assumptions C32_minimal_refuted.

(** * C33 *)
(** Whenever the constraint of a declared table is false, a part of it is quoted, and the table
    and the values of the keys the part mentions are named. Missing: constraints that order exact
    keys or have parts that cannot be quoted. *)
Theorem C33_explained_partial : forall pton p ci d ks cs e0 entry key, pton_ok pton -> P4ToConstraintInfo pton p = Ok ci ->
  In d (p4_tables p) -> table_id d = pe_table_id entry -> Forall2 key_decl (pt_match_fields d) ks ->
  restricted kTableConstraint (pt_preamble d) cs -> reads_as pton kTableConstraint cs e0 -> Typed (key_scope ks) e0 TBool ->
  (forall k w, In k ks -> width (k_type k) w -> (0 <= w)%Z) -> consistent ks (pe_match entry) ->
  (forall n v, key n = Some v <-> Assigned ks (pe_match entry) n v) ->
  ~ orders_exact (key_scope ks) e0 -> displayable cs e0 ->
  Den (key_scope ks) (TableEnv key (pe_priority entry)) e0 (VBool false) ->
  exists text s b quoted rest, ReasonEntryViolatesConstraint entry ci = Ok text /\ sub s e0 /\ QuoteSubConstraint cs (e_start s) (e_end s) = Ok quoted /\
    text = "All entries must " ++ (if b : bool then "not " else "") ++ "satisfy:" ++ nl ++ nl ++ quoted ++ nl ++ "But your entry does" ++ (if b then "" else " not") ++ "." ++ nl ++ rest /\
    contains ("Table Name: " ++ dq ++ pr_name (pt_preamble d) ++ dq ++ nl) rest /\
    contains ("Priority:" ++ dec (pe_priority entry) ++ nl) rest /\
    forall n v, mentions s n -> Assigned ks (pe_match entry) n v -> contains ("Field: " ++ dq ++ n ++ dq ++ " -> Value: " ++ EvalResultToString v ++ nl) rest.
Proof.
  intros pton p ci d ks cs e0 entry key Hp Hci Hd Hid Hf Hr Hra Hty Hw Hco Hkey Ho Hdis H.
  destruct (declared_table _ _ _ _ _ _ _ Hp Hci Hd Hf Hr Hra) as (t & e & Ht & HK & Hn & Hs & Hl & Hi & He). unfold table_id in Hid. rewrite Hid in Ht.
  destruct (entry_total t ks HK entry Hco) as [ctx Hpa]. pose proof (table_in_scope t ks HK) as HG. pose proof (key_scope_same t ks HK) as HS. apply same_scope_sym in HS.
  assert (e_type e = TBool) as Hte.
  { apply (typed_ext _ _ _ _ HS) in Hty. pose proof (proj1 (infer_ok None (Some t) _ HG _ _ Hi)) as Hty'. eapply (typed_fun None (Some t) _ HG); eauto. }
  assert (~ orders_exact (InTable (ti_keys_by_name t)) e0) as Ho' by (intros Hx; apply Ho; eapply orders_scope; [apply same_scope_sym; exact HS|exact Hx]).
  assert (env_ok (InTable (ti_keys_by_name t)) (env_of ctx)) as HE. { apply (entry_env t ks HK entry ctx Hpa). intros n k w Hk. apply (by_name t ks HK) in Hk as [Hk _]. now apply Hw. }
  assert (ev_bool ctx e = Ok false) as Hf'.
  { apply ev_bool_ok. apply (ev_complete None (Some t) _ HG ctx e0 (VBool false)); [exact HE| |exact Ho'|exact Hi].
    apply (den_scope _ _ _ _ _ HS). eapply den_ext; [apply env_eq_sym; exact (entry_env_eq t ks entry ctx key HK Hpa Hkey)|exact H]. }
  destruct (entry_ok t ks HK entry ctx Hpa) as (_ & keys & Ec & _ & HA).
  assert (exists sq, minimal ctx e [] = Ok sq) as Hm.
  { eapply (minimal_total None (Some t) _ HG ctx HE); [reflexivity|exact (no_bool_keys t ks _ HK Hf)|exact Hi|exact Hte|]. split; [exact Hl|]. split; [exact Ho'|eauto]. }
  destruct (explained ctx e0 e) as (s & s0 & q & b & r & HB & Hsub & Eb & Hme & Hbs & Hq & Hc).
  - exact (proj1 (proj2 (proj2 (infer_ok None (Some t) _ HG _ _ Hi)))).
  - exact Hte.
  - exact Hf'.
  - exact Hm.
  - rewrite Ec, Hs. cbn [ec_src]. exact (parts_quoted _ _ _ _ _ Hp Hr Hra Hdis).
  - rewrite Ec, Hs in Hq. cbn [ec_src] in Hq. rewrite Ec in Hc.
    set (rest := ">>>Relevant Entry Info<<<" ++ nl ++ "Table Name: " ++ dq ++ ti_name t ++ dq ++ nl ++ "Priority:" ++ dec (pe_priority entry) ++ nl ++
      concat_strings (map (fun kv : string * value => if mem_string (fst kv) (GetVariables s) then "Field: " ++ dq ++ fst kv ++ dq ++ " -> Value: " ++ EvalResultToString (snd kv) ++ nl else "") (Ordered keys))).
    exists (violation_text ctx s b r), s0, b, r, rest. rewrite Ec.
    split. { unfold ReasonEntryViolatesConstraint. rewrite Ht. rewrite (proj2 (table_ok t entry _) (or_intror (ex_intro _ e (ex_intro _ ctx (conj He (conj Hte (conj Hpa (eq_trans (f_equal (fun c => check c e) Ec) Hc)))))))).
      cbn [bind]. match goal with |- context [String.eqb ?x ""] => destruct (String.eqb_spec x "") as [E|_] end; [now apply text_nonempty in E|reflexivity]. }
    split; [exact Hsub|]. split; [exact Hq|]. split; [unfold violation_text, rest; cbn [ec_ctx]; rewrite !sapp_assoc; reflexivity|].
    split; [unfold rest; do 2 apply contains_r; rewrite Hn; eexists "", _; rewrite !sapp_assoc; reflexivity|].
    split; [unfold rest; do 7 apply contains_r; eexists "", _; rewrite !sapp_assoc; reflexivity|].
    intros n v Hmn Has. unfold rest. do 10 apply contains_r. apply contains_list. apply in_map_iff. exists (n, v). cbn [fst snd]. split; [|apply ordered_in, HA, Has].
    assert (mem_string n (GetVariables s) = true) as -> by (apply mem_string_in, GetVariables_in, Hme, Hmn). reflexivity.
Qed.
Print Assumptions C33_explained_partial.
(** In general the outcome is that of quoting the reason: a violation goes unexplained exactly
    when the part to be quoted cannot be (C50 says when that is). *)
Theorem C33_outcome : forall pton p ci d ks cs e0 entry key, pton_ok pton -> P4ToConstraintInfo pton p = Ok ci ->
  In d (p4_tables p) -> table_id d = pe_table_id entry -> Forall2 key_decl (pt_match_fields d) ks ->
  restricted kTableConstraint (pt_preamble d) cs -> reads_as pton kTableConstraint cs e0 -> Typed (key_scope ks) e0 TBool ->
  (forall k w, In k ks -> width (k_type k) w -> (0 <= w)%Z) -> consistent ks (pe_match entry) ->
  (forall n v, key n = Some v <-> Assigned ks (pe_match entry) n v) ->
  ~ orders_exact (key_scope ks) e0 ->
  Den (key_scope ks) (TableEnv key (pe_priority entry)) e0 (VBool false) ->
  exists s b rest, sub s e0 /\
    ReasonEntryViolatesConstraint entry ci =
    match QuoteSubConstraint cs (e_start s) (e_end s) with
    | Ok quoted => Ok ("All entries must " ++ (if b : bool then "not " else "") ++ "satisfy:" ++ nl ++ nl ++ quoted ++ nl ++ "But your entry does" ++ (if b then "" else " not") ++ "." ++ nl ++ rest)
    | Err c m => Err c m
    | Crash w => Crash w
    end /\
    contains ("Table Name: " ++ dq ++ pr_name (pt_preamble d) ++ dq ++ nl) rest /\
    contains ("Priority:" ++ dec (pe_priority entry) ++ nl) rest /\
    forall n v, mentions s n -> Assigned ks (pe_match entry) n v -> contains ("Field: " ++ dq ++ n ++ dq ++ " -> Value: " ++ EvalResultToString v ++ nl) rest.
Proof.
  intros pton p ci d ks cs e0 entry key Hp Hci Hd Hid Hf Hr Hra Hty Hw Hco Hkey Ho H.
  destruct (declared_table _ _ _ _ _ _ _ Hp Hci Hd Hf Hr Hra) as (t & e & Ht & HK & Hn & Hs & Hl & Hi & He). unfold table_id in Hid. rewrite Hid in Ht.
  destruct (entry_total t ks HK entry Hco) as [ctx Hpa]. pose proof (table_in_scope t ks HK) as HG. pose proof (key_scope_same t ks HK) as HS. apply same_scope_sym in HS.
  assert (e_type e = TBool) as Hte.
  { apply (typed_ext _ _ _ _ HS) in Hty. pose proof (proj1 (infer_ok None (Some t) _ HG _ _ Hi)) as Hty'. eapply (typed_fun None (Some t) _ HG); eauto. }
  assert (~ orders_exact (InTable (ti_keys_by_name t)) e0) as Ho' by (intros Hx; apply Ho; eapply orders_scope; [apply same_scope_sym; exact HS|exact Hx]).
  assert (env_ok (InTable (ti_keys_by_name t)) (env_of ctx)) as HE. { apply (entry_env t ks HK entry ctx Hpa). intros n k w Hk. apply (by_name t ks HK) in Hk as [Hk _]. now apply Hw. }
  assert (ev_bool ctx e = Ok false) as Hf'.
  { apply ev_bool_ok. apply (ev_complete None (Some t) _ HG ctx e0 (VBool false)); [exact HE| |exact Ho'|exact Hi].
    apply (den_scope _ _ _ _ _ HS). eapply den_ext; [apply env_eq_sym; exact (entry_env_eq t ks entry ctx key HK Hpa Hkey)|exact H]. }
  destruct (entry_ok t ks HK entry ctx Hpa) as (_ & keys & Ec & _ & HA).
  assert (exists sq, minimal ctx e [] = Ok sq) as Hm.
  { eapply (minimal_total None (Some t) _ HG ctx HE); [reflexivity|exact (no_bool_keys t ks _ HK Hf)|exact Hi|exact Hte|]. split; [exact Hl|]. split; [exact Ho'|eauto]. }
  destruct (explained_any ctx e0 e) as (s & s0 & q & b & HB & Hsub & Eb & Hme & Hbs & Hc).
  - exact (proj1 (proj2 (proj2 (infer_ok None (Some t) _ HG _ _ Hi)))).
  - exact Hte.
  - exact Hf'.
  - exact Hm.
  - assert (ec_src ctx = cs) as Hsrc by (rewrite Ec, Hs; reflexivity). rewrite Hsrc in Hc.
    set (rest := ">>>Relevant Entry Info<<<" ++ nl ++ "Table Name: " ++ dq ++ ti_name t ++ dq ++ nl ++ "Priority:" ++ dec (pe_priority entry) ++ nl ++
      concat_strings (map (fun kv : string * value => if mem_string (fst kv) (GetVariables s) then "Field: " ++ dq ++ fst kv ++ dq ++ " -> Value: " ++ EvalResultToString (snd kv) ++ nl else "") (Ordered keys))).
    exists s0, b, rest. split; [exact Hsub|]. split.
    { unfold ReasonEntryViolatesConstraint. rewrite Ht. unfold ReasonTableViolates. rewrite He, Hte. cbn [is_bool_type negb]. rewrite Hpa. cbn [annotate bind]. rewrite check_agrees, Hc.
      destruct (QuoteSubConstraint cs (e_start s0) (e_end s0)) as [r|c m|w]; cbn [bind]; [|reflexivity..].
      match goal with |- context [String.eqb ?x ""] => destruct (String.eqb_spec x "") as [E|_] end; [now apply text_nonempty in E|].
      cbn [negb]. f_equal. rewrite Ec. unfold violation_text, rest. cbn [ec_ctx]. rewrite !sapp_assoc. reflexivity. }
    split; [unfold rest; do 2 apply contains_r; rewrite Hn; eexists "", _; rewrite !sapp_assoc; reflexivity|].
    split; [unfold rest; do 7 apply contains_r; eexists "", _; rewrite !sapp_assoc; reflexivity|].
    intros n v Hmn Has. unfold rest. do 10 apply contains_r. apply contains_list. apply in_map_iff. exists (n, v). cbn [fst snd]. split; [|apply ordered_in, HA, Has].
    assert (mem_string n (GetVariables s) = true) as -> by (apply mem_string_in, GetVariables_in, Hme, Hmn). reflexivity.
Qed.
Print Assumptions C33_outcome.
(** Constraints without line breaks can be quoted. *)
Theorem C33_one_line_partial : forall pton ck pre cs e0, pton_ok pton -> restricted ck pre cs -> reads_as pton ck cs e0 ->
  ~ In LF (chars (cs_string cs)) -> ~ In CR (chars (cs_string cs)) -> displayable cs e0.
Proof.
  intros pton ck pre cs e0 Hp (r & f & n & ss & _ & _ & _ & _ & E) Hra. apply (text_iff pton Hp) in Hra. apply (one_line_displayable pton ck); auto. rewrite E. cbn. lia.
Qed.
Print Assumptions C33_one_line_partial.
(** For actions there must be no connective in which both operands decide on their own. *)
Theorem C33_action_explained_partial : forall pton p ci d ps cs e0 x param, pton_ok pton -> P4ToConstraintInfo pton p = Ok ci ->
  In d (p4_actions p) -> action_id d = pa_id x -> Forall2 param_decl (pad_params d) ps ->
  restricted kActionConstraint (pad_preamble d) cs -> reads_as pton kActionConstraint cs e0 -> Typed (param_scope ps) e0 TBool ->
  (forall k w, In k ps -> width (k_type k) w -> (0 <= w)%Z) -> acceptable ps (pa_params x) -> (forall k, In k ps -> In (k_id k) (map fst (pa_params x))) ->
  (forall n z, param n = Some z <-> Passed ps (pa_params x) n z) ->
  ~ has_attribute e0 -> displayable cs e0 -> ~ contested (fun s b => Den (param_scope ps) (ActionEnv param) s (VBool b)) e0 ->
  Den (param_scope ps) (ActionEnv param) e0 (VBool false) ->
  exists text s b quoted rest, ReasonActionViolates ci x = Ok text /\ sub s e0 /\ QuoteSubConstraint cs (e_start s) (e_end s) = Ok quoted /\
    text = "All actions must " ++ (if b : bool then "not " else "") ++ "satisfy:" ++ nl ++ nl ++ quoted ++ nl ++ "But your entry does" ++ (if b then "" else " not") ++ "." ++ nl ++ rest /\
    contains ("Action Name: " ++ dq ++ pr_name (pad_preamble d) ++ dq ++ nl) rest /\
    forall n z, mentions s n -> Passed ps (pa_params x) n z -> contains ("Param name: " ++ dq ++ n ++ dq ++ " -> Value: " ++ dec z ++ nl) rest.
Proof.
  intros pton p ci d ps cs e0 x param Hp Hci Hd Hid Hf Hr Hra Hty Hw Hco Hall Hkey Hat Hdis Hct H.
  destruct (declared_action _ _ _ _ _ _ _ Hp Hci Hd Hf Hr Hra) as (t & e & Ht & HK & Hn & Hs & Hl & Hi & He). unfold action_id in Hid. rewrite Hid in Ht.
  destruct (action_total t ps HK x Hco) as [ctx Hpa]. pose proof (action_in_scope t ps HK) as HG. pose proof (param_scope_same t ps HK) as HS. apply same_scope_sym in HS.
  assert (forall k, In k ps -> usable (k_type k) -> exists w, k_type k = TBit w) as Hbit.
  { intros k Hk Hu. clear -Hf Hk Hu. induction Hf as [|q k' l m (_ & _ & Ht) Hf IH]; [contradiction|]. destruct Hk as [->|Hk]; [|now apply IH]. destruct Ht as [(_ & E)|(_ & E)]; [eauto|]. exfalso. exact (proj2 Hu _ E). }
  assert (forall e1 t1, Typed (InAction (ai_params_by_name t)) e1 t1 -> forall w, t1 <> TExact w) as Hne.
  { intros e1 t1 HT w E1. subst t1. inversion HT; subst; try discriminate.
    - match goal with H : InAction _ = InAction _ |- _ => injection H as <- end. match goal with H : declared _ _ _ |- _ => destruct H as (k & Hk & E) end.
      apply (param_by_name t ps HK) in Hk as [Hk _]. destruct (Hbit k Hk) as (w' & E'); [rewrite E; split; discriminate|congruence].
    - match goal with H : has_field _ _ _ |- _ => inversion H end. }
  assert (e_type e = TBool) as Hte.
  { apply (typed_ext _ _ _ _ HS) in Hty. pose proof (proj1 (infer_ok (Some t) None _ HG _ _ Hi)) as Hty'. eapply (typed_fun (Some t) None _ HG); eauto. }
  pose proof (orders_exact_sub _ Hne e0) as Ho'. pose proof (action_env t ps x ctx HK Hpa Hbit Hall Hw) as HE. pose proof (action_env_eq t ps x ctx param HK Hpa Hkey) as HEq.
  assert (ev_bool ctx e = Ok false) as Hf'.
  { apply ev_bool_ok. apply (ev_complete (Some t) None _ HG ctx e0 (VBool false)); [exact HE| |exact Ho'|exact Hi]. apply (den_scope _ _ _ _ _ HS). eapply den_ext; [apply env_eq_sym; exact HEq|exact H]. }
  destruct (action_ok t ps HK x ctx Hpa) as (_ & params & Ec & _ & HA).
  assert (exists sq, minimal ctx e [] = Ok sq) as Hm.
  { eapply (minimal_uncontested (Some t) None _ HG ctx HE); [exact (no_bool_params t ps _ HK Hf)|exact Hi|exact Hte|split; [exact Hl|split; [exact Ho'|contradiction]]|].
    intros Hc. apply Hct. apply (contested_written _ _ _ _ HG _ _ Hi Hl) in Hc. eapply contested_mono; [|exact Hc]. intros s b Hs'. eapply den_ext; [exact HEq|]. eapply den_scope; [apply same_scope_sym; exact HS|exact Hs']. }
  destruct (explained ctx e0 e) as (s & s0 & q & b & r & HB & Hsub & Eb & Hme & Hbs & Hq & Hc).
  - exact (proj1 (proj2 (proj2 (infer_ok (Some t) None _ HG _ _ Hi)))).
  - exact Hte.
  - exact Hf'.
  - exact Hm.
  - rewrite Ec, Hs. cbn [ec_src]. exact (parts_quoted _ _ _ _ _ Hp Hr Hra Hdis).
  - rewrite Ec, Hs in Hq. cbn [ec_src] in Hq. rewrite Ec in Hc.
    set (rest := ">>>Relevant Action Info<<<" ++ nl ++ "Action Name: " ++ dq ++ ai_name t ++ dq ++ nl ++
      concat_strings (map (fun kv : string * Z => if mem_string (fst kv) (GetVariables s) then "Param name: " ++ dq ++ fst kv ++ dq ++ " -> Value: " ++ dec (snd kv) ++ nl else "") (Ordered params))).
    exists (violation_text ctx s b r), s0, b, r, rest. rewrite Ec.
    split. { apply action_verdict. exists t. split; [exact Ht|]. right. exists e, ctx. split; [exact He|]. split; [exact Hte|]. split; [exact Hpa|]. rewrite Ec. exact Hc. }
    split; [exact Hsub|]. split; [exact Hq|]. split; [unfold violation_text, rest; cbn [ec_ctx]; rewrite !sapp_assoc; reflexivity|].
    split; [unfold rest; do 2 apply contains_r; rewrite Hn; eexists "", _; rewrite !sapp_assoc; reflexivity|].
    intros n v Hmn Has. unfold rest. do 7 apply contains_r. apply contains_list. apply in_map_iff. exists (n, v). cbn [fst snd]. split; [|apply ordered_in, HA, Has].
    assert (mem_string n (GetVariables s) = true) as -> by (apply mem_string_in, GetVariables_in, Hme, Hmn). reflexivity.
Qed.
Print Assumptions C33_action_explained_partial.
Example C33_case : displayable demo_csource demo_tree /\ ~ In LF (chars demo_source) /\ consistent demo_keys (pe_match bad_entry) /\ (exists text, ReasonEntryViolatesConstraint bad_entry demo_ci = Ok text /\ text <> "").
Proof.
  assert (forall c, existsb (Ascii.eqb c) (chars demo_source) = false -> ~ In c (chars demo_source)) as Hno.
  { intros c H Hin. assert (existsb (Ascii.eqb c) (chars demo_source) = true) as E; [|congruence]. apply existsb_exists. exists c. split; [exact Hin|apply Ascii.eqb_refl]. }
  split. { eapply C33_one_line_partial; [exact pton1_ok|exact demo_restricted|exact demo_reads|apply Hno; vm_compute; reflexivity..]. }
  split; [apply Hno; vm_compute; reflexivity|]. split; [|exact C31_case]. split.
  - intros f [<-|[<-|[]]]; [exists (mkKey 1 "e" (TExact 8))|exists (mkKey 2 "t" (TTernary 16))]; eexists; (split; [cbn; tauto|]); (split; [reflexivity|]); constructor.
  - repeat constructor; cbn; intuition discriminate.
  - intros k [<-|[<-|[<-|[]]]] Ho; [exfalso; exact (Ho _ (or_introl eq_refl) eq_refl)|exfalso; exact (Ho _ (or_intror (or_introl eq_refl)) eq_refl)|]; eexists; constructor; lia.
Qed.
Example C33_action_case : exists text, ReasonActionViolates demo_ci (mkP4Action 4 [(1%N, "a"); (2%N, "b")]) = Ok text /\ text <> "" /\ ~ has_attribute demo_atree.
Proof. eexists. split; [vm_compute; reflexivity|]. split; [discriminate|]. intros H. repeat match goal with H : has_attribute _ |- _ => inversion H; clear H end. Qed.
(** Two false conjuncts of an action constraint: an error instead of an explanation. *)
Definition two_decl : p4_action_decl := mkP4ActionDecl (mkPre 4 "act" [restriction "action" ["p < 3 && q == 0"]]) [mkAP 1 "p" 8 ""; mkAP 2 "q" 8 ""].
Definition two_csource : csource := mkCSource "p < 3 && q == 0" (mkLoc 0 0 (SrcAction "act")).
Theorem C33_contested_refuted : exists ci x e0 param m, P4ToConstraintInfo pton1 (mkP4Info [] [two_decl]) = Ok ci /\ reads_as pton1 kActionConstraint two_csource e0 /\
  restricted kActionConstraint (pad_preamble two_decl) two_csource /\ Forall2 param_decl (pad_params two_decl) demo_params /\ pa_id x = 4%N /\ acceptable demo_params (pa_params x) /\
  (forall n z, param n = Some z <-> Passed demo_params (pa_params x) n z) /\
  Den (param_scope demo_params) (ActionEnv param) e0 (VBool false) /\ ReasonActionViolates ci x = Err InvalidArgument m.
Proof.
  eexists _, (mkP4Action 4 [(1%N, "a"); (2%N, "b")]), _, (fun n => if String.eqb n "p" then Some 97%Z else if String.eqb n "q" then Some 98%Z else None), _.
  split; [vm_compute; reflexivity|]. split. { apply (C08_parser_iff_grammar pton1 _ _ _ pton1_ok). vm_compute. reflexivity. }
  split. { eexists (parts_text ["p < 3 && q == 0"]), "", 0%Z, ["p < 3 && q == 0"]. split; [apply nt_here; reflexivity|]. split; [split; [apply no_special; vm_compute; reflexivity|left; reflexivity]|].
    split; [discriminate|]. split; [constructor; [apply no_special; vm_compute; reflexivity|constructor]|reflexivity]. }
  split; [exact demo_adecls|]. split; [reflexivity|]. split.
  { split.
    - intros id s [[= <- <-]|[[= <- <-]|[]]]; [exists (mkKey 1 "p" (TBit 8))|exists (mkKey 2 "q" (TBit 8))]; (split; [cbn; tauto|reflexivity]).
    - repeat constructor; cbn; intuition discriminate. }
  split.
  { intros n z. split.
    - destruct (String.eqb_spec n "p") as [->|]; [|destruct (String.eqb_spec n "q") as [->|]; [|discriminate]]; intros [= <-].
      + exists (mkKey 1 "p" (TBit 8)), "a". cbn. auto.
      + exists (mkKey 2 "q" (TBit 8)), "b". cbn. auto.
    - intros (k & s & [<-|[<-|[]]] & [[= <-]|[[= <-]|[]]] & -> & ->); reflexivity. }
  split; [|vm_compute; reflexivity].
  apply (sem_left _ _ _ OAND _ _ false false c_and); [|reflexivity].
  eapply sem_compare with (ta := TBit 8) (tb := TInt) (t := TBit 8) (u := VInt 97) (u' := VInt 97) (v := VInt 3) (v' := VInt 3).
  - eapply T_param; [reflexivity|exists (mkKey 1 "p" (TBit 8)); split; [now left|reflexivity]|split; discriminate].
  - constructor.
  - split; [now left|]. split; [right; apply below_step; apply (step_int 8)|]. intros x Hx _. exact Hx.
  - eapply sem_param; reflexivity.
  - apply (sem_int _ _ _ _ 3%N). split; [apply (reads_one 10 "3" 3); [exact (dchar_digit "3" ltac:(split; vm_compute; discriminate))|lia]|right; discriminate].
  - constructor.
  - exact (cv_int 8 3 ltac:(lia)).
  - right. split; [constructor|]. split; eexists; constructor.
  - split; [discriminate|]. intros Hc. inversion Hc as [| |? ? ? ? Hu Hv Hlt| | |]; subst. inversion Hu; inversion Hv; subst. lia.
Qed.
Print Assumptions C33_contested_refuted.
(** A violated constraint over several lines crashes the process. *)
Definition long_decl : p4_table := mkP4Table (mkPre 1 "t" [restriction "entry" ["k"; "== 1"]]) [mkMF 1 "k" 8 (MMatchType MTExact)].
Theorem C33_unquotable_refuted : exists ci entry w, P4ToConstraintInfo pton1 (mkP4Info [long_decl] []) = Ok ci /\ pe_table_id entry = 1%N /\
  consistent [mkKey 1 "k" (TExact 8)] (pe_match entry) /\ Forall2 key_decl (pt_match_fields long_decl) [mkKey 1 "k" (TExact 8)] /\ ReasonEntryViolatesConstraint entry ci = Crash w.
Proof.
  eexists _, (mkEntry 1 [mkFM 1 (FMExact "a")] None 0), _. split; [vm_compute; reflexivity|]. split; [reflexivity|]. split.
  { split.
    - intros f [<-|[]]. exists (mkKey 1 "k" (TExact 8)). eexists. split; [now left|]. split; [reflexivity|]. apply fv_exact.
    - repeat constructor. intros [].
    - intros k [<-|[]] Ho; exfalso; exact (Ho _ (or_introl eq_refl) eq_refl). }
  split; [repeat constructor|]. vm_compute. reflexivity.
Qed.
Print Assumptions C33_unquotable_refuted.
