(** More facts on checking entries: scopes, declared tables and actions. *)
From Coq Require Import String Ascii List ZArith NArith Bool Lia Permutation.
From Verif Require Import Base Num Token Ast Lexer Quote AstConstructors Parser Info TypeChecker ConstraintInfo Interpreter SpecLexer SpecGrammar SpecTyping SpecSemantics SpecInfo
  StrFacts NumFacts LiteralFacts ParserFacts4 TypeFacts EvalFacts SemFacts SemFacts2 EntryFacts ExplainFacts VerdictFacts InfoFacts InfoFacts2 InterpFacts.
Import ListNotations.
Open Scope string_scope.

(** * Scopes *)
Definition same_scope (G G' : scope) : Prop :=
  match G, G' with
  | InTable l, InTable m | InAction l, InAction m => same_entries l m
  | _, _ => False
  end.
Lemma same_scope_sym G G' : same_scope G G' -> same_scope G' G.
Proof. destruct G, G'; cbn; try contradiction; intros H x; symmetry; apply H. Qed.
Lemma declared_ext l m n t : same_entries l m -> declared l n t -> declared m n t.
Proof. intros H (k & Hk & E). exists k. split; [now apply H|exact E]. Qed.
Lemma typed_ext G G' e t : same_scope G G' -> Typed G e t -> Typed G' e t.
Proof.
  intros HS H. induction H; subst; try solve [econstructor; eauto].
  - destruct G' as [l|l]; [|contradiction]. cbn in HS. eapply T_key; eauto using declared_ext.
  - destruct G' as [l|l]; [contradiction|]. cbn in HS. eapply T_param; eauto using declared_ext.
Qed.
Lemma den_scope G G' r e v : same_scope G G' -> Den G r e v -> Den G' r e v.
Proof. intros HS H. induction H; subst; try solve [econstructor; eauto using typed_ext]. Qed.
Lemma orders_scope G G' e : same_scope G G' -> orders_exact G e -> orders_exact G' e.
Proof. intros HS H. induction H; try solve [econstructor; eauto using typed_ext]. Qed.

(** * Declarations *)
Lemma key_scope_same t ks : table_keys t ks -> same_scope (InTable (ti_keys_by_name t)) (key_scope ks).
Proof. intros H. exact (tk_by_name _ _ H). Qed.
Lemma param_scope_same a ps : action_params a ps -> same_scope (InAction (ai_params_by_name a)) (param_scope ps).
Proof. intros H. exact (ap_by_name _ _ H). Qed.

Lemma declared_table pton p ci d ks cs e0 : pton_ok pton -> P4ToConstraintInfo pton p = Ok ci -> In d (p4_tables p) -> Forall2 key_decl (pt_match_fields d) ks ->
  restricted kTableConstraint (pt_preamble d) cs -> reads_as pton kTableConstraint cs e0 ->
  exists t e, GetTableInfoOrNull ci (pr_id (pt_preamble d)) = Some t /\ table_keys t ks /\ ti_name t = pr_name (pt_preamble d) /\ ti_source t = cs /\ literals e0 /\ InferTable e0 t = Ok e /\ ti_constraint t = Some e.
Proof.
  intros Hp Hci Hd Hf Hr Hra. pose proof Hci as Hci'. apply info_lookup in Hci as (Ht & _). destruct (proj1 (info_iff pton p) (ex_intro _ ci Hci')) as (_ & _ & H3 & _).
  destruct (H3 d Hd) as [t Et]. destruct (table_parsed _ _ _ Et) as [ks' Hto]. exists t. destruct Hto as [_ Hn Hf' HK Hc]. assert (ks' = ks) as -> by (eapply forall2_fun; [exact key_decl_fun|exact Hf'|exact Hf]).
  destruct Hc as [(Hu & _)|(e1 & e & Hr' & Hp1 & Hi & He)]; [exfalso; exact (restricted_not _ _ _ Hu Hr)|].
  assert (ti_source t = cs) as Es by exact (restricted_fun _ _ _ _ Hr' Hr). rewrite Es in Hp1. assert (e1 = e0) as ->. { apply (text_iff pton Hp) in Hra. rewrite Hra in Hp1. apply Ok_inj in Hp1. auto. }
  exists e. split; [apply Ht; exists d; auto|]. split; [exact HK|]. split; [exact Hn|]. split; [exact Es|]. split; [exact (parse_literals _ _ _ _ Hp Hp1)|]. auto.
Qed.
Lemma declared_action pton p ci d ps cs e0 : pton_ok pton -> P4ToConstraintInfo pton p = Ok ci -> In d (p4_actions p) -> Forall2 param_decl (pad_params d) ps ->
  restricted kActionConstraint (pad_preamble d) cs -> reads_as pton kActionConstraint cs e0 ->
  exists a e, GetActionInfoOrNull ci (pr_id (pad_preamble d)) = Some a /\ action_params a ps /\ ai_name a = pr_name (pad_preamble d) /\ ai_source a = cs /\ literals e0 /\ InferAction e0 a = Ok e /\ ai_constraint a = Some e.
Proof.
  intros Hp Hci Hd Hf Hr Hra. pose proof Hci as Hci'. apply info_lookup in Hci as (_ & Ht). destruct (proj1 (info_iff pton p) (ex_intro _ ci Hci')) as (_ & _ & _ & H3).
  destruct (H3 d Hd) as [t Et]. destruct (action_parsed _ _ _ Et) as [ks' Hto]. exists t. destruct Hto as [_ Hn Hf' HK Hc]. assert (ks' = ps) as -> by (eapply forall2_fun; [exact param_decl_fun|exact Hf'|exact Hf]).
  destruct Hc as [(Hu & _)|(e1 & e & Hr' & Hp1 & Hi & He)]; [exfalso; exact (restricted_not _ _ _ Hu Hr)|].
  assert (ai_source t = cs) as Es by exact (restricted_fun _ _ _ _ Hr' Hr). rewrite Es in Hp1. assert (e1 = e0) as ->. { apply (text_iff pton Hp) in Hra. rewrite Hra in Hp1. apply Ok_inj in Hp1. auto. }
  exists e. split; [apply Ht; exists d; auto|]. split; [exact HK|]. split; [exact Hn|]. split; [exact Es|]. split; [exact (parse_literals _ _ _ _ Hp Hp1)|]. auto.
Qed.
Lemma table_in_scope t ks : table_keys t ks -> in_scope None (Some t) (InTable (ti_keys_by_name t)).
Proof. intros H. constructor. exact (tk_by_name_unique _ _ H). Qed.
Lemma action_in_scope a ps : action_params a ps -> in_scope (Some a) None (InAction (ai_params_by_name a)).
Proof. intros H. constructor. exact (ap_by_name_unique _ _ H). Qed.

(** Environments of parsed entries and actions. *)
Lemma entry_env_eq t ks entry ctx key : table_keys t ks -> ParseTableEntry entry t = Ok ctx -> (forall n v, key n = Some v <-> Assigned ks (pe_match entry) n v) ->
  env_eq (env_of ctx) (TableEnv key (pe_priority entry)).
Proof.
  intros HK H Hk. destruct (entry_ok t ks HK entry ctx H) as (_ & keys & -> & HN & HA). cbn. split; [reflexivity|]. intros n.
  destruct (assoc_find String.eqb n keys) as [v|] eqn:E.
  - symmetry. apply Hk. apply HA. now apply (afind_iff String.eqb String.eqb_eq) in E.
  - destruct (key n) as [v|] eqn:E'; [|reflexivity]. apply Hk, HA in E'. apply (afind_iff String.eqb String.eqb_eq) in E'; [congruence|exact HN].
Qed.
Lemma action_env_eq a ps x ctx param : action_params a ps -> ParseAction x a = Ok ctx -> (forall n z, param n = Some z <-> Passed ps (pa_params x) n z) ->
  env_eq (env_of ctx) (ActionEnv param).
Proof.
  intros HK H Hk. destruct (action_ok a ps HK x ctx H) as (_ & keys & -> & HN & HA). cbn. intros n.
  destruct (assoc_find String.eqb n keys) as [v|] eqn:E.
  - symmetry. apply Hk. apply HA. now apply (afind_iff String.eqb String.eqb_eq) in E.
  - destruct (param n) as [v|] eqn:E'; [|reflexivity]. apply Hk, HA in E'. apply (afind_iff String.eqb String.eqb_eq) in E'; [congruence|exact HN].
Qed.
