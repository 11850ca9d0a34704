(** Verdicts on declared tables and actions are readings of their constraints. *)
From Coq Require Import String Ascii List ZArith NArith Bool Lia.
From Verif Require Import Base Num Token Ast Lexer Quote AstConstructors Parser Info TypeChecker ConstraintInfo Interpreter SpecLexer SpecGrammar SpecTyping SpecSemantics SpecInfo SpecReading
  StrFacts NumFacts LiteralFacts ParserFacts4 TypeFacts EvalFacts SemFacts SemFacts2 EntryFacts ExplainFacts VerdictFacts InfoFacts InfoFacts2 InterpFacts InterpFacts2 ReadingFacts.
Import ListNotations.
Open Scope string_scope.

Lemma meant_ext cmp G r r' e v : env_eq r r' -> Meant cmp G r e v -> Meant cmp G r' e v.
Proof.
  intros HE H. induction H; subst.
  - constructor.
  - now constructor.
  - destruct r'; cbn in HE; [|contradiction]. destruct HE as [-> HE]. eapply mn_key; [reflexivity|]. now rewrite <- HE.
  - destruct r'; cbn in HE; [contradiction|]. eapply mn_param; [reflexivity|]. now rewrite <- HE.
  - destruct r'; cbn in HE; [|contradiction]. destruct HE as [-> HE]. eapply mn_priority. reflexivity.
  - now constructor.
  - now constructor.
  - eapply mn_left; eauto.
  - now apply mn_both.
  - eapply mn_compare; eauto.
  - eapply mn_field; eauto.
Qed.
Lemma meant_scope cmp G G' r e v : same_scope G G' -> Meant cmp G r e v -> Meant cmp G' r e v.
Proof. intros HS H. induction H; subst; try solve [econstructor; eauto using typed_ext]. Qed.

(** Parsed entries and actions have values of the right types. *)
Lemma entry_fits t ks entry ctx : table_keys t ks -> ParseTableEntry entry t = Ok ctx -> env_fits (InTable (ti_keys_by_name t)) (env_of ctx).
Proof.
  intros HK H. destruct (entry_ok t ks HK entry ctx H) as ([_ HN _] & keys & -> & _ & HA). cbn. split; intros m n ty v HT HD; [|inversion HT; discriminate].
  inversion HT as [| |keys' ? ? ? E Hdl| | | | | | | |]; subst. injection E as <-. destruct Hdl as (k & Hk & <-). apply (by_name t ks HK) in Hk as [Hk <-].
  inversion HD as [| |key p ? ? ? E Hv| | | | | | | |]; subst. injection E as <- _. apply (afind_in String.eqb String.eqb_eq), HA in Hv.
  assert (forall k', In k' ks -> k_name k' = k_name k -> k' = k) as Hu. { intros k' Hk' E. apply (nodup_keys k_name ks); [apply HK|assumption..]. }
  inversion Hv as [k' f v0 Hk' Hf Hid Hfv E|k' v0 Hk' Ho Hw E]; subst; rewrite <- (Hu k' Hk' E); eauto using field_value_typed, wildcard_typed.
Qed.
Lemma action_fits a ps x ctx : action_params a ps -> (forall k, In k ps -> usable (k_type k) -> exists w, k_type k = TBit w) -> ParseAction x a = Ok ctx -> env_fits (InAction (ai_params_by_name a)) (env_of ctx).
Proof.
  intros HK Hb H. destruct (action_ok a ps HK x ctx H) as (_ & keys & -> & _ & HA). cbn. split; intros m n ty v HT HD; [inversion HT; discriminate|].
  inversion HT as [| | |keys' ? ? ? E Hdl Hus| | | | | | |]; subst. injection E as <-. destruct Hdl as (k & Hk & <-). apply (param_by_name a ps HK) in Hk as [Hk <-].
  inversion HD; subst. destruct (Hb k Hk Hus) as [w ->]. constructor.
Qed.
Lemma params_bits ds ps : Forall2 param_decl ds ps -> forall k, In k ps -> usable (k_type k) -> exists w, k_type k = TBit w.
Proof.
  intros Hf k Hk Hu. induction Hf as [|q k' l m (_ & _ & Ht) Hf IH]; [contradiction|]. destruct Hk as [->|Hk]; [|now apply IH].
  destruct Ht as [(_ & E)|(_ & E)]; [eauto|]. exfalso. exact (proj2 Hu _ E).
Qed.

Section Info.
  Variables (pton : inet_pton6) (p : p4info) (ci : constraint_info).
  Hypothesis Hp : pton_ok pton.
  Hypothesis Hci : P4ToConstraintInfo pton p = Ok ci.
  Lemma table_info_of t id : GetTableInfoOrNull ci id = Some t -> exists d ks, In d (p4_tables p) /\ pr_id (pt_preamble d) = id /\ table_of pton d ks t.
  Proof. intros H. apply info_lookup in Hci as (Ht & _). apply Ht in H as (d & Hd & -> & Et). destruct (table_parsed _ _ _ Et) as [ks Ho]. exists d, ks. auto. Qed.
  Lemma table_info_to d : In d (p4_tables p) -> exists t, GetTableInfoOrNull ci (pr_id (pt_preamble d)) = Some t.
  Proof. intros Hd. destruct (proj1 (info_iff pton p) (ex_intro _ ci Hci)) as (_ & _ & H3 & _). destruct (H3 d Hd) as [t Et]. exists t. apply (proj1 (info_lookup _ _ _ Hci)). exists d. auto. Qed.
  Lemma table_decl_same d d' : In d (p4_tables p) -> In d' (p4_tables p) -> pr_id (pt_preamble d) = pr_id (pt_preamble d') -> d = d'.
  Proof.
    intros H H' E. destruct (proj1 (info_iff pton p) (ex_intro _ ci Hci)) as (HN & _). eapply nodup_keys; eauto.
  Qed.
  (** The table part answers iff the constraint says something. *)
  Lemma check_table d t entry x : In d (p4_tables p) -> pr_id (pt_preamble d) = pe_table_id entry -> GetTableInfoOrNull ci (pe_table_id entry) = Some t ->
    (table_says pton d entry x <-> exists e ctx, ti_constraint t = Some e /\ e_type e = TBool /\ ParseTableEntry entry t = Ok ctx /\ ev_bool ctx e = Ok x).
  Proof.
    intros Hd Hid Ht. destruct (table_info_of t _ Ht) as (d' & ks & Hd' & Hid' & Ho). assert (d' = d) as -> by (apply table_decl_same; congruence).
    destruct Ho as [_ _ Hf HK Hc]. pose proof (table_in_scope t ks HK) as HG. pose proof (key_scope_same t ks HK) as HS. split.
    - intros (ks' & cs & e0 & key & Hf' & Hr & Hra & Hco & Hkey & Hty & HM). assert (ks' = ks) as -> by (eapply forall2_fun; [exact key_decl_fun|eassumption..]).
      destruct (declared_table _ _ _ _ _ _ _ Hp Hci Hd Hf' Hr Hra) as (t' & e & Ht' & _ & _ & _ & Hl & Hi & He). rewrite Hid in Ht'. assert (t' = t) as -> by congruence.
      destruct (entry_total t ks HK entry Hco) as [ctx Hpa]. exists e, ctx. split; [exact He|]. apply same_scope_sym in HS. split.
      { apply (typed_ext _ _ _ _ HS) in Hty. pose proof (proj1 (infer_ok None (Some t) _ HG _ _ Hi)) as Hty'. eapply (typed_fun None (Some t) _ HG); eauto. }
      split; [exact Hpa|]. apply ev_bool_ok. apply (ev_read None (Some t) _ HG ctx e0 (VBool x)); [eapply entry_fits; eassumption| |exact Hi].
      apply (meant_scope _ _ _ _ _ _ HS). eapply meant_ext; [apply env_eq_sym; exact (entry_env_eq t ks entry ctx key HK Hpa Hkey)|exact HM].
    - intros (e & ctx & He & Hty & Hpa & Hv). destruct Hc as [(_ & E)|(e0 & e1 & Hr & Hpc & Hi & E)]; [congruence|]. assert (e1 = e) as -> by congruence.
      destruct (entry_ok t ks HK entry ctx Hpa) as (Hco & keys & -> & HN & HA). exists ks, (ti_source t), e0, (fun n => assoc_find String.eqb n keys). split; [exact Hf|]. split; [exact Hr|].
      split; [now apply (text_iff pton Hp)|]. split; [exact Hco|]. split; [intros n v; rewrite (afind_iff String.eqb String.eqb_eq) by exact HN; apply HA|]. split.
      { apply (typed_ext _ _ _ _ HS). rewrite <- Hty. exact (proj1 (infer_ok None (Some t) _ HG _ _ Hi)). }
      apply (meant_scope _ _ _ _ _ _ HS). apply ev_bool_ok in Hv. exact (ev_reads None (Some t) _ HG _ e0 e _ Hi (parse_literals _ _ _ _ Hp Hpc) Hv).
  Qed.
  Lemma action_info_of a id : GetActionInfoOrNull ci id = Some a -> exists d ps, In d (p4_actions p) /\ pr_id (pad_preamble d) = id /\ action_of pton d ps a.
  Proof. intros H. apply info_lookup in Hci as (_ & Ht). apply Ht in H as (d & Hd & -> & Et). destruct (action_parsed _ _ _ Et) as [ps Ho]. exists d, ps. auto. Qed.
  Lemma action_info_to d : In d (p4_actions p) -> exists a, GetActionInfoOrNull ci (pr_id (pad_preamble d)) = Some a.
  Proof. intros Hd. destruct (proj1 (info_iff pton p) (ex_intro _ ci Hci)) as (_ & _ & _ & H3). destruct (H3 d Hd) as [t Et]. exists t. apply (proj2 (info_lookup _ _ _ Hci)). exists d. auto. Qed.
  Lemma action_decl_same d d' : In d (p4_actions p) -> In d' (p4_actions p) -> pr_id (pad_preamble d) = pr_id (pad_preamble d') -> d = d'.
  Proof. intros H H' E. destruct (proj1 (info_iff pton p) (ex_intro _ ci Hci)) as (_ & HN & _). eapply nodup_keys; eauto. Qed.
  Lemma check_action d a x b : In d (p4_actions p) -> pr_id (pad_preamble d) = pa_id x -> GetActionInfoOrNull ci (pa_id x) = Some a ->
    (action_says pton d x b <-> exists e ctx, ai_constraint a = Some e /\ e_type e = TBool /\ ParseAction x a = Ok ctx /\ ev_bool ctx e = Ok b).
  Proof.
    intros Hd Hid Ht. destruct (action_info_of a _ Ht) as (d' & ps & Hd' & Hid' & Ho). assert (d' = d) as -> by (apply action_decl_same; congruence).
    destruct Ho as [_ _ Hf HK Hc]. pose proof (action_in_scope a ps HK) as HG. pose proof (param_scope_same a ps HK) as HS. split.
    - intros (ps' & cs & e0 & param & Hf' & Hr & Hra & Hco & Hkey & Hty & HM). assert (ps' = ps) as -> by (eapply forall2_fun; [exact param_decl_fun|eassumption..]).
      destruct (declared_action _ _ _ _ _ _ _ Hp Hci Hd Hf' Hr Hra) as (t' & e & Ht' & _ & _ & _ & Hl & Hi & He). rewrite Hid in Ht'. assert (t' = a) as -> by congruence.
      destruct (action_total a ps HK x Hco) as [ctx Hpa]. exists e, ctx. split; [exact He|]. apply same_scope_sym in HS. split.
      { apply (typed_ext _ _ _ _ HS) in Hty. pose proof (proj1 (infer_ok (Some a) None _ HG _ _ Hi)) as Hty'. eapply (typed_fun (Some a) None _ HG); eauto. }
      split; [exact Hpa|]. apply ev_bool_ok. apply (ev_read (Some a) None _ HG ctx e0 (VBool b)); [eapply action_fits; eauto using params_bits| |exact Hi].
      apply (meant_scope _ _ _ _ _ _ HS). eapply meant_ext; [apply env_eq_sym; exact (action_env_eq a ps x ctx param HK Hpa Hkey)|exact HM].
    - intros (e & ctx & He & Hty & Hpa & Hv). destruct Hc as [(_ & E)|(e0 & e1 & Hr & Hpc & Hi & E)]; [congruence|]. assert (e1 = e) as -> by congruence.
      destruct (action_ok a ps HK x ctx Hpa) as (Hco & keys & -> & HN & HA). exists ps, (ai_source a), e0, (fun n => assoc_find String.eqb n keys). split; [exact Hf|]. split; [exact Hr|].
      split; [now apply (text_iff pton Hp)|]. split; [exact Hco|]. split; [intros n v; rewrite (afind_iff String.eqb String.eqb_eq) by exact HN; apply HA|]. split.
      { apply (typed_ext _ _ _ _ HS). rewrite <- Hty. exact (proj1 (infer_ok (Some a) None _ HG _ _ Hi)). }
      apply (meant_scope _ _ _ _ _ _ HS). apply ev_bool_ok in Hv. exact (ev_reads (Some a) None _ HG _ e0 e _ Hi (parse_literals _ _ _ _ Hp Hpc) Hv).
  Qed.
End Info.
