(** Verdicts of entries. *)
From Coq Require Import String Ascii List ZArith NArith Bool Lia Sorted.
From Verif Require Import Base Num Token Ast Lexer Quote AstConstructors Parser Info TypeChecker ConstraintInfo Interpreter SpecLexer SpecGrammar SpecParser SpecTyping SpecSemantics SpecInfo SpecExplain SpecCrash SpecReading SpecOutcome
  StrFacts NumFacts LiteralFacts ParserFacts4 TypeFacts EvalFacts SemFacts SemFacts2 EntryFacts EntryFacts2 ExplainFacts ExplainFacts2 VerdictFacts InfoFacts InfoFacts2 InterpFacts InterpFacts2 ReadingFacts ReadingFacts2 CrashFacts PropertiesCrash OutcomeFacts OutcomeFacts2 OutcomeFacts3 OutcomeFacts4.
Import ListNotations.
Open Scope string_scope.

Lemma reports_ok o v : (forall w, o <> Crash w) -> exists v', reports o v' /\ (reports o v -> v = v').
Proof.
  destruct o as [s|c m|w]; intros H; [exists (Says s)|exists (Failed c)|destruct (H w eq_refl)]; (split; [cbn; eauto|]); intros Hx; (eapply reports_fun; [exact Hx|cbn; eauto]).
Qed.
Lemma bool_type e : is_bool_type (e_type e) = true <-> e_type e = TBool.
Proof. destruct (e_type e); cbn; split; congruence. Qed.
Section Declared.
  Variables (pton : inet_pton6) (p : p4info) (ci : constraint_info).
  Hypothesis Hp : pton_ok pton.
  Hypothesis Hci : P4ToConstraintInfo pton p = Ok ci.
  Hypothesis Hs : sane_widths p.
  Hypothesis Hleg : legible pton p.
  Lemma standard_types d ks : standard_keys p -> In d (p4_tables p) -> Forall2 key_decl (pt_match_fields d) ks -> forall k, In k ks -> exists w, match_type w (k_type k).
  Proof.
    intros Hst Hd Hf k Hk. assert (exists f, In f (pt_match_fields d) /\ key_decl f k) as (f & Hin & (_ & _ & Ht)).
    { clear -Hf Hk. induction Hf as [|f k' l m H Hf IH]; [contradiction|]. destruct Hk as [->|Hk]; [exists f; split; [now left|exact H]|]. destruct (IH Hk) as (f' & H1 & H2). exists f'. split; [now right|exact H2]. }
    destruct (Hst d f Hd Hin) as [m Hm]. destruct Ht; try (eexists; constructor). discriminate.
  Qed.
  Lemma typed_table t ks e0 e ty : table_keys t ks -> InferTable e0 t = Ok e -> (Typed (key_scope ks) e0 ty <-> e_type e = ty).
  Proof.
    intros HK Hi. pose proof (table_in_scope t ks HK) as HG. pose proof (key_scope_same t ks HK) as HS. pose proof (proj1 (infer_ok None (Some t) _ HG _ _ Hi)) as Hty. split.
    - intros H. apply (typed_ext _ _ _ _ (same_scope_sym _ _ HS)) in H. eapply (typed_fun None (Some t) _ HG); eauto.
    - intros <-. exact (typed_ext _ _ _ _ HS Hty).
  Qed.
  Lemma typed_action a ps e0 e ty : action_params a ps -> InferAction e0 a = Ok e -> (Typed (param_scope ps) e0 ty <-> e_type e = ty).
  Proof.
    intros HK Hi. pose proof (action_in_scope a ps HK) as HG. pose proof (param_scope_same a ps HK) as HS. pose proof (proj1 (infer_ok (Some a) None _ HG _ _ Hi)) as Hty. split.
    - intros H. apply (typed_ext _ _ _ _ (same_scope_sym _ _ HS)) in H. eapply (typed_fun (Some a) None _ HG); eauto.
    - intros <-. exact (typed_ext _ _ _ _ HS Hty).
  Qed.
  (** Tables. *)
  Lemma table_reports d t entry : In d (p4_tables p) -> pr_id (pt_preamble d) = pe_table_id entry -> GetTableInfoOrNull ci (pe_table_id entry) = Some t ->
    exists v, table_outcome pton d entry v /\ reports (ReasonTableViolates t entry) v.
  Proof.
    intros Hd Hid Ht. destruct (table_info_of pton p ci Hci t _ Ht) as (d' & ks & Hd' & Hid' & Ho). assert (d' = d) as -> by (apply (table_decl_same pton p ci Hci); congruence).
    destruct Ho as [_ Hn Hf HK Hc]. unfold ReasonTableViolates. destruct Hc as [(Hu & E)|(e0 & e & Hr & Hpc & Hi & E)]; rewrite E; [exists (Says ""); split; [now apply tv_free|reflexivity]|].
    assert (reads_as pton kTableConstraint (ti_source t) e0) as Hra by now apply (text_iff pton Hp).
    assert (forall k w, In k ks -> width (k_type k) w -> (0 <= w)%Z) as Hw by (intros k z Hk Hz; exact (key_widths _ _ _ _ _ Hs Hd Hf Hk Hz)).
    destruct (is_bool_type (e_type e)) eqn:Eb; cbn [negb].
    - apply bool_type in Eb. pose proof (proj2 (typed_table t ks e0 e TBool HK Hi) Eb) as Hty. destruct (ParseTableEntry entry t) as [ctx|c m|w] eqn:Ep; cbn [annotate bind].
      + rewrite check_agrees. destruct (entry_ok t ks HK entry ctx Ep) as (Hco & keys & Ec & HN & HA). set (key := fun n => assoc_find String.eqb n keys).
        assert (forall n v, key n = Some v <-> Assigned ks (pe_match entry) n v) as Hkey by (intros n v; unfold key; rewrite (afind_iff String.eqb String.eqb_eq) by exact HN; apply HA).
        pose proof (fun v => table_core pton p Hp Hs Hleg d ks t e0 e entry ctx key v Hd Hf HK Hr Hra Hi Eb Ep Hkey) as HC.
        destruct (reports_ok (check ctx e) (Says "")) as (v & Hv & _).
        { intros w. apply (check_safe pton kTableConstraint (pt_preamble d) (ti_source t) e0 e None (Some t) _ ctx w Hp Hr Hra (Hleg _ _ _ (dc_table _ _ _ Hd Hr) Hra) (table_in_scope t ks HK) Hi); [|now rewrite Ec].
          intros n k z Hk Hz. cbn [names] in Hk. apply (by_name t ks HK) in Hk as [Hk _]. exact (Hw k z Hk Hz). }
        exists v. split; [|exact Hv]. apply HC in Hv. rewrite Hn in Hv. exact (tv_judged _ _ _ ks (ti_source t) e0 key v Hf Hr Hra Hty Hco Hkey Hv).
      + exists (Failed c). split; [|cbn; eauto]. exact (tv_faulty _ _ _ ks _ e0 c Hf Hr Hra Hty (faulty_of t ks HK Hw entry c m Ep)).
      + destruct (parse_nocrash t ks HK Hw entry w Ep).
    - exists (Failed InvalidArgument). split; [|cbn; eauto]. apply (tv_type _ _ _ ks _ e0 (e_type e) Hf Hr Hra); [now apply (typed_table t ks e0 e _ HK Hi)|]. intros Hx. apply bool_type in Hx. congruence.
  Qed.
  Lemma table_reported d t entry v : standard_keys p -> In d (p4_tables p) -> pr_id (pt_preamble d) = pe_table_id entry -> GetTableInfoOrNull ci (pe_table_id entry) = Some t ->
    table_outcome pton d entry v -> reports (ReasonTableViolates t entry) v.
  Proof.
    intros Hst Hd Hid Ht Hv. destruct (table_info_of pton p ci Hci t _ Ht) as (d' & ks & Hd' & Hid' & Ho). assert (d' = d) as -> by (apply (table_decl_same pton p ci Hci); congruence).
    assert (forall ks' cs e0, Forall2 key_decl (pt_match_fields d) ks' -> restricted kTableConstraint (pt_preamble d) cs -> reads_as pton kTableConstraint cs e0 ->
      exists e, table_keys t ks' /\ ti_name t = pr_name (pt_preamble d) /\ ti_source t = cs /\ InferTable e0 t = Ok e /\ ti_constraint t = Some e) as HD.
    { intros ks' cs e0 Hf Hr Hra. destruct (declared_table _ _ _ _ _ _ _ Hp Hci Hd Hf Hr Hra) as (t' & e & Ht' & HK & Hn & Hs' & Hl & Hi & He). rewrite Hid in Ht'. assert (t' = t) as -> by congruence. exists e. auto. }
    destruct Hv as [Hu|ks' cs e0 ty Hf Hr Hra Hty Hnt|ks' cs e0 c Hf Hr Hra Hty Hfa|ks' cs e0 key v Hf Hr Hra Hty Hco Hkey HJ].
    - destruct Ho as [_ _ _ _ [(_ & E)|(e0 & e & Hr & _)]]; [|exfalso; exact (restricted_not _ _ _ Hu Hr)]. unfold ReasonTableViolates. now rewrite E.
    - destruct (HD ks' cs e0 Hf Hr Hra) as (e & HK & Hn & <- & Hi & He). unfold ReasonTableViolates. rewrite He. apply (typed_table t ks' e0 e ty HK Hi) in Hty.
      destruct (is_bool_type (e_type e)) eqn:Eb; cbn; [|eauto]. apply bool_type in Eb. congruence.
    - destruct (HD ks' cs e0 Hf Hr Hra) as (e & HK & Hn & <- & Hi & He). unfold ReasonTableViolates. rewrite He. apply (typed_table t ks' e0 e TBool HK Hi) in Hty. apply bool_type in Hty. rewrite Hty. cbn [negb].
      destruct (faulty_to t ks' HK (fun k z Hk Hz => key_widths _ _ _ _ _ Hs Hd Hf Hk Hz) entry c (standard_types d ks' Hst Hd Hf) Hfa) as [m ->]. cbn. eauto.
    - destruct (HD ks' cs e0 Hf Hr Hra) as (e & HK & Hn & <- & Hi & He). unfold ReasonTableViolates. rewrite He. apply (typed_table t ks' e0 e TBool HK Hi) in Hty. pose proof Hty as Eb. apply bool_type in Hty. rewrite Hty. cbn [negb].
      destruct (entry_total t ks' HK entry Hco) as [ctx Hpa]. rewrite Hpa. cbn [annotate bind]. rewrite check_agrees. rewrite <- Hn in HJ.
      exact (proj1 (table_core pton p Hp Hs Hleg d ks' t e0 e entry ctx key v Hd Hf HK Hr Hra Hi Eb Hpa Hkey) HJ).
  Qed.
  (** Actions. *)
  Lemma params_err a : forall l params, (exists q, parse_params a l params = Ok q) \/ exists m, parse_params a l params = Err InvalidArgument m.
  Proof. induction l as [|[id v] l IH]; intros params; cbn [parse_params]; [eauto|]. destruct (assoc_find N.eqb id (ai_params_by_id a)) as [q|]; [|eauto]. destruct (assoc_find String.eqb (k_name q) params); eauto. Qed.
  Lemma action_err a x : (exists ctx, ParseAction x a = Ok ctx) \/ exists m, ParseAction x a = Err InvalidArgument m.
  Proof. unfold ParseAction. destruct (params_err a (pa_params x) []) as [[q ->]|[m ->]]; cbn; eauto. Qed.
  Lemma action_reports d x : In d (p4_actions p) -> pr_id (pad_preamble d) = pa_id x -> exists v, action_outcome pton d x v /\ reports (ReasonActionViolates ci x) v.
  Proof.
    intros Hd Hid. destruct (action_info_to pton p ci Hci d Hd) as [a Ha]. rewrite Hid in Ha. destruct (action_info_of pton p ci Hci a _ Ha) as (d' & ps & Hd' & Hid' & Ho). assert (d' = d) as -> by (apply (action_decl_same pton p ci Hci); congruence).
    destruct Ho as [_ Hn Hf HK Hc]. unfold ReasonActionViolates. rewrite Ha. destruct Hc as [(Hu & E)|(e0 & e & Hr & Hpc & Hi & E)]; rewrite E; [exists (Says ""); split; [now apply av_free|reflexivity]|].
    assert (reads_as pton kActionConstraint (ai_source a) e0) as Hra by now apply (text_iff pton Hp).
    destruct (is_bool_type (e_type e)) eqn:Eb; cbn [negb].
    - apply bool_type in Eb. pose proof (proj2 (typed_action a ps e0 e TBool HK Hi) Eb) as Hty. destruct (action_err a x) as [[ctx Ep]|[m Ep]]; rewrite Ep; cbn [annotate bind].
      + rewrite check_agrees. destruct (action_ok a ps HK x ctx Ep) as (Hco & keys & Ec & HN & HA). set (key := fun n => assoc_find String.eqb n keys).
        assert (forall n v, key n = Some v <-> Passed ps (pa_params x) n v) as Hkey by (intros n v; unfold key; rewrite (afind_iff String.eqb String.eqb_eq) by exact HN; apply HA).
        pose proof (fun v => action_core pton p Hp Hs Hleg d ps a e0 e x ctx key v Hd Hf HK Hr Hra Hi Eb Ep Hkey) as HC.
        destruct (reports_ok (check ctx e) (Says "")) as (v & Hv & _).
        { intros w. apply (check_safe pton kActionConstraint (pad_preamble d) (ai_source a) e0 e (Some a) None _ ctx w Hp Hr Hra (Hleg _ _ _ (dc_action _ _ _ Hd Hr) Hra) (action_in_scope a ps HK) Hi); [|now rewrite Ec].
          intros n k z Hk Hz. cbn [names] in Hk. apply (param_by_name a ps HK) in Hk as [Hk _]. exact (param_widths _ _ _ _ _ Hs Hd Hf Hk Hz). }
        exists v. split; [|exact Hv]. apply HC in Hv. rewrite Hn in Hv. exact (av_judged _ _ _ ps (ai_source a) e0 key v Hf Hr Hra Hty Hco Hkey Hv).
      + exists (Failed InvalidArgument). split; [|cbn; eauto]. apply (av_faulty _ _ _ ps _ e0 Hf Hr Hra Hty). intros Hac. destruct (action_total a ps HK x Hac) as [ctx Ex]. congruence.
    - exists (Failed InvalidArgument). split; [|cbn; eauto]. apply (av_type _ _ _ ps _ e0 (e_type e) Hf Hr Hra); [now apply (typed_action a ps e0 e _ HK Hi)|]. intros Hx. apply bool_type in Hx. congruence.
  Qed.
  Lemma action_reported d x v : In d (p4_actions p) -> pr_id (pad_preamble d) = pa_id x -> action_outcome pton d x v -> reports (ReasonActionViolates ci x) v.
  Proof.
    intros Hd Hid Hv. destruct (action_info_to pton p ci Hci d Hd) as [a Ha]. rewrite Hid in Ha. destruct (action_info_of pton p ci Hci a _ Ha) as (d' & ps & Hd' & Hid' & Ho). assert (d' = d) as -> by (apply (action_decl_same pton p ci Hci); congruence).
    assert (forall ps' cs e0, Forall2 param_decl (pad_params d) ps' -> restricted kActionConstraint (pad_preamble d) cs -> reads_as pton kActionConstraint cs e0 ->
      exists e, action_params a ps' /\ ai_name a = pr_name (pad_preamble d) /\ ai_source a = cs /\ InferAction e0 a = Ok e /\ ai_constraint a = Some e) as HD.
    { intros ps' cs e0 Hf Hr Hra. destruct (declared_action _ _ _ _ _ _ _ Hp Hci Hd Hf Hr Hra) as (t' & e & Ht' & HK & Hn & Hs' & Hl & Hi & He). rewrite Hid in Ht'. assert (t' = a) as -> by congruence. exists e. auto. }
    unfold ReasonActionViolates. rewrite Ha.
    destruct Hv as [Hu|ps' cs e0 ty Hf Hr Hra Hty Hnt|ps' cs e0 Hf Hr Hra Hty Hfa|ps' cs e0 key v Hf Hr Hra Hty Hco Hkey HJ].
    - destruct Ho as [_ _ _ _ [(_ & E)|(e0 & e & Hr & _)]]; [|exfalso; exact (restricted_not _ _ _ Hu Hr)]. now rewrite E.
    - destruct (HD ps' cs e0 Hf Hr Hra) as (e & HK & Hn & <- & Hi & He). rewrite He. apply (typed_action a ps' e0 e ty HK Hi) in Hty.
      destruct (is_bool_type (e_type e)) eqn:Eb; cbn; [|eauto]. apply bool_type in Eb. congruence.
    - destruct (HD ps' cs e0 Hf Hr Hra) as (e & HK & Hn & <- & Hi & He). rewrite He. apply (typed_action a ps' e0 e TBool HK Hi) in Hty. apply bool_type in Hty. rewrite Hty. cbn [negb].
      destruct (action_err a x) as [[ctx Ep]|[m Ep]]; [destruct Hfa; exact (proj1 (action_ok a ps' HK x ctx Ep))|]. rewrite Ep. cbn. eauto.
    - destruct (HD ps' cs e0 Hf Hr Hra) as (e & HK & Hn & <- & Hi & He). rewrite He. apply (typed_action a ps' e0 e TBool HK Hi) in Hty. pose proof Hty as Eb. apply bool_type in Hty. rewrite Hty. cbn [negb].
      destruct (action_total a ps' HK x Hco) as [ctx Hpa]. rewrite Hpa. cbn [annotate bind]. rewrite check_agrees. rewrite <- Hn in HJ.
      exact (proj1 (action_core pton p Hp Hs Hleg d ps' a e0 e x ctx key v Hd Hf HK Hr Hra Hi Eb Hpa Hkey) HJ).
  Qed.
  Lemma unknown_action x : (forall d, In d (p4_actions p) -> pr_id (pad_preamble d) <> pa_id x) <-> GetActionInfoOrNull ci (pa_id x) = None.
  Proof.
    destruct (GetActionInfoOrNull ci (pa_id x)) as [a|] eqn:E; (split; [|try discriminate]).
    - intros H. destruct (action_info_of pton p ci Hci a _ E) as (d & ps & Hd & Hid & _). destruct (H d Hd Hid).
    - reflexivity.
    - intros _ d Hd Hid. destruct (action_info_to pton p ci Hci d Hd) as [a Ha]. congruence.
  Qed.
  Lemma unknown_table entry : (forall d, In d (p4_tables p) -> pr_id (pt_preamble d) <> pe_table_id entry) <-> GetTableInfoOrNull ci (pe_table_id entry) = None.
  Proof.
    destruct (GetTableInfoOrNull ci (pe_table_id entry)) as [a|] eqn:E; (split; [|try discriminate]).
    - intros H. destruct (table_info_of pton p ci Hci a _ E) as (d & ps & Hd & Hid & _). destruct (H d Hd Hid).
    - reflexivity.
    - intros _ d Hd Hid. destruct (table_info_to pton p ci Hci d Hd) as [a Ha]. congruence.
  Qed.
  Lemma says_dec v : v = Says "" \/ v <> Says "".
  Proof. destruct v as [[|c s]|c]; [now left|right; discriminate..]. Qed.
  Lemma actions_reports l : exists v, actions_outcome pton p l v /\ reports (ReasonActionSetViolates ci l) v.
  Proof.
    induction l as [|a l (v' & Hv' & Hr')]; cbn [ReasonActionSetViolates]; [exists (Says ""); split; [constructor|reflexivity]|].
    destruct (GetActionInfoOrNull ci (pa_id a)) as [i|] eqn:E.
    - destruct (action_info_of pton p ci Hci i _ E) as (d & ps & Hd & Hid & _). destruct (action_reports d a Hd Hid) as (v & Hv & Hr). destruct (says_dec v) as [->|Hn].
      + cbn in Hr. rewrite Hr. cbn [bind String.eqb]. exists v'. split; [eapply sv_next; eauto|exact Hr'].
      + exists v. split; [eapply sv_stop; eauto|]. destruct v as [s|c]; cbn in Hr; [|destruct Hr as [m ->]; cbn; eauto]. rewrite Hr. cbn [bind]. destruct (String.eqb_spec s ""); [congruence|reflexivity].
    - exists (Failed InvalidArgument). split; [apply sv_unknown; now apply unknown_action|]. unfold ReasonActionViolates. rewrite E. cbn. eauto.
  Qed.
  Lemma actions_reported l v : actions_outcome pton p l v -> reports (ReasonActionSetViolates ci l) v.
  Proof.
    induction 1 as [|a l H|d a l v Hd Hid Hv Hn|d a l v Hd Hid Hv H IH]; cbn [ReasonActionSetViolates].
    - reflexivity.
    - apply unknown_action in H. unfold ReasonActionViolates. rewrite H. cbn. eauto.
    - apply (action_reported d a v Hd Hid) in Hv. destruct v as [s|c]; cbn in Hv; [|destruct Hv as [m ->]; cbn; eauto]. rewrite Hv. cbn [bind]. destruct (String.eqb_spec s ""); [congruence|reflexivity].
    - apply (action_reported d a _ Hd Hid) in Hv. cbn in Hv. rewrite Hv. cbn [bind String.eqb]. exact IH.
  Qed.
  (** Lists of one action. *)
  Lemma single a v : reports (ReasonActionSetViolates ci [a]) v <-> reports (ReasonActionViolates ci a) v.
  Proof. cbn [ReasonActionSetViolates]. destruct (ReasonActionViolates ci a) as [s|c m|w]; cbn [bind]; try reflexivity. destruct (String.eqb_spec s "") as [->|]; reflexivity. Qed.
  Definition after (entry : p4_entry) : outcome string :=
    match pe_action entry with
    | None => Ok ""
    | Some (TAction a) => ReasonActionViolates ci a
    | Some (TMemberId _) | Some (TGroupId _) => Err InvalidArgument "action restrictions not supported for entries with the given kind of action: "
    | Some (TActionSet l) => ReasonActionSetViolates ci l
    | Some TActionNotSet => Err InvalidArgument "unknown action type 0"
    end.
  Lemma after_list entry l v : action_list entry = Some l -> (reports (after entry) v <-> reports (ReasonActionSetViolates ci l) v).
  Proof. unfold action_list, after. destruct (pe_action entry) as [[a|?|?|l'|]|]; intros [= <-]; [symmetry; apply single|reflexivity..]. Qed.
  Lemma after_none entry : action_list entry = None -> reports (after entry) (Failed InvalidArgument).
  Proof. unfold action_list, after. destruct (pe_action entry) as [[a|?|?|l'|]|]; intros [=]; cbn; eauto. Qed.
  Lemma entry_reports entry : exists v, entry_outcome pton p entry v /\ reports (ReasonEntryViolatesConstraint entry ci) v.
  Proof.
    unfold ReasonEntryViolatesConstraint. fold (after entry). destruct (GetTableInfoOrNull ci (pe_table_id entry)) as [t|] eqn:E.
    - destruct (table_info_of pton p ci Hci t _ E) as (d & ks & Hd & Hid & _). destruct (table_reports d t entry Hd Hid E) as (v & Hv & Hr). destruct (says_dec v) as [->|Hn].
      + cbn in Hr. rewrite Hr. cbn [bind String.eqb negb]. destruct (action_list entry) as [l|] eqn:El.
        * destruct (actions_reports l) as (v & Hv' & Hr'). exists v. split; [exact (nv_actions _ _ _ d l v Hd Hid Hv El Hv')|]. now apply (after_list entry l v El).
        * exists (Failed InvalidArgument). split; [exact (nv_indirect _ _ _ d Hd Hid Hv El)|]. now apply after_none.
      + exists v. split; [exact (nv_table _ _ _ d v Hd Hid Hv Hn)|]. destruct v as [s|c]; cbn in Hr; [|destruct Hr as [m ->]; cbn; eauto]. rewrite Hr. cbn [bind]. destruct (String.eqb_spec s ""); [congruence|reflexivity].
    - exists (Failed InvalidArgument). split; [apply nv_unknown; now apply unknown_table|]. cbn. eauto.
  Qed.
  Lemma entry_reported entry v : standard_keys p -> entry_outcome pton p entry v -> reports (ReasonEntryViolatesConstraint entry ci) v.
  Proof.
    intros Hst Hv. unfold ReasonEntryViolatesConstraint. fold (after entry).
    assert (forall d, In d (p4_tables p) -> pr_id (pt_preamble d) = pe_table_id entry -> exists t, GetTableInfoOrNull ci (pe_table_id entry) = Some t) as Hex by (intros d Hd <-; exact (table_info_to pton p ci Hci d Hd)).
    destruct Hv as [H|d v Hd Hid Hv Hn|d Hd Hid Hv El|d l v Hd Hid Hv El Hl].
    - apply unknown_table in H. rewrite H. cbn. eauto.
    - destruct (Hex d Hd Hid) as [t Et]. rewrite Et. apply (table_reported d t entry v Hst Hd Hid Et) in Hv. destruct v as [s|c]; cbn in Hv; [|destruct Hv as [m ->]; cbn; eauto]. rewrite Hv. cbn [bind]. destruct (String.eqb_spec s ""); [congruence|reflexivity].
    - destruct (Hex d Hd Hid) as [t Et]. rewrite Et. apply (table_reported d t entry _ Hst Hd Hid Et) in Hv. cbn in Hv. rewrite Hv. cbn [bind String.eqb negb]. now apply after_none.
    - destruct (Hex d Hd Hid) as [t Et]. rewrite Et. apply (table_reported d t entry _ Hst Hd Hid Et) in Hv. cbn in Hv. rewrite Hv. cbn [bind String.eqb negb]. apply (after_list entry l v El). now apply actions_reported.
  Qed.
End Declared.
