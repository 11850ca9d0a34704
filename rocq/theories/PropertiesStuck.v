(** What is answered when a constraint cannot be evaluated or its violation not explained (C111). *)
From Coq Require Import String Ascii List ZArith NArith Bool Lia.
From Verif Require Import Base Num Token Ast Lexer Quote AstConstructors Parser Info TypeChecker ConstraintInfo Interpreter SpecLexer SpecGrammar SpecParser SpecTyping SpecSemantics SpecInfo SpecExplain SpecCrash SpecReading SpecOutcome SpecLoadError SpecStuck
  StrFacts NumFacts LiteralFacts ParserFacts4 TypeFacts EvalFacts SemFacts SemFacts2 EntryFacts ExplainFacts ExplainFacts2 VerdictFacts InfoFacts InfoFacts2 InterpFacts InterpFacts2 ReadingFacts ReadingFacts2 CrashFacts OutcomeFacts OutcomeFacts2 OutcomeFacts4 OutcomeFacts5 StuckFacts
  PropertiesParser PropertiesInfo PropertiesVerdict PropertiesExplain PropertiesEntries PropertiesCrash.
Import ListNotations.
Open Scope string_scope.

(** * The same in other words *)
Section Ext.
  Variables (G G' : scope) (r r' : env) (name : string).
  Hypothesis HS : same_scope G G'.
  Hypothesis HE : env_eq r r'.
  Lemma means_ext e v : Meant unordered_exact G r e v -> Meant unordered_exact G' r' e v.
  Proof. intros H. apply (meant_scope _ _ _ _ _ _ HS). exact (meant_ext _ _ _ _ _ _ HE H). Qed.
  Lemma param_ext param : r = ActionEnv param -> exists param', r' = ActionEnv param' /\ forall n, param n = param' n.
  Proof. intros E. rewrite E in HE. destruct r' as [k p|q]; [destruct HE|exists q; split; [reflexivity|exact HE]]. Qed.
  Lemma stuck_ext e s text : Stuck G r name e s text -> Stuck G' r' name e s text.
  Proof.
    induction 1 as [param m n Hr Hn|param m Hr|m o a b ta tb w v Ho Ha Hb Hco Hv|m e s text H IH|m e s text H IH|m f e s text H IH|m o a b s text Ho H IH|m o a b v s text Ho Hv H IH
      |m o a b s text Ho H IH|m o a b ta tb t v s text Ho Ha Hb Hco Hne Hv H IH|m o a b s text Ho H IH|m o a b x s text Ho Hx Hd H IH].
    - destruct (param_ext param Hr) as (q & E & Hq). eapply sk_param; [exact E|]. now rewrite <- Hq.
    - destruct (param_ext param Hr) as (q & E & Hq). eapply sk_priority. exact E.
    - eapply sk_order; try eassumption; try (apply (typed_ext _ _ _ _ HS); eassumption). apply means_ext. eassumption.
    - now apply sk_not.
    - now apply sk_neg.
    - now apply sk_field.
    - now apply sk_eq_left.
    - eapply sk_eq_right; try eassumption. apply means_ext. eassumption.
    - now apply sk_ordered_left.
    - eapply sk_ordered_right; try eassumption; try (apply (typed_ext _ _ _ _ HS); eassumption). apply means_ext. eassumption.
    - now apply sk_left.
    - eapply sk_right; try eassumption. apply means_ext. eassumption.
  Qed.
End Ext.
Section Ext2.
  Variables (G G' : scope) (r r' : env) (name : string).
  Hypothesis HS : same_scope G G'.
  Hypothesis HE : env_eq r r'.
  Lemma means_same e x : Meant unordered_exact G r e (VBool x) <-> Meant unordered_exact G' r' e (VBool x).
  Proof. split; apply means_ext; auto using same_scope_sym, env_eq_sym. Qed.
  Lemma unclear_ext e t : Unclear G r name e t -> Unclear G' r' name e t.
  Proof.
    pose proof (means_ext G G' r r' HS HE) as HM. pose proof (stuck_ext G G' r r' name HS HE) as HK. pose proof (explained_ext _ _ means_same) as HX.
    induction 1 as [m e t H IH|m o a b x s text Hc Ha Hs|m o a b x y t Hc Ha Hb Dl H IH|m o a b x y t Hc Ha Hb Nl Dr H IH|m o a b x y s t Hc Ha Hb Dl Dr Hx H IH|m o a b x y s s' Hc Ha Hb Dl Dr Hx Hx' Hn].
    - now apply uc_not.
    - eapply uc_operand; eauto.
    - eapply uc_left; eauto.
    - eapply uc_right; eauto.
    - eapply uc_right_too; eauto.
    - eapply uc_size; eauto.
  Qed.
  Lemma trouble_ext cs e t : Trouble G r name cs e t -> Trouble G' r' name cs e t.
  Proof.
    pose proof (means_ext G G' r r' HS HE) as HM. pose proof (explained_ext _ _ means_same) as HX. intros [s text H|t' Hv H|s Hv H Hq].
    - apply tb_value. exact (stuck_ext G G' r r' name HS HE _ _ _ H).
    - apply tb_reason; [now apply HM|now apply unclear_ext].
    - apply tb_quote; [now apply HM|now apply HX|exact Hq].
  Qed.
End Ext2.

(** * Declarations *)
Section Declared.
  Variables (pton : inet_pton6) (p : p4info) (ci : constraint_info).
  Hypothesis Hp : pton_ok pton.
  Hypothesis Hci : P4ToConstraintInfo pton p = Ok ci.
  Hypothesis Hs : sane_widths p.
  Lemma stuck_table d ks cs e0 entry key : In d (p4_tables p) -> Forall2 key_decl (pt_match_fields d) ks -> restricted kTableConstraint (pt_preamble d) cs -> reads_as pton kTableConstraint cs e0 ->
    Typed (key_scope ks) e0 TBool -> consistent ks (pe_match entry) -> (forall n v, key n = Some v <-> Assigned ks (pe_match entry) n v) ->
    exists t, GetTableInfoOrNull ci (pr_id (pt_preamble d)) = Some t /\
      (forall w, Trouble (key_scope ks) (TableEnv key (pe_priority entry)) (pr_name (pt_preamble d)) cs e0 w -> ReasonTableViolates t entry = answer cs w) /\
      ((forall text, ReasonTableViolates t entry <> Ok text) -> exists w, Trouble (key_scope ks) (TableEnv key (pe_priority entry)) (pr_name (pt_preamble d)) cs e0 w).
  Proof.
    intros Hd Hf Hr Hra Hty Hco Hkey. destruct (declared_table _ _ _ _ _ _ _ Hp Hci Hd Hf Hr Hra) as (t & e & Ht & HK & Hnm & Hcs & Hl & Hi & He).
    exists t. split; [exact Ht|]. pose proof (table_in_scope t ks HK) as HG. pose proof (key_scope_same t ks HK) as HS. destruct (entry_total t ks HK entry Hco) as [ctx Hpa].
    pose proof (entry_env_eq t ks entry ctx key HK Hpa Hkey) as HE. pose proof (entry_fits t ks entry ctx HK Hpa) as Hfit. destruct (entry_ok t ks HK entry ctx Hpa) as (_ & keys & Ec & HN & HA).
    assert (ec_src ctx = cs) as Esrc by now rewrite Ec. assert (e_type e = TBool) as Et.
    { pose proof (proj1 (infer_ok None (Some t) _ HG _ _ Hi)) as H. apply (typed_fun None (Some t) _ HG e0); [exact H|]. exact (typed_ext _ _ _ _ (same_scope_sym _ _ HS) Hty). }
    assert (forall n k z, In (n, k) (names (InTable (ti_keys_by_name t))) -> width (k_type k) z -> (0 <= z)%Z) as Hw.
    { intros n k z Hk Hz. cbn [names] in Hk. apply (by_name t ks HK) in Hk as [Hk _]. exact (key_widths _ _ _ _ _ Hs Hd Hf Hk Hz). }
    assert (match ec_ctx ctx with
      | CtxTable n _ keys => n = pr_name (pt_preamble d) /\ (exists l, InTable (ti_keys_by_name t) = InTable l) /\ forall m k ty, Typed (InTable (ti_keys_by_name t)) (EKey m k) ty -> exists v, assoc_find String.eqb k keys = Some v
      | CtxAction _ n _ => n = pr_name (pt_preamble d) /\ exists l, InTable (ti_keys_by_name t) = InAction l end) as Hctx.
    { pose proof (entry_env t ks HK entry ctx Hpa Hw) as Hok. rewrite Ec in *. cbn [ec_ctx env_of] in *. split; [exact Hnm|]. split; [eauto|]. intros m k ty Hk. inversion Hk as [| |l ? ? ? El Hdl Hu| | | | | | | |]; subst. injection El as <-.
      inversion Hok as [? ? ? H1 H2|]; subst. destruct (H1 _ _ Hdl Hu) as (v & Hv & _). eauto. }
    assert (ReasonTableViolates t entry = check ctx e) as ER. { unfold ReasonTableViolates. rewrite He, Et. cbn [is_bool_type negb]. rewrite Hpa. cbn [annotate bind]. apply check_agrees. }
    assert (forall w, Trouble (key_scope ks) (TableEnv key (pe_priority entry)) (pr_name (pt_preamble d)) cs e0 w <-> Trouble (InTable (ti_keys_by_name t)) (env_of ctx) (pr_name (pt_preamble d)) cs e0 w) as HT.
    { intros w. split; apply trouble_ext; auto using same_scope_sym, env_eq_sym. }
    rewrite ER. split.
    - intros w Hw'. apply HT in Hw'. rewrite <- Esrc in *. exact (troubled None (Some t) _ HG (fun ps H => ltac:(discriminate)) ctx Hfit Hw _ Hctx e0 e w Hi Hw').
    - intros Hn. destruct (troubled_only None (Some t) _ HG (fun ps H => ltac:(discriminate)) (no_bool_keys t ks _ HK Hf) ctx Hfit Hw _ Hctx e0 e Hi Et Hl Hn) as [w Hw']. exists w. apply HT. rewrite <- Esrc. exact Hw'.
  Qed.
  Lemma stuck_action d ps cs e0 x param : In d (p4_actions p) -> Forall2 param_decl (pad_params d) ps -> restricted kActionConstraint (pad_preamble d) cs -> reads_as pton kActionConstraint cs e0 ->
    Typed (param_scope ps) e0 TBool -> pr_id (pad_preamble d) = pa_id x -> acceptable ps (pa_params x) -> (forall n z, param n = Some z <-> Passed ps (pa_params x) n z) ->
      (forall w, Trouble (param_scope ps) (ActionEnv param) (pr_name (pad_preamble d)) cs e0 w -> ReasonActionViolates ci x = answer cs w) /\
      ((forall text, ReasonActionViolates ci x <> Ok text) -> exists w, Trouble (param_scope ps) (ActionEnv param) (pr_name (pad_preamble d)) cs e0 w).
  Proof.
    intros Hd Hf Hr Hra Hty Hid Hco Hkey. destruct (declared_action _ _ _ _ _ _ _ Hp Hci Hd Hf Hr Hra) as (a & e & Ht & HK & Hnm & Hcs & Hl & Hi & He).
    pose proof (action_in_scope a ps HK) as HG. pose proof (param_scope_same a ps HK) as HS. destruct (action_total a ps HK x Hco) as [ctx Hpa].
    pose proof (action_env_eq a ps x ctx param HK Hpa Hkey) as HE. pose proof (action_fits a ps x ctx HK (params_bits _ _ Hf) Hpa) as Hfit. destruct (action_ok a ps HK x ctx Hpa) as (_ & keys & Ec & HN & HA).
    assert (ec_src ctx = cs) as Esrc by now rewrite Ec. assert (e_type e = TBool) as Et.
    { pose proof (proj1 (infer_ok (Some a) None _ HG _ _ Hi)) as H. apply (typed_fun (Some a) None _ HG e0); [exact H|]. exact (typed_ext _ _ _ _ (same_scope_sym _ _ HS) Hty). }
    assert (forall n k z, In (n, k) (names (InAction (ai_params_by_name a))) -> width (k_type k) z -> (0 <= z)%Z) as Hw.
    { intros n k z Hk Hz. cbn [names] in Hk. apply (param_by_name a ps HK) in Hk as [Hk _]. exact (param_widths _ _ _ _ _ Hs Hd Hf Hk Hz). }
    assert (only_bits (InAction (ai_params_by_name a))) as Hb.
    { intros l [= <-] n ty (k & Hk & <-) Hu. apply (param_by_name a ps HK) in Hk as [Hk _]. exact (params_bits _ _ Hf k Hk Hu). }
    assert (match ec_ctx ctx with
      | CtxTable n _ keys => n = pr_name (pad_preamble d) /\ (exists l, InAction (ai_params_by_name a) = InTable l) /\ forall m k ty, Typed (InAction (ai_params_by_name a)) (EKey m k) ty -> exists v, assoc_find String.eqb k keys = Some v
      | CtxAction _ n _ => n = pr_name (pad_preamble d) /\ exists l, InAction (ai_params_by_name a) = InAction l end) as Hctx by (rewrite Ec; cbn [ec_ctx]; eauto).
    assert (ReasonActionViolates ci x = check ctx e) as ER. { unfold ReasonActionViolates. rewrite <- Hid, Ht, He, Et. cbn [is_bool_type negb]. rewrite Hpa. cbn [annotate bind]. apply check_agrees. }
    assert (forall w, Trouble (param_scope ps) (ActionEnv param) (pr_name (pad_preamble d)) cs e0 w <-> Trouble (InAction (ai_params_by_name a)) (env_of ctx) (pr_name (pad_preamble d)) cs e0 w) as HT.
    { intros w. split; apply trouble_ext; auto using same_scope_sym, env_eq_sym. }
    rewrite ER. split.
    - intros w Hw'. apply HT in Hw'. rewrite <- Esrc in *. exact (troubled (Some a) None _ HG Hb ctx Hfit Hw _ Hctx e0 e w Hi Hw').
    - intros Hn. destruct (troubled_only (Some a) None _ HG Hb (no_bool_params a ps _ HK Hf) ctx Hfit Hw _ Hctx e0 e Hi Et Hl Hn) as [w Hw']. exists w. apply HT. rewrite <- Esrc. exact Hw'.
  Qed.
End Declared.

(** * C111 *)
Lemma no_text cs w text : (exists G r name e, Trouble G r name cs e w) -> answer cs w <> Ok text.
Proof.
  intros (G & r & name & e & H). destruct H as [s t H|w Hv H|s Hv H Hq]; cbn [answer].
  - destruct (shown cs _ _ _ t) as [| |]; discriminate.
  - destruct w as [s t| |s]; cbn [answer]; [destruct (shown cs _ _ _ t); discriminate|discriminate|].
    exfalso. clear - H. remember (Unquoted s) as t eqn:E. induction H; try discriminate E; auto.
  - apply Hq.
Qed.
(** What goes wrong with a table's constraint is what is answered, whatever the actions of the entry are. *)
Theorem C111_table : forall pton p ci entry d ks cs e key t, pton_ok pton -> P4ToConstraintInfo pton p = Ok ci -> sane_widths p ->
  In d (p4_tables p) -> pr_id (pt_preamble d) = pe_table_id entry -> Forall2 key_decl (pt_match_fields d) ks ->
  restricted kTableConstraint (pt_preamble d) cs -> reads_as pton kTableConstraint cs e -> Typed (key_scope ks) e TBool ->
  consistent ks (pe_match entry) -> (forall n v, key n = Some v <-> Assigned ks (pe_match entry) n v) ->
  Trouble (key_scope ks) (TableEnv key (pe_priority entry)) (pr_name (pt_preamble d)) cs e t ->
  ReasonEntryViolatesConstraint entry ci = answer cs t /\ forall text, answer cs t <> Ok text.
Proof.
  intros pton p ci entry d ks cs e key t Hp Hci Hs Hd Hid Hf Hr Hra Hty Hco Hkey HT. assert (forall text, answer cs t <> Ok text) as Hno by (intros text; apply no_text; eauto). split; [|exact Hno].
  destruct (stuck_table pton p ci Hp Hci Hs d ks cs e entry key Hd Hf Hr Hra Hty Hco Hkey) as (ti & Ht & H & _). unfold ReasonEntryViolatesConstraint. rewrite <- Hid, Ht, (H t HT).
  destruct (answer cs t) as [text| |]; [destruct (Hno text eq_refl)|reflexivity..].
Qed.
Print Assumptions C111_table.
(** For an entry that fits its table there is no other way to get neither an acceptance nor an explanation. *)
Theorem C111_table_only : forall pton p ci entry d ks cs e key, pton_ok pton -> P4ToConstraintInfo pton p = Ok ci -> sane_widths p ->
  In d (p4_tables p) -> pr_id (pt_preamble d) = pe_table_id entry -> Forall2 key_decl (pt_match_fields d) ks ->
  restricted kTableConstraint (pt_preamble d) cs -> reads_as pton kTableConstraint cs e -> Typed (key_scope ks) e TBool ->
  consistent ks (pe_match entry) -> (forall n v, key n = Some v <-> Assigned ks (pe_match entry) n v) ->
  (forall text, ReasonEntryViolatesConstraint (with_action entry None) ci <> Ok text) ->
  exists t, Trouble (key_scope ks) (TableEnv key (pe_priority entry)) (pr_name (pt_preamble d)) cs e t.
Proof.
  intros pton p ci entry d ks cs e key Hp Hci Hs Hd Hid Hf Hr Hra Hty Hco Hkey HN.
  destruct (stuck_table pton p ci Hp Hci Hs d ks cs e entry key Hd Hf Hr Hra Hty Hco Hkey) as (ti & Ht & _ & H). apply H. intros text E. apply (HN text). unfold ReasonEntryViolatesConstraint. cbn [pe_table_id pe_action with_action].
  rewrite <- Hid, Ht. change (ReasonTableViolates ti (with_action entry None)) with (ReasonTableViolates ti entry). rewrite E. cbn [bind]. destruct (String.eqb_spec text "") as [->|]; reflexivity.
Qed.
Print Assumptions C111_table_only.
(** The same for actions: what goes wrong with the first action that would not be accepted by itself is what is answered. *)
Theorem C111_action : forall pton p ci entry pre a post d ps cs e param t, pton_ok pton -> P4ToConstraintInfo pton p = Ok ci -> sane_widths p ->
  ReasonEntryViolatesConstraint (with_action entry None) ci = Ok "" -> actions_of entry = (pre ++ a :: post)%list ->
  (forall b, In b pre -> ReasonEntryViolatesConstraint (with_action entry (Some (TAction b))) ci = Ok "") ->
  In d (p4_actions p) -> pr_id (pad_preamble d) = pa_id a -> Forall2 param_decl (pad_params d) ps ->
  restricted kActionConstraint (pad_preamble d) cs -> reads_as pton kActionConstraint cs e -> Typed (param_scope ps) e TBool ->
  acceptable ps (pa_params a) -> (forall n z, param n = Some z <-> Passed ps (pa_params a) n z) ->
  Trouble (param_scope ps) (ActionEnv param) (pr_name (pad_preamble d)) cs e t ->
  ReasonEntryViolatesConstraint entry ci = answer cs t /\ forall text, answer cs t <> Ok text.
Proof.
  intros pton p ci entry pre a post d ps cs e param t Hp Hci Hs Ht Ha Hpre Hd Hid Hf Hr Hra Hty Hco Hkey HT. assert (forall text, answer cs t <> Ok text) as Hno by (intros text; apply no_text; eauto). split; [|exact Hno].
  assert (direct entry) as Hdi by (unfold direct, actions_of in *; destruct (pe_action entry) as [[x|i|i|l|]|]; try exact I; destruct pre; discriminate Ha).
  apply (C34_first_rejected ci entry _ (Hno "") Hdi). right. split; [exact Ht|]. exists pre, a, post. split; [exact Ha|]. split; [exact Hpre|].
  rewrite (C34_action_alone ci entry a Ht). destruct (stuck_action pton p ci Hp Hci Hs d ps cs e a param Hd Hf Hr Hra Hty Hid Hco Hkey) as [H _]. exact (H t HT).
Qed.
Print Assumptions C111_action.
Theorem C111_action_only : forall pton p ci entry a d ps cs e param, pton_ok pton -> P4ToConstraintInfo pton p = Ok ci -> sane_widths p ->
  ReasonEntryViolatesConstraint (with_action entry None) ci = Ok "" ->
  In d (p4_actions p) -> pr_id (pad_preamble d) = pa_id a -> Forall2 param_decl (pad_params d) ps ->
  restricted kActionConstraint (pad_preamble d) cs -> reads_as pton kActionConstraint cs e -> Typed (param_scope ps) e TBool ->
  acceptable ps (pa_params a) -> (forall n z, param n = Some z <-> Passed ps (pa_params a) n z) ->
  (forall text, ReasonEntryViolatesConstraint (with_action entry (Some (TAction a))) ci <> Ok text) ->
  exists t, Trouble (param_scope ps) (ActionEnv param) (pr_name (pad_preamble d)) cs e t.
Proof.
  intros pton p ci entry a d ps cs e param Hp Hci Hs Ht Hd Hid Hf Hr Hra Hty Hco Hkey HN. rewrite (C34_action_alone ci entry a Ht) in HN.
  destruct (stuck_action pton p ci Hp Hci Hs d ps cs e a param Hd Hf Hr Hra Hty Hid Hco Hkey) as [_ H]. exact (H HN).
Qed.
Print Assumptions C111_action_only.
(** An action whose argument [p] is not given, and the ordered exact match of C26. *)
Definition q_only : p4_action := mkP4Action 4 [(2%N, "a")].
Definition q_value (n : string) : option Z := if String.eqb n "q" then Some 97%Z else None.
Definition q_part : expr := Eval vm_compute in match demo_atree with EBin _ _ (EBin _ _ a _) _ => a | _ => demo_atree end.
Definition q_text : string := "unknown action parameter p in action act;  in ordered comparison".
Example C111_case : sane_widths demo_info /\ P4ToConstraintInfo pton1 demo_info = Ok demo_ci /\ actions_of (mkEntry 3 demo_match (Some (TAction q_only)) 0) = ([] ++ q_only :: [])%list /\
  ReasonEntryViolatesConstraint (with_action (mkEntry 3 demo_match (Some (TAction q_only)) 0) None) demo_ci = Ok "" /\
  In demo_action (p4_actions demo_info) /\ pr_id (pad_preamble demo_action) = pa_id q_only /\ Forall2 param_decl (pad_params demo_action) demo_params /\
  restricted kActionConstraint (pad_preamble demo_action) demo_acsource /\ reads_as pton1 kActionConstraint demo_acsource demo_atree /\ Typed (param_scope demo_params) demo_atree TBool /\
  acceptable demo_params (pa_params q_only) /\ (forall n z, q_value n = Some z <-> Passed demo_params (pa_params q_only) n z) /\
  Trouble (param_scope demo_params) (ActionEnv q_value) "act" demo_acsource demo_atree (At q_part q_text) /\
  (exists m, answer demo_acsource (At q_part q_text) = Err Internal m) /\
  Stuck (InTable [("k", mkKey 1 "k" (TExact 8))]) (TableEnv (fun n => if String.eqb n "k" then Some (VExact 3) else None) 0) "t"
    (EBin (mkMeta (mkLoc 0 0 SrcNone) (mkLoc 0 5 SrcNone) TNotSet) OLT (EKey (mkMeta (mkLoc 0 0 SrcNone) (mkLoc 0 1 SrcNone) TNotSet) "k") (EInt (mkMeta (mkLoc 0 4 SrcNone) (mkLoc 0 5 SrcNone) TNotSet) "5"))
    (EKey (mkMeta (mkLoc 0 0 SrcNone) (mkLoc 0 1 SrcNone) TNotSet) "k") "expected expression of integral type;  in ordered comparison".
Proof.
  split; [exact (proj1 C64_case)|]. split; [exact demo_parsed|]. split; [reflexivity|]. split; [vm_compute; reflexivity|]. split; [now left|]. split; [reflexivity|]. split; [exact demo_adecls|]. split; [exact demo_arestricted|]. split; [exact demo_areads|].
  split. { destruct (declared_action pton1 demo_info demo_ci demo_action demo_params demo_acsource demo_atree pton1_ok demo_parsed (or_introl eq_refl) demo_adecls demo_arestricted demo_areads) as (t & e & Ht & HK & _ & _ & _ & Hi & _).
    apply (typed_ext (InAction (ai_params_by_name t))); [now apply param_scope_same|]. assert (e_type e = TBool) as Hty by (vm_compute in Ht; injection Ht as <-; vm_compute in Hi; apply Ok_inj in Hi as <-; reflexivity).
    rewrite <- Hty. exact (proj1 (infer_ok (Some t) None _ (action_in_scope _ _ HK) _ _ Hi)). }
  split. { split; [intros id s [[= <- <-]|[]]; exists (mkKey 2 "q" (TBit 8)); (split; [cbn; tauto|reflexivity])|]. repeat constructor; cbn; intuition discriminate. }
  split. { intros n z. unfold q_value. split.
    - destruct (String.eqb_spec n "q") as [->|]; [|discriminate]. intros [= <-]. exists (mkKey 2 "q" (TBit 8)), "a". cbn. auto.
    - intros (k & s & [<-|[<-|[]]] & [E|[]] & Hn & Hz); cbn in *; try discriminate E. injection E as <-. subst n. rewrite Hz. reflexivity. }
  split. { apply tb_value. eapply sk_left; [constructor|]. eapply (sk_ordered_left _ _ _ _ _ _ _ _ "unknown action parameter p in action act"); [repeat constructor|]. eapply (sk_param _ _ "act" q_value); reflexivity. }
  split; [eexists; vm_compute; reflexivity|].
  eapply (sk_order _ _ _ _ _ _ _ (TExact 8) TInt 8 (VExact 3)); [constructor| | | |].
  - eapply T_key; [reflexivity|exists (mkKey 1 "k" (TExact 8)); split; [now left|reflexivity]|split; discriminate].
  - constructor.
  - split; [now left|]. split; [right; eapply below_trans; apply below_step; [apply (step_int 8)|apply step_bit; constructor]|]. intros x Hx _. exact Hx.
  - eapply mn_key; reflexivity.
Qed.
