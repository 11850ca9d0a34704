(** C77: each part of a constraint is evaluated, measured and searched at most once per check. *)
From Coq Require Import String Ascii List ZArith NArith Bool Lia.
From Verif Require Import Base Num Token Ast Lexer Quote AstConstructors Parser Info TypeChecker ConstraintInfo Interpreter Traced SpecGrammar SpecTyping SpecInfo SpecMisc SpecBounds SpecWork
  NumFacts LiteralFacts InfoFacts InterpFacts2 WorkFacts WorkFacts2 WorkFacts3 PropertiesParser PropertiesInfo PropertiesVerdict PropertiesBounds.
Import ListNotations.
Open Scope string_scope.

(** The log does not change the result. *)
Lemma laction_fst ci a : fst (lReasonActionViolates ci a) = ReasonActionViolates ci a.
Proof.
  unfold lReasonActionViolates, ReasonActionViolates. destruct (GetActionInfoOrNull ci (pa_id a)) as [ai|]; [|reflexivity]. destruct (ai_constraint ai) as [e|]; [|reflexivity]. destruct (negb _); [reflexivity|].
  destruct (annotate (ParseAction a ai) _) as [ctx|k m|w]; try reflexivity. cbn [bind]. rewrite <- lcheck_fst. now destruct (lcheck_constraint ctx e).
Qed.
Lemma lset_fst ci l : fst (lReasonActionSetViolates ci l) = ReasonActionSetViolates ci l.
Proof.
  induction l as [|a l IH]; [reflexivity|]. cbn [lReasonActionSetViolates ReasonActionSetViolates]. rewrite <- laction_fst. destruct (lReasonActionViolates ci a) as [[r|k m|w] t]; try reflexivity. cbn [fst bind].
  destruct (String.eqb r ""); [|reflexivity]. rewrite <- IH. now destruct (lReasonActionSetViolates ci l).
Qed.
Lemma ltable_fst t entry : fst (lReasonTableViolates t entry) = ReasonTableViolates t entry.
Proof.
  unfold lReasonTableViolates, ReasonTableViolates. destruct (ti_constraint t) as [e|]; [|reflexivity]. destruct (negb _); [reflexivity|].
  destruct (annotate (ParseTableEntry entry t) _) as [ctx|k m|w]; try reflexivity. cbn [bind]. rewrite <- lcheck_fst. now destruct (lcheck_constraint ctx e).
Qed.
Theorem C77_same : forall entry ci, fst (lReasonEntryViolatesConstraint entry ci) = ReasonEntryViolatesConstraint entry ci.
Proof.
  intros entry ci. unfold lReasonEntryViolatesConstraint, ReasonEntryViolatesConstraint. destruct (GetTableInfoOrNull ci (pe_table_id entry)) as [t|]; [|reflexivity].
  rewrite <- ltable_fst. destruct (lReasonTableViolates t entry) as [[r|k m|w] log]; try reflexivity. cbn [fst bind]. destruct (negb _); [reflexivity|].
  destruct (pe_action entry) as [[a|n|n|l|]|]; try reflexivity.
  - rewrite <- laction_fst. now destruct (lReasonActionViolates ci a).
  - rewrite <- lset_fst. now destruct (lReasonActionSetViolates ci l).
Qed.
Print Assumptions C77_same.

(** Where a check comes from. *)
Definition of_action (ci : constraint_info) (k : checked) : Prop :=
  exists id ai e ctx, GetActionInfoOrNull ci id = Some ai /\ ai_constraint ai = Some e /\ k = mkChecked e (cs_string (ai_source ai)) (snd (lcheck_constraint ctx e)).
Definition of_table (ci : constraint_info) (k : checked) : Prop :=
  exists id t e ctx, GetTableInfoOrNull ci id = Some t /\ ti_constraint t = Some e /\ k = mkChecked e (cs_string (ti_source t)) (snd (lcheck_constraint ctx e)).
Lemma laction_log ci a : (List.length (snd (lReasonActionViolates ci a)) <= 1)%nat /\ forall k, In k (snd (lReasonActionViolates ci a)) -> of_action ci k.
Proof.
  unfold lReasonActionViolates. destruct (GetActionInfoOrNull ci (pa_id a)) as [ai|] eqn:E; [|split; [cbn; lia|intros k []]]. destruct (ai_constraint ai) as [e|] eqn:Ee; [|split; [cbn; lia|intros k []]]. destruct (negb _); [split; [cbn; lia|intros k []]|].
  destruct (annotate (ParseAction a ai) _) as [ctx|k m|w]; try (split; [cbn; lia|intros ? []]). destruct (lcheck_constraint ctx e) as [o w] eqn:El. cbn [snd List.length]. split; [lia|]. intros k [<-|[]]. exists (pa_id a), ai, e, ctx. rewrite El. auto.
Qed.
Lemma lset_log ci l : (List.length (snd (lReasonActionSetViolates ci l)) <= List.length l)%nat /\ forall k, In k (snd (lReasonActionSetViolates ci l)) -> of_action ci k.
Proof.
  induction l as [|a l [IH1 IH2]]; [split; [cbn; lia|intros k []]|]. cbn [lReasonActionSetViolates]. destruct (laction_log ci a) as [H1 H2]. destruct (lReasonActionViolates ci a) as [[r|k m|w] t]; cbn [snd List.length] in *; try (split; [lia|exact H2]).
  destruct (String.eqb r ""); [|cbn [snd]; split; [lia|exact H2]]. destruct (lReasonActionSetViolates ci l) as [o t']. cbn [snd] in *. split; [rewrite app_length; lia|]. intros k Hk. apply in_app_iff in Hk as [Hk|Hk]; auto.
Qed.
Lemma lentry_log entry ci : let log := snd (lReasonEntryViolatesConstraint entry ci) in (List.length log <= 1 + List.length (given_actions entry))%nat /\ forall k, In k log -> of_table ci k \/ of_action ci k.
Proof.
  unfold lReasonEntryViolatesConstraint. destruct (GetTableInfoOrNull ci (pe_table_id entry)) as [t|] eqn:E; [|split; [cbn; lia|intros k []]].
  assert ((List.length (snd (lReasonTableViolates t entry)) <= 1)%nat /\ forall k, In k (snd (lReasonTableViolates t entry)) -> of_table ci k) as [H1 H2].
  { unfold lReasonTableViolates. destruct (ti_constraint t) as [e|] eqn:Ee; [|split; [cbn; lia|intros k []]]. destruct (negb _); [split; [cbn; lia|intros k []]|].
    destruct (annotate (ParseTableEntry entry t) _) as [ctx|k m|w]; try (split; [cbn; lia|intros ? []]). destruct (lcheck_constraint ctx e) as [o w] eqn:El. cbn [snd List.length]. split; [lia|]. intros k [<-|[]]. exists (pe_table_id entry), t, e, ctx. rewrite El. auto. }
  destruct (lReasonTableViolates t entry) as [[r|k m|w] log]; cbn [snd] in *; try (split; [lia|auto]). destruct (negb _); [cbn [snd]; split; [lia|auto]|].
  assert (forall (x : outcome string * list checked), (List.length (snd x) <= List.length (given_actions entry))%nat -> (forall k, In k (snd x) -> of_action ci k) ->
    (List.length (snd (let '(o, log') := x in (o, (log ++ log')%list))) <= 1 + List.length (given_actions entry))%nat /\ forall k, In k (snd (let '(o, log') := x in (o, (log ++ log')%list))) -> of_table ci k \/ of_action ci k) as Hx.
  { intros [o log'] Hl Ha. cbn [snd] in *. rewrite app_length. split; [lia|]. intros k Hk. apply in_app_iff in Hk as [Hk|Hk]; auto. }
  apply Hx; unfold given_actions; destruct (pe_action entry) as [[a|n|n|l|]|]; cbn [snd List.length]; try lia; try (intros k []).
  - apply laction_log.
  - apply lset_log.
  - apply laction_log.
  - apply lset_log.
Qed.
(** Whatever the entry: at most one check for the table and one for each given action; in a check every node of the constraint is evaluated at most once,
    including by the search for an explanation and for its report; its size is computed at most once; and the search visits it at most once. *)
Theorem C77_once : forall entry ci, let log := snd (lReasonEntryViolatesConstraint entry ci) in
  (List.length log <= 1 + List.length (given_actions entry))%nat /\
  forall k, In k log -> each_once (ck_expr k) (evaluated (ck_work k)) /\ each_once (ck_expr k) (sized (ck_work k)) /\ each_once (ck_expr k) (searched (ck_work k)).
Proof.
  intros entry ci. destruct (lentry_log entry ci) as [H1 H2]. split; [exact H1|]. intros k Hk. destruct (H2 k Hk) as [(id & t & e & ctx & _ & _ & ->)|(id & t & e & ctx & _ & _ & ->)]; cbn [ck_expr ck_work]; apply lcheck_once.
Qed.
Print Assumptions C77_once.
Lemma positions_length : forall e p, Z.of_nat (List.length (positions e p)) = nodes e.
Proof. induction e; intros p; cbn [positions List.length nodes]; rewrite ?app_length, ?Nat2Z.inj_succ, ?Nat2Z.inj_add, ?IHe, ?IHe1, ?IHe2; lia. Qed.
Lemma once_length e l : each_once e l -> (Z.of_nat (List.length l) <= nodes e)%Z.
Proof. intros [H1 H2]. rewrite <- (positions_length e []). apply inj_le. now apply NoDup_incl_length. Qed.
(** So for constraints loaded from P4Info the work is linear in the length of the constraint's text, whatever the values in the entry. *)
Theorem C77_linear : forall pton p ci entry k, pton_ok pton -> P4ToConstraintInfo pton p = Ok ci -> In k (snd (lReasonEntryViolatesConstraint entry ci)) ->
  let n := Z.of_nat (String.length (ck_text k)) in let w := ck_work k in
  (Z.of_nat (List.length (evaluated w)) <= 5 * n /\ Z.of_nat (List.length (sized w)) <= 5 * n /\ Z.of_nat (List.length (searched w)) <= 5 * n)%Z.
Proof.
  intros pton p ci entry k Hp H Hk n w. assert (nodes (ck_expr k) <= 5 * n)%Z as Hn.
  { destruct (C37_exact pton p ci H) as (_ & Ht & _ & Ha). destruct (proj2 (lentry_log entry ci) k Hk) as [(id & t & e & ctx & E1 & E2 & ->)|(id & t & e & ctx & E1 & E2 & ->)].
    - destruct (Ht _ _ E1) as (d & ks & _ & _ & [_ _ _ K C]). destruct C as [[_ C]|(e0 & e' & _ & C1 & C2 & C3)]; [congruence|]. assert (e' = e) as -> by congruence. unfold InferTable in C2.
      exact (proj1 (proj2 (proj2 (C75_typed _ _ _ _ _ _ _ _ Hp (table_in_scope _ _ K) C1 C2)))).
    - destruct (Ha _ _ E1) as (d & ks & _ & _ & [_ _ _ K C]). destruct C as [[_ C]|(e0 & e' & _ & C1 & C2 & C3)]; [congruence|]. assert (e' = e) as -> by congruence. unfold InferAction in C2.
      exact (proj1 (proj2 (proj2 (C75_typed _ _ _ _ _ _ _ _ Hp (action_in_scope _ _ K) C1 C2)))). }
  destruct (proj2 (C77_once entry ci) k Hk) as (O1 & O2 & O3). apply once_length in O1, O2, O3. split; [|split]; eapply Z.le_trans; eassumption.
Qed.
Print Assumptions C77_linear.
(** A violation whose search evaluates every node, among them those that evaluation itself skipped, visits all eight boolean nodes, and measures the four comparisons once although the sizes of two are compared twice. *)
Definition work_info : p4info := mkP4Info [mkP4Table (mkPre 7 "w" [restriction "entry" ["(k == 1 && k == 2) && !(k == 3 -> k != 4)"]]) [mkMF 1 "k" 8 (MMatchType MTExact)]] [].
Definition work_ci : constraint_info := Eval vm_compute in the (mkInfo [] []) (P4ToConstraintInfo pton1 work_info).
Definition work_log : list checked := Eval vm_compute in snd (lReasonEntryViolatesConstraint (mkEntry 7 [mkFM 1 (FMExact "a")] None 0) work_ci).
Example C77_case : P4ToConstraintInfo pton1 work_info = Ok work_ci /\ snd (lReasonEntryViolatesConstraint (mkEntry 7 [mkFM 1 (FMExact "a")] None 0) work_ci) = work_log /\
  map (fun k => (nodes (ck_expr k), List.length (evaluated (ck_work k)), List.length (sized (ck_work k)), List.length (searched (ck_work k)))) work_log = [(24%Z, 24%nat, 4%nat, 8%nat)].
Proof. split; [|split]; vm_compute; reflexivity. Qed.
