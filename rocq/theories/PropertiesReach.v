(** C77: exactly which parts of a constraint are evaluated, measured and searched. *)
From Coq Require Import String Ascii List ZArith NArith Bool Lia.
From Verif Require Import Base Num Token Ast Lexer Quote AstConstructors Parser Info TypeChecker ConstraintInfo Interpreter Traced SpecGrammar SpecTyping SpecSemantics SpecInfo SpecMisc SpecOutcome SpecWork SpecReach
  EvalFacts SemFacts ExplainFacts WorkFacts WorkFacts4 VerdictFacts PropertiesInterpreter PropertiesInfo PropertiesVerdict PropertiesWork.
Import ListNotations.
Open Scope string_scope.

(** The truth values in a context. *)
Definition true_in (ctx : eval_context) (e : expr) (b : bool) : Prop := value_of ctx e = Ok (VBool b).
(** Checking a constraint, if there is one, gave [text] and the log [log]. *)
Definition one_check (constraint : option expr) (context : outcome eval_context) (text : string) (log : list checked) : Prop :=
  (constraint = None /\ text = "" /\ log = []) \/
  exists e ctx src w, constraint = Some e /\ context = Ok ctx /\ log = [mkChecked e src w] /\
    work_on (true_in ctx) e (evaluated w) (sized w) (searched w) /\ (text = "" <-> true_in ctx e true).
(** Actions are checked in order, until one is violated. *)
Inductive actions_checked (ci : constraint_info) : list p4_action -> string -> list checked -> Prop :=
| ac_none : actions_checked ci [] "" []
| ac_stop a i l text log : GetActionInfoOrNull ci (pa_id a) = Some i -> one_check (ai_constraint i) (ParseAction a i) text log -> text <> "" -> actions_checked ci (a :: l) text log
| ac_next a i l text log log' : GetActionInfoOrNull ci (pa_id a) = Some i -> one_check (ai_constraint i) (ParseAction a i) "" log -> actions_checked ci l text log' -> actions_checked ci (a :: l) text (log ++ log')%list.

Section Ext.
  Variables h h' : expr -> bool -> Prop.
  Hypothesis H : forall e b, h e b -> h' e b.
  Lemma evaluates_mono e p q : Evaluates h e p q -> Evaluates h' e p q.
  Proof. induction 1; [apply el_self|eapply el_one; eassumption|apply el_first; assumption|apply el_compared; assumption|eapply el_needed; eauto]. Qed.
  Lemma searched_mono e p s q : Searched h e p s q -> Searched h' e p s q.
  Proof. induction 1; [apply sr_self|apply sr_not; assumption|eapply sr_left; eauto|eapply sr_right; eauto]. Qed.
  Lemma reason_mono e p s q : Reason h e p s q -> Reason h' e p s q.
  Proof.
    induction 1; [apply rs_bool|now apply rs_compare|now apply rs_not|eapply rs_none; eauto|eapply rs_left; eauto|eapply rs_right; eauto|eapply rs_both_left; eauto|eapply rs_both_right; eauto].
  Qed.
  Lemma sevaluates_mono e p q : SearchEvaluates h e p q -> SearchEvaluates h' e p q.
  Proof. intros (m & o & a & b & p' & H1 & H2 & H3). exists m, o, a, b, p'. split; [exact H1|]. split; [now apply searched_mono|]. destruct H3; [left|right]; now apply evaluates_mono. Qed.
  Lemma smeasures_mono e p q : SearchMeasures h e p q -> SearchMeasures h' e p q.
  Proof.
    intros (m & o & a & b & p' & x & y & s & ps & t & pt & H1 & H2 & H3 & H4 & H5 & H6 & H7 & H8 & H9). exists m, o, a, b, p', x, y, s, ps, t, pt. split; [exact H1|]. split; [now apply searched_mono|].
    split; [auto|]. split; [exact H4|]. split; [auto|]. split; [exact H6|]. split; [now apply reason_mono|]. split; [now apply reason_mono|exact H9].
  Qed.
End Ext.
Lemma work_ext h h' e l1 l2 l3 : (forall e b, h e b <-> h' e b) -> work_on h e l1 l2 l3 -> work_on h' e l1 l2 l3.
Proof.
  intros H. assert (forall e b, h e b -> h' e b) as H1 by (intros; now apply H). assert (forall e b, h' e b -> h e b) as H2 by (intros; now apply H). intros [A B C D|A B C D].
  - apply wo_true; auto. intros q. rewrite B. split; apply evaluates_mono; assumption.
  - apply wo_false; auto.
    + intros q. rewrite B. split; (intros [X|X]; [left; revert X; apply evaluates_mono; assumption|right; revert X; apply sevaluates_mono; assumption]).
    + intros q. rewrite C. split; apply smeasures_mono; assumption.
    + intros q. rewrite D. split; intros [s X]; exists s; revert X; apply searched_mono; assumption.
Qed.
Lemma annotated {A} (o : outcome A) s a : annotate o s = Ok a -> o = Ok a.
Proof. destruct o; cbn; congruence. Qed.
Lemma one_log ctx e src o w text : lcheck_constraint ctx e = (o, w) -> o = Ok text -> one_check (Some e) (Ok ctx) text [mkChecked e src w].
Proof.
  intros E ->. right. exists e, ctx, src, w. split; [reflexivity|]. split; [reflexivity|]. split; [reflexivity|]. pose proof (lcheck_work ctx e text) as Hw. pose proof (lcheck_fst ctx e) as Hf. rewrite E in Hw, Hf. cbn [fst snd] in Hw, Hf.
  assert (forall e b, holds ctx e b <-> true_in ctx e b) as Hh by (intros e1 b1; unfold true_in; rewrite value_ev; apply ev_bool_ok).
  split; [exact (work_ext _ _ _ _ _ _ Hh (Hw eq_refl))|]. rewrite check_agrees in Hf. split.
  - intros ->. apply Hh. symmetry in Hf. now apply check_accepts in Hf.
  - intros Ht. apply Hh in Ht. pose proof (proj2 (check_accepts ctx e) Ht). congruence.
Qed.
Lemma laction_one ci a text : fst (lReasonActionViolates ci a) = Ok text -> exists i, GetActionInfoOrNull ci (pa_id a) = Some i /\ one_check (ai_constraint i) (ParseAction a i) text (snd (lReasonActionViolates ci a)).
Proof.
  unfold lReasonActionViolates. destruct (GetActionInfoOrNull ci (pa_id a)) as [i|]; [|discriminate]. intros H. exists i. split; [reflexivity|]. revert H. destruct (ai_constraint i) as [e|]; [|intros [= <-]; left; auto].
  destruct (negb _); [discriminate|]. destruct (annotate (ParseAction a i) _) as [ctx|k m|x] eqn:E; [|discriminate..]. apply annotated in E. rewrite E. destruct (lcheck_constraint ctx e) as [o w] eqn:El. cbn [fst snd]. exact (one_log _ _ _ _ _ _ El).
Qed.
Lemma lset_one ci l text : fst (lReasonActionSetViolates ci l) = Ok text -> actions_checked ci l text (snd (lReasonActionSetViolates ci l)).
Proof.
  revert text. induction l as [|a l IH]; intros text H; cbn [lReasonActionSetViolates] in *; [injection H as <-; constructor|].
  pose proof (laction_one ci a) as Ha. destruct (lReasonActionViolates ci a) as [[r|k m|x] t]; try discriminate H. destruct (Ha r eq_refl) as (i & Hi & Ho). cbn [snd] in Ho. destruct (String.eqb_spec r "") as [->|Hr].
  - destruct (lReasonActionSetViolates ci l) as [o t']. cbn [fst snd] in *. eapply ac_next; eauto.
  - cbn [fst snd] in *. injection H as <-. eapply ac_stop; eauto.
Qed.
Lemma ltable_one t entry text : fst (lReasonTableViolates t entry) = Ok text -> one_check (ti_constraint t) (ParseTableEntry entry t) text (snd (lReasonTableViolates t entry)).
Proof.
  unfold lReasonTableViolates. destruct (ti_constraint t) as [e|]; [|intros [= <-]; left; auto].
  destruct (negb _); [discriminate|]. destruct (annotate (ParseTableEntry entry t) _) as [ctx|k m|x] eqn:E; [|discriminate..]. apply annotated in E. rewrite E. destruct (lcheck_constraint ctx e) as [o w] eqn:El. cbn [fst snd]. exact (one_log _ _ _ _ _ _ El).
Qed.
(** The table's constraint is checked first; if it holds, those of the given actions are, in order, until one is violated. No other work is done.
    In each check exactly those parts are evaluated, measured and searched that [work_on] lists; a constraint that holds is only evaluated. *)
Theorem C77_exact : forall entry ci text, fst (lReasonEntryViolatesConstraint entry ci) = Ok text -> let log := snd (lReasonEntryViolatesConstraint entry ci) in
  exists t, GetTableInfoOrNull ci (pe_table_id entry) = Some t /\
    ((text <> "" /\ one_check (ti_constraint t) (ParseTableEntry entry t) text log) \/
     (exists log1 log2, log = (log1 ++ log2)%list /\ one_check (ti_constraint t) (ParseTableEntry entry t) "" log1 /\ actions_checked ci (given_actions entry) text log2)).
Proof.
  intros entry ci text. unfold lReasonEntryViolatesConstraint. destruct (GetTableInfoOrNull ci (pe_table_id entry)) as [t|]; [|discriminate]. pose proof (ltable_one t entry) as Ht.
  destruct (lReasonTableViolates t entry) as [[r|k m|x] log]; [|discriminate..]. specialize (Ht r eq_refl). cbn [snd] in Ht. destruct (String.eqb_spec r "") as [->|Hr]; cbn [negb].
  - intros H. exists t. split; [reflexivity|]. right. unfold given_actions. destruct (pe_action entry) as [[a|n|n|l|]|]; try discriminate H.
    + pose proof (laction_one ci a) as Ha. destruct (lReasonActionViolates ci a) as [o log']. cbn [fst snd] in *. destruct (Ha _ H) as (i & Hi & Ho). exists log, log'. split; [reflexivity|]. split; [exact Ht|].
      destruct (String.eqb_spec text "") as [->|Hn]; [|eapply ac_stop; eauto]. rewrite <- (app_nil_r log'). eapply ac_next; eauto. constructor.
    + pose proof (lset_one ci l) as Ha. destruct (lReasonActionSetViolates ci l) as [o log']. cbn [fst snd] in *. exists log, log'. split; [reflexivity|]. split; [exact Ht|]. exact (Ha _ H).
    + cbn [fst snd] in *. injection H as <-. exists log, []. split; [reflexivity|]. split; [exact Ht|constructor].
  - cbn [fst snd]. intros [= <-]. exists t. split; [reflexivity|]. left. auto.
Qed.
Print Assumptions C77_exact.
(** The violation of [C77_case] gives a text, so it meets the hypothesis. *)
Example C77_exact_case : exists text, fst (lReasonEntryViolatesConstraint (mkEntry 7 [mkFM 1 (FMExact "a")] None 0) work_ci) = Ok text /\ text <> "".
Proof. eexists. split; [vm_compute; reflexivity|discriminate]. Qed.
