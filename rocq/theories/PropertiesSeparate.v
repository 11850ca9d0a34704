(** C96: constraints on different keys do not interact. *)
From Coq Require Import String Ascii List ZArith NArith Bool Lia.
From Verif Require Import Base Num Token Ast Lexer Quote AstConstructors Parser Info TypeChecker ConstraintInfo Interpreter Z3 Symbolic SpecLexer SpecGrammar SpecParser SpecTyping SpecSemantics SpecInfo SpecMisc SpecLaws SpecSymbolic SpecSolver SpecReading SpecSession SpecShared SpecSeparate
  TypeFacts InterpFacts2 SymFacts SymKeys SymState SymMeaning SymDemo ReadingFacts2 ReadingFacts3 SeparateFacts
  PropertiesParser PropertiesVerdict PropertiesSymbolic PropertiesReading SharedFacts PropertiesSession PropertiesShared.
Import ListNotations.
Open Scope string_scope.

(** Entries that satisfy separate constraints can be put together. *)
Theorem C96_recombined : forall t ks skip l l' fields fields' p p', table_keys t ks -> all_separate l l' -> solution t ks skip l fields p -> solution t ks skip l' fields' p' ->
  exists fields'' p'', solution t ks skip (l ++ l') fields'' p'' /\
    (forall e n v, In e l -> mentions e n -> (Assigned (live_keys skip ks) fields'' n v <-> Assigned (live_keys skip ks) fields n v)) /\
    (forall e n v, In e l' -> mentions e n -> (Assigned (live_keys skip ks) fields'' n v <-> Assigned (live_keys skip ks) fields' n v)).
Proof. intros t ks skip l l' fields fields' p p' HK. exact (solutions_mixed t ks skip HK l l' fields fields' p p'). Qed.
Print Assumptions C96_recombined.

Lemma solved_alone check pton t ks skip cs l l0 e0 : table_keys t ks -> int32_widths ks -> sound_solver check -> History check pton t skip cs l -> written t l0 l -> all_separate l0 [e0] ->
  ((exists fields p, solution t ks skip (l0 ++ [e0]) fields p) <-> exists fields p, solution t ks skip [e0] fields p).
Proof.
  intros HK Hw Hso HH HL HS. split.
  - intros (fields & p & H). exists fields, p. apply (solution_part t ks skip (l0 ++ [e0]) [e0]); [|exact H]. intros e He. apply in_app_iff. now right.
  - intros (fields & p & H). destruct (history_soluble check pton t ks skip HK Hw Hso cs l l0 HH HL) as (fields' & p' & H' & _).
    destruct (solutions_mixed t ks skip HK _ _ _ _ _ _ HS H' H) as (fields'' & p'' & H'' & _). now exists fields'', p''.
Qed.

(** A constraint on other keys than those of the table's constraint and of the constraints added before is accepted iff it can be satisfied at all, unless Z3 overlooks a model. *)
Theorem C96_alone : forall check pton t ks skip cs l l0 text e0, pton_ok pton -> table_keys t ks -> int32_widths ks -> sound_solver check -> apart (live_keys skip ks) ->
  History check pton t skip cs l -> written t l0 l -> usable pton t ks skip text e0 -> all_separate l0 [e0] ->
  let possible := exists fields p, solution t ks skip [e0] fields p in
  overlooks check pton cs text \/ exists b cs', AddConstraintString check pton cs text = (Ok b, cs') /\ (b = true -> possible) /\ (possible -> b = true \/ overlooks check pton cs text).
Proof.
  intros check pton t ks skip cs l l0 text e0 Hp HK Hw Hso Hap HH HL [Hr Hsv] HS possible. pose proof (solved_alone check pton t ks skip cs l l0 e0 HK Hw Hso HH HL HS) as [S1 S2].
  destruct (C59_add_text check pton t ks skip cs l l0 text e0 Hp HK Hw Hso Hap HH HL Hr Hsv) as [Hg|(b & cs' & E & H1 & H2)]; [left; exact Hg|]. right. exists b, cs'. split; [exact E|]. split; [intros Hb; exact (S1 (H1 Hb))|intros H; exact (H2 (S2 H))].
Qed.
Print Assumptions C96_alone.

(** So two solvers for the table answer alike, whatever constraints on other keys they were given. *)
Theorem C96_any_state : forall check check' pton t ks skip cs cs' l l' l0 l0' text e0, pton_ok pton -> table_keys t ks -> int32_widths ks -> apart (live_keys skip ks) -> sound_solver check -> sound_solver check' ->
  History check pton t skip cs l -> written t l0 l -> History check' pton t skip cs' l' -> written t l0' l' -> usable pton t ks skip text e0 -> all_separate l0 [e0] -> all_separate l0' [e0] ->
  ~ overlooks check pton cs text -> ~ overlooks check' pton cs' text ->
  fst (AddConstraintString check pton cs text) = fst (AddConstraintString check' pton cs' text).
Proof.
  intros check check' pton t ks skip cs cs' l l' l0 l0' text e0 Hp HK Hw Hap Hso Hso' HH HL HH' HL' HU HS HS' Ho Ho'.
  destruct (C96_alone check pton t ks skip cs l l0 text e0) as [H|(b & cs1 & -> & H1 & H2)]; auto; [contradiction|]. destruct (C96_alone check' pton t ks skip cs' l' l0' text e0) as [H|(b' & cs1' & -> & H1' & H2')]; auto; [contradiction|].
  cbn [fst]. f_equal. apply eq_true_iff_eq. split; intros Hb; [destruct (H2' (H1 Hb)); [assumption|contradiction]|destruct (H2 (H1' Hb)); [assumption|contradiction]].
Qed.
Print Assumptions C96_any_state.

(** Constraints each on its own keys are accepted one after the other iff each would be accepted on its own, unless Z3 overlooks a model. *)
Theorem C96_each : forall check pton t ks skip cs l l0 texts es, pton_ok pton -> table_keys t ks -> int32_widths ks -> sound_solver check -> apart (live_keys skip ks) ->
  History check pton t skip cs l -> written t l0 l -> Forall2 (usable pton t ks skip) texts es -> all_separate l0 es -> ForallOrdPairs separate es ->
  ((exists cs', Accepts check pton cs texts cs') -> forall text, In text texts -> (exists cs', AddConstraintString check pton cs text = (Ok true, cs')) \/ overlooks check pton cs text) /\
  ((forall text, In text texts -> exists cs', AddConstraintString check pton cs text = (Ok true, cs')) -> (exists cs', Accepts check pton cs texts cs') \/ gets_stuck check pton cs texts).
Proof.
  intros check pton t ks skip cs l l0 texts es Hp HK Hw Hso Hap HH HL HU HS HP.
  assert (forall text, In text texts -> exists e, In e es /\ usable pton t ks skip text e) as Hof.
  { clear - HU. induction HU as [|y e texts es H HU IH]; intros text Ht; [contradiction|]. destruct Ht as [->|Hx]; [exists e; split; [now left|exact H]|]. destruct (IH _ Hx) as (e' & H1 & H2). exists e'. split; [now right|exact H2]. }
  split.
  - intros (cs' & HA) text Ht. destruct (accepted_history check pton t ks skip Hp HK cs l l0 texts es cs' HH HL HU HA) as (l' & H1 & H2). destruct (history_soluble check pton t ks skip HK Hw Hso cs' l' _ H1 H2) as (fields & p & Hsol & _).
    destruct (Hof text Ht) as (e & He & Hu).
    destruct (C96_alone check pton t ks skip cs l l0 text e) as [H|(b & cs1 & E & _ & H)]; auto. { intros f g Hf [<-|[]]. now apply HS. }
    destruct H as [->|H]; [|left; eauto|right; exact H]. exists fields, p. apply (solution_part t ks skip (l0 ++ es)); [|exact Hsol]. intros f [<-|[]]. apply in_app_iff. now right.
  - intros Hall. apply (soluble_accepted check pton t ks skip Hp HK Hw Hso cs l l0 texts es HH HL HU).
    assert (forall k, In k (live_keys skip ks) -> representable k) as Hrep.
    { destruct (history_holds t ks HK skip check pton cs l HH) as (base & us & Hs). pose proof (b_repr _ _ _ _ (h_built _ _ _ _ _ _ _ _ Hs)) as Hr. intros k Hk. apply live_in in Hk as [Hk Hl]. now apply Hr. }
    assert (forall e, In e es -> exists fields p, solution t ks skip [e] fields p) as Hone.
    { intros e He. assert (exists text, In text texts /\ usable pton t ks skip text e) as (text & Ht & Hu).
      { clear - HU He. induction HU as [|y e' texts es H HU IH]; [contradiction|]. destruct He as [->|He]; [exists y; split; [now left|exact H]|]. destruct (IH He) as (x & H1 & H2). exists x. split; [now right|exact H2]. }
      destruct (Hall text Ht) as (cs1 & E). destruct (accepted_history check pton t ks skip Hp HK cs l l0 [text] [e] cs1 HH HL) as (l1 & H1 & H2); [constructor; [exact Hu|constructor]|econstructor; [exact E|constructor]|].
      destruct (history_soluble check pton t ks skip HK Hw Hso cs1 l1 _ H1 H2) as (fields & p & Hsol & _). exists fields, p. apply (solution_part t ks skip (l0 ++ [e])); [|exact Hsol]. intros f Hf. apply in_app_iff. now right. }
    assert (exists fields p, solution t ks skip (l0 ++ es) fields p) as (fields & p & Hsol).
    { destruct (history_soluble check pton t ks skip HK Hw Hso cs l l0 HH HL) as (fields & p & Hsol & _). clear - HK Hsol HS HP Hone. revert l0 fields p Hsol HS. induction HP as [|e es HP1 HP IH]; intros l0 fields p Hsol HS; [exists fields, p; now rewrite app_nil_r|].
      destruct (Hone e (or_introl eq_refl)) as (fields' & p' & Hsol'). rewrite Forall_forall in HP1.
      destruct (solutions_mixed t ks skip HK l0 [e] fields fields' p p') as (fields'' & p'' & H & _); [intros f g Hf [<-|[]]; apply HS; [exact Hf|now left]|exact Hsol|exact Hsol'|].
      destruct (IH (fun f Hf => Hone f (or_intror Hf)) (l0 ++ [e])%list fields'' p'' H) as (f3 & p3 & H3).
      - intros f g Hf Hg. apply in_app_iff in Hf as [Hf|[<-|[]]]; [apply HS; [exact Hf|now right]|now apply HP1].
      - exists f3, p3. now rewrite <- app_assoc in H3. }
    exists fields, p. split; [exact Hsol|]. exact (C88_apart t ks skip (l0 ++ es) fields p HK Hrep Hap Hsol).
Qed.
Print Assumptions C96_each.

(** * Cases *)
Definition sep_text : string := "o::mask == 511".
Definition sep_tree : expr := Eval vm_compute in the no_expr (ParseConstraint pton1 kTableConstraint (text_source sy_table sep_text)).
Lemma sep_usable : usable pton1 sy_table sy_keys sy_skip sep_text sep_tree.
Proof.
  eapply se_solvable; [vm_compute; reflexivity|vm_compute; reflexivity|reflexivity|].
  intros n Hn. repeat match goal with H : mentions _ _ |- _ => inversion H; clear H; subst end; cbn; eauto 10.
Qed.
(** The table's constraint is about e, t, l and the priority; a constraint on o is separate from it, and accepted. A constraint on e is not: it could be satisfied, but not together with the table's. *)
Example C96_case : History sy_check pton1 sy_table sy_skip sy_cs [sy_checked] /\ written sy_table [sy_tree] [sy_checked] /\ usable pton1 sy_table sy_keys sy_skip sep_text sep_tree /\
  all_separate [sy_tree] [sep_tree] /\ ~ all_separate [sy_tree] [se_tree] /\ sound_solver sy_check /\ apart (live_keys sy_skip sy_keys) /\
  fst (AddConstraintString sy_check pton1 sy_cs sep_text) = Ok true /\ fst (AddConstraintString sy_check pton1 sy_cs (negated se_text)) = Ok false.
Proof.
  split; [exact (proj1 se_history)|]. split; [exact (proj2 se_history)|]. split; [exact sep_usable|].
  split. { intros e f [<-|[]] [<-|[]]. split.
    - intros n H1 H2. repeat match goal with H : mentions _ _ |- _ => inversion H; clear H; subst end.
    - intros [_ H]. repeat match goal with H : has_attribute _ |- _ => inversion H; clear H; subst end. }
  split. { intros H. destruct (H sy_tree se_tree (or_introl eq_refl) (or_introl eq_refl)) as [X _]. apply (X "e"); repeat constructor. }
  split; [exact sy_sound|]. split; [repeat constructor; cbn; intuition discriminate|]. split; vm_compute; reflexivity.
Qed.
