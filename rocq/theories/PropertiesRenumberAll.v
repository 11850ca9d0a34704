(** C115, continued: the outcome of checking an entry, without exception. *)
From Coq Require Import String Ascii List ZArith NArith Bool Lia.
From Verif Require Import Base Num Token Ast AstConstructors Parser Quote Info TypeChecker ConstraintInfo Interpreter SpecRenumber SpecSameReport
  InfoFacts2 PropertiesParser PropertiesVerdict PropertiesRenumber PropertiesInfo PropertiesRenumberSolver.
Import ListNotations.
Open Scope string_scope.

Lemma report_refl {A} (o : outcome A) : same_report o o.
Proof. destruct o; cbn; auto. Qed.
Lemma report_bind {A B} (o o' : outcome A) (f f' : A -> outcome B) : same_report o o' -> (forall a, same_report (f a) (f' a)) -> same_report (bind o f) (bind o' f').
Proof. destruct o, o'; cbn; try easy. intros -> H. exact (H _). Qed.
Lemma report_annotate {A} (o o' : outcome A) s s' : same_report o o' -> same_report (annotate o s) (annotate o' s').
Proof. destruct o, o'; cbn; auto. Qed.

(** * Numbers of match fields and parameters *)
Definition ri (F : N -> N -> Prop) (x x' : N * key_info) : Prop := F (fst x) (fst x') /\ rk F (snd x) (snd x').
Lemma find_number F l l' i i' : one_to_one F -> F i i' -> Forall2 (ri F) l l' ->
  match assoc_find N.eqb i l, assoc_find N.eqb i' l' with Some k, Some k' => rk F k k' | None, None => True | _, _ => False end.
Proof.
  intros HF Hi. induction 1 as [|[a k] [a' k'] l l' [Ha Hk] H IH]; [exact I|]. cbn [assoc_find fst snd] in *. pose proof (HF _ _ _ _ Hi Ha) as E.
  destruct (N.eqb_spec i a) as [->|N1], (N.eqb_spec i' a') as [->|N2]; [exact Hk|now elim N2; apply E|now elim N1; apply E|exact IH].
Qed.
Lemma insert_numbers F what ks ks' : Forall2 (same_but (rk F)) ks ks' -> forall bi bi' bn bn' x x' y y', Forall2 (ri F) bi bi' -> Forall2 (rn F) bn bn' -> insert_keys what ks bi bn = Ok (x, y) -> insert_keys what ks' bi' bn' = Ok (x', y') -> Forall2 (ri F) x x' /\ Forall2 (rn F) y y'.
Proof.
  induction 1 as [|o o' ks ks' Ho H IH]; intros bi bi' bn bn' x x' y y' Hb Hn H1 H2; cbn [insert_keys] in H1, H2.
  - injection H1 as <- <-. injection H2 as <- <-. auto.
  - destruct o as [k| |]; [|discriminate..]. destruct o' as [k'| |]; [|discriminate..]. cbn [bind same_but] in *. unfold assoc_insert in H1, H2.
    destruct (assoc_find N.eqb _ bi); [discriminate|]. destruct (assoc_find N.eqb _ bi'); [discriminate|]. destruct (assoc_find String.eqb _ bn); [discriminate|]. destruct (assoc_find String.eqb _ bn'); [discriminate|].
    refine (IH _ _ _ _ _ _ _ _ _ _ H1 H2); apply Forall2_app; auto; constructor; auto; split; auto; [exact (proj1 Ho)|exact (proj1 (proj2 Ho))].
Qed.
Lemma fields_same F fs fs' : Forall2 (fun f f' => F (mf_id f) (mf_id f') /\ mf_name f = mf_name f' /\ mf_bitwidth f = mf_bitwidth f' /\ mf_match f = mf_match f') fs fs' ->
  Forall2 (same_but (rk F)) (map ParseMatchField fs) (map ParseMatchField fs').
Proof.
  induction 1 as [|f f' fs fs' (E1 & E2 & E3 & E4) H IH]; [constructor|]. cbn [map]. constructor; [|exact IH]. unfold ParseMatchField, ParseKeyType. rewrite <- E3, <- E4.
  apply (but_bind eq); [now apply but_refl|]. intros t ? <-. repeat split; auto.
Qed.
Lemma params_same F fs fs' : Forall2 (fun f f' => F (ap_id f) (ap_id f') /\ ap_name f = ap_name f' /\ ap_bitwidth f = ap_bitwidth f' /\ ap_type_name f = ap_type_name f') fs fs' ->
  Forall2 (same_but (rk F)) (map ParseParam fs) (map ParseParam fs').
Proof.
  induction 1 as [|f f' fs fs' (E1 & E2 & E3 & E4) H IH]; [constructor|]. cbn [map]. constructor; [|exact IH]. unfold ParseParam, ParseParamType. rewrite <- E3, <- E4.
  apply (but_bind eq); [now apply but_refl|]. intros t ? <-. repeat split; auto.
Qed.
Lemma infer_action_like F a a' : Forall2 (rn F) (ai_params_by_name a) (ai_params_by_name a') -> ai_source a = ai_source a' -> forall e, InferAction e a = InferAction e a'.
Proof.
  intros H1 H2. unfold InferAction. induction e; cbn [Infer GetConstraintSource]; rewrite <- H2; cbn [bind]; try reflexivity;
    try (repeat match goal with H : Infer _ _ _ = Infer _ _ _ |- _ => rewrite <- H; clear H end; reflexivity).
  match goal with |- context [assoc_find String.eqb ?n (ai_params_by_name a)] => assert (option_map k_type (assoc_find String.eqb n (ai_params_by_name a)) = option_map k_type (assoc_find String.eqb n (ai_params_by_name a'))) as E by exact (find_like F _ _ n H1); destruct (assoc_find String.eqb n (ai_params_by_name a)) as [k|], (assoc_find String.eqb n (ai_params_by_name a')) as [k'|]; cbn in E; try discriminate E; [|reflexivity] end.
  injection E as E. now rewrite E.
Qed.
Lemma table_numbers pton n d d' t t' : renumbered_table n d d' -> ParseTableInfo pton d = Ok t -> ParseTableInfo pton d' = Ok t' -> Forall2 (ri (of_fields n (pr_id (pt_preamble d)) (pr_id (pt_preamble d')))) (ti_keys_by_id t) (ti_keys_by_id t').
Proof.
  intros ((_ & E1 & E2) & Hf) H H'. unfold ParseTableInfo in H, H'. rewrite <- E1 in H'. rewrite <- (extract_same kTableConstraint _ _ E1 E2) in H'.
  apply SemFacts.bind_ok in H as ([bi bn] & I & H). apply SemFacts.bind_ok in H' as ([bi' bn'] & I' & H'). destruct (insert_numbers _ _ _ _ (fields_same _ _ _ Hf) _ _ _ _ _ _ _ _ (Forall2_nil _) (Forall2_nil _) I I') as (Hk & _).
  apply SemFacts.bind_ok in H as ([cs|] & Q & H); rewrite Q in H'; cbn [bind] in H'.
  - apply SemFacts.bind_ok in H as (e & P & H). rewrite P in H'. cbn [bind] in H'. apply SemFacts.bind_ok in H as (e1 & _ & H). apply SemFacts.bind_ok in H' as (e1' & _ & H'). injection H as <-. injection H' as <-. exact Hk.
  - injection H as <-. injection H' as <-. exact Hk.
Qed.
Record alike (F : N -> N -> Prop) (a a' : action_info) : Prop := mkAlike {
  al_name : ai_name a = ai_name a'; al_constraint : ai_constraint a = ai_constraint a'; al_source : ai_source a = ai_source a'; al_params : Forall2 (ri F) (ai_params_by_id a) (ai_params_by_id a') }.
Lemma action_like pton n d d' t t' : renumbered_action n d d' -> ParseActionInfo pton d = Ok t -> ParseActionInfo pton d' = Ok t' -> alike (of_params n (pr_id (pad_preamble d)) (pr_id (pad_preamble d'))) t t'.
Proof.
  intros ((_ & E1 & E2) & Hf) H H'. unfold ParseActionInfo in H, H'. rewrite <- E1 in H'. rewrite <- (extract_same kActionConstraint _ _ E1 E2) in H'.
  apply SemFacts.bind_ok in H as ([bi bn] & I & H). apply SemFacts.bind_ok in H' as ([bi' bn'] & I' & H'). destruct (insert_numbers _ _ _ _ (params_same _ _ _ Hf) _ _ _ _ _ _ _ _ (Forall2_nil _) (Forall2_nil _) I I') as (Hi & Hk).
  apply SemFacts.bind_ok in H as ([cs|] & Q & H); rewrite Q in H'; cbn [bind] in H'.
  - apply SemFacts.bind_ok in H as (e & P & H). rewrite P in H'. cbn [bind] in H'. apply SemFacts.bind_ok in H as (e1 & R & H). apply SemFacts.bind_ok in H' as (e1' & R' & H'). injection H as <-. injection H' as <-.
    assert (e1 = e1') as ->.
    { match type of R with InferAction _ ?a = _ => match type of R' with InferAction _ ?b = _ => pose proof (infer_action_like _ a b Hk eq_refl e) as E end end. rewrite E in R. congruence. }
    constructor; auto.
  - injection H as <-. injection H' as <-. constructor; auto.
Qed.

(** * Reading entries and actions *)
Lemma key_number F t t' f f' : one_to_one F -> Forall2 (ri F) (ti_keys_by_id t) (ti_keys_by_id t') -> rm F f f' -> same_report (ParseKey f t) (ParseKey f' t').
Proof.
  intros HF Hk (Hi & Hv). unfold ParseKey. pose proof (find_number F _ _ _ _ HF Hi Hk) as H. destruct (assoc_find N.eqb (fm_id f) _) as [k|], (assoc_find N.eqb (fm_id f') _) as [k'|]; try contradiction; [|reflexivity].
  destruct H as (_ & En & Et). rewrite <- Hv, <- Et, <- En. apply report_refl.
Qed.
Lemma fields_number F t t' l l' : one_to_one F -> Forall2 (ri F) (ti_keys_by_id t) (ti_keys_by_id t') -> Forall2 (rm F) l l' -> forall keys, same_report (parse_fields t l keys) (parse_fields t' l' keys).
Proof.
  intros HF Hk. induction 1 as [|f f' l l' Hf H IH]; intros keys; [reflexivity|]. cbn [parse_fields]. apply report_bind; [exact (key_number F t t' f f' HF Hk Hf)|]. intros [name v]. destruct (assoc_insert String.eqb name v keys); [apply IH|reflexivity].
Qed.
Lemma defaults_like F l l' : Forall2 (rn F) l l' -> forall keys, same_report (fill_defaults l keys) (fill_defaults l' keys).
Proof.
  induction 1 as [|[a k] [a' k'] l l' (E & _ & En & Et) H IH]; intros keys; [reflexivity|]. cbn [fst snd] in *. subst a'. cbn [fill_defaults]. destruct (assoc_find String.eqb a keys); [apply IH|].
  apply report_bind; [unfold default_value; rewrite <- En, <- Et; apply report_refl|]. intros v. apply IH.
Qed.
Lemma table_report F t t' e e' : one_to_one F -> like F t t' -> Forall2 (ri F) (ti_keys_by_id t) (ti_keys_by_id t') -> Forall2 (rm F) (pe_match e) (pe_match e') -> pe_priority e = pe_priority e' -> same_report (ReasonTableViolates t e) (ReasonTableViolates t' e').
Proof.
  intros HF [L1 L2 L3 L4] Hk Hm Hp. unfold ReasonTableViolates. rewrite <- L2. destruct (ti_constraint t) as [x|]; [|reflexivity]. destruct (negb _); [reflexivity|]. apply report_bind; [|intros; apply report_refl]. apply report_annotate.
  unfold ParseTableEntry. apply report_bind; [exact (fields_number F t t' _ _ HF Hk Hm [])|]. intros keys. apply report_bind; [exact (defaults_like F _ _ L4 keys)|]. intros keys'. rewrite <- L1, <- L3, <- Hp. reflexivity.
Qed.
Lemma params_number F a a' l l' : one_to_one F -> Forall2 (ri F) (ai_params_by_id a) (ai_params_by_id a') -> Forall2 (ra F) l l' -> forall ps, same_report (parse_params a l ps) (parse_params a' l' ps).
Proof.
  intros HF Hk. induction 1 as [|[i v] [i' v'] l l' [Hi Hv] H IH]; intros ps; [reflexivity|]. cbn [fst snd] in *. subst v'. cbn [parse_params]. pose proof (find_number F _ _ _ _ HF Hi Hk) as Hf.
  destruct (assoc_find N.eqb i _) as [k|], (assoc_find N.eqb i' _) as [k'|]; try contradiction; [|reflexivity]. rewrite <- (proj1 (proj2 Hf)). destruct (assoc_find String.eqb _ ps); [reflexivity|apply IH].
Qed.
(** The number of an action plays no role in checking it. *)
Lemma check_any_number i i' name ps src e : check_constraint (mkCtx (CtxAction i name ps) src) e = check_constraint (mkCtx (CtxAction i' name ps) src) e.
Proof. reflexivity. Qed.

Section Programs.
  Variable n : numbering.
  Hypothesis Hn : faithful n.
  Variable pton : inet_pton6.
  Variables p p' : p4info.
  Variables ci ci' : constraint_info.
  Hypothesis Hr : renumbered n p p'.
  Hypothesis H : P4ToConstraintInfo pton p = Ok ci.
  Hypothesis H' : P4ToConstraintInfo pton p' = Ok ci'.
  Lemma tables_number i i' : of_tables n i i' -> match GetTableInfoOrNull ci i, GetTableInfoOrNull ci' i' with
    | Some t, Some t' => like (of_fields n i i') t t' /\ Forall2 (ri (of_fields n i i')) (ti_keys_by_id t) (ti_keys_by_id t') | None, None => True | _, _ => False end.
  Proof.
    intros Hi. pose proof (proj1 (info_lookup _ _ _ H) i) as L. pose proof (proj1 (info_lookup _ _ _ H') i') as L'.
    destruct (GetTableInfoOrNull ci i) as [t|] eqn:E.
    - destruct (proj1 (L t) eq_refl) as (d & Hd & -> & Hpt). destruct (table_found n Hn p p' Hr d _ _ Hi Hd eq_refl) as (d' & Hd' & Ed' & Hrd).
      assert (exists t', ParseTableInfo pton d' = Ok t') as [t' Hpt'].
      { destruct (proj1 (info_ok _ _ _) H') as (ts & _ & Hts & _). destruct (f2_in _ _ _ _ Hts Hd') as (t' & _ & Q). now exists t'. }
      rewrite (proj2 (L' t')); [|exists d'; auto]. subst i'. split; [exact (proj1 (table_like pton n d d' t t' Hrd Hpt Hpt'))|exact (table_numbers pton n d d' t t' Hrd Hpt Hpt')].
    - destruct (GetTableInfoOrNull ci' i') as [t'|] eqn:E'; [|exact I]. destruct (proj1 (L' t') eq_refl) as (d' & Hd' & -> & _).
      destruct (table_found (undo n) (undo_faithful n Hn) p' p (undo_info n p p' Hr) d' _ i Hi Hd' eq_refl) as (d & Hd & Ed & _).
      destruct (proj1 (info_ok _ _ _) H) as (ts & _ & Hts & _). destruct (f2_in _ _ _ _ Hts Hd) as (t & _ & Q). discriminate (proj2 (L t)). exists d. auto.
  Qed.
  Lemma actions_number i i' : of_actions n i i' -> match GetActionInfoOrNull ci i, GetActionInfoOrNull ci' i' with
    | Some t, Some t' => alike (of_params n i i') t t' | None, None => True | _, _ => False end.
  Proof.
    intros Hi. pose proof (proj2 (info_lookup _ _ _ H) i) as L. pose proof (proj2 (info_lookup _ _ _ H') i') as L'.
    destruct (GetActionInfoOrNull ci i) as [t|] eqn:E.
    - destruct (proj1 (L t) eq_refl) as (d & Hd & -> & Hpt). destruct (action_found n Hn p p' Hr d _ _ Hi Hd eq_refl) as (d' & Hd' & Ed' & Hrd).
      assert (exists t', ParseActionInfo pton d' = Ok t') as [t' Hpt'].
      { destruct (proj1 (info_ok _ _ _) H') as (? & ts & _ & Hts & _). destruct (f2_in _ _ _ _ Hts Hd') as (t' & _ & Q). now exists t'. }
      rewrite (proj2 (L' t')); [|exists d'; auto]. subst i'. exact (action_like pton n d d' t t' Hrd Hpt Hpt').
    - destruct (GetActionInfoOrNull ci' i') as [t'|] eqn:E'; [|exact I]. destruct (proj1 (L' t') eq_refl) as (d' & Hd' & -> & _).
      destruct (action_found (undo n) (undo_faithful n Hn) p' p (undo_info n p p' Hr) d' _ i Hi Hd' eq_refl) as (d & Hd & Ed & _).
      destruct (proj1 (info_ok _ _ _) H) as (? & ts & _ & Hts & _). destruct (f2_in _ _ _ _ Hts Hd) as (t & _ & Q). discriminate (proj2 (L t)). exists d. auto.
  Qed.
  Lemma action_report a a' : renumbered_call n a a' -> same_report (ReasonActionViolates ci a) (ReasonActionViolates ci' a').
  Proof.
    intros (Hi & Hl). unfold ReasonActionViolates. pose proof (actions_number _ _ Hi) as L. destruct (GetActionInfoOrNull ci _) as [t|], (GetActionInfoOrNull ci' _) as [t'|]; try contradiction; [|reflexivity].
    destruct L as [L1 L2 L3 L4]. rewrite <- L2. destruct (ai_constraint t) as [x|]; [|reflexivity]. destruct (negb _); [reflexivity|].
    assert (one_to_one (of_params n (pa_id a) (pa_id a'))) as HF by exact (proj2 (proj2 (proj2 Hn)) _ _). pose proof (params_number _ t t' _ _ HF L4 Hl []) as HP.
    unfold ParseAction. destruct (parse_params t (pa_params a) []) as [ps| |], (parse_params t' (pa_params a') []) as [ps'| |]; cbn [same_report bind annotate] in *; try contradiction; auto.
    subst ps'. rewrite <- L1, <- L3. rewrite (check_any_number (pa_id a) (pa_id a')). apply report_refl.
  Qed.
  Lemma set_report l l' : Forall2 (renumbered_call n) l l' -> same_report (ReasonActionSetViolates ci l) (ReasonActionSetViolates ci' l').
  Proof. induction 1 as [|a a' l l' Ha _ IH]; [reflexivity|]. cbn [ReasonActionSetViolates]. apply report_bind; [exact (action_report a a' Ha)|]. intros r. destruct (String.eqb r ""); [exact IH|reflexivity]. Qed.
End Programs.

(** Checking an entry has the same outcome under the new numbers, for all programs and entries: the same answer letter for letter, the same kind of error, or the same crash. *)
Theorem C115_every : forall pton n p p' ci ci' entry entry', faithful n -> renumbered n p p' -> renumbered_entry n entry entry' ->
  P4ToConstraintInfo pton p = Ok ci -> P4ToConstraintInfo pton p' = Ok ci' ->
  same_report (ReasonEntryViolatesConstraint entry ci) (ReasonEntryViolatesConstraint entry' ci').
Proof.
  intros pton n p p' ci ci' e e' Hn Hr (Hi & Hm & Ha & Hp) H H'. unfold ReasonEntryViolatesConstraint. pose proof (tables_number n Hn pton p p' ci ci' Hr H H' _ _ Hi) as L.
  destruct (GetTableInfoOrNull ci _) as [t|], (GetTableInfoOrNull ci' _) as [t'|]; try contradiction; [|reflexivity]. destruct L as (L & Hk).
  apply report_bind; [exact (table_report _ t t' e e' (proj1 (proj2 Hn) _ _) L Hk Hm Hp)|]. intros r. destruct (negb _); [reflexivity|].
  destruct Ha as [|a a' Ha|l l' Hl|i i'|i i'|]; try reflexivity; [exact (action_report n Hn pton p p' ci ci' Hr H H' a a' Ha)|exact (set_report n Hn pton p p' ci ci' Hr H H' l l' Hl)].
Qed.
Print Assumptions C115_every.

(** Programs outside the scope of [C115_outcome]: a key of a custom match kind, and one of negative width. An entry for the first table fails, one for the second ends the program, before and after. *)
Definition odd_info (a b f : N) : p4info := mkP4Info
  [mkP4Table (mkPre a "odd" [restriction "entry" ["true"]]) [mkMF f "x" 8 (MOther "fancy")];
   mkP4Table (mkPre b "worse" [restriction "entry" ["true"]]) [mkMF f "y" (-1) (MMatchType MTRange)]] [].
Definition odd_ci : constraint_info := Eval vm_compute in the (mkInfo [] []) (P4ToConstraintInfo pton1 (odd_info 3 5 1)).
Definition odd_ci2 : constraint_info := Eval vm_compute in the (mkInfo [] []) (P4ToConstraintInfo pton1 (odd_info 103 105 2)).
Example C115_every_case : faithful demo_numbering /\ renumbered demo_numbering (odd_info 3 5 1) (odd_info 103 105 2) /\
  P4ToConstraintInfo pton1 (odd_info 3 5 1) = Ok odd_ci /\ P4ToConstraintInfo pton1 (odd_info 103 105 2) = Ok odd_ci2 /\
  renumbered_entry demo_numbering (mkEntry 3 [] None 7) (mkEntry 103 [] None 7) /\ renumbered_entry demo_numbering (mkEntry 5 [] None 7) (mkEntry 105 [] None 7) /\
  (exists m, ReasonEntryViolatesConstraint (mkEntry 3 [] None 7) odd_ci = Err Internal m) /\ (exists m, ReasonEntryViolatesConstraint (mkEntry 103 [] None 7) odd_ci2 = Err Internal m) /\
  (exists w, ReasonEntryViolatesConstraint (mkEntry 5 [] None 7) odd_ci = Crash w) /\ (exists w, ReasonEntryViolatesConstraint (mkEntry 105 [] None 7) odd_ci2 = Crash w).
Proof.
  split; [exact (proj1 C115_case)|]. split. { split; repeat (constructor; [repeat split; cbn; auto; repeat constructor|]); constructor. }
  split; [vm_compute; reflexivity|]. split; [vm_compute; reflexivity|]. split; [repeat constructor|]. split; [repeat constructor|].
  repeat split; eexists; vm_compute; reflexivity.
Qed.
