(** C117, continued: what is accepted, and what the solver decides, never depends on places. *)
From Coq Require Import String List ZArith NArith.
From Verif Require Import Base Ast Lexer AstConstructors Parser Info TypeChecker ConstraintInfo Interpreter Z3 Symbolic SpecGrammar SpecInfo SpecCrash SpecNames SpecLaws SpecSolver SpecRestatedSolver SpecQueries SpecPlaces SemFacts InfoFacts InfoFacts2 SymDemo PropertiesParser PropertiesVerdict PropertiesInfo PropertiesLaws PropertiesRestatedSolver PropertiesCrash PropertiesPlaces.
Import ListNotations.
Open Scope string_scope.

Lemma notes_sym note l l' : notes_apart note l l' -> notes_apart note l' l.
Proof. induction 1; [apply na_end|now apply na_same|now apply na_right|now apply na_left]. Qed.
Lemma info_sym note p p' : info_apart note p p' -> info_apart note p' p.
Proof.
  intros [HT HA]. split; [clear HA; induction HT as [|d d' l l' ((E & N) & M) _ IH]|clear HT; induction HA as [|d d' l l' ((E & N) & M) _ IH]]; constructor; try exact IH; (split; [split; [now symmetry|now apply notes_sym]|now symmetry]).
Qed.
Lemma restriction_apart ck pre pre' o : notes_apart of_place (pr_annotations pre) (pr_annotations pre') -> ExtractConstraint ck pre = Ok o -> same_restriction ck pre pre'.
Proof.
  intros Ha E. pose proof (extract_place True ck pre pre' (or_intror (conj I Ha))) as K. rewrite E in K. destruct (ExtractConstraint ck pre') as [o'| |w] eqn:E'; cbn [NameFacts.near] in K; [|contradiction|].
  - destruct o as [c|], o' as [c'|]; try contradiction; [|apply sr_none; now apply extract_none]. destruct K as (f & d & _ & _ & ->). apply (sr_some _ _ _ c (NameFacts.xc f d c)); [now apply extract_some|now apply extract_some|]. destruct c. apply name_free.
  - exfalso. clear - E'. unfold ExtractConstraint in E'. destruct (scan_annotations _ _ _ _) as [[? ?] ?]. destruct (String.eqb _ _); [discriminate|]. cbv zeta in E'. destruct (match strip_prefix _ _ with Some _ => _ | None => _ end); [|discriminate]. destruct (contains_char _ _); discriminate.
Qed.
Lemma apart_retold pton p p' ci : info_apart of_place p p' -> P4ToConstraintInfo pton p = Ok ci -> retold p p'.
Proof.
  intros [HT HA] H. apply info_ok in H as (ts & as_ & H1 & H2 & _). split.
  - clear HA H2 as_. revert ts H1. induction HT as [|d d' l l' ((E & N) & M) _ IH]; intros xs H1; [constructor|]. inversion H1 as [|? t ? ts' Hp H1']; subst. constructor; [|exact (IH _ H1')]. split; [exact E|]. split; [exact M|].
    unfold ParseTableInfo in Hp. apply bind_ok in Hp as ([bi bn] & _ & Hp). apply bind_ok in Hp as (o & Ho & _). exact (restriction_apart _ _ _ _ N Ho).
  - clear HT H1 ts. revert as_ H2. induction HA as [|d d' l l' ((E & N) & M) _ IH]; intros xs H1; [constructor|]. inversion H1 as [|? t ? ts' Hp H1']; subst. constructor; [|exact (IH _ H1')]. split; [exact E|]. split; [exact M|].
    unfold ParseActionInfo in Hp. apply bind_ok in Hp as ([bi bn] & _ & Hp). apply bind_ok in Hp as (o & Ho & _). exact (restriction_apart _ _ _ _ N Ho).
Qed.
(** Wherever constraints of any number of lines stand, the same programs load and the same entries are accepted. *)
Theorem C117_accepted : forall pton p p', pton_ok pton -> info_apart of_place p p' ->
  ((exists ci, P4ToConstraintInfo pton p = Ok ci) <-> (exists ci', P4ToConstraintInfo pton p' = Ok ci')) /\
  (forall ci ci' entry, P4ToConstraintInfo pton p = Ok ci -> P4ToConstraintInfo pton p' = Ok ci' -> (ReasonEntryViolatesConstraint entry ci = Ok "" <-> ReasonEntryViolatesConstraint entry ci' = Ok "")).
Proof.
  intros pton p p' Hp H. split.
  - split; intros (ci & L); [apply (C55_loads_alike pton p p' Hp (apart_retold pton p p' ci H L))|apply (C55_loads_alike pton p' p Hp (apart_retold pton p' p ci (info_sym _ _ _ H) L))]; now exists ci.
  - intros ci ci' e L L'. exact (C55_accepts_alike pton p p' ci ci' e Hp (apart_retold pton p p' ci H L) L L').
Qed.
Print Assumptions C117_accepted.
(** And solvers decide alike and produce the same entries. *)
Theorem C117_solver : forall check pton p p' ci ci' id t skip, pton_ok pton -> info_apart of_place p p' -> P4ToConstraintInfo pton p = Ok ci -> P4ToConstraintInfo pton p' = Ok ci' -> GetTableInfoOrNull ci id = Some t ->
  exists t', GetTableInfoOrNull ci' id = Some t' /\
    ((exists cs, Create check t skip = Ok cs) <-> (exists cs', Create check t' skip = Ok cs')) /\
    forall cs cs' texts, Create check t skip = Ok cs -> Create check t' skip = Ok cs' ->
      Forall2 same_decision (fst (replies check pton cs (map AddText texts))) (fst (replies check pton cs' (map AddText texts))) /\
      ConcretizeEntry check (snd (replies check pton cs (map AddText texts))) = ConcretizeEntry check (snd (replies check pton cs' (map AddText texts))).
Proof. intros check pton p p' ci ci' id t skip Hp H L L' Ht. exact (C55_solver check pton p p' ci ci' id t skip Hp (apart_retold pton p p' ci H L) L L' Ht). Qed.
Print Assumptions C117_solver.
(** Constraints of several lines may move as long as all their parts can be quoted in both places. (The programs of C117_case are an instance, by C64_one_line.) *)
Theorem C117_safe : forall pton p p', info_apart of_place p p' -> pton_ok pton -> sane_widths p -> ~ unsafe pton p -> ~ unsafe pton p' ->
  similar (fun ci ci' => forall entry, similar same_verdict (ReasonEntryViolatesConstraint entry ci) (ReasonEntryViolatesConstraint entry ci')) (P4ToConstraintInfo pton p) (P4ToConstraintInfo pton p').
Proof.
  intros pton p p' H Hp Hw Hs Hs'. destruct (C117_lines_partial pton p p' H) as [HL HC].
  assert (sane_widths p') as Hw'.
  { destruct H as [HT HA], Hw as [W1 W2]. split; [clear - HT W1|clear - HA W2].
    - revert W1. induction HT as [|d d' l l' (_ & M) _ IH]; intros W1 x f Hx Hf; [destruct Hx|]. destruct Hx as [<-|Hx]; [apply (W1 d); [now left|now rewrite M]|]. apply (IH (fun y g Hy => W1 y g (or_intror Hy)) x f Hx Hf).
    - revert W2. induction HA as [|d d' l l' (_ & M) _ IH]; intros W1 x f Hx Hf; [destruct Hx|]. destruct Hx as [<-|Hx]; [apply (W1 d); [now left|now rewrite M]|]. apply (IH (fun y g Hy => W1 y g (or_intror Hy)) x f Hx Hf). }
  destruct HL as [HL|[HL|HL]]; [|now elim Hs; apply (C64_loading pton p _ Hp HL)|now elim Hs'; apply (C64_loading pton p' _ Hp HL)].
  destruct (P4ToConstraintInfo pton p) as [ci| |] eqn:E, (P4ToConstraintInfo pton p') as [ci'| |] eqn:E'; cbn [similar] in *; try contradiction; try assumption.
  intros e. destruct (HC ci ci' e eq_refl eq_refl) as [K|[K|K]]; [exact K|now elim Hs; apply (C64_checking pton p ci e _ Hp Hw E K)|now elim Hs'; apply (C64_checking pton p' ci' e _ Hp Hw' E' K)].
Qed.
Print Assumptions C117_safe.
(** The constraint of C117_lines_refuted, in two lines: an entry is accepted in both places, and solvers are made in both. *)
Definition fine_entry : p4_entry := mkEntry 5 [mkFM 1 (FMExact (String (Ascii.ascii_of_N 1) ""))] None 0.
Example C117_moved_case : pton_ok pton1 /\ info_apart of_place (at_line "8") (at_line "9") /\ P4ToConstraintInfo pton1 (at_line "8") = Ok place_ci /\ P4ToConstraintInfo pton1 (at_line "9") = Ok place_ci' /\
  ReasonEntryViolatesConstraint fine_entry place_ci = Ok "" /\ ReasonEntryViolatesConstraint fine_entry place_ci' = Ok "" /\
  ReasonEntryViolatesConstraint place_entry place_ci <> Ok "" /\ ReasonEntryViolatesConstraint place_entry place_ci' <> Ok "" /\ (exists t, GetTableInfoOrNull place_ci 5 = Some t).
Proof.
  split; [exact pton1_ok|]. split; [apply (at_line_apart "8" "9" 8 9); apply line_iff; vm_compute; reflexivity|]. split; [vm_compute; reflexivity|]. split; [vm_compute; reflexivity|]. split; [vm_compute; reflexivity|]. split; [vm_compute; reflexivity|].
  split; [vm_compute; discriminate|]. split; [vm_compute; discriminate|]. eexists. vm_compute. reflexivity.
Qed.
