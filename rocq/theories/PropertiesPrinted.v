(** C113: what the command line tool says about the contents of its files. *)
From Coq Require Import String Ascii List ZArith NArith Bool Lia.
From Verif Require Import Base Num Token Ast Lexer Quote AstConstructors Info TypeChecker Parser ConstraintInfo Interpreter Cli SpecLexer SpecGrammar SpecParser SpecTyping SpecSemantics SpecInfo SpecReading SpecMisc SpecPrinted
  StrFacts LiteralFacts SemFacts EntryFacts InfoFacts InfoFacts2 ReadingFacts ReadingFacts2 PropertiesParser PropertiesInfo PropertiesVerdict PropertiesExplain PropertiesEntries PropertiesReading SymDemo PropertiesCli.
Import ListNotations.
Open Scope string_scope.

(** * A declaration allows the same whatever its id *)
Lemma coerced_says pton d e x : table_says pton (coerce_table d) (coerce_entry e) x <-> table_says pton d e x.
Proof. split; intros H; exact H. Qed.
Lemma coerced_allows pton d e : table_allows pton (coerce_table d) (coerce_entry e) <-> table_allows pton d e.
Proof. split; intros H; exact H. Qed.
Lemma coerced_names p e d : names_table p e d <-> In (coerce_table d) (map coerce_table (p4_tables p)) /\ In d (p4_tables p) /\ table_id (coerce_table d) = pe_table_id (coerce_entry e).
Proof.
  change (table_id (coerce_table d)) with (CoerceToTableId (pr_id (pt_preamble d))). change (pe_table_id (coerce_entry e)) with (CoerceToTableId (pe_table_id e)). unfold names_table. rewrite !C53_coerced_id. split.
  - intros (H & E). split; [exact (in_map coerce_table _ _ H)|]. split; [exact H|]. now rewrite E.
  - intros (_ & H & E). split; [exact H|]. exact (proj1 (N.add_cancel_l _ _ _) E).
Qed.
Lemma performs_iff e l : performs e l <-> direct e /\ l = actions_of e.
Proof.
  unfold performs, direct, actions_of. split.
  - intros [(E & ->)|[(a & E & ->)|E]]; rewrite E; auto.
  - destruct (pe_action e) as [[]|] eqn:E; intros (Hd & ->); try contradiction; eauto 6.
Qed.
Lemma permitted_iff pton p ci e : pton_ok pton -> P4ToConstraintInfo pton (coerce_p4info p) = Ok ci ->
  (ReasonEntryViolatesConstraint (coerce_entry e) ci = Ok "" <-> permitted pton p e).
Proof.
  intros Hp Hci. rewrite (C58_accepted_iff _ _ _ _ Hp Hci). unfold permitted. cbn [p4_tables p4_actions coerce_p4info]. split.
  - intros ((d & Hd & Ei & Ha) & Hdir & Hacts). split.
    + pose proof Hd as Hd'. apply in_map_iff in Hd as (d0 & <- & Hd). exists d0. split; [apply coerced_names; auto|exact Ha].
    + exists (actions_of e). split; [apply performs_iff; auto|]. intros a Hin. destruct (Hacts a Hin) as (d' & H1 & H2 & H3). exists d'. split; [split; auto|exact H3].
  - intros ((d & Hn & Ha) & l & Hl & Hacts). apply coerced_names in Hn as (H1 & H2 & H3). apply performs_iff in Hl as (Hd & ->). split; [exists (coerce_table d); auto|]. split; [exact Hd|].
    intros a Hin. destruct (Hacts a Hin) as (d' & (H4 & H5) & H6). exists d'. auto.
Qed.
Lemma forbidden_if pton p ci e text : pton_ok pton -> P4ToConstraintInfo pton (coerce_p4info p) = Ok ci ->
  ReasonEntryViolatesConstraint (coerce_entry e) ci = Ok text -> text <> "" -> forbidden pton p e.
Proof.
  intros Hp Hci H Hne. destruct (C58_rejected _ _ _ _ _ Hp Hci Hne H) as (d & Hd & Ei & Hs). cbn [p4_tables p4_actions coerce_p4info] in Hd, Hs.
  pose proof Hd as Hd'. apply in_map_iff in Hd as (d0 & <- & Hd). exists d0. split; [apply coerced_names; auto|].
  destruct Hs as [Hs|(Ha & pre & a & post & d' & El & Hpre & H1 & H2 & H3)]; [left; exact Hs|]. right. split; [exact Ha|]. exists (actions_of e), pre, a, post, d'. split.
  - apply performs_iff. split; [|reflexivity]. change (actions_of (coerce_entry e)) with (actions_of e) in El. unfold actions_of in El. unfold direct. destruct (pe_action e) as [[]|]; try exact I; destruct pre; discriminate El.
  - split; [exact El|]. split; [|split; [split; auto|exact H3]]. intros b Hb. destruct (Hpre b Hb) as (d'' & H4 & H5 & H6). exists d''. split; [split; auto|exact H6].
Qed.
Lemma same_entry e e' : pe_table_id e' = (2 * 2 ^ 24 + local_id (pe_table_id e))%N -> pe_match e' = pe_match e -> pe_action e' = pe_action e -> pe_priority e' = pe_priority e -> e' = coerce_entry e.
Proof. unfold coerce_entry. rewrite C53_coerced_id. intros <- <- <- <-. now destruct e'. Qed.
Lemma text_begins ci e text : ReasonEntryViolatesConstraint e ci = Ok text -> text <> "" -> begins "All " text.
Proof. intros H Hne. destruct (C31_sufficient_reason _ _ _ H Hne) as (ctx & e0 & q & s & b & _ & _ & _ & (quoted & rest & _ & ->) & _). eexists. reflexivity. Qed.
Lemma forbidden_not pton p ci e : pton_ok pton -> P4ToConstraintInfo pton (coerce_p4info p) = Ok ci -> forbidden pton p e -> ~ permitted pton p e.
Proof.
  intros Hp Hci (d & Hn & Hf) ((d1 & Hn1 & Ha1) & l1 & Hl1 & Hacts). destruct (C58_one_answer pton _ ci Hp Hci) as [O1 O2].
  assert (coerce_table d1 = coerce_table d) as Ed. { apply (table_decl_same pton (coerce_p4info p) ci Hci); [apply coerced_names in Hn1; tauto|apply coerced_names in Hn; tauto|]. apply coerced_names in Hn as (_ & _ & E1). apply coerced_names in Hn1 as (_ & _ & E2). unfold table_id in *. congruence. }
  destruct Hf as [Hs|(_ & l & pre & a & post & d' & Hl & El & _ & (H1 & H2) & H3)].
  - destruct Ha1 as [Hu|Hs1].
    + destruct Hs as (ks & cs & e0 & key & _ & Hr & _). assert (unrestricted kTableConstraint (pt_preamble (coerce_table d))) as Hu' by (rewrite <- Ed; exact Hu). destruct (restricted_not _ _ _ Hu' Hr).
    + assert (table_says pton (coerce_table d) (coerce_entry e) true) as Hs1' by (rewrite <- Ed; exact Hs1). apply coerced_names in Hn as (Hin & _). pose proof (O1 _ _ _ _ Hin Hs1' (proj2 (coerced_says _ _ _ _) Hs)). discriminate.
  - apply performs_iff in Hl as (_ & E1), Hl1 as (_ & E2). subst l1. rewrite <- E1, El in Hacts. destruct (Hacts a ltac:(apply in_or_app; right; left; reflexivity)) as (d2 & (H4 & H5) & H6).
    assert (d2 = d') as -> by (apply (action_decl_same pton (coerce_p4info p) ci Hci); auto; congruence). destruct H6 as [Hu|Hs2].
    + destruct H3 as (ks & cs & e0 & key & _ & Hr & _). destruct (restricted_not _ _ _ Hu Hr).
    + pose proof (O2 _ _ _ _ H1 Hs2 H3). discriminate.
Qed.

(** * C113 *)
(** The report of a file says "Constraint satisfied" exactly if its entry is permitted by the P4Info as
    given; an explanation is printed only for a forbidden entry; anything else is an error. *)
Theorem C113_report : forall pton p ci f r, pton_ok pton -> P4ToConstraintInfo pton (coerce_p4info p) = Ok ci -> Report ci f r ->
  (begins "not found" r <-> f = FileMissing) /\
  (begins "unable to parse" r <-> f = FileBad) /\
  (begins "Constraint satisfied" r <-> exists e, f = FileOk e /\ permitted pton p e) /\
  (begins "All " r -> exists e, f = FileOk e /\ forbidden pton p e) /\
  (begins "Error: " r -> exists e, f = FileOk e /\ ~ permitted pton p e) /\
  (begins "not found" r \/ begins "unable to parse" r \/ begins "Constraint satisfied" r \/ begins "All " r \/ begins "Error: " r).
Proof.
  intros pton p ci f r Hp Hci H. destruct H as [| |e e' c m E1 E2 E3 E4 H|e e' E1 E2 E3 E4 H|e e' x E1 E2 E3 E4 H Hne].
  3,4,5: assert (e' = coerce_entry e) as -> by (apply same_entry; assumption); clear E1 E2 E3 E4; pose proof (permitted_iff pton p ci e Hp Hci) as Hpe; rewrite H in Hpe.
  - split; [split; [reflexivity|intros _; eexists; reflexivity]|]. split; [split; [intros (z & E); discriminate E|discriminate]|]. split; [split; [intros (z & E); discriminate E|intros (e & E & _); discriminate E]|].
    split; [intros (z & E); discriminate E|]. split; [intros (z & E); discriminate E|]. left. eexists. reflexivity.
  - split; [split; [intros (z & E); discriminate E|discriminate]|]. split; [split; [reflexivity|intros _; eexists; reflexivity]|]. split; [split; [intros (z & E); discriminate E|intros (e & E & _); discriminate E]|].
    split; [intros (z & E); discriminate E|]. split; [intros (z & E); discriminate E|]. right. left. eexists. reflexivity.
  - assert (~ permitted pton p e) as Hno by (intros X; apply Hpe in X; discriminate X).
    split; [split; [intros (z & E); discriminate E|discriminate]|]. split; [split; [intros (z & E); discriminate E|discriminate]|].
    split; [split; [intros (z & E); discriminate E|intros (e0 & E & X); injection E as <-; contradiction]|].
    split; [intros (z & E); discriminate E|]. split; [eauto|]. do 4 right. eexists. reflexivity.
  - assert (permitted pton p e) as Hyes by (apply Hpe; reflexivity).
    split; [split; [intros (z & E); discriminate E|discriminate]|]. split; [split; [intros (z & E); discriminate E|discriminate]|].
    split; [split; [eauto|intros _; eexists; reflexivity]|].
    split; [intros (z & E); discriminate E|]. split; [intros (z & E); discriminate E|]. do 2 right. left. eexists. reflexivity.
  - assert (~ permitted pton p e) as Hno by (intros X; apply Hpe in X; apply Ok_inj in X; contradiction).
    pose proof (forbidden_if pton p ci e x Hp Hci H Hne) as Hf. destruct (text_begins _ _ _ H Hne) as (rest & ->).
    split; [split; [intros (z & E); discriminate E|discriminate]|]. split; [split; [intros (z & E); discriminate E|discriminate]|].
    split; [split; [intros (z & E); discriminate E|intros (e0 & E & X); injection E as <-; contradiction]|].
    split; [eauto|]. split; [intros (z & E); discriminate E|]. do 3 right. left. eexists. rewrite sapp_assoc. reflexivity.
Qed.
Print Assumptions C113_report.
(** A report of an error gives its code and its message, and the error is that of the check. *)
Theorem C113_error : forall ci e r, Report ci (FileOk e) r ->
  (begins "Error: " r <-> exists c name m, ReasonEntryViolatesConstraint (mkEntry (2 * 2 ^ 24 + local_id (pe_table_id e)) (pe_match e) (pe_action e) (pe_priority e)) ci = Err c m /\
     In (c, name) written_codes /\ r = "Error: " ++ name ++ ": " ++ m ++ nl ++ nl).
Proof.
  intros ci e r H. rewrite <- C53_coerced_id. fold (coerce_entry e). inversion H as [| |? e' c m E1 E2 E3 E4 Hr|? e' E1 E2 E3 E4 Hr|? e' x E1 E2 E3 E4 Hr Hne]; subst; assert (e' = coerce_entry e) as -> by (apply same_entry; assumption); clear E1 E2 E3 E4.
  - split; [intros _|intros _; eexists; reflexivity]. exists c, (code_name c), m. split; [exact Hr|]. split; [destruct c; cbn; auto 8|reflexivity].
  - split; [intros (z & E); discriminate E|intros (c & n & m & E & _); congruence].
  - split; [|intros (c & n & m & E & _); congruence]. intros (z & E). destruct (text_begins _ _ _ Hr Hne) as (rest & ->). discriminate E.
Qed.
Print Assumptions C113_error.
(** No entry is both. *)
Theorem C113_exclusive : forall pton p ci e, pton_ok pton -> P4ToConstraintInfo pton (coerce_p4info p) = Ok ci -> ~ (permitted pton p e /\ forbidden pton p e).
Proof. intros pton p ci e Hp Hci (H1 & H2). exact (forbidden_not pton p ci e Hp Hci H2 H1). Qed.
Print Assumptions C113_exclusive.

Lemma coerced_decls p : Forall2 (fun d d' => pt_match_fields d' = pt_match_fields d /\ pr_name (pt_preamble d') = pr_name (pt_preamble d) /\ pr_annotations (pt_preamble d') = pr_annotations (pt_preamble d) /\
    is_table_id (pr_id (pt_preamble d')) /\ local_id (pr_id (pt_preamble d')) = local_id (pr_id (pt_preamble d))) (p4_tables p) (p4_tables (coerce_p4info p)).
Proof.
  cbn [p4_tables coerce_p4info]. induction (p4_tables p) as [|d ds IH]; constructor; [|exact IH]. do 3 (split; [reflexivity|]). cbn [pt_preamble pr_id coerce_table].
  split; [exact (proj1 (proj2 (C53_idempotent _)))|apply local_coerced].
Qed.
Lemma proper_id i j : is_table_id i -> local_id i = local_id j -> i = CoerceToTableId j.
Proof. intros H E. apply C53_idempotent in H. rewrite <- H, !C53_coerced_id. now rewrite E. Qed.
Lemma coerced_only p p' : p4_actions p' = p4_actions p -> Forall2 (fun d d' => pt_match_fields d' = pt_match_fields d /\ pr_name (pt_preamble d') = pr_name (pt_preamble d) /\ pr_annotations (pt_preamble d') = pr_annotations (pt_preamble d) /\
    is_table_id (pr_id (pt_preamble d')) /\ local_id (pr_id (pt_preamble d')) = local_id (pr_id (pt_preamble d))) (p4_tables p) (p4_tables p') -> p' = coerce_p4info p.
Proof.
  destruct p as [ts acts], p' as [ts' acts']. cbn [p4_tables p4_actions]. intros -> H. unfold coerce_p4info. cbn [p4_tables p4_actions]. f_equal. induction H as [|d d' ds ds' (H1 & H2 & H3 & H4 & H5) _ IH]; [reflexivity|]. cbn [map]. f_equal; [|exact IH].
  destruct d as [[i n l] fs], d' as [[i' n' l'] fs']. unfold coerce_table. cbn [pt_preamble pr_id pr_name pr_annotations pt_match_fields] in *. subst. f_equal. f_equal. now apply proper_id.
Qed.
(** It exits with 1 exactly if there is such a complaint, which is then all that is printed. *)
Theorem C113_complaint : forall pton flag f files run, p4check pton flag f files = Ok run ->
  (r_exit run = 1%Z <-> exists m, Complaint pton flag f m) /\
  (forall m, Complaint pton flag f m -> r_stdout run = "" /\ r_stderr run = m) /\
  (r_exit run <> 1%Z -> r_exit run = 0%Z /\ r_stderr run = "").
Proof.
  intros pton flag f files run. unfold p4check. destruct (String.eqb_spec flag "") as [E|Hf].
  { intros H. apply Ok_inj in H as <-. cbn [r_exit r_stdout r_stderr]. split; [split; [intros _; eexists; now apply cp_flag|reflexivity]|]. split; [|intros X; now destruct X]. intros m H. inversion H; subst; try contradiction. auto. }
  destruct f as [| |p].
  { intros H. apply Ok_inj in H as <-. cbn [r_exit r_stdout r_stderr]. split; [split; [intros _; eexists; now apply cp_missing|reflexivity]|]. split; [|intros X; now destruct X]. intros m H. inversion H; subst; try contradiction. auto. }
  { intros H. apply Ok_inj in H as <-. cbn [r_exit r_stdout r_stderr]. split; [split; [intros _; eexists; now apply cp_bad|reflexivity]|]. split; [|intros X; now destruct X]. intros m H. inversion H; subst; try contradiction. auto. }
  destruct (P4ToConstraintInfo pton (coerce_p4info p)) as [ci|c m0|w] eqn:E; [| |discriminate].
  - assert (forall m, ~ Complaint pton flag (FileOk p) m) as Hno. { intros m H. inversion H as [|?|?|? p' c m' _ Ha Ht Hl]; subst; [contradiction|]. rewrite (coerced_only _ _ Ha Ht), E in Hl. discriminate Hl. }
    intros H. apply bind_ok in H as (out & _ & H). apply Ok_inj in H as <-. cbn [r_exit r_stdout r_stderr]. split; [split; [discriminate|intros (m & H); destruct (Hno m H)]|]. split; [intros m H; destruct (Hno m H)|auto].
  - intros H. apply Ok_inj in H as <-. cbn [r_exit r_stdout r_stderr]. split; [split; [intros _; exists m0|reflexivity]|].
    + exact (cp_load pton flag p (coerce_p4info p) c m0 Hf eq_refl (coerced_decls p) E).
    + split; [|intros X; now destruct X]. intros m H. inversion H as [|?|?|? p' c' m' _ Ha Ht Hl]; subst; [contradiction|]. rewrite (coerced_only _ _ Ha Ht), E in Hl. injection Hl as _ <-. auto.
Qed.
Print Assumptions C113_complaint.

(** Table 3 in the files and the P4Info; one file satisfies, one violates, one names no table. *)
Lemma printed_loads : P4ToConstraintInfo pton1 (coerce_p4info cli_info) = Ok cli_ci.
Proof. exact (proj1 C53_case). Qed.
Definition first_report (f : file p4_entry) : string := match entry_report cli_ci f with Ok r => r | _ => "" end.
Definition bad_entry : p4_entry := mkEntry 3 [] None 5.
Definition odd_entry : p4_entry := mkEntry 4 [] None 5.
Lemma first_ok : Report cli_ci (FileOk sg_entry) (first_report (FileOk sg_entry)) /\ Report cli_ci (FileOk odd_entry) (first_report (FileOk odd_entry)) /\ Report cli_ci (FileOk bad_entry) (first_report (FileOk bad_entry)).
Proof. split; [|split]; apply report_iff; vm_compute; reflexivity. Qed.
Example C113_case : permitted pton1 cli_info sg_entry /\ ~ permitted pton1 cli_info odd_entry /\ begins "Error: " (first_report (FileOk odd_entry)) /\
  forbidden pton1 cli_info bad_entry /\ Complaint pton1 "info" FileBad ("Unable to parse p4info file: info" ++ nl).
Proof.
  destruct first_ok as (H1 & H2 & H3). split; [|split; [|split; [|split]]].
  - destruct (C113_report pton1 cli_info cli_ci _ _ pton1_ok printed_loads H1) as (_ & _ & (H & _) & _). assert (begins "Constraint satisfied" (first_report (FileOk sg_entry))) as B by (exists (nl ++ nl); vm_compute; reflexivity).
    destruct (H B) as (e & E & X). injection E as <-. exact X.
  - destruct (C113_report pton1 cli_info cli_ci _ _ pton1_ok printed_loads H2) as (_ & _ & (_ & H) & _). intros X. destruct (H (ex_intro _ odd_entry (conj eq_refl X))) as (z & E). vm_compute in E. discriminate E.
  - exists (substring 7 1000 (first_report (FileOk odd_entry))). vm_compute. reflexivity.
  - destruct (C113_report pton1 cli_info cli_ci _ _ pton1_ok printed_loads H3) as (_ & _ & _ & H & _). assert (begins "All " (first_report (FileOk bad_entry))) as B by (exists (substring 4 1000 (first_report (FileOk bad_entry))); vm_compute; reflexivity).
    destruct (H B) as (e & E & X). injection E as <-. exact X.
  - exact (cp_bad pton1 "info" ltac:(discriminate)).
Qed.
