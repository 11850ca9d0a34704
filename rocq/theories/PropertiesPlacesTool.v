(** C117, continued: what p4check prints. *)
From Coq Require Import String Ascii List ZArith NArith Bool.
From Verif Require Import Base Num Token Ast AstConstructors Info ConstraintInfo Interpreter Cli SpecGrammar SpecInfo SpecCrash SpecPrinted SpecNames SpecPlaces SpecPlacesTool StrFacts PropertiesParser PropertiesVerdict PropertiesPlaces PropertiesCrash PropertiesPrinted.
Import ListNotations.
Open Scope string_scope.

Lemma coerced_apart note p p' : info_apart note p p' -> info_apart note (coerce_p4info p) (coerce_p4info p').
Proof.
  intros [HT HA]. split; [|exact HA]. cbn [p4_tables coerce_p4info]. clear HA. induction HT as [|d d' l l' ((E & N) & M) _ IH]; constructor; [|exact IH]. split; [|exact M]. split; [cbn; now rewrite E|exact N].
Qed.
Lemma coerced_widths p : sane_widths p -> sane_widths (coerce_p4info p).
Proof. intros [HT HA]. split; [|exact HA]. intros d f Hd Hf. cbn [p4_tables coerce_p4info] in Hd. apply in_map_iff in Hd as (d0 & <- & Hd). exact (HT d0 f Hd Hf). Qed.
Lemma reports_apart ci ci' : (forall e, similar same_verdict (ReasonEntryViolatesConstraint e ci) (ReasonEntryViolatesConstraint e ci')) -> forall files,
  similar (fun o o' => exists rs rs', List.length rs = List.length (map fst files) /\ Forall2 same_report rs rs' /\ o = output (map fst files) rs /\ o' = output (map fst files) rs') (entry_reports ci files) (entry_reports ci' files).
Proof.
  intros H. induction files as [|[n f] files IH]; [exists [], []; repeat split; constructor|]. cbn [entry_reports map fst].
  assert (similar same_report (entry_report ci f) (entry_report ci' f)) as HR.
  { destruct f as [| |e]; [apply sr_same|apply sr_same|]. cbn [entry_report]. specialize (H (coerce_entry e)). destruct (ReasonEntryViolatesConstraint (coerce_entry e) ci) as [r|c m|w] eqn:E, (ReasonEntryViolatesConstraint (coerce_entry e) ci') as [r'|c' m'|w'] eqn:E'; cbn [similar] in *; try contradiction; try exact H.
    - destruct (String.eqb_spec r "") as [R|R], (String.eqb_spec r' "") as [R'|R']; [apply sr_same|now elim R'; apply H|now elim R; apply H|]. destruct (text_begins _ _ _ E R) as (x & ->), (text_begins _ _ _ E' R') as (x' & ->). rewrite !sapp_assoc. apply sr_reason.
    - subst c'. unfold ToString. rewrite !sapp_assoc. apply sr_error. }
  destruct (entry_report ci f) as [r| |], (entry_report ci' f) as [r'| |]; cbn [similar bind] in *; try contradiction; try exact HR.
  destruct (entry_reports ci files) as [o| |], (entry_reports ci' files) as [o'| |]; cbn [similar bind] in *; try contradiction; try exact IH.
  destruct IH as (rs & rs' & L & F & -> & ->). exists (r :: rs), (r' :: rs'). split; [cbn; now rewrite L|]. split; [constructor; assumption|]. unfold entry_header. split; cbn [output]; now rewrite !sapp_assoc.
Qed.
(** The same p4check on the same entries: the exit code, and the kind of answer to each file, stay the same. *)
Theorem C117_tool : forall pton flag p p' files,
  info_apart of_file p p' \/ info_apart of_place p p' /\ pton_ok pton /\ sane_widths p /\ (forall ck cs, declares p ck cs -> one_line (cs_string cs)) ->
  similar (same_run (map fst files)) (p4check pton flag (FileOk p) files) (p4check pton flag (FileOk p') files).
Proof.
  intros pton flag p p' files H. unfold p4check. destruct (String.eqb flag ""); [left; cbn; auto|].
  assert (similar (fun ci ci' => forall entry, similar same_verdict (ReasonEntryViolatesConstraint entry ci) (ReasonEntryViolatesConstraint entry ci')) (P4ToConstraintInfo pton (coerce_p4info p)) (P4ToConstraintInfo pton (coerce_p4info p'))) as L.
  { destruct H as [H|(H & Hp & Hw & Hl)]; [now apply C117_files, coerced_apart|]. apply C117_one_line; [now apply coerced_apart|exact Hp|now apply coerced_widths|]. intros ck cs Hd. apply (Hl ck). now apply declares_coerced. }
  destruct (P4ToConstraintInfo pton (coerce_p4info p)) as [ci|c m|w], (P4ToConstraintInfo pton (coerce_p4info p')) as [ci'|c' m'|w']; cbn [similar] in L; try contradiction; [|left; cbn; auto|exact L].
  pose proof (reports_apart ci ci' L files) as K. destruct (entry_reports ci files) as [o| |], (entry_reports ci' files) as [o'| |]; cbn [similar bind] in *; try contradiction; try exact K. right. cbn. auto 6.
Qed.
Print Assumptions C117_tool.
(** The program of C117_case in two places: an entry that is accepted, two that are refused, one for an unknown table, and a missing file. *)
Definition place_files : list (string * file p4_entry) := [("a", FileOk (place_test 2 3)); ("b", FileOk (place_test 1 3)); ("c", FileMissing); ("d", FileOk (place_test 2 9)); ("e", FileOk (mkEntry 6 [] None 0))].
Definition place_out (notes : list string) : run := the (mkRun 9 "" "") (p4check pton1 "info" (FileOk (place_info notes)) place_files).
Example C117_tool_case : p4check pton1 "info" (FileOk (place_info [])) place_files = Ok (place_out []) /\ p4check pton1 "info" (FileOk (place_info place_notes)) place_files = Ok (place_out place_notes) /\
  r_exit (place_out []) = 0%Z /\ r_stdout (place_out []) <> r_stdout (place_out place_notes).
Proof. split; [vm_compute; reflexivity|]. split; [vm_compute; reflexivity|]. split; [vm_compute; reflexivity|]. vm_compute. discriminate. Qed.
