(** C53: the command line tool. *)
From Coq Require Import String Ascii List ZArith NArith Bool Lia.
From Verif Require Import Base Num Token Ast Quote AstConstructors Info TypeChecker Parser ConstraintInfo Interpreter Cli SpecLexer SpecGrammar SpecTyping SpecSemantics SpecInfo SpecMisc StrFacts LiteralFacts SemFacts EntryFacts PropertiesParser PropertiesInfo PropertiesVerdict SymDemo.
Import ListNotations.
Open Scope string_scope.

(** * Table ids *)
Theorem C53_coerced_id : forall id, CoerceToTableId id = (2 * 2 ^ 24 + local_id id)%N.
Proof.
  intros id. unfold CoerceToTableId, local_id. change 16777215%N with (N.ones 24). rewrite N.land_ones. rewrite <- N.lxor_lor, <- N.add_nocarry_lxor, N.add_comm; [rewrite N.shiftl_mul_pow2; reflexivity|..].
  1,2: apply N.bits_inj; intros i; rewrite N.land_spec, N.bits_0; destruct (N.lt_ge_cases i 24) as [Hi|Hi]; [rewrite (N.shiftl_spec_low 2 24 i Hi); apply andb_false_r|].
  1,2: rewrite N.mod_pow2_bits_high by exact Hi; reflexivity.
Qed.
Print Assumptions C53_coerced_id.
Lemma local_coerced id : local_id (CoerceToTableId id) = local_id id.
Proof. rewrite C53_coerced_id. unfold local_id. rewrite N.add_comm, N.mod_add by discriminate. apply N.mod_mod. discriminate. Qed.
Theorem C53_idempotent : forall id, CoerceToTableId (CoerceToTableId id) = CoerceToTableId id /\ is_table_id (CoerceToTableId id) /\ (CoerceToTableId id = id <-> is_table_id id).
Proof.
  intros id. assert (is_table_id (CoerceToTableId id)) as Ht. { unfold is_table_id. rewrite C53_coerced_id, N.add_comm, N.div_add by discriminate. unfold local_id. rewrite N.div_small; [reflexivity|apply N.mod_lt; discriminate]. }
  split; [rewrite C53_coerced_id, local_coerced; now rewrite C53_coerced_id|]. split; [exact Ht|]. split; [intros E; now rewrite <- E|]. intros H. rewrite C53_coerced_id. unfold is_table_id in H. unfold local_id. rewrite (N.div_mod id (2 ^ 24)) at 2 by discriminate. rewrite H. lia.
Qed.
Print Assumptions C53_idempotent.
(** P4Infos and entries with proper table ids are checked as they are. *)
Theorem C53_proper_ids : (forall p, (forall d, In d (p4_tables p) -> is_table_id (table_id d)) -> coerce_p4info p = p) /\ (forall e, is_table_id (pe_table_id e) -> coerce_entry e = e).
Proof.
  split.
  - intros [ts acts] H. unfold coerce_p4info. cbn in *. f_equal. induction ts as [|t ts IH]; [reflexivity|]. cbn. rewrite IH by (intros d Hd; apply H; now right). f_equal. specialize (H t (or_introl eq_refl)).
    destruct t as [[i n l] fs]. unfold coerce_table. cbn in *. apply C53_idempotent in H. now rewrite H.
  - intros [i fs a pr] H. unfold coerce_entry. cbn in *. apply C53_idempotent in H. now rewrite H.
Qed.
Print Assumptions C53_proper_ids.

(** * Reports *)
Lemma joined_cons a l : String.concat "" (a :: l) = a ++ String.concat "" l.
Proof. destruct l; [cbn; now rewrite sapp_nil_r|reflexivity]. Qed.
Lemma report_iff ci f r : entry_report ci f = Ok r <-> Report ci f r.
Proof.
  split.
  - destruct f as [| |e]; cbn; [intros H; apply Ok_inj in H as <-; constructor..|]. destruct (ReasonEntryViolatesConstraint (coerce_entry e) ci) as [x|c m|w] eqn:E; [| |discriminate].
    + destruct (String.eqb_spec x "") as [->|Hx]; intros H; apply Ok_inj in H as <-; [apply (rp_satisfied ci e (coerce_entry e))|apply (rp_violated ci e (coerce_entry e))]; auto; apply C53_coerced_id.
    + intros H; apply Ok_inj in H as <-. unfold ToString. rewrite !sapp_assoc. apply (rp_error ci e (coerce_entry e)); auto. apply C53_coerced_id.
  - assert (forall e e', pe_table_id e' = (2 * 2 ^ 24 + local_id (pe_table_id e))%N -> pe_match e' = pe_match e -> pe_action e' = pe_action e -> pe_priority e' = pe_priority e -> e' = coerce_entry e) as He.
    { intros [i1 f1 a1 p1] [i2 f2 a2 p2]; unfold coerce_entry; cbn [pe_table_id pe_match pe_action pe_priority]; rewrite C53_coerced_id; intros -> -> -> ->; reflexivity. }
    destruct 1 as [| |e e' c m H1 H2 H3 H4 E|e e' H1 H2 H3 H4 E|e e' r H1 H2 H3 H4 E Hr]; cbn; try reflexivity; rewrite (He e e' H1 H2 H3 H4) in E; rewrite E.
    + unfold ToString. now rewrite !sapp_assoc.
    + reflexivity.
    + destruct (String.eqb_spec r ""); [contradiction|reflexivity].
Qed.
Lemma reports_iff ci files out : entry_reports ci files = Ok out <-> exists outs, Forall2 (Printed ci) files outs /\ out = String.concat "" outs.
Proof.
  revert out. induction files as [|[name f] files IH]; intros out; cbn [entry_reports].
  - split; [intros H; apply Ok_inj in H as <-; exists []; split; [constructor|reflexivity]|intros (outs & H & ->); inversion H; reflexivity].
  - rewrite bind_ok. split.
    + intros (r & Hr & H). apply bind_ok in H as (rest & Hrest & H). apply Ok_inj in H as <-. apply report_iff in Hr. apply IH in Hrest as (outs & Ho & ->). eexists (_ :: outs). split; [constructor; [constructor; exact Hr|exact Ho]|].
      rewrite joined_cons. unfold entry_header. rewrite !sapp_assoc. reflexivity.
    + intros (outs & H & ->). inversion H as [|? o ? outs' Hp Hf]; subst. inversion Hp as [n f' r Hr]; subst. apply report_iff in Hr. exists r. split; [exact Hr|]. apply bind_ok. exists (String.concat "" outs').
      split; [apply IH; eauto|]. rewrite joined_cons. unfold entry_header. rewrite !sapp_assoc. reflexivity.
Qed.
(** With a P4Info that loads, p4check prints one report per file, in order, and exits with 0. *)
Theorem C53_reports : forall pton flag p ci files run, flag <> "" -> P4ToConstraintInfo pton (coerce_p4info p) = Ok ci ->
  (p4check pton flag (FileOk p) files = Ok run <-> exists outs, Forall2 (Printed ci) files outs /\ run = mkRun 0 (String.concat "" outs) "").
Proof.
  intros pton flag p ci files run Hf Hp. unfold p4check. destruct (String.eqb_spec flag "") as [|_]; [contradiction|]. rewrite Hp, bind_ok. split.
  - intros (out & H & E). apply Ok_inj in E as <-. apply reports_iff in H as (outs & H & ->). eauto.
  - intros (outs & H & ->). exists (String.concat "" outs). split; [apply reports_iff; eauto|reflexivity].
Qed.
Print Assumptions C53_reports.
(** The report of a file depends on this file only. *)
Theorem C53_independent : forall ci f r r', Printed ci f r -> Printed ci f r' -> r = r'.
Proof. intros ci f r r' H H'. inversion H as [? f0 x Hx]; subst. inversion H' as [? ? y Hy]; subst. apply report_iff in Hx, Hy. rewrite Hx in Hy. apply Ok_inj in Hy. congruence. Qed.
Print Assumptions C53_independent.
(** It exits with 1, printing no report, exactly if no P4Info was given or it cannot be loaded. *)
Theorem C53_exit : forall pton flag p files run, p4check pton flag p files = Ok run ->
  (r_exit run = 0%Z /\ flag <> "" /\ (exists q ci, p = FileOk q /\ P4ToConstraintInfo pton (coerce_p4info q) = Ok ci) \/
   r_exit run = 1%Z /\ r_stdout run = "" /\ (flag = "" \/ p = FileMissing \/ p = FileBad \/ exists q c, p = FileOk q /\ P4ToConstraintInfo pton (coerce_p4info q) = Err c (r_stderr run))).
Proof.
  intros pton flag p files run. unfold p4check. destruct (String.eqb_spec flag "") as [->|Hf]; [intros H; apply Ok_inj in H as <-; right; cbn; auto 8|]. destruct p as [| |q]; [intros H; apply Ok_inj in H as <-; right; cbn; auto 8|intros H; apply Ok_inj in H as <-; right; cbn; auto 8|]. 
  destruct (P4ToConstraintInfo pton (coerce_p4info q)) as [ci|c m|w] eqn:E; [| |discriminate].
  - intros H. apply bind_ok in H as (out & _ & H). apply Ok_inj in H as <-. left. cbn. eauto 7.
  - intros H. apply Ok_inj in H as <-. right. cbn. eauto 9.
Qed.
Print Assumptions C53_exit.
(** An entry is checked against the table whose id agrees with its own in the lower 24 bits. *)
Theorem C53_table_found : forall pton p ci e t, P4ToConstraintInfo pton (coerce_p4info p) = Ok ci -> GetTableInfoOrNull ci (pe_table_id (coerce_entry e)) = Some t ->
  exists d, In d (p4_tables p) /\ local_id (table_id d) = local_id (pe_table_id e) /\ ti_name t = pr_name (pt_preamble d) /\
    forall d', In d' (p4_tables p) -> local_id (table_id d') = local_id (pe_table_id e) -> d' = d.
Proof.
  intros pton p ci e t Hp Ht. destruct (proj1 (C37_success_iff pton (coerce_p4info p)) (ex_intro _ ci Hp)) as (HN & _). destruct (C37_exact _ _ _ Hp) as (_ & H & _).
  destruct (H _ _ Ht) as (d' & ks & Hd & Ei & HT). cbn [p4_tables coerce_p4info] in Hd, HN. apply in_map_iff in Hd as (d & <- & Hd). exists d. split; [exact Hd|].
  assert (local_id (table_id d) = local_id (pe_table_id e)) as El. { rewrite <- (local_coerced (table_id d)), <- (local_coerced (pe_table_id e)). change (CoerceToTableId (table_id d)) with (table_id (coerce_table d)). now rewrite Ei. }
  split; [exact El|]. split; [exact (to_name _ _ _ _ HT)|]. intros d' Hd' E'. rewrite map_map in HN. apply (nodup_keys _ _ _ _ HN); auto. unfold table_id, coerce_table. cbn. fold (table_id d') (table_id d). rewrite !C53_coerced_id. congruence.
Qed.
Print Assumptions C53_table_found.
(** Tables whose ids agree there cannot be loaded together. *)
Theorem C53_collision : forall pton p l1 d l2 d' l3, p4_tables p = (l1 ++ d :: l2 ++ d' :: l3)%list -> local_id (table_id d) = local_id (table_id d') -> forall ci, P4ToConstraintInfo pton (coerce_p4info p) <> Ok ci.
Proof.
  intros pton p l1 d l2 d' l3 E El ci H. destruct (proj1 (C37_success_iff pton (coerce_p4info p)) (ex_intro _ ci H)) as (HN & _). cbn [p4_tables coerce_p4info] in HN. rewrite E, !map_app in HN. cbn [map] in HN. apply NoDup_remove in HN as [_ HN]. apply HN.
  apply in_or_app. right. rewrite !map_app. apply in_or_app. right. left. unfold table_id, coerce_table. cbn. fold (table_id d) (table_id d'). rewrite !C53_coerced_id. congruence.
Qed.
Print Assumptions C53_collision.
(** A run on a satisfied, a violating, a missing and a wrong entry; table id 3 in the files and the P4Info. *)
Definition cli_info : p4info := mkP4Info [one_table ac_text sg_fields] [].
Definition cli_files : list (string * file p4_entry) :=
  [("ok", FileOk sg_entry); ("bad", FileOk (mkEntry 3 [] None 5)); ("none", FileMissing); ("odd", FileOk (mkEntry 4 [] None 5)); ("text", FileBad); ("again", FileOk (mkEntry 33554435 sg_match None 5))].
Definition cli_ci : constraint_info := the (mkInfo [] []) (P4ToConstraintInfo pton1 (coerce_p4info cli_info)).
Example C53_case : P4ToConstraintInfo pton1 (coerce_p4info cli_info) = Ok cli_ci /\ (exists run, p4check pton1 "info" (FileOk cli_info) cli_files = Ok run /\ r_exit run = 0%Z) /\
  Printed cli_ci ("ok", FileOk sg_entry) (entry_header "ok" ++ "Constraint satisfied" ++ nl ++ nl) /\ ReasonEntryViolatesConstraint (coerce_entry (mkEntry 3 [] None 5)) cli_ci <> Ok "" /\
  (exists t, GetTableInfoOrNull cli_ci (pe_table_id (coerce_entry sg_entry)) = Some t /\ ti_name t = "sg") /\ is_table_id 33554435 /\ ~ is_table_id 3.
Proof.
  split; [vm_compute; reflexivity|]. split; [vm_compute; eexists; split; reflexivity|].
  split. { unfold entry_header. rewrite !sapp_assoc. constructor. apply report_iff. vm_compute. reflexivity. }
  split; [vm_compute; discriminate|]. split; [vm_compute; eexists; split; reflexivity|]. split; [reflexivity|discriminate].
Qed.
