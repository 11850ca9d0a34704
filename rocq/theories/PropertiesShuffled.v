(** C38, continued: the order of match fields and parameters. *)
From Coq Require Import String Ascii List ZArith NArith Bool Lia Permutation.
From Verif Require Import Base Num Token Ast AstConstructors Parser Quote Info TypeChecker ConstraintInfo Interpreter Z3 Symbolic SpecTyping SpecSemantics SpecInfo SpecShuffled SpecOrder
  LiteralFacts SemFacts InfoFacts InfoFacts2 SymDemo PropertiesParser PropertiesVerdict PropertiesInfo PropertiesOrder.
Import ListNotations.
Open Scope string_scope.

Lemma f2_shuffle {A B} (R : A -> B -> Prop) l l' : Permutation l l' -> forall m, Forall2 R l m -> exists m', Permutation m m' /\ Forall2 R l' m'.
Proof.
  induction 1 as [|x l l' H IH|x y l|l l1 l2 H1 IH1 H2 IH2]; intros m Hm.
  - exists m. auto.
  - inversion Hm as [|? b ? m1 Hb Hm1]; subst. destruct (IH m1 Hm1) as (m' & P & F). exists (b :: m'). split; [now constructor|now constructor].
  - inversion Hm as [|? b ? m1 Hb Hm1]; subst. inversion Hm1 as [|? c ? m2 Hc Hm2]; subst. exists (c :: b :: m2). split; [constructor|repeat constructor; auto].
  - destruct (IH1 m Hm) as (m1 & P1 & F1). destruct (IH2 m1 F1) as (m2 & P2 & F2). exists m2. split; [eapply perm_trans; eauto|exact F2].
Qed.
Lemma nodup_shuffle {A B} (f : A -> B) l l' : Permutation l l' -> NoDup (map f l) -> NoDup (map f l').
Proof. intros P. apply Permutation_NoDup. now apply Permutation_map. Qed.
Lemma find_shuffle (l l' : list (string * key_info)) : Permutation l l' -> NoDup (map fst l) -> forall n, assoc_find String.eqb n l = assoc_find String.eqb n l'.
Proof.
  intros P HN. apply same_find; [exact HN|exact (nodup_shuffle _ _ _ P HN)|]. intros x. split; [apply Permutation_in; exact P|apply Permutation_in; now symmetry].
Qed.
Lemma insert_shuffle {F} (parse : F -> outcome key_info) what fs fs' bi bn : Permutation fs fs' -> insert_keys what (map parse fs) [] [] = Ok (bi, bn) ->
  exists bi' bn', insert_keys what (map parse fs') [] [] = Ok (bi', bn') /\ Permutation bi bi' /\ Permutation bn bn' /\ NoDup (map fst bn).
Proof.
  intros P H. apply insert_keys_ok in H as (ks & Hf & E & Hi & Hn); [|constructor..]. apply pair_equal_spec in E as [-> ->]. cbn [fst snd app] in *.
  rewrite forall2_map in Hf. destruct (f2_shuffle _ _ _ P ks Hf) as (ks' & Pk & Hf'). exists (map (fun k => (k_id k, k)) ks'), (map (fun k => (k_name k, k)) ks'). split; [|split; [now apply Permutation_map|split; [now apply Permutation_map|exact Hn]]].
  apply insert_keys_ok; [constructor..|]. exists ks'. split; [now rewrite forall2_map|]. split; [reflexivity|]. cbn [fst snd app]. split; [apply (nodup_shuffle fst (map (fun k => (k_id k, k)) ks)); [now apply Permutation_map|exact Hi]|apply (nodup_shuffle fst (map (fun k => (k_name k, k)) ks)); [now apply Permutation_map|exact Hn]].
Qed.
Lemma table_shuffle pton d d' t : shuffled_table d d' -> ParseTableInfo pton d = Ok t -> exists t', ParseTableInfo pton d' = Ok t' /\ table_reordered t t'.
Proof.
  intros [Ep P] H. unfold ParseTableInfo in *. rewrite <- Ep. apply bind_ok in H as ([bi bn] & Hk & H). destruct (insert_shuffle _ _ _ _ _ _ P Hk) as (bi' & bn' & Hk' & P1 & P2 & HN). rewrite Hk'. cbn [bind].
  apply bind_ok in H as ([cs|] & Hc & H); rewrite Hc; cbn [bind].
  - apply bind_ok in H as (e & He & H). rewrite He. cbn [bind]. apply bind_ok in H as (e' & He' & H). apply Ok_inj in H as <-.
    match goal with |- context [InferTable e ?x] => match type of He' with InferTable _ ?y = _ => assert (InferTable e x = InferTable e y) as E by (apply infer_ext_t; [intros n; symmetry; exact (find_shuffle _ _ P2 HN n)|reflexivity]) end end.
    rewrite E, He'. cbn [bind]. eexists. split; [reflexivity|]. repeat split; auto.
  - apply Ok_inj in H as <-. eexists. split; [reflexivity|]. repeat split; auto.
Qed.
Lemma action_shuffle pton d d' t : shuffled_action d d' -> ParseActionInfo pton d = Ok t -> exists t', ParseActionInfo pton d' = Ok t' /\ action_reordered t t'.
Proof.
  intros [Ep P] H. unfold ParseActionInfo in *. rewrite <- Ep. apply bind_ok in H as ([bi bn] & Hk & H). destruct (insert_shuffle _ _ _ _ _ _ P Hk) as (bi' & bn' & Hk' & P1 & P2 & HN). match goal with |- context [bind ?x _] => assert (x = Ok (bi', bn')) as Hk'' by exact Hk'; rewrite Hk'' end. cbn [bind].
  apply bind_ok in H as ([cs|] & Hc & H); rewrite Hc; cbn [bind].
  - apply bind_ok in H as (e & He & H). rewrite He. cbn [bind]. apply bind_ok in H as (e' & He' & H). apply Ok_inj in H as <-.
    match goal with |- context [InferAction e ?x] => match type of He' with InferAction _ ?y = _ => assert (InferAction e x = InferAction e y) as E by (apply infer_ext_a; [intros n; symmetry; exact (find_shuffle _ _ P2 HN n)|reflexivity]) end end.
    rewrite E, He'. cbn [bind]. eexists. split; [reflexivity|]. repeat split; auto.
  - apply Ok_inj in H as <-. eexists. split; [reflexivity|]. repeat split; auto.
Qed.
Lemma shuffled_flip p p' : shuffled p p' -> shuffled p' p.
Proof.
  assert (forall {A} (R : A -> A -> Prop) l m n, (forall a b, R a b -> R b a) -> Permutation l m -> Forall2 R m n -> exists m', Permutation n m' /\ Forall2 R m' l) as HG.
  { intros A R l m n HR P F. assert (Forall2 (fun a b => R a b) m n) as F' by exact F. destruct (f2_shuffle R m l (Permutation_sym P) n F') as (n' & Pn & Fn). exists n'. split; [exact Pn|]. clear - HR Fn. induction Fn; constructor; auto. }
  intros [(l & P1 & F1) (m & P2 & F2)]. split; [apply (HG _ _ _ _ _ (fun a b (H : shuffled_table a b) => conj (eq_sym (proj1 H)) (Permutation_sym (proj2 H))) P1 F1)|apply (HG _ _ _ _ _ (fun a b (H : shuffled_action a b) => conj (eq_sym (proj1 H)) (Permutation_sym (proj2 H))) P2 F2)].
Qed.
Lemma f2_of {A B} (R : A -> B -> Prop) l m b : Forall2 R l m -> In b m -> exists a, In a l /\ R a b.
Proof. induction 1 as [|x y l m Hxy H IH]; intros Hi; [destruct Hi|]. destruct Hi as [->|Hi]; [exists x; split; [now left|auto]|]. destruct (IH Hi) as (a & ? & ?). exists a. split; [now right|auto]. Qed.
Lemma shuffled_loads pton p p' ci : shuffled p p' -> P4ToConstraintInfo pton p = Ok ci -> exists ci', P4ToConstraintInfo pton p' = Ok ci'.
Proof.
  intros [(l & P1 & F1) (m & P2 & F2)] H. apply info_iff. destruct (proj1 (info_iff pton p) (ex_intro _ ci H)) as (N1 & N2 & T & A).
  split; [|split; [|split]].
  - assert (map (fun d => pr_id (pt_preamble d)) l = map (fun d => pr_id (pt_preamble d)) (p4_tables p')) as E by (clear - F1; induction F1 as [|? ? ? ? [X _]]; cbn; congruence). rewrite <- E. exact (nodup_shuffle _ _ _ P1 N1).
  - assert (map (fun d => pr_id (pad_preamble d)) m = map (fun d => pr_id (pad_preamble d)) (p4_actions p')) as E by (clear - F2; induction F2 as [|? ? ? ? [X _]]; cbn; congruence). rewrite <- E. exact (nodup_shuffle _ _ _ P2 N2).
  - intros d' Hd'. destruct (f2_of _ _ _ _ F1 Hd') as (d & Hd & HS). apply (Permutation_in _ (Permutation_sym P1)) in Hd. destruct (T d Hd) as [t Ht]. destruct (table_shuffle pton d d' t HS Ht) as (t' & Ht' & _). eauto.
  - intros d' Hd'. destruct (f2_of _ _ _ _ F2 Hd') as (d & Hd & HS). apply (Permutation_in _ (Permutation_sym P2)) in Hd. destruct (A d Hd) as [t Ht]. destruct (action_shuffle pton d d' t HS Ht) as (t' & Ht' & _). eauto.
Qed.
Lemma f2_to {A B} (R : A -> B -> Prop) l m a : Forall2 R l m -> In a l -> exists b, In b m /\ R a b.
Proof. induction 1 as [|x y l m Hxy H IH]; intros Hi; [destruct Hi|]. destruct Hi as [->|Hi]; [exists y; split; [now left|auto]|]. destruct (IH Hi) as (b & ? & ?). exists b. split; [now right|auto]. Qed.
Lemma table_forth pton p p' ci ci' id t : shuffled p p' -> P4ToConstraintInfo pton p = Ok ci -> P4ToConstraintInfo pton p' = Ok ci' -> GetTableInfoOrNull ci id = Some t -> exists t', GetTableInfoOrNull ci' id = Some t' /\ table_reordered t t'.
Proof.
  intros [(l & P1 & F1) _] H H' Ht. apply (proj1 (info_lookup _ _ _ H)) in Ht as (d & Hd & -> & Hp). apply (Permutation_in _ P1) in Hd. destruct (f2_to _ _ _ _ F1 Hd) as (d' & Hd' & HS). destruct (table_shuffle _ _ _ _ HS Hp) as (t' & Ht' & HR).
  exists t'. split; [|exact HR]. apply (proj1 (info_lookup _ _ _ H')). exists d'. split; [exact Hd'|]. split; [|exact Ht']. now rewrite (proj1 HS).
Qed.
Lemma action_forth pton p p' ci ci' id t : shuffled p p' -> P4ToConstraintInfo pton p = Ok ci -> P4ToConstraintInfo pton p' = Ok ci' -> GetActionInfoOrNull ci id = Some t -> exists t', GetActionInfoOrNull ci' id = Some t' /\ action_reordered t t'.
Proof.
  intros [_ (l & P1 & F1)] H H' Ht. apply (proj2 (info_lookup _ _ _ H)) in Ht as (d & Hd & -> & Hp). apply (Permutation_in _ P1) in Hd. destruct (f2_to _ _ _ _ F1 Hd) as (d' & Hd' & HS). destruct (action_shuffle _ _ _ _ HS Hp) as (t' & Ht' & HR).
  exists t'. split; [|exact HR]. apply (proj2 (info_lookup _ _ _ H')). exists d'. split; [exact Hd'|]. split; [|exact Ht']. now rewrite (proj1 HS).
Qed.
Lemma shuffled_reordered pton p p' ci ci' : shuffled p p' -> P4ToConstraintInfo pton p = Ok ci -> P4ToConstraintInfo pton p' = Ok ci' -> reordered ci ci'.
Proof.
  intros HS H H'. pose proof (shuffled_flip _ _ HS) as HS'. split; intros id.
  - destruct (GetTableInfoOrNull ci id) as [t|] eqn:E. { destruct (table_forth _ _ _ _ _ _ _ HS H H' E) as (t' & -> & HR). now constructor. }
    destruct (GetTableInfoOrNull ci' id) as [t'|] eqn:E'; [|constructor]. destruct (table_forth _ _ _ _ _ _ _ HS' H' H E') as (t & E2 & _). congruence.
  - destruct (GetActionInfoOrNull ci id) as [t|] eqn:E. { destruct (action_forth _ _ _ _ _ _ _ HS H H' E) as (t' & -> & HR). now constructor. }
    destruct (GetActionInfoOrNull ci' id) as [t'|] eqn:E'; [|constructor]. destruct (action_forth _ _ _ _ _ _ _ HS' H' H E') as (t & E2 & _). congruence.
Qed.
Lemma reordered_same ci : reordered ci ci.
Proof.
  split; intros id; [destruct (GetTableInfoOrNull ci id)|destruct (GetActionInfoOrNull ci id)]; constructor; repeat split; reflexivity.
Qed.

(** A program whose tables, actions, match fields and parameters are listed in another order loads if it did before, and then what is known about each table and action is the same, up to the order of its keys. *)
Theorem C38_fields : forall pton p p', shuffled p p' ->
  ((exists ci, P4ToConstraintInfo pton p = Ok ci) <-> (exists ci', P4ToConstraintInfo pton p' = Ok ci')) /\
  forall ci ci', P4ToConstraintInfo pton p = Ok ci -> P4ToConstraintInfo pton p' = Ok ci' -> reordered ci ci'.
Proof.
  intros pton p p' HS. split; [split; intros [ci H]; [exact (shuffled_loads _ _ _ _ HS H)|exact (shuffled_loads _ _ _ _ (shuffled_flip _ _ HS) H)]|]. intros ci ci'. now apply shuffled_reordered.
Qed.
Print Assumptions C38_fields.
(** All entries get the same answer, failures and their messages included, except that of several missing keys another one may be named. *)
Theorem C38_answers : forall pton p p' ci ci' entry, shuffled p p' -> P4ToConstraintInfo pton p = Ok ci -> P4ToConstraintInfo pton p' = Ok ci' ->
  ReasonEntryViolatesConstraint entry ci = ReasonEntryViolatesConstraint entry ci' \/
  exists d ks k k', In d (p4_tables p) /\ table_id d = pe_table_id entry /\ Forall2 key_decl (pt_match_fields d) ks /\
    k <> k' /\ missing ks (pe_match entry) k /\ missing ks (pe_match entry) k' /\
    complaint (pr_name (pt_preamble d)) k (ReasonEntryViolatesConstraint entry ci) /\ complaint (pr_name (pt_preamble d)) k' (ReasonEntryViolatesConstraint entry ci').
Proof. intros pton p p' ci ci' entry HS H H'. exact (C108_determined pton p ci ci ci' entry H (reordered_same ci) (shuffled_reordered _ _ _ _ _ HS H H')). Qed.
Print Assumptions C38_answers.
(** Solvers answer the same in all conversations. *)
Theorem C38_solver : forall check pton p p' ci ci' id t t' skip l, shuffled p p' -> P4ToConstraintInfo pton p = Ok ci -> P4ToConstraintInfo pton p' = Ok ci' ->
  GetTableInfoOrNull ci id = Some t -> GetTableInfoOrNull ci' id = Some t' -> conversation check pton t skip l = conversation check pton t' skip l.
Proof. intros check pton p p' ci ci' id t t' skip l HS H H'. exact (C108_solver check pton p ci ci ci' id t t' skip l H (reordered_same ci) (shuffled_reordered _ _ _ _ _ HS H H')). Qed.
Print Assumptions C38_solver.

(** The demo program, backwards. *)
Definition sh_info : p4info := mkP4Info (rev (map (fun d => mkP4Table (pt_preamble d) (rev (pt_match_fields d))) (sy_decl :: p4_tables ex_info)))
  (rev (map (fun d => mkP4ActionDecl (pad_preamble d) (rev (pad_params d))) (p4_actions ex_info))).
Lemma rev_shuffled (l : list p4_table) : exists m, Permutation l m /\ Forall2 shuffled_table m (rev (map (fun d => mkP4Table (pt_preamble d) (rev (pt_match_fields d))) l)).
Proof.
  exists (rev l). split; [apply Permutation_rev|]. rewrite <- map_rev. induction (rev l) as [|d m IH]; constructor; [|exact IH]. split; [reflexivity|apply Permutation_rev].
Qed.
Lemma rev_shuffled_actions (l : list p4_action_decl) : exists m, Permutation l m /\ Forall2 shuffled_action m (rev (map (fun d => mkP4ActionDecl (pad_preamble d) (rev (pad_params d))) l)).
Proof.
  exists (rev l). split; [apply Permutation_rev|]. rewrite <- map_rev. induction (rev l) as [|d m IH]; constructor; [|exact IH]. split; [reflexivity|apply Permutation_rev].
Qed.
Example C38_fields_case : shuffled (mkP4Info (sy_decl :: p4_tables ex_info) (p4_actions ex_info)) sh_info /\ (exists ci, P4ToConstraintInfo pton1 (mkP4Info (sy_decl :: p4_tables ex_info) (p4_actions ex_info)) = Ok ci) /\
  (exists ci t, P4ToConstraintInfo pton1 sh_info = Ok ci /\ GetTableInfoOrNull ci 3 = Some t /\ t <> sy_table) .
Proof.
  split; [split; [apply rev_shuffled|apply rev_shuffled_actions]|]. split; [vm_compute; eauto|].
  exists (the (mkInfo [] []) (P4ToConstraintInfo pton1 sh_info)). exists (match GetTableInfoOrNull (the (mkInfo [] []) (P4ToConstraintInfo pton1 sh_info)) 3 with Some t => t | None => no_table end).
  split; [vm_compute; reflexivity|]. split; [vm_compute; reflexivity|]. vm_compute. discriminate.
Qed.
