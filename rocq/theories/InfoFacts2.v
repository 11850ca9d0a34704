(** Facts about P4ToConstraintInfo. *)
From Coq Require Import String Ascii List ZArith NArith Bool Lia Permutation.
From Verif Require Import Base Token Ast AstConstructors Parser Info TypeChecker ConstraintInfo LiteralFacts StrFacts SpecLexer SpecGrammar SpecTyping SpecSemantics TypeFacts SemFacts EntryFacts SpecInfo InfoFacts.
Import ListNotations.
Open Scope string_scope.

(** * Tables and actions *)
Lemma maps_keys (ks : list key_info) : NoDup (map fst (map (fun k => (k_id k, k)) ks)) <-> NoDup (map k_id ks).
Proof. rewrite map_map. reflexivity. Qed.
Lemma maps_names (ks : list key_info) : NoDup (map fst (map (fun k => (k_name k, k)) ks)) <-> NoDup (map k_name ks).
Proof. rewrite map_map. reflexivity. Qed.
Lemma infer_ext_t t t' : (forall n, assoc_find String.eqb n (ti_keys_by_name t) = assoc_find String.eqb n (ti_keys_by_name t')) -> ti_source t = ti_source t' ->
  forall e, InferTable e t = InferTable e t'.
Proof.
  intros H1 H2. unfold InferTable. induction e; cbn [Infer GetConstraintSource]; rewrite <- H2; cbn [bind]; rewrite <- ?H1; try reflexivity;
    repeat match goal with H : Infer _ _ _ = Infer _ _ _ |- _ => rewrite <- H; clear H end; reflexivity.
Qed.
Lemma infer_ext_a t t' : (forall n, assoc_find String.eqb n (ai_params_by_name t) = assoc_find String.eqb n (ai_params_by_name t')) -> ai_source t = ai_source t' ->
  forall e, InferAction e t = InferAction e t'.
Proof.
  intros H1 H2. unfold InferAction. induction e; cbn [Infer GetConstraintSource]; rewrite <- H2; cbn [bind]; rewrite <- ?H1; try reflexivity;
    repeat match goal with H : Infer _ _ _ = Infer _ _ _ |- _ => rewrite <- H; clear H end; reflexivity.
Qed.
Lemma same_find {V} (l m : list (string * V)) : NoDup (map fst l) -> NoDup (map fst m) -> same_entries l m -> forall n, assoc_find String.eqb n l = assoc_find String.eqb n m.
Proof.
  intros Hl Hm H n. destruct (assoc_find String.eqb n l) as [v|] eqn:E, (assoc_find String.eqb n m) as [u|] eqn:F; try reflexivity.
  - apply (afind_in String.eqb String.eqb_eq) in E. apply H in E. apply (afind_iff String.eqb String.eqb_eq) in E; [|assumption]. congruence.
  - apply (afind_in String.eqb String.eqb_eq) in E. apply H in E. apply (afind_iff String.eqb String.eqb_eq) in E; [|assumption]. congruence.
  - apply (afind_in String.eqb String.eqb_eq) in F. apply H in F. apply (afind_iff String.eqb String.eqb_eq) in F; [|assumption]. congruence.
Qed.
Lemma key_decl_fun f k k' : key_decl f k -> key_decl f k' -> k = k'.
Proof. destruct k as [i n t], k' as [i' n' t']. unfold key_decl. cbn. intros (-> & -> & H) (-> & -> & H'). destruct H; inversion H'; reflexivity. Qed.
Lemma param_decl_fun f k k' : param_decl f k -> param_decl f k' -> k = k'.
Proof. destruct k as [i n t], k' as [i' n' t']. unfold param_decl, param_type. cbn. intros (-> & -> & H) (-> & -> & H'). f_equal. destruct H as [(? & ->)|(? & ->)], H' as [(? & ->)|(? & ->)]; congruence. Qed.
Lemma forall2_fun {A B} (R : A -> B -> Prop) : (forall a b b', R a b -> R a b' -> b = b') -> forall l m m', Forall2 R l m -> Forall2 R l m' -> m = m'.
Proof. intros H l m m' H1. revert m'. induction H1; intros m' H2; inversion H2; subst; [reflexivity|]. f_equal; eauto. Qed.
Lemma restricted_not ck pre cs : unrestricted ck pre -> restricted ck pre cs -> False.
Proof. intros H1 H2. apply extract_none in H1. apply extract_some in H2. congruence. Qed.
Lemma restricted_fun ck pre cs cs' : restricted ck pre cs -> restricted ck pre cs' -> cs = cs'.
Proof. intros H1 H2. apply extract_some in H1. apply extract_some in H2. congruence. Qed.

Lemma table_parsed pton d t : ParseTableInfo pton d = Ok t -> exists ks, table_of pton d ks t.
Proof.
  unfold ParseTableInfo. intros H. apply bind_ok in H as ([bi bn] & Hk & H). apply insert_keys_ok in Hk as (ks & Hf & E & Hi & Hn); [|constructor..]. apply pair_equal_spec in E as [-> ->].
  cbn [fst snd app] in Hi, Hn. exists ks. rewrite forall2_map in Hf. apply (forall2_iff _ _ _ _ match_field_ok) in Hf. pose proof Hi as Hi'. pose proof Hn as Hn'. rewrite maps_keys in Hi'. rewrite maps_names in Hn'.
  apply bind_ok in H as ([cs|] & Hc & H).
  - apply bind_ok in H as (e & He & H). apply bind_ok in H as (e' & He' & H). apply Ok_inj in H as <-. apply extract_some in Hc. split; [reflexivity..|exact Hf| |].
    + split; cbn; try assumption; intros x; reflexivity.
    + right. exists e, e'. split; [exact Hc|]. split; [exact He|]. split; [|reflexivity]. rewrite <- He'. apply infer_ext_t; reflexivity.
  - apply Ok_inj in H as <-. apply extract_none in Hc. split; [reflexivity..|exact Hf| |].
    + split; cbn; try assumption; intros x; reflexivity.
    + left. split; [exact Hc|reflexivity].
Qed.
Lemma table_parses pton d ks t : table_of pton d ks t -> exists t', ParseTableInfo pton d = Ok t' /\ table_of pton d ks t'.
Proof.
  intros [Hid Hname Hf HK Hc]. pose proof HK as [K1 K2 K3 K4 K5 K6].
  assert (exists t', ParseTableInfo pton d = Ok t') as [t' Ht'].
  { unfold ParseTableInfo.
    rewrite (proj2 (insert_keys_ok _ _ [] [] (map (fun k => (k_id k, k)) ks, map (fun k => (k_name k, k)) ks) (NoDup_nil _) (NoDup_nil _))).
    2: { exists ks. cbn [fst snd app]. rewrite maps_keys, maps_names. split; [|auto]. apply forall2_map. now apply (forall2_iff _ _ _ _ match_field_ok). }
    cbn [bind]. destruct Hc as [(Hu & Hn)|(e0 & e & Hr & Hp & Hi & He)].
    - apply extract_none in Hu. rewrite Hu. cbn [bind]. eauto.
    - apply extract_some in Hr. rewrite Hr. cbn [bind]. rewrite Hp. cbn [bind]. erewrite infer_ext_t; [rewrite Hi; cbn [bind]; eauto| |reflexivity].
      cbn [ti_keys_by_name]. apply same_find; [now apply maps_names|exact K6|]. intros x. symmetry. apply K4. }
  exists t'. split; [exact Ht'|]. destruct (table_parsed _ _ _ Ht') as [ks' H]. rewrite <- (forall2_fun _ key_decl_fun _ _ _ (to_decls _ _ _ _ H) Hf). exact H.
Qed.
Lemma action_parsed pton d t : ParseActionInfo pton d = Ok t -> exists ks, action_of pton d ks t.
Proof.
  unfold ParseActionInfo. intros H. apply bind_ok in H as ([bi bn] & Hk & H). apply insert_keys_ok in Hk as (ks & Hf & E & Hi & Hn); [|constructor..]. apply pair_equal_spec in E as [-> ->].
  cbn [fst snd app] in Hi, Hn. exists ks. rewrite forall2_map in Hf. apply (forall2_iff _ _ _ _ param_ok) in Hf. pose proof Hi as Hi'. pose proof Hn as Hn'. rewrite maps_keys in Hi'. rewrite maps_names in Hn'.
  apply bind_ok in H as ([cs|] & Hc & H).
  - apply bind_ok in H as (e & He & H). apply bind_ok in H as (e' & He' & H). apply Ok_inj in H as <-. apply extract_some in Hc. split; [reflexivity..|exact Hf| |].
    + split; cbn; try assumption; intros x; reflexivity.
    + right. exists e, e'. split; [exact Hc|]. split; [exact He|]. split; [|reflexivity]. rewrite <- He'. apply infer_ext_a; reflexivity.
  - apply Ok_inj in H as <-. apply extract_none in Hc. split; [reflexivity..|exact Hf| |].
    + split; cbn; try assumption; intros x; reflexivity.
    + left. split; [exact Hc|reflexivity].
Qed.
Lemma action_parses pton d ks t : action_of pton d ks t -> exists t', ParseActionInfo pton d = Ok t' /\ action_of pton d ks t'.
Proof.
  intros [Hid Hname Hf HK Hc]. pose proof HK as [K1 K2 K3 K4 K5 K6].
  assert (exists t', ParseActionInfo pton d = Ok t') as [t' Ht'].
  { unfold ParseActionInfo.
    rewrite (proj2 (insert_keys_ok _ _ [] [] (map (fun k => (k_id k, k)) ks, map (fun k => (k_name k, k)) ks) (NoDup_nil _) (NoDup_nil _))).
    2: { exists ks. cbn [fst snd app]. rewrite maps_keys, maps_names. split; [|auto]. apply forall2_map. now apply (forall2_iff _ _ _ _ param_ok). }
    cbn [bind]. destruct Hc as [(Hu & Hn)|(e0 & e & Hr & Hp & Hi & He)].
    - apply extract_none in Hu. rewrite Hu. cbn [bind]. eauto.
    - apply extract_some in Hr. rewrite Hr. cbn [bind]. rewrite Hp. cbn [bind]. erewrite infer_ext_a; [rewrite Hi; cbn [bind]; eauto| |reflexivity].
      cbn [ai_params_by_name]. apply same_find; [now apply maps_names|exact K6|]. intros x. symmetry. apply K4. }
  exists t'. split; [exact Ht'|]. destruct (action_parsed _ _ _ Ht') as [ks' H]. rewrite <- (forall2_fun _ param_decl_fun _ _ _ (ao_decls _ _ _ _ H) Hf). exact H.
Qed.

(** * The loops *)
Section Collect.
  Context {D I : Type} (parse : D -> outcome I) (id : D -> N) (dup : string).
  Lemma collect_errors l : forall bi es r es', collect parse id dup l bi es = Ok (r, es') -> exists more, es' = (es ++ more)%list.
  Proof.
    induction l as [|d l IH]; intros bi es r es' H; cbn [collect] in H.
    - apply Ok_inj, pair_equal_spec in H as [_ <-]. exists []. now rewrite app_nil_r.
    - destruct (parse d) as [i|c m|w]; [|apply IH in H as [more ->]; rewrite <- app_assoc; eauto|discriminate].
      destruct (assoc_insert N.eqb (id d) i bi); [eauto|]. apply IH in H as [more ->]. rewrite <- app_assoc. eauto.
  Qed.
  Lemma collect_ok l : forall bi r, NoDup (map fst bi) ->
    (collect parse id dup l bi [] = Ok (r, []) <-> exists is, Forall2 (fun d i => parse d = Ok i) l is /\ r = (bi ++ combine (map id l) is)%list /\ NoDup (map fst bi ++ map id l)).
  Proof.
    induction l as [|d l IH]; intros bi r HN; cbn [collect].
    - split; [intros H; apply Ok_inj, pair_equal_spec in H as [<- _]; exists []; cbn; rewrite !app_nil_r; auto|]. intros (is & H & -> & _). inversion H; subst. cbn. now rewrite app_nil_r.
    - split.
      + intros H. destruct (parse d) as [i|c m|w] eqn:E; [|apply collect_errors in H as [more H]; discriminate|discriminate].
        unfold assoc_insert in H. destruct (assoc_find N.eqb (id d) bi) eqn:F; [apply collect_errors in H as [more H]; discriminate|].
        apply (afind_none N.eqb N.eqb_eq) in F. apply IH in H as (is & Hf & -> & HN').
        * exists (i :: is). split; [now constructor|]. cbn [map combine]. rewrite map_app, <- app_assoc in HN'. cbn in HN'. rewrite <- app_assoc. auto.
        * rewrite map_app. now apply nodup_snoc.
      + intros (is & Hf & -> & HN'). inversion Hf as [|? i ? is' Hd Hf']; subst. rewrite Hd. cbn [map combine] in HN' |- *. unfold assoc_insert.
        rewrite (proj2 (afind_none N.eqb N.eqb_eq bi (id d))) by (intros Hin; apply NoDup_remove_2 in HN'; apply HN', in_or_app; now left).
        apply IH; [rewrite map_app; apply nodup_snoc; [exact HN|intros Hin; apply NoDup_remove_2 in HN'; apply HN', in_or_app; now left]|].
        exists is'. split; [exact Hf'|]. rewrite map_app, <- !app_assoc. auto.
  Qed.
  Lemma collect_result l : forall bi es, (exists r, collect parse id dup l bi es = Ok r) \/ exists d w, In d l /\ parse d = Crash w /\ collect parse id dup l bi es = Crash w.
  Proof.
    induction l as [|d l IH]; intros bi es; cbn [collect]; [eauto|].
    destruct (parse d) as [i|c m|w] eqn:E.
    - destruct (assoc_insert N.eqb (id d) i bi); (edestruct IH as [H|(d' & w & ? & ? & H)]; [left; exact H|right; exists d', w; split; [now right|]; auto]).
    - edestruct IH as [H|(d' & w & ? & ? & H)]; [left; exact H|right; exists d', w; split; [now right|]; auto].
    - right. exists d, w. split; [now left|auto].
  Qed.
End Collect.
Lemma combine_in {A B} (f : A -> N) (R : A -> B -> Prop) l is x i : Forall2 R l is -> (In (x, i) (combine (map f l) is) <-> exists d, In d l /\ In (d, i) (combine l is) /\ x = f d).
Proof.
  induction 1 as [|d j l is Hd Hf IH]; cbn; [split; [tauto|intros (? & [] & _)]|]. rewrite IH. split.
  - intros [E|(d' & H1 & H2 & ->)]; [injection E as <- <-; exists d; auto|exists d'; auto].
  - intros (d' & H1 & H2 & ->). destruct H2 as [[= <- <-]|H2]; [now left|]. right. exists d'. split; [now apply in_combine_l in H2|auto].
Qed.
Lemma combine_rel {A B} (R : A -> B -> Prop) l is d i : Forall2 R l is -> In (d, i) (combine l is) -> R d i.
Proof. induction 1; cbn; [tauto|]. intros [[= -> ->]|]; auto. Qed.
Lemma combine_fst {A B C} (f : A -> C) (R : A -> B -> Prop) l is : Forall2 R l is -> map fst (combine (map f l) is) = map f l.
Proof. induction 1; cbn; congruence. Qed.
Lemma forall2_in {A B} (R : A -> B -> Prop) l is d : Forall2 R l is -> In d l -> exists i, In (d, i) (combine l is).
Proof. induction 1; cbn; [tauto|]. intros [->|Hi]; [eauto|]. destruct (IHForall2 Hi) as [i ?]. eauto. Qed.
Lemma forall2_ex {A B} (R : A -> B -> Prop) l : (forall a, In a l -> exists b, R a b) -> exists m, Forall2 R l m.
Proof. induction l as [|a l IH]; intros H; [exists []; constructor|]. destruct (H a (or_introl eq_refl)) as [b Hb]. destruct IH as [m Hm]; [intros; apply H; now right|]. exists (b :: m). now constructor. Qed.

(** * P4ToConstraintInfo *)
Notation tid := (fun t => pr_id (pt_preamble t)).
Notation aid := (fun a => pr_id (pad_preamble a)).
Lemma info_ok pton p ci : P4ToConstraintInfo pton p = Ok ci <->
  exists ts ts', Forall2 (fun d i => ParseTableInfo pton d = Ok i) (p4_tables p) ts /\ Forall2 (fun d i => ParseActionInfo pton d = Ok i) (p4_actions p) ts' /\
    NoDup (map tid (p4_tables p)) /\ NoDup (map aid (p4_actions p)) /\ ci_tables ci = combine (map tid (p4_tables p)) ts /\ ci_actions ci = combine (map aid (p4_actions p)) ts'.
Proof.
  unfold P4ToConstraintInfo. rewrite bind_ok. split.
  - intros ([tables es] & H1 & H). apply bind_ok in H as ([actions es'] & H2 & H). destruct es'; [|discriminate]. apply Ok_inj in H as <-.
    destruct (collect_errors _ _ _ _ _ _ _ _ H2) as [more E]. destruct es; [|discriminate]. apply collect_ok in H1 as (ts & Hf & -> & HN); [|constructor]. apply collect_ok in H2 as (ts' & Hf' & -> & HN'); [|constructor].
    exists ts, ts'. repeat split; assumption.
  - intros (ts & ts' & H1 & H2 & N1 & N2 & E1 & E2). exists (ci_tables ci, []). split; [apply collect_ok; [constructor|]; exists ts; cbn; auto|].
    cbn iota beta. apply bind_ok. exists (ci_actions ci, []). split; [apply collect_ok; [constructor|]; exists ts'; cbn; auto|]. destruct ci; reflexivity.
Qed.
Lemma info_result pton p : (exists ci, P4ToConstraintInfo pton p = Ok ci) \/ (exists m, P4ToConstraintInfo pton p = Err InvalidArgument m) \/
  exists w, P4ToConstraintInfo pton p = Crash w /\ ((exists d, In d (p4_tables p) /\ ParseTableInfo pton d = Crash w) \/ (exists d, In d (p4_actions p) /\ ParseActionInfo pton d = Crash w)).
Proof.
  unfold P4ToConstraintInfo. edestruct (collect_result (ParseTableInfo pton)) as [[[ts es] ->]|(d & w & Hd & Hp & ->)]; cbn [bind].
  - edestruct (collect_result (ParseActionInfo pton)) as [[[as_ es'] ->]|(d & w & Hd & Hp & ->)]; cbn [bind].
    + destruct es'; eauto.
    + right. right. exists w. eauto 6.
  - right. right. exists w. eauto 6.
Qed.
Lemma lookup_t pton p ci ts id t : Forall2 (fun d i => ParseTableInfo pton d = Ok i) (p4_tables p) ts -> NoDup (map tid (p4_tables p)) -> ci_tables ci = combine (map tid (p4_tables p)) ts ->
  (GetTableInfoOrNull ci id = Some t <-> exists d, In d (p4_tables p) /\ id = tid d /\ ParseTableInfo pton d = Ok t).
Proof.
  intros H HN E. unfold GetTableInfoOrNull. rewrite E, (afind_iff N.eqb N.eqb_eq) by (rewrite (combine_fst _ _ _ _ H); exact HN). rewrite (combine_in _ _ _ _ _ _ H). split.
  - intros (d & Hd & Hi & ->). exists d. split; [exact Hd|]. split; [reflexivity|]. exact (combine_rel _ _ _ _ _ H Hi).
  - intros (d & Hd & -> & Hp). destruct (forall2_in _ _ _ _ H Hd) as [i Hi]. pose proof (combine_rel _ _ _ _ _ H Hi) as Hp'. cbn in Hp'. assert (i = t) by congruence. subst i. exists d. auto.
Qed.
Lemma lookup_a pton p ci ts id t : Forall2 (fun d i => ParseActionInfo pton d = Ok i) (p4_actions p) ts -> NoDup (map aid (p4_actions p)) -> ci_actions ci = combine (map aid (p4_actions p)) ts ->
  (GetActionInfoOrNull ci id = Some t <-> exists d, In d (p4_actions p) /\ id = aid d /\ ParseActionInfo pton d = Ok t).
Proof.
  intros H HN E. unfold GetActionInfoOrNull. rewrite E, (afind_iff N.eqb N.eqb_eq) by (rewrite (combine_fst _ _ _ _ H); exact HN). rewrite (combine_in _ _ _ _ _ _ H). split.
  - intros (d & Hd & Hi & ->). exists d. split; [exact Hd|]. split; [reflexivity|]. exact (combine_rel _ _ _ _ _ H Hi).
  - intros (d & Hd & -> & Hp). destruct (forall2_in _ _ _ _ H Hd) as [i Hi]. pose proof (combine_rel _ _ _ _ _ H Hi) as Hp'. cbn in Hp'. assert (i = t) by congruence. subst i. exists d. auto.
Qed.
Lemma info_lookup pton p ci : P4ToConstraintInfo pton p = Ok ci ->
  (forall id t, GetTableInfoOrNull ci id = Some t <-> exists d, In d (p4_tables p) /\ id = tid d /\ ParseTableInfo pton d = Ok t) /\
  (forall id t, GetActionInfoOrNull ci id = Some t <-> exists d, In d (p4_actions p) /\ id = aid d /\ ParseActionInfo pton d = Ok t).
Proof.
  intros H. apply info_ok in H as (ts & ts' & H1 & H2 & N1 & N2 & E1 & E2). split; intros id t; [eapply lookup_t|eapply lookup_a]; eauto.
Qed.
Lemma info_iff pton p : (exists ci, P4ToConstraintInfo pton p = Ok ci) <->
  NoDup (map tid (p4_tables p)) /\ NoDup (map aid (p4_actions p)) /\ (forall d, In d (p4_tables p) -> exists t, ParseTableInfo pton d = Ok t) /\
  (forall d, In d (p4_actions p) -> exists t, ParseActionInfo pton d = Ok t).
Proof.
  split.
  - intros [ci H]. apply info_ok in H as (ts & ts' & H1 & H2 & N1 & N2 & E1 & E2). split; [exact N1|]. split; [exact N2|]. split.
    + intros d Hd. destruct (forall2_in _ _ _ _ H1 Hd) as [i Hi]. exists i. exact (combine_rel _ _ _ _ _ H1 Hi).
    + intros d Hd. destruct (forall2_in _ _ _ _ H2 Hd) as [i Hi]. exists i. exact (combine_rel _ _ _ _ _ H2 Hi).
  - intros (N1 & N2 & H1 & H2). apply (forall2_ex (fun d i => ParseTableInfo pton d = Ok i)) in H1 as [ts H1]. apply (forall2_ex (fun d i => ParseActionInfo pton d = Ok i)) in H2 as [ts' H2].
    exists (mkInfo (combine (map aid (p4_actions p)) ts') (combine (map tid (p4_tables p)) ts)). apply info_ok. exists ts, ts'. repeat split; assumption.
Qed.
