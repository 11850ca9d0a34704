(** Facts for C99. *)
From Coq Require Import String List ZArith Lia Bool Sorting.Sorted.
From Verif Require Import Base Num Token Ast AstConstructors Parser Info TypeChecker Interpreter Z3 Symbolic SpecLexer SpecGrammar SpecTyping SpecSemantics SpecInfo SpecSymbolic SpecSolver SpecSkip.
From Verif Require Import ConstraintInfo ParserFacts LiteralFacts InfoFacts InfoFacts2 EntryFacts ExplainFacts SymState PropertiesReadCost.
Import ListNotations.

Definition lives (skip : string -> outcome bool) (nk : string * key_info) : bool := match skip (fst nk) with Ok false => true | _ => false end.
Lemma filter_sorted {A} (R : A -> A -> Prop) (f : A -> bool) l : StronglySorted R l -> StronglySorted R (filter f l).
Proof.
  induction 1 as [|x l Hl IH Hx]; cbn; [constructor|]. destruct (f x); [|exact IH]. constructor; [exact IH|].
  apply Forall_forall. intros y Hy. apply filter_In in Hy as [Hy _]. rewrite Forall_forall in Hx. auto.
Qed.
Lemma live_in_keys skip k ks : In k (live_keys skip ks) <-> In k ks /\ live skip k.
Proof.
  unfold live_keys, live. rewrite filter_In. destruct (skip (k_name k)) as [[]| |]; split; intros [H1 H2]; split; try exact H1; try discriminate; reflexivity.
Qed.
Lemma ordered_lacking skip t ks t' : lacking skip t ks t' -> Ordered (ti_keys_by_name t') = filter (lives skip) (Ordered (ti_keys_by_name t)).
Proof.
  intros H. apply strong_unique.
  - apply ordered_strong. apply (wo_rest _ _ _ _ H).
  - apply filter_sorted, ordered_strong. apply (wo_keys _ _ _ _ H).
  - intros [n k]. rewrite filter_In, (in_ordered t' _ (wo_rest _ _ _ _ H)), (in_ordered t _ (wo_keys _ _ _ _ H)), live_in_keys. unfold lives, live. cbn [fst].
    split.
    + intros [[H1 H2] <-]. rewrite H2. auto.
    + intros [[H1 <-] H2]. destruct (skip (k_name k)) as [[]| |]; try discriminate. auto.
Qed.
Definition prio_type (k : key_info) : bool := match k_type k with TTernary _ | TOptional _ => true | _ => false end.
Definition prio_in (l : list (string * key_info)) : bool := existsb (fun nk => prio_type (snd nk)) l.
(** The loop of Create, given all keys or only those not skipped. *)
Lemma create_filtered skip : forall l p keys a, (forall n k, In (n, k) l -> exists b, skip n = Ok b) ->
  create_keys skip l p keys a = match create_keys keep_all (filter (lives skip) l) p keys a with Ok (q, ks, a') => Ok (q || prio_in l, ks, a') | Err c m => Err c m | Crash w => Crash w end.
Proof.
  induction l as [|[n k] l IH]; intros p keys a Ha.
  - cbn. now rewrite orb_false_r.
  - destruct (Ha n k (or_introl eq_refl)) as [b Hb]. assert (forall n k, In (n, k) l -> exists b, skip n = Ok b) as Ha' by (intros; eapply Ha; right; eassumption).
    cbn [create_keys filter prio_in existsb snd]. unfold lives at 1. cbn [fst]. rewrite Hb. destruct b.
    + cbn [bind]. rewrite IH by exact Ha'. unfold prio_type.
      assert (forall l p q keys a, create_keys keep_all l (p || q) keys a = match create_keys keep_all l p keys a with Ok (q', ks, a') => Ok (q' || q, ks, a') | Err c m => Err c m | Crash w => Crash w end) as Hor.
      { clear. induction l as [|[n k] l IH]; intros p q keys a; [reflexivity|]. cbn [create_keys]. change (keep_all n) with (@Ok bool false). cbn [bind].
        destruct (AddSymbolicKey k) as [[sk aa]| |]; try reflexivity. cbn [bind].
        destruct (k_type k); try apply IH.
        all: rewrite <- (IH true q); reflexivity. }
      destruct (k_type k); cbn [orb]; try reflexivity.
      all: rewrite <- (orb_true_r p) at 1; rewrite Hor; destruct (create_keys keep_all (filter (lives skip) l) p keys a) as [[[q ks] a']| |]; try reflexivity; cbn; now rewrite <- orb_assoc.
    + cbn [create_keys bind]. change (keep_all n) with (@Ok bool false). cbn [bind]. destruct (AddSymbolicKey k) as [[sk aa]| |]; try reflexivity. cbn [bind]. rewrite IH by exact Ha'. unfold prio_type.
      assert (forall l keys a q ks a', create_keys keep_all l true keys a = Ok (q, ks, a') -> q = true) as Ht.
      { clear. induction l as [|[n k] l IH]; intros keys a q ks a' H; [cbn in H; congruence|]. cbn [create_keys] in H. change (keep_all n) with (@Ok bool false) in H. cbn [bind] in H. destruct (AddSymbolicKey k) as [[sk aa]| |]; try discriminate H. cbn [bind] in H. destruct (k_type k); eauto. }
      destruct (k_type k); cbn [orb]; try reflexivity.
      all: destruct (create_keys keep_all (filter (lives skip) l) true _ _) as [[[q ks] a']| |] eqn:E; try reflexivity; apply Ht in E as ->; reflexivity.
Qed.
Lemma create_prio skip : forall l p keys a q ks a', create_keys skip l p keys a = Ok (q, ks, a') -> q = p || prio_in l.
Proof.
  induction l as [|[n k] l IH]; intros p keys a q ks a' H; [cbn in *; rewrite orb_false_r; congruence|].
  cbn [create_keys] in H. destruct (skip n) as [b| |]; try discriminate H. cbn [bind] in H. cbn [prio_in existsb snd]. unfold prio_type at 1. destruct b.
  - apply IH in H. rewrite H. unfold prio_in. destruct (k_type k); cbn; try reflexivity; now rewrite orb_true_r.
  - destruct (AddSymbolicKey k) as [[sk aa]| |]; try discriminate H. cbn [bind] in H. apply IH in H. rewrite H. unfold prio_in. destruct (k_type k); cbn; try reflexivity; now rewrite orb_true_r.
Qed.
Lemma prio_iff t ks : table_keys t ks -> prio_in (Ordered (ti_keys_by_name t)) = true <-> prioritized ks.
Proof.
  intros HK. unfold prio_in. rewrite existsb_exists. split.
  - intros ([n k] & Hi & Hp). apply (in_ordered t ks HK) in Hi as [Hi _]. cbn [snd] in Hp. unfold prio_type in Hp. destruct (k_type k) eqn:E; try discriminate; eexists k, _; eauto.
  - intros (k & w & Hi & Hp). exists (k_name k, k). split; [now apply (in_ordered t ks HK)|]. cbn [snd]. unfold prio_type. destruct Hp as [-> | ->]; reflexivity.
Qed.
Lemma create_same skip t ks t' : lacking skip t ks t' ->
  create_keys skip (Ordered (ti_keys_by_name t)) false [] [] = create_keys keep_all (Ordered (ti_keys_by_name t')) false [] [].
Proof.
  intros H. rewrite create_filtered, (ordered_lacking _ _ _ _ H). 2: { intros n k Hi. apply (in_ordered t ks (wo_keys _ _ _ _ H)) in Hi as [Hi <-]. now apply (wo_asked _ _ _ _ H). }
  destruct (create_keys keep_all _ false [] []) as [[[q a] b]| |] eqn:E; try reflexivity. f_equal. f_equal. f_equal.
  rewrite (create_prio _ _ _ _ _ _ _ _ E), <- (ordered_lacking _ _ _ _ H). cbn [orb].
  destruct (prio_in (Ordered (ti_keys_by_name t'))) eqn:E'; [reflexivity|]. cbn [orb]. apply not_true_is_false. intros Ht.
  apply (prio_iff t ks (wo_keys _ _ _ _ H)) in Ht. apply (wo_priority _ _ _ _ H) in Ht. apply (prio_iff t' _ (wo_rest _ _ _ _ H)) in Ht. congruence.
Qed.
(** Two solvers in the same state, one of the whole table, the other of the table without the skipped keys. *)
Definition twins (skip : string -> outcome bool) (t t' : table_info) (cs cs' : constraint_solver) : Prop :=
  cs_table cs = t /\ cs_table cs' = t' /\ cs_skip cs = skip /\ cs_skip cs' = keep_all /\ cs_env cs = cs_env cs' /\ cs_stack cs = cs_stack cs'.
Lemma add_twins check skip t t' cs cs' e src : twins skip t t' cs cs' ->
  fst (AddConstraint check cs e src) = fst (AddConstraint check cs' e src) /\ twins skip t t' (snd (AddConstraint check cs e src)) (snd (AddConstraint check cs' e src)).
Proof.
  intros (H1 & H2 & H3 & H4 & H5 & H6). unfold AddConstraint. rewrite <- H5, <- H6.
  repeat match goal with |- context [if ?b then _ else _] => destruct b | |- context [match EvaluateConstraintSymbolically ?a ?b ?c with _ => _ end] => destruct (EvaluateConstraintSymbolically a b c) end; cbn [fst snd]; (split; [reflexivity|]).
  all: unfold twins, set_stack; cbn [cs_table cs_skip cs_env cs_stack]; auto 10.
Qed.
Lemma create_twins check skip t ks t' : lacking skip t ks t' ->
  match Create check t skip, Create check t' keep_all with
  | Ok cs, Ok cs' => twins skip t t' cs cs'
  | Err c m, Err c' m' => c = c' /\ m = m'
  | Crash w, Crash w' => w = w'
  | _, _ => False
  end.
Proof.
  intros H. unfold Create. rewrite (create_same _ _ _ _ H). destruct (create_keys keep_all _ false [] []) as [[[q a] b]| |]; cbn [bind]; auto.
  rewrite (wo_constraint _ _ _ _ H), (wo_source _ _ _ _ H). destruct (if q then _ else _) as [attrs st].
  assert (twins skip t t' (mkCS t (mkEnv a attrs) skip [st]) (mkCS t' (mkEnv a attrs) keep_all [st])) as Ht by (unfold twins; cbn [cs_table cs_skip cs_env cs_stack]; auto 10).
  destruct (ti_constraint t) as [e|]; [|exact Ht].
  destruct (add_twins check skip t t' _ _ e (ti_source t) Ht) as [E1 E2].
  destruct (AddConstraint check (mkCS t (mkEnv a attrs) skip [st]) e (ti_source t)) as [r1 c1], (AddConstraint check (mkCS t' (mkEnv a attrs) keep_all [st]) e (ti_source t)) as [r2 c2]; cbn [fst snd] in E1, E2.
  subst r2. destruct r1 as [[]| |]; auto.
Qed.
(** The loop of ConcretizeEntry. *)
Lemma concretize_filtered skip t t' cs cs' m : twins skip t t' cs cs' -> forall l acc, (forall n k, In (n, k) l -> exists b, skip n = Ok b) ->
  concretize_keys cs m l acc = concretize_keys cs' m (filter (lives skip) l) acc.
Proof.
  intros (H1 & H2 & H3 & H4 & H5 & H6). induction l as [|[n k] l IH]; intros acc Ha; [reflexivity|].
  destruct (Ha n k (or_introl eq_refl)) as [b Hb]. assert (forall n k, In (n, k) l -> exists b, skip n = Ok b) as Ha' by (intros; eapply Ha; right; eassumption).
  cbn [concretize_keys filter]. unfold lives at 1. cbn [fst]. rewrite H3, Hb. cbn [bind]. destruct b; [now apply IH|].
  cbn [concretize_keys]. rewrite H4. change (keep_all n) with (@Ok bool false). cbn [bind]. rewrite H5.
  destruct (FindPtrOrStatus (se_keys (cs_env cs')) n) as [sk| |]; try reflexivity. cbn [bind]. destruct (ConcretizeKey sk k m) as [fm| |]; try reflexivity. cbn [bind]. now apply IH.
Qed.
Lemma concretize_twins check skip t ks t' cs cs' : lacking skip t ks t' -> twins skip t t' cs cs' -> ConcretizeEntry check cs = ConcretizeEntry check cs'.
Proof.
  intros H Ht. pose proof Ht as (H1 & H2 & H3 & H4 & H5 & H6). unfold ConcretizeEntry. rewrite H6. destruct (check (assertions (cs_stack cs'))) as [m|]; [|reflexivity].
  rewrite H1, H2, (concretize_filtered _ _ _ _ _ m Ht), <- (ordered_lacking _ _ _ _ H), H5, (wo_id _ _ _ _ H); [reflexivity|].
  intros n k Hi. apply (in_ordered t ks (wo_keys _ _ _ _ H)) in Hi as [Hi <-]. now apply (wo_asked _ _ _ _ H).
Qed.
(** Type checking looks up only the keys that are mentioned. *)
Lemma infer_mentioned t t' : ti_source t = ti_source t' -> forall e, (forall n, mentions e n -> assoc_find String.eqb n (ti_keys_by_name t) = assoc_find String.eqb n (ti_keys_by_name t')) ->
  Infer None (Some t) e = Infer None (Some t') e.
Proof.
  intros Hs. induction e; intros Hm; cbn [Infer GetConstraintSource bind]; rewrite ?Hs.
  all: try reflexivity.
  - rewrite (Hm _ (me_key _ _)). reflexivity.
  - rewrite IHe by (intros; apply Hm; now constructor). reflexivity.
  - rewrite IHe by (intros; apply Hm; now constructor). reflexivity.
  - rewrite IHe1 by (intros; apply Hm; now apply me_left). rewrite IHe2 by (intros; apply Hm; now apply me_right). reflexivity.
  - rewrite IHe by (intros; apply Hm; now constructor). reflexivity.
Qed.
Lemma find_key t ks n : table_keys t ks -> forall k, assoc_find String.eqb n (ti_keys_by_name t) = Some k <-> In k ks /\ k_name k = n.
Proof. intros HK k. rewrite (afind_iff String.eqb String.eqb_eq) by apply HK. apply (by_name t ks HK). Qed.
Lemma find_lacking skip t ks t' n : lacking skip t ks t' -> (forall k, In k ks -> k_name k = n -> live skip k) ->
  assoc_find String.eqb n (ti_keys_by_name t) = assoc_find String.eqb n (ti_keys_by_name t').
Proof.
  intros H Hl. destruct (assoc_find String.eqb n (ti_keys_by_name t)) as [k|] eqn:E, (assoc_find String.eqb n (ti_keys_by_name t')) as [k'|] eqn:E'; try reflexivity.
  - apply (find_key t ks n (wo_keys _ _ _ _ H)) in E as [E1 E2]. apply (find_key t' _ n (wo_rest _ _ _ _ H)) in E' as [E3 E4]. apply live_in_keys in E3 as [E3 _].
    f_equal. refine (nodup_keys k_name ks _ _ (tk_names _ _ (wo_keys _ _ _ _ H)) _ _ _); congruence.
  - exfalso. apply (find_key t ks n (wo_keys _ _ _ _ H)) in E as [E1 E2]. assert (assoc_find String.eqb n (ti_keys_by_name t') = Some k) as E3 by (apply (find_key t' _ n (wo_rest _ _ _ _ H)); rewrite live_in_keys; auto). congruence.
  - exfalso. apply (find_key t' _ n (wo_rest _ _ _ _ H)) in E' as [E3 E4]. apply live_in_keys in E3 as [E3 _]. assert (assoc_find String.eqb n (ti_keys_by_name t) = Some k') as E5 by (apply (find_key t _ n (wo_keys _ _ _ _ H)); auto). congruence.
Qed.
(** Or a skipped key is mentioned. *)
Lemma mentions_dec skip e ks : (forall n k, mentions e n -> In k ks -> k_name k = n -> live skip k) \/ exists k, In k ks /\ mentions e (k_name k) /\ ~ live skip k.
Proof.
  induction ks as [|k ks IH]; [left; intros n k _ []|].
  destruct IH as [IH|(k' & H1 & H2)]; [|right; exists k'; split; [now right|exact H2]].
  assert (forall n, {mentions e n} + {~ mentions e n}) as Hd.
  { clear. intros n. induction e; try (right; intros H; inversion H; fail).
    - destruct (string_dec name n) as [->|Hn]; [left; constructor|right; intros H; inversion H; auto].
    - destruct (string_dec name n) as [->|Hn]; [left; constructor|right; intros H; inversion H; auto].
    - destruct IHe; [left; now constructor|right; intros H; inversion H; auto].
    - destruct IHe; [left; now constructor|right; intros H; inversion H; auto].
    - destruct IHe; [left; now constructor|right; intros H; inversion H; auto].
    - destruct IHe1; [left; now apply me_left|]. destruct IHe2; [left; now apply me_right|]. right; intros H; inversion H; auto.
    - destruct IHe; [left; now constructor|right; intros H; inversion H; auto]. }
  destruct (Hd (k_name k)) as [Hm|Hm]; [|left; intros n k' Hn [<-|Hk] E; [subst; contradiction|eauto]].
  assert (live skip k \/ ~ live skip k) as [Hl|Hl] by (unfold live; destruct (skip (k_name k)) as [[]| |]; (left; reflexivity) || (right; discriminate)).
  - left. intros n k' Hn [<-|Hk] E; eauto.
  - right. exists k. split; [now left|auto].
Qed.
Lemma infer_known t : forall e e' n, Infer None (Some t) e = Ok e' -> mentions e n -> assoc_find String.eqb n (ti_keys_by_name t) <> None.
Proof.
  assert (forall (o : outcome expr) f (e' : expr), bind o f = Ok e' -> exists x, o = Ok x) as Hb by (intros [x| |] f e' H; [eauto|discriminate H..]).
  induction e; intros e' n H Hm; inversion Hm; subst; cbn [Infer GetConstraintSource] in H.
  - change (bind (Ok (ti_source t)) ?f) with (f (ti_source t)) in H. cbn [bind] in H. intros E. rewrite E in H. exact (static_not_ok _ _ _ _ _ H).
  - cbn [bind] in H. destruct (static_not_ok _ _ _ _ _ H).
  - cbn [bind] in H. destruct (Hb _ _ _ H) as [x Hx]. eauto.
  - cbn [bind] in H. destruct (Hb _ _ _ H) as [x Hx]. eauto.
  - cbn [bind] in H. destruct (static_not_ok _ _ _ _ _ H).
  - cbn [bind] in H. destruct (Hb _ _ _ H) as [x Hx]. eauto.
  - cbn [bind] in H. destruct (Infer None (Some t) e1) as [x1| |]; try discriminate H. cbn [bind] in H. destruct (Hb _ _ _ H) as [x Hx]. eauto.
  - cbn [bind] in H. destruct (Hb _ _ _ H) as [x Hx]. eauto.
Qed.
Lemma nodup_filter {A B} (f : A -> B) g l : NoDup (map f l) -> NoDup (map f (filter g l)).
Proof.
  induction l as [|x l IH]; cbn; [auto|]. intros H. inversion H as [|? ? Hx Hl]; subst. destruct (g x); cbn; [|auto]. constructor; [|auto].
  intros Hi. apply Hx. apply in_map_iff in Hi as (y & E & Hy). apply filter_In in Hy as [Hy _]. apply in_map_iff. eauto.
Qed.
Lemma drop_parsed pton skip d t ks : ParseTableInfo pton d = Ok t -> table_keys t ks -> (forall k, In k ks -> exists b, skip (k_name k) = Ok b) -> (prioritized ks -> prioritized (live_keys skip ks)) ->
  (forall e0 k, ParseConstraint pton kTableConstraint (ti_source t) = Ok e0 -> ti_constraint t <> None -> In k ks -> mentions e0 (k_name k) -> live skip k) ->
  exists t', ParseTableInfo pton (drop_fields skip d) = Ok t' /\ lacking skip t ks t'.
Proof.
  intros H HK Ha Hp Hm. unfold ParseTableInfo in H. apply ParserFacts.bind_ok in H as ([bi bn] & Hk & H). apply insert_keys_ok in Hk as (ks0 & Hf & E & Hi & Hn); [|constructor..]. apply pair_equal_spec in E as [-> ->].
  cbn [fst snd app] in Hi, Hn. rewrite maps_keys in Hi. rewrite maps_names in Hn. apply forall2_map in Hf.
  set (by_i := fun l : list key_info => map (fun k => (k_id k, k)) l). set (by_n := fun l : list key_info => map (fun k => (k_name k, k)) l).
  assert (Forall2 (fun f k => ParseMatchField f = Ok k) (pt_match_fields (drop_fields skip d)) (live_keys skip ks0)) as Hf'.
  { clear - Hf. unfold drop_fields, live_keys. cbn [pt_match_fields]. induction Hf as [|f k fs ks' Hfk _ IH]; [constructor|]. cbn [filter].
    assert (mf_name f = k_name k) as ->. { apply match_field_ok in Hfk as (_ & -> & _). reflexivity. }
    destruct (skip (k_name k)) as [[]| |]; auto. }
  assert (forall l c cs, NoDup (map k_id l) -> NoDup (map k_name l) -> table_keys (mkTable (pr_id (pt_preamble d)) (pr_name (pt_preamble d)) c cs (by_i l) (by_n l)) l) as HT.
  { intros l c cs N1 N2. split; cbn; auto; try (intros x; tauto); unfold by_i, by_n; rewrite map_map; assumption. }
  assert (table_keys t ks0) as HK0.
  { apply ParserFacts.bind_ok in H as ([cs|] & Hc & H); [apply ParserFacts.bind_ok in H as (e & He & H); apply ParserFacts.bind_ok in H as (e' & He' & H)|]; apply Ok_inj in H as <-; now apply HT. }
  assert (forall k, In k ks <-> In k ks0) as Hs.
  { intros k. pose proof (tk_by_name _ _ HK (k_name k, k)) as A. pose proof (tk_by_name _ _ HK0 (k_name k, k)) as B. rewrite A in B. clear A.
    assert (forall l, In (k_name k, k) (map (fun k => (k_name k, k)) l) <-> In k l) as C.
    { intros l. rewrite in_map_iff. split; [intros (x & E & Hx); injection E as _ ->; exact Hx|intros; eauto]. }
    now rewrite !C in B. }
  assert (NoDup (map k_id (live_keys skip ks0)) /\ NoDup (map k_name (live_keys skip ks0))) as [M1 M2] by (split; now apply nodup_filter).
  assert (forall t', table_keys t' (live_keys skip ks0) -> table_keys t' (live_keys skip ks)) as Hsw.
  { intros t' [K1 K2 K3 K4 K5 K6]. split; auto; try (apply nodup_filter; apply HK); intros x; [rewrite (K3 x)|rewrite (K4 x)]; rewrite !in_map_iff; split; intros (k & E & Hx); exists k; (split; [exact E|]); apply live_in_keys; apply live_in_keys in Hx as [Hx ?]; split; auto; now apply Hs. }
  unfold ParseTableInfo.
  rewrite (proj2 (insert_keys_ok _ _ [] [] (by_i (live_keys skip ks0), by_n (live_keys skip ks0)) (NoDup_nil _) (NoDup_nil _))).
  2: { exists (live_keys skip ks0). cbn [fst snd app]. unfold by_i, by_n. rewrite maps_keys, maps_names. split; [|auto]. now apply forall2_map. }
  cbn [bind]. change (pt_preamble (drop_fields skip d)) with (pt_preamble d).
  apply ParserFacts.bind_ok in H as ([cs|] & Hc & H).
  - apply ParserFacts.bind_ok in H as (e & He & H). apply ParserFacts.bind_ok in H as (e' & He' & H). apply Ok_inj in H.
    rewrite Hc. cbn [bind]. rewrite He. cbn [bind].
    assert (lacking skip t ks (mkTable (pr_id (pt_preamble d)) (pr_name (pt_preamble d)) (Some e') cs (by_i (live_keys skip ks0)) (by_n (live_keys skip ks0)))) as HL.
    { split; auto; try (rewrite <- H; reflexivity). }
    unfold InferTable. rewrite <- (infer_mentioned t) with (e := e).
    + rewrite (infer_mentioned t (mkTable (pr_id (pt_preamble d)) (pr_name (pt_preamble d)) (Some e) cs (map (fun k => (k_id k, k)) ks0) (map (fun k => (k_name k, k)) ks0))) by (intros; rewrite <- H; reflexivity).
      unfold InferTable in He'. cbn [app] in He'. rewrite He'. cbn [bind]. eexists. split; [reflexivity|exact HL].
    + rewrite <- H. reflexivity.
    + intros n Hn'. cbn [ti_keys_by_name]. rewrite (find_lacking skip t ks _ n HL); [reflexivity|]. intros k Hk <-. apply (Hm e k); auto; rewrite <- H; [exact He|discriminate].
  - apply Ok_inj in H. rewrite Hc. cbn [bind]. eexists. split; [reflexivity|]. split; auto; rewrite <- H; reflexivity.
Qed.
