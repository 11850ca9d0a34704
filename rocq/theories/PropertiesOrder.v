(** What the order in which hash maps are traversed has an influence on (C108). *)
From Coq Require Import String Ascii List ZArith NArith Bool Lia Permutation.
From Verif Require Import Base Num Token Ast Lexer Quote AstConstructors Parser Info TypeChecker ConstraintInfo Interpreter Z3 Symbolic SpecLexer SpecGrammar SpecParser SpecTyping SpecSemantics SpecInfo SpecExplain SpecOrder
  StrFacts LiteralFacts SemFacts EvalFacts EntryFacts ExplainFacts InfoFacts InfoFacts2 InterpFacts PropertiesParser PropertiesInfo PropertiesVerdict PropertiesInterpreter SymDemo.
Import ListNotations.
Open Scope string_scope.

(** * Facts *)
(** The outcome of filling in, from the first key that cannot be filled in. *)
Definition stop (k : key_info) : outcome (list (string * value)) := bind (default_value k) (fun _ => Ok []).
Lemma fill_stops l : forall keys, (exists keys', fill_defaults l keys = Ok keys') \/
  (exists n k, In (n, k) l /\ ~ In n (map fst keys) /\ (forall v, default_value k <> Ok v) /\ fill_defaults l keys = stop k).
Proof.
  induction l as [|[n k] l IH]; intros keys; cbn [fill_defaults]; [left; eauto|]. destruct (assoc_find String.eqb n keys) as [u|] eqn:E.
  - destruct (IH keys) as [?|(n' & k' & H1 & H2)]; [auto|right]. exists n', k'. split; [now right|exact H2].
  - apply (afind_none String.eqb String.eqb_eq) in E. destruct (default_value k) as [v|c m|w] eqn:Ed; cbn [bind].
    + destruct (IH (keys ++ [(n, v)])%list) as [?|(n' & k' & H1 & H2 & H3)]; [auto|right]. exists n', k'. split; [now right|]. split; [|exact H3]. intros Hx. apply H2. rewrite map_app. apply in_or_app. now left.
    + right. exists n, k. split; [now left|]. split; [exact E|]. split; [intros v; congruence|]. unfold stop. now rewrite Ed.
    + right. exists n, k. split; [now left|]. split; [exact E|]. split; [intros v; congruence|]. unfold stop. now rewrite Ed.
Qed.
Lemma parse_key_same t t' f : NoDup (map fst (ti_keys_by_id t)) -> table_reordered t t' -> ParseKey f t = ParseKey f t'.
Proof.
  intros HN (_ & _ & _ & _ & Hp & _). unfold ParseKey.
  rewrite (afind_same N.eqb N.eqb_eq (ti_keys_by_id t) (ti_keys_by_id t') (fm_id f) HN (Permutation_NoDup (Permutation_map fst Hp) HN) (perm_same _ _ Hp)). reflexivity.
Qed.
Lemma parse_fields_same t t' l : NoDup (map fst (ti_keys_by_id t)) -> table_reordered t t' -> forall keys, parse_fields t l keys = parse_fields t' l keys.
Proof.
  intros HN Hr. induction l as [|f l IH]; intros keys; cbn [parse_fields]; [reflexivity|]. rewrite (parse_key_same t t' f HN Hr).
  destruct (ParseKey f t') as [[n v]|c m|w]; cbn [bind]; try reflexivity. destruct (assoc_insert String.eqb n v keys); [apply IH|reflexivity].
Qed.
Lemma parse_params_same a a' l : NoDup (map fst (ai_params_by_id a)) -> action_reordered a a' -> forall params, parse_params a l params = parse_params a' l params.
Proof.
  intros HN (_ & _ & _ & _ & Hp & _). induction l as [|[id v] l IH]; intros params; cbn [parse_params]; [reflexivity|].
  rewrite (afind_same N.eqb N.eqb_eq (ai_params_by_id a) (ai_params_by_id a') id HN (Permutation_NoDup (Permutation_map fst Hp) HN) (perm_same _ _ Hp)).
  destruct (assoc_find N.eqb id (ai_params_by_id a')) as [p|]; [|reflexivity]. destruct (assoc_find String.eqb (k_name p) params); [reflexivity|apply IH].
Qed.
Lemma table_back t t' : table_reordered t t' -> table_reordered t' t.
Proof. intros (H1 & H2 & H3 & H4 & H5 & H6). repeat split; auto using Permutation_sym. Qed.
Lemma table_on t u v : table_reordered t u -> table_reordered u v -> table_reordered t v.
Proof. intros (H1 & H2 & H3 & H4 & H5 & H6) (K1 & K2 & K3 & K4 & K5 & K6). repeat split; try congruence; eauto using Permutation_trans. Qed.
Lemma action_back a a' : action_reordered a a' -> action_reordered a' a.
Proof. intros (H1 & H2 & H3 & H4 & H5 & H6). repeat split; auto using Permutation_sym. Qed.
Lemma action_on t u v : action_reordered t u -> action_reordered u v -> action_reordered t v.
Proof. intros (H1 & H2 & H3 & H4 & H5 & H6) (K1 & K2 & K3 & K4 & K5 & K6). repeat split; try congruence; eauto using Permutation_trans. Qed.
Lemma table_reordered_keys t t' ks : table_reordered t t' -> table_keys t ks -> table_keys t' ks.
Proof. exact (same_keys t t' ks). Qed.
Lemma action_reordered_params a a' ps : action_reordered a a' -> action_params a ps -> action_params a' ps.
Proof.
  intros (_ & _ & _ & _ & H1 & H2) [K1 K2 K3 K4 K5 K6]. split; [exact K1|exact K2| | | |].
  - intros x. rewrite <- (perm_same _ _ H1 x). apply K3.
  - intros x. rewrite <- (perm_same _ _ H2 x). apply K4.
  - exact (Permutation_NoDup (Permutation_map fst H1) K5).
  - exact (Permutation_NoDup (Permutation_map fst H2) K6).
Qed.

(** How a key that cannot be filled in shows. *)
Definition shown (tn : string) (k : key_info) : outcome string :=
  bind (annotate (bind (stop k) (fun keys => Ok tt)) (" while parsing P4RT table entry for table '" ++ tn ++ "':")) (fun _ => Ok "").
Lemma app_assoc_s (a b c : string) : (a ++ b) ++ c = a ++ b ++ c.
Proof. induction a as [|x a IH]; cbn; [reflexivity|now rewrite IH]. Qed.
Lemma shown_complaint tn k : (forall v, default_value k <> Ok v) -> complaint tn k (shown tn k).
Proof.
  intros H. unfold shown, stop, default_value in *. destruct (k_type k) eqn:Et; cbn [bind annotate] in *.
  all: try (exfalso; eapply H; reflexivity).
  all: try (cbn [bind annotate String.append String.eqb]; rewrite !app_assoc_s; apply cm_other; intros w0 Hm; rewrite Et in Hm; inversion Hm; fail).
  - cbn [String.append String.eqb]. rewrite !app_assoc_s. exact (cm_exact tn k _ Et).
  - unfold MaxValueForBitwidth, shl1 in *. destruct (Z.ltb_spec w 0) as [Hw|Hw]; cbn [bind] in *; [exact (cm_range tn k w Et Hw)|]. exfalso. eapply H. reflexivity.
Qed.
Section Parsed.
  Variables (t : table_info) (ks : list key_info) (entry : p4_entry) (keys : list (string * value)).
  Hypothesis HK : table_keys t ks.
  Hypothesis HP : parse_fields t (pe_match entry) [] = Ok keys.
  Lemma parsed_nodup : NoDup (map fst keys).
  Proof. apply (parse_fields_ok t ks HK) in HP as (nv & -> & _ & HN); [exact HN|constructor]. Qed.
  Lemma parsed_omitted k : In k ks -> (omitted k (pe_match entry) <-> ~ In (k_name k) (map fst keys)).
  Proof.
    intros Hk. apply (parse_fields_ok t ks HK) in HP as (nv & -> & Hf & HN); [|constructor]. cbn [app] in *.
    destruct (fields_consistent t ks HK _ _ Hf HN) as (H1 & _ & H3). split.
    - intros Ho Hi. apply in_map_iff in Hi as ([n v] & E & Hi). cbn in E. subst n. apply H3 in Hi as (k' & f & Hk' & Hfi & Eid & En & _).
      assert (k' = k) as -> by (apply (nodup_keys k_name ks); [apply HK|exact Hk'|exact Hk|congruence]). exact (Ho f Hfi Eid).
    - intros Hn f Hfi Eid. destruct (H1 f Hfi) as (k' & v & Hk' & Eid' & Hv). assert (k' = k) as -> by (apply (nodup_keys k_id ks); [apply HK|exact Hk'|exact Hk|congruence]).
      apply Hn. apply in_map_iff. exists (k_name k, v). split; [reflexivity|]. apply H3. exists k, f. auto 6.
  Qed.
  Lemma missing_iff k : missing ks (pe_match entry) k <-> In (k_name k, k) (ti_keys_by_name t) /\ ~ In (k_name k) (map fst keys) /\ forall v, default_value k <> Ok v.
  Proof.
    split.
    - intros (Hk & Ho & Hv). split; [now apply (by_name t ks HK)|]. split; [now apply parsed_omitted|]. intros v Hd. apply default_ok in Hd. exact (Hv v Hd).
    - intros (Hk & Ho & Hv). apply (by_name t ks HK) in Hk as [Hk _]. split; [exact Hk|]. split; [now apply parsed_omitted|]. intros v Hd. apply (Hv v). now apply default_ok.
  Qed.
End Parsed.

Lemma table_answers t t' ks entry : table_keys t ks -> table_reordered t t' ->
  ReasonTableViolates t entry = ReasonTableViolates t' entry \/
  exists k k', k <> k' /\ missing ks (pe_match entry) k /\ missing ks (pe_match entry) k' /\
    ReasonTableViolates t entry = shown (ti_name t) k /\ ReasonTableViolates t' entry = shown (ti_name t) k' /\
    (exists e, ti_constraint t = Some e /\ is_bool_type (e_type e) = true) /\ exists keys, parse_fields t (pe_match entry) [] = Ok keys.
Proof.
  intros HK Hr. pose proof (table_reordered_keys _ _ _ Hr HK) as HK'. pose proof (parse_fields_same t t' (pe_match entry) (tk_by_id_unique _ _ HK) Hr []) as HF.
  pose proof Hr as (_ & En & Ec & Es & _ & Hp). unfold ReasonTableViolates. rewrite <- Ec, <- En. destruct (ti_constraint t) as [e|] eqn:Ee; [|now left].
  destruct (is_bool_type (e_type e)) eqn:Eb; cbn [negb]; [|now left]. unfold ParseTableEntry. rewrite <- HF. destruct (parse_fields t (pe_match entry) []) as [keys|c m|w] eqn:EP; cbn [bind]; [|now left..].
  rewrite <- En, <- Es. assert (parse_fields t' (pe_match entry) [] = Ok keys) as EP' by congruence. pose proof (parsed_nodup t ks entry keys HK EP) as HN.
  pose proof (tk_by_name_unique _ _ HK) as HU. pose proof (tk_by_name_unique _ _ HK') as HU'.
  destruct (fill_stops (ti_keys_by_name t) keys) as [(ks1 & E1)|(n & k & H1 & H2 & H3 & E1)], (fill_stops (ti_keys_by_name t') keys) as [(ks2 & E2)|(n' & k' & H1' & H2' & H3' & E2)].
  - rewrite E1, E2. cbn [bind annotate]. left. rewrite !check_agrees.
    destruct (fill_ok _ _ _ HU HN E1) as (F1 & _ & F2). destruct (fill_ok _ _ _ HU' HN E2) as (G1 & _ & G2). apply check_same; [exact F1|exact G1|]. intros [n v]. rewrite F2, G2.
    split; (intros [?|(Hn & k & Hk & Hd)]; [auto|right; split; [exact Hn|exists k; split; [|exact Hd]]]); apply (perm_same _ _ Hp); exact Hk.
  - exfalso. destruct (fill_ok _ _ _ HU HN E1) as (_ & F & _). destruct (F n' k') as [?|[v Hv]]; [apply (perm_same _ _ Hp); exact H1'|contradiction|exact (H3' v Hv)].
  - exfalso. destruct (fill_ok _ _ _ HU' HN E2) as (_ & F & _). destruct (F n k) as [?|[v Hv]]; [apply (perm_same _ _ Hp); exact H1|contradiction|exact (H3 v Hv)].
  - pose proof (proj1 (by_name t ks HK n k) H1) as [Hk <-]. pose proof (proj1 (by_name t' ks HK' n' k') H1') as [Hk' <-].
    assert (missing ks (pe_match entry) k) as HM by (apply (missing_iff t ks entry keys HK EP); auto). assert (missing ks (pe_match entry) k') as HM' by (apply (missing_iff t' ks entry keys HK' EP'); auto).
    rewrite E1, E2. destruct (string_dec (k_name k) (k_name k')) as [Ek|Ek].
    + left. assert (k = k') as <- by (apply (nodup_keys k_name ks); [apply HK|exact Hk|exact Hk'|exact Ek]). unfold stop. destruct (default_value k) as [v|c m|w] eqn:Ed; cbn [bind]; [destruct (H3 v eq_refl)|reflexivity..].
    + right. exists k, k'. split; [congruence|]. split; [exact HM|]. split; [exact HM'|]. unfold shown, stop.
      destruct (default_value k) as [v|c m|w] eqn:Ed; cbn [bind annotate]; [destruct (H3 v eq_refl)|..]; destruct (default_value k') as [v'|c' m'|w'] eqn:Ed'; cbn [bind annotate]; try (destruct (H3' _ eq_refl)); eauto 8.
Qed.

Lemma action_answers ci ci' : reordered ci ci' -> (forall id a, GetActionInfoOrNull ci id = Some a -> exists ps, action_params a ps) -> forall x, ReasonActionViolates ci x = ReasonActionViolates ci' x.
Proof.
  intros Hr HA x. unfold ReasonActionViolates. pose proof (ro_actions _ _ Hr (pa_id x)) as Hb. pose proof (HA (pa_id x)) as HAx. destruct Hb as [|a a' Ha]; [reflexivity|].
  destruct (HAx a eq_refl) as [ps HP]. pose proof Ha as (_ & En & Ec & Es & _ & _). rewrite <- Ec, <- En. destruct (ai_constraint a) as [e|]; [|reflexivity]. destruct (negb _); [reflexivity|].
  unfold ParseAction. rewrite <- (parse_params_same a a' (pa_params x) (ap_by_id_unique _ _ HP) Ha []), <- En, <- Es. reflexivity.
Qed.
Lemma action_set_answers ci ci' : (forall x, ReasonActionViolates ci x = ReasonActionViolates ci' x) -> forall l, ReasonActionSetViolates ci l = ReasonActionSetViolates ci' l.
Proof. intros H. induction l as [|a l IH]; cbn [ReasonActionSetViolates]; [reflexivity|now rewrite H, IH]. Qed.
Lemma shown_bind {A} tn k (f : string -> outcome A) g : (forall v, default_value k <> Ok v) -> bind (shown tn k) f = bind (shown tn k) g.
Proof. intros H. unfold shown, stop. destruct (default_value k) as [v|c m|w]; cbn [bind annotate]; [destruct (H v eq_refl)|reflexivity..]. Qed.
Lemma shown_only tn k f : (forall v, default_value k <> Ok v) -> bind (shown tn k) f = shown tn k.
Proof. intros H. unfold shown, stop. destruct (default_value k) as [v|c m|w]; cbn [bind annotate]; [destruct (H v eq_refl)|reflexivity..]. Qed.
Lemma missing_stuck ks l k : missing ks l k -> forall v, default_value k <> Ok v.
Proof. intros (_ & _ & H) v Hd. apply default_ok in Hd. exact (H v Hd). Qed.
Lemma entry_answers ci ci' t ks entry : reordered ci ci' -> (forall id a, GetActionInfoOrNull ci id = Some a -> exists ps, action_params a ps) ->
  GetTableInfoOrNull ci (pe_table_id entry) = Some t -> table_keys t ks ->
  ReasonEntryViolatesConstraint entry ci = ReasonEntryViolatesConstraint entry ci' \/
  exists k k', k <> k' /\ missing ks (pe_match entry) k /\ missing ks (pe_match entry) k' /\
    ReasonEntryViolatesConstraint entry ci = shown (ti_name t) k /\ ReasonEntryViolatesConstraint entry ci' = shown (ti_name t) k' /\
    (exists e, ti_constraint t = Some e /\ is_bool_type (e_type e) = true) /\ exists keys, parse_fields t (pe_match entry) [] = Ok keys.
Proof.
  intros Hr HA Ht HK. pose proof (action_answers _ _ Hr HA) as Ha. pose proof (action_set_answers _ _ Ha) as Hl. unfold ReasonEntryViolatesConstraint. rewrite Ht.
  pose proof (ro_tables _ _ Hr (pe_table_id entry)) as Hb. rewrite Ht in Hb. inversion Hb as [|x t' Htt E1 E2]; subst x.
  destruct (table_answers t t' ks entry HK Htt) as [E|(k & k' & Hne & Hm & Hm' & E & E' & Hrest)].
  - left. rewrite E. destruct (ReasonTableViolates t' entry) as [s|c m|w]; cbn [bind]; [|reflexivity..]. destruct (negb _); [reflexivity|]. destruct (pe_action entry) as [[a|i|i|l|]|]; try reflexivity; [apply Ha|apply Hl].
  - right. exists k, k'. rewrite E, E', (shown_only _ k _ (missing_stuck _ _ _ Hm)), (shown_only _ k' _ (missing_stuck _ _ _ Hm')). auto 8.
Qed.
(** Another order of one table. *)
Definition with_table (ci : constraint_info) (id : N) (t : table_info) : constraint_info :=
  mkInfo (ci_actions ci) (map (fun x => if N.eqb (fst x) id then (fst x, t) else x) (ci_tables ci)).
Lemma with_table_find ci id t i : GetTableInfoOrNull (with_table ci id t) i = match GetTableInfoOrNull ci i with None => None | Some u => Some (if N.eqb i id then t else u) end.
Proof.
  unfold GetTableInfoOrNull, with_table. cbn [ci_tables]. induction (ci_tables ci) as [|[j u] l IH]; cbn [map fst assoc_find]; [reflexivity|].
  destruct (N.eqb_spec j id) as [->|Hj]; cbn [assoc_find].
  - destruct (N.eqb_spec i id) as [->|Hi]; [reflexivity|]. exact IH.
  - destruct (N.eqb_spec i j) as [->|Hi]; [|exact IH]. destruct (N.eqb_spec j id); [contradiction|reflexivity].
Qed.
Lemma fill_first n k l keys : ~ In n (map fst keys) -> (forall v, default_value k <> Ok v) -> fill_defaults ((n, k) :: l) keys = stop k.
Proof.
  intros Hn Hd. cbn [fill_defaults]. destruct (assoc_find String.eqb n keys) as [u|] eqn:E.
  - exfalso. apply Hn. apply (afind_in String.eqb String.eqb_eq) in E. apply in_map_iff. exists (n, u). auto.
  - unfold stop. destruct (default_value k) as [v|c m|w]; [destruct (Hd v eq_refl)|reflexivity..].
Qed.
Lemma blamed ci t ks entry k : GetTableInfoOrNull ci (pe_table_id entry) = Some t -> table_keys t ks ->
  (exists e, ti_constraint t = Some e /\ is_bool_type (e_type e) = true) -> (exists keys, parse_fields t (pe_match entry) [] = Ok keys) ->
  missing ks (pe_match entry) k -> exists ci', reordered ci ci' /\ ReasonEntryViolatesConstraint entry ci' = shown (ti_name t) k.
Proof.
  intros Ht HK (e & Ee & Eb) (keys & EP) Hm. pose proof (proj1 (missing_iff t ks entry keys HK EP k) Hm) as (Hi & Ho & Hd).
  destruct (in_split _ _ Hi) as (l1 & l2 & El).
  set (t' := mkTable (ti_id t) (ti_name t) (ti_constraint t) (ti_source t) (ti_keys_by_id t) ((k_name k, k) :: l1 ++ l2)).
  assert (table_reordered t t') as Htt. { repeat split; cbn; [apply Permutation_refl|]. rewrite El. apply Permutation_sym, Permutation_middle. }
  exists (with_table ci (pe_table_id entry) t'). split.
  - split.
    + intros id. rewrite with_table_find. destruct (GetTableInfoOrNull ci id) as [u|] eqn:Eu; [|constructor]. constructor. destruct (N.eqb_spec id (pe_table_id entry)) as [->|]; [|repeat split; apply Permutation_refl].
      assert (u = t) as -> by congruence. exact Htt.
    + intros id. change (GetActionInfoOrNull (with_table ci (pe_table_id entry) t') id) with (GetActionInfoOrNull ci id). destruct (GetActionInfoOrNull ci id); constructor. repeat split; apply Permutation_refl.
  - unfold ReasonEntryViolatesConstraint. rewrite with_table_find, Ht, N.eqb_refl. assert (ReasonTableViolates t' entry = shown (ti_name t) k) as ->; [|apply shown_only; exact Hd].
    unfold ReasonTableViolates. cbn [ti_constraint t']. rewrite Ee, Eb. cbn [negb]. unfold ParseTableEntry. rewrite <- (parse_fields_same t t' _ (tk_by_id_unique _ _ HK) Htt), EP. cbn [bind].
    change (ti_keys_by_name t') with ((k_name k, k) :: l1 ++ l2)%list. rewrite (fill_first _ _ _ _ Ho Hd). unfold shown, stop. destruct (default_value k) as [v|c m|w]; cbn [bind annotate]; [destruct (Hd v eq_refl)|reflexivity..].
Qed.

(** * C108 *)
Lemma back ci ci' : reordered ci ci' -> reordered ci' ci.
Proof. intros [H1 H2]. split; intros id; [destruct (H1 id)|destruct (H2 id)]; constructor; auto using table_back, action_back. Qed.
Lemma on ci ci' ci'' : reordered ci ci' -> reordered ci' ci'' -> reordered ci ci''.
Proof.
  intros [H1 H2] [K1 K2]. split; intros id; [specialize (H1 id); specialize (K1 id)|specialize (H2 id); specialize (K2 id)].
  - destruct H1 as [|a b Hab]; inversion K1; subst; constructor; eauto using table_on.
  - destruct H2 as [|a b Hab]; inversion K2; subst; constructor; eauto using action_on.
Qed.
Lemma reordered_actions pton p ci ci' : P4ToConstraintInfo pton p = Ok ci -> reordered ci ci' -> forall id a, GetActionInfoOrNull ci' id = Some a -> exists ps, action_params a ps.
Proof.
  intros Hci Hr id a Ha. pose proof (ro_actions _ _ Hr id) as Hb. rewrite Ha in Hb. inversion Hb as [|a0 b0 Hab E1 E2]; subst b0. symmetry in E1.
  destruct (C37_exact pton p ci Hci) as (_ & _ & _ & H). apply H in E1 as (d & ps & _ & _ & Hao). exists ps. exact (action_reordered_params _ _ _ Hab (ao_params _ _ _ _ Hao)).
Qed.
Lemma answers pton p ci ci1 ci2 entry : P4ToConstraintInfo pton p = Ok ci -> reordered ci ci1 -> reordered ci ci2 ->
  ReasonEntryViolatesConstraint entry ci1 = ReasonEntryViolatesConstraint entry ci2 \/
  exists d ks t1 k k', In d (p4_tables p) /\ table_id d = pe_table_id entry /\ Forall2 key_decl (pt_match_fields d) ks /\
    k <> k' /\ missing ks (pe_match entry) k /\ missing ks (pe_match entry) k' /\
    ReasonEntryViolatesConstraint entry ci1 = shown (pr_name (pt_preamble d)) k /\ ReasonEntryViolatesConstraint entry ci2 = shown (pr_name (pt_preamble d)) k' /\
    GetTableInfoOrNull ci1 (pe_table_id entry) = Some t1 /\ table_keys t1 ks /\ ti_name t1 = pr_name (pt_preamble d) /\
    (exists e, ti_constraint t1 = Some e /\ is_bool_type (e_type e) = true) /\ exists keys, parse_fields t1 (pe_match entry) [] = Ok keys.
Proof.
  intros Hci H1 H2. pose proof (on _ _ _ (back _ _ H1) H2) as H12. pose proof (reordered_actions pton p ci ci1 Hci H1) as HA.
  destruct (GetTableInfoOrNull ci1 (pe_table_id entry)) as [t1|] eqn:E1.
  - pose proof (ro_tables _ _ H1 (pe_table_id entry)) as Hb. rewrite E1 in Hb. inversion Hb as [|t x Htt E0 Ex]; subst x. symmetry in E0.
    destruct (C37_exact pton p ci Hci) as (_ & H & _). apply H in E0 as (d & ks & Hd & Eid & Hto). pose proof (table_reordered_keys _ _ _ Htt (to_keys _ _ _ _ Hto)) as HK.
    destruct (entry_answers ci1 ci2 t1 ks entry H12 HA E1 HK) as [E|(k & k' & Hne & Hm & Hm' & F1 & F2 & F3 & F4)]; [now left|right].
    assert (ti_name t1 = pr_name (pt_preamble d)) as En by (destruct Htt as (_ & <- & _); exact (to_name _ _ _ _ Hto)). rewrite En in F1, F2.
    exists d, ks, t1, k, k'. repeat (split; [reflexivity || assumption || exact (to_decls _ _ _ _ Hto)|]). exact F4.
  - left. unfold ReasonEntryViolatesConstraint. pose proof (ro_tables _ _ H12 (pe_table_id entry)) as Hb. rewrite E1 in *. inversion Hb. reflexivity.
Qed.
(** However the hash maps of a loaded program are traversed, the same entry gets the same answer, failures
    and their messages included, except that an entry that lacks several keys may be told about any of them. *)
Theorem C108_determined : forall pton p ci ci1 ci2 entry, P4ToConstraintInfo pton p = Ok ci -> reordered ci ci1 -> reordered ci ci2 ->
  ReasonEntryViolatesConstraint entry ci1 = ReasonEntryViolatesConstraint entry ci2 \/
  exists d ks k k', In d (p4_tables p) /\ table_id d = pe_table_id entry /\ Forall2 key_decl (pt_match_fields d) ks /\
    k <> k' /\ missing ks (pe_match entry) k /\ missing ks (pe_match entry) k' /\
    complaint (pr_name (pt_preamble d)) k (ReasonEntryViolatesConstraint entry ci1) /\ complaint (pr_name (pt_preamble d)) k' (ReasonEntryViolatesConstraint entry ci2).
Proof.
  intros pton p ci ci1 ci2 entry Hci H1 H2. destruct (answers pton p ci ci1 ci2 entry Hci H1 H2) as [E|(d & ks & t1 & k & k' & Hd & Eid & Hks & Hne & Hm & Hm' & F1 & F2 & _)]; [now left|right].
  exists d, ks, k, k'. rewrite F1, F2. repeat (split; [assumption|]). split; apply shown_complaint; eapply missing_stuck; eassumption.
Qed.
Print Assumptions C108_determined.
(** As soon as the order has an influence, each of the missing keys is named in some order. *)
Theorem C108_any : forall pton p ci ci1 ci2 entry d ks k, P4ToConstraintInfo pton p = Ok ci -> reordered ci ci1 -> reordered ci ci2 ->
  ReasonEntryViolatesConstraint entry ci1 <> ReasonEntryViolatesConstraint entry ci2 ->
  In d (p4_tables p) -> table_id d = pe_table_id entry -> Forall2 key_decl (pt_match_fields d) ks -> missing ks (pe_match entry) k ->
  exists ci', reordered ci ci' /\ complaint (pr_name (pt_preamble d)) k (ReasonEntryViolatesConstraint entry ci').
Proof.
  intros pton p ci ci1 ci2 entry d ks k Hci H1 H2 Hne Hd Eid Hks Hm. destruct (answers pton p ci ci1 ci2 entry Hci H1 H2) as [E|(d' & ks' & t1 & k1 & k2 & Hd' & Eid' & Hks' & _ & _ & _ & _ & _ & E1 & HK & En & F3 & F4)]; [contradiction|].
  assert (d' = d) as ->. { refine (nodup_keys table_id (p4_tables p) _ _ _ Hd' Hd _); [|congruence]. destruct (proj1 (C37_success_iff pton p) (ex_intro _ ci Hci)) as (HN & _). exact HN. }
  assert (ks' = ks) as -> by exact (forall2_fun _ key_decl_fun _ _ _ Hks' Hks).
  destruct (blamed ci1 t1 ks entry k E1 HK F3 F4 Hm) as (ci' & Hr & E). exists ci'. split; [exact (on _ _ _ H1 Hr)|]. rewrite E, En. apply shown_complaint. exact (missing_stuck _ _ _ Hm).
Qed.
Print Assumptions C108_any.
(** So an entry that lacks at most one key gets one answer. *)
Theorem C108_same : forall pton p ci ci1 ci2 entry, P4ToConstraintInfo pton p = Ok ci -> reordered ci ci1 -> reordered ci ci2 ->
  (forall d ks k k', In d (p4_tables p) -> table_id d = pe_table_id entry -> Forall2 key_decl (pt_match_fields d) ks -> missing ks (pe_match entry) k -> missing ks (pe_match entry) k' -> k = k') ->
  ReasonEntryViolatesConstraint entry ci1 = ReasonEntryViolatesConstraint entry ci2.
Proof.
  intros pton p ci ci1 ci2 entry Hci H1 H2 H. destruct (C108_determined pton p ci ci1 ci2 entry Hci H1 H2) as [E|(d & ks & k & k' & Hd & Eid & Hks & Hne & Hm & Hm' & _)]; [exact E|]. destruct Hne. exact (H d ks k k' Hd Eid Hks Hm Hm').
Qed.
Print Assumptions C108_same.
(** Actions always do. *)
Theorem C108_action : forall pton p ci ci1 ci2 x, P4ToConstraintInfo pton p = Ok ci -> reordered ci ci1 -> reordered ci ci2 -> ReasonActionViolates ci1 x = ReasonActionViolates ci2 x.
Proof.
  intros pton p ci ci1 ci2 x Hci H1 H2. exact (action_answers ci1 ci2 (on _ _ _ (back _ _ H1) H2) (reordered_actions pton p ci ci1 Hci H1) x).
Qed.
Print Assumptions C108_action.

(** The status code is the same if all keys are matched exactly, ternary, by longest prefix, by a range or optionally. *)
Theorem C108_code : forall pton p ci ci1 ci2 entry c m, P4ToConstraintInfo pton p = Ok ci -> reordered ci ci1 -> reordered ci ci2 ->
  (forall d ks k, In d (p4_tables p) -> table_id d = pe_table_id entry -> Forall2 key_decl (pt_match_fields d) ks -> In k ks -> exists w, (0 <= w)%Z /\ match_type w (k_type k)) ->
  ReasonEntryViolatesConstraint entry ci1 = Err c m -> exists m', ReasonEntryViolatesConstraint entry ci2 = Err c m'.
Proof.
  intros pton p ci ci1 ci2 entry c m Hci H1 H2 Hst E. destruct (C108_determined pton p ci ci1 ci2 entry Hci H1 H2) as [E'|(d & ks & k & k' & Hd & Eid & Hks & Hne & Hm & Hm' & Hc & Hc')]; [exists m; congruence|].
  assert (forall k o, In k ks -> complaint (pr_name (pt_preamble d)) k o -> exists m, o = Err InvalidArgument m) as Hx.
  { intros k0 o Hk0 [w Et|w Et Hw|Ho]; [eauto|..]; destruct (Hst d ks k0 Hd Eid Hks Hk0) as (w' & Hw' & Ht); [|now apply Ho in Ht]. rewrite Et in Ht. inversion Ht. lia. }
  destruct (Hx k _ (proj1 Hm) Hc) as [m1 E1]. destruct (Hx k' _ (proj1 Hm') Hc') as [m2 E2]. exists m2. congruence.
Qed.
Print Assumptions C108_code.

(** Type checking and solving. *)
Lemma infer_reordered t t' e : NoDup (map fst (ti_keys_by_name t)) -> table_reordered t t' -> InferTable e t = InferTable e t'.
Proof.
  intros HN (_ & En & _ & Es & _ & Hp). unfold InferTable.
  assert (forall n, assoc_find String.eqb n (ti_keys_by_name t) = assoc_find String.eqb n (ti_keys_by_name t')) as Hf.
  { intros n. exact (afind_same String.eqb String.eqb_eq _ _ n HN (Permutation_NoDup (Permutation_map fst Hp) HN) (perm_same _ _ Hp)). }
  induction e as [m b|m s|m n|m n|m e IH|m e IH|m e IH|m o l IHl r IHr|m f e IH|m n|m]; cbn [Infer GetConstraintSource]; rewrite <- Es; cbn [bind]; rewrite <- ?IH, <- ?IHl, <- ?IHr, <- ?Hf; reflexivity.
Qed.
Lemma ordered_reordered t t' : NoDup (map fst (ti_keys_by_name t)) -> table_reordered t t' -> Ordered (ti_keys_by_name t) = Ordered (ti_keys_by_name t').
Proof. intros HN (_ & _ & _ & _ & _ & Hp). exact (ordered_same _ _ HN (Permutation_NoDup (Permutation_map fst Hp) HN) (perm_same _ _ Hp)). Qed.
Section Solving.
  Variables (check : solver) (pton : inet_pton6) (t t' : table_info).
  Hypothesis HN : NoDup (map fst (ti_keys_by_name t)).
  Hypothesis Hr : table_reordered t t'.
  Let of (cs : constraint_solver) : constraint_solver := mkCS t' (cs_env cs) (cs_skip cs) (cs_stack cs).
  Let both_ways (r : outcome bool * constraint_solver) : outcome bool * constraint_solver := (fst r, of (snd r)).
  Lemma add_reordered cs e src : cs_table cs = t -> AddConstraint check (of cs) e src = both_ways (AddConstraint check cs e src).
  Proof.
    intros _. unfold AddConstraint, both_ways, of. cbn [cs_stack cs_env cs_skip cs_table]. destruct (negb (is_sat check (cs_stack cs))); [reflexivity|].
    destruct (EvaluateConstraintSymbolically (cs_env cs) src e) as [u|c m|w]; [|reflexivity..]. destruct (negb (is_sbool u)); [reflexivity|]. destruct (negb _); reflexivity.
  Qed.
  Lemma add_table cs e src : cs_table (snd (AddConstraint check cs e src)) = cs_table cs.
  Proof.
    unfold AddConstraint. destruct (negb (is_sat check (cs_stack cs))); [reflexivity|].
    destruct (EvaluateConstraintSymbolically (cs_env cs) src e) as [u|c m|w]; [|reflexivity..]. destruct (negb (is_sbool u)); [reflexivity|]. destruct (negb _); reflexivity.
  Qed.
  Lemma text_reordered cs text : cs_table cs = t -> AddConstraintString check pton (of cs) text = both_ways (AddConstraintString check pton cs text) /\ cs_table (snd (AddConstraintString check pton cs text)) = t.
  Proof.
    intros E. unfold AddConstraintString. rewrite E. change (cs_table (of cs)) with t'. pose proof Hr as (_ & En & _). rewrite <- En.
    destruct (ParseConstraint pton kTableConstraint _) as [x|c m|w]; cbn [bind]; [|split; [reflexivity|exact E]..]. rewrite <- (infer_reordered t t' x HN Hr).
    destruct (InferTable x t) as [y|c m|w]; [|split; [reflexivity|exact E]..]. split; [now apply add_reordered|]. now rewrite add_table.
  Qed.
  Lemma concretize_reordered cs : cs_table cs = t -> ConcretizeEntry check (of cs) = ConcretizeEntry check cs.
  Proof.
    intros E. unfold ConcretizeEntry. rewrite E. unfold of. cbn [cs_stack cs_env cs_table]. rewrite <- (ordered_reordered t t' HN Hr). pose proof Hr as (<- & _).
    destruct (check (assertions (cs_stack cs))) as [m|]; [|reflexivity].
    assert (forall l acc, concretize_keys (mkCS t' (cs_env cs) (cs_skip cs) (cs_stack cs)) m l acc = concretize_keys cs m l acc) as ->; [|reflexivity].
    induction l as [|[n k] l IH]; intros acc; cbn [concretize_keys cs_skip cs_env]; [reflexivity|]. destruct (cs_skip cs n) as [[]|c0 m0|w]; cbn [bind]; [apply IH| |reflexivity..].
    destruct (FindPtrOrStatus (se_keys (cs_env cs)) n) as [sk|c0 m0|w]; cbn [bind]; [|reflexivity..]. destruct (ConcretizeKey sk k m) as [[f|]|c0 m0|w]; cbn [bind]; [apply IH|apply IH|reflexivity..].
  Qed.
  Lemma replies_reordered l : forall cs, cs_table cs = t -> replies check pton (of cs) l = replies check pton cs l.
  Proof.
    induction l as [|[e src|text|] l IH]; intros cs E; cbn [replies]; [reflexivity|..].
    - rewrite (add_reordered cs e src E). unfold both_ways. cbn [fst snd]. rewrite IH; [reflexivity|now rewrite add_table].
    - destruct (text_reordered cs text E) as [-> Et]. unfold both_ways. cbn [fst snd]. now rewrite IH.
    - rewrite (concretize_reordered cs E), IH; [reflexivity|exact E].
  Qed.
  Lemma conversation_reordered skip l : conversation check pton t skip l = conversation check pton t' skip l.
  Proof.
    unfold conversation, Create. pose proof Hr as (_ & _ & Ec & Es & _). rewrite <- (ordered_reordered t t' HN Hr), <- Ec, <- Es.
    destruct (create_keys skip (Ordered (ti_keys_by_name t)) false [] []) as [[[prio keys] asserted]|c m|w]; cbn [bind]; [|reflexivity..].
    destruct (if prio then _ else _) as [attrs asserted'].
    set (cs := mkCS t (mkEnv keys attrs) skip [asserted']). change (mkCS t' (mkEnv keys attrs) skip [asserted']) with (of cs).
    destruct (ti_constraint t) as [e|]; cbn [bind]; [|now rewrite (replies_reordered l cs eq_refl)].
    rewrite (add_reordered cs e (ti_source t) eq_refl). unfold both_ways. pose proof (add_table cs e (ti_source t)) as Et. destruct (AddConstraint check cs e (ti_source t)) as [[[]|c m|w] cs']; cbn [fst snd bind] in *; [|reflexivity..].
    now rewrite (replies_reordered l cs' Et).
  Qed.
End Solving.
(** All that a solver answers is the same, whatever it is asked. *)
Theorem C108_solver : forall check pton p ci ci1 ci2 id t1 t2 skip l, P4ToConstraintInfo pton p = Ok ci -> reordered ci ci1 -> reordered ci ci2 ->
  GetTableInfoOrNull ci1 id = Some t1 -> GetTableInfoOrNull ci2 id = Some t2 -> conversation check pton t1 skip l = conversation check pton t2 skip l.
Proof.
  intros check pton p ci ci1 ci2 id t1 t2 skip l Hci H1 H2 E1 E2. pose proof (ro_tables _ _ H1 id) as R1. pose proof (ro_tables _ _ H2 id) as R2. rewrite E1 in R1. rewrite E2 in R2.
  inversion R1 as [|t x Ht1 F1 G1]; subst x. rewrite <- F1 in R2. inversion R2 as [|t0 x Ht2 F2 G2]; subst t0 x.
  destruct (C37_exact pton p ci Hci) as (_ & H & _). symmetry in F1. apply H in F1 as (d & ks & _ & _ & Hto). pose proof (tk_by_name_unique _ _ (to_keys _ _ _ _ Hto)) as HN.
  rewrite <- (conversation_reordered check pton t t1 HN Ht1 skip l). exact (conversation_reordered check pton t t2 HN Ht2 skip l).
Qed.
Print Assumptions C108_solver.
(** Two exact keys and one of an unsupported kind, in two orders. *)
Definition or_table : p4_table := mkP4Table (mkPre 1 "t" [restriction "entry" ["a == 1"]]) [mkMF 1 "a" 8 (MMatchType MTExact); mkMF 2 "b" 8 (MMatchType MTExact); mkMF 3 "c" 8 (MOther "atcam")].
Definition or_info : p4info := mkP4Info [or_table] [].
Definition or_ci : constraint_info := Eval vm_compute in the (mkInfo [] []) (P4ToConstraintInfo pton1 or_info).
Definition turned (t : table_info) : table_info := mkTable (ti_id t) (ti_name t) (ti_constraint t) (ti_source t) (rev (ti_keys_by_id t)) (rev (ti_keys_by_name t)).
Definition or_ci' : constraint_info := Eval vm_compute in mkInfo (ci_actions or_ci) (map (fun x => (fst x, turned (snd x))) (ci_tables or_ci)).
Lemma or_loads : P4ToConstraintInfo pton1 or_info = Ok or_ci.
Proof. vm_compute. reflexivity. Qed.
Lemma reordered_refl ci : reordered ci ci.
Proof. split; intros id; [destruct (GetTableInfoOrNull ci id)|destruct (GetActionInfoOrNull ci id)]; constructor; repeat split; apply Permutation_refl. Qed.
Lemma or_reordered : reordered or_ci or_ci'.
Proof.
  split; intros id; unfold GetTableInfoOrNull, GetActionInfoOrNull, or_ci, or_ci'; cbn [ci_tables ci_actions assoc_find]; [|constructor].
  destruct (N.eqb id 1); constructor. repeat split; cbn [ti_keys_by_id ti_keys_by_name].
  - match goal with |- Permutation ?l _ => exact (Permutation_rev l) end.
  - match goal with |- Permutation ?l _ => exact (Permutation_rev l) end.
Qed.
Definition or_none : p4_entry := mkEntry 1 [] None 0.
(** Which of the missing keys is named, and with it the message and even the status code, does depend on the order. *)
Theorem C108_one_answer_refuted : exists pton p ci ci' entry c c' m m', P4ToConstraintInfo pton p = Ok ci /\ reordered ci ci' /\
  ReasonEntryViolatesConstraint entry ci = Err c m /\ ReasonEntryViolatesConstraint entry ci' = Err c' m' /\ c <> c' /\ m <> m'.
Proof.
  exists pton1, or_info, or_ci, or_ci', or_none, InvalidArgument, Internal,
    "missing exact match key 'a';  while parsing P4RT table entry for table 't':", "Key 'c' of invalid match type detected at runtime: ;  while parsing P4RT table entry for table 't':".
  split; [exact or_loads|]. split; [exact or_reordered|]. split; [vm_compute; reflexivity|]. split; [vm_compute; reflexivity|]. split; discriminate.
Qed.
Print Assumptions C108_one_answer_refuted.
(** An entry that lacks three keys, so that the key [b] in the middle is named in another order; one that lacks only [b], which gets one answer. *)
Definition or_keys : list key_info := [mkKey 1 "a" (TExact 8); mkKey 2 "b" (TExact 8); mkKey 3 "c" (TUnsupported "atcam")].
Definition or_one : p4_entry := mkEntry 2 [mkFM 1 (FMExact "x"); mkFM 3 (FMTernary "x" "y")] None 7.
Definition or_two_keys : p4info := mkP4Info [or_table; mkP4Table (mkPre 2 "u" [restriction "entry" ["a == 1"]]) [mkMF 1 "a" 8 (MMatchType MTExact); mkMF 2 "b" 8 (MMatchType MTExact); mkMF 3 "c" 8 (MMatchType MTTernary)]] [].
Example C108_case : P4ToConstraintInfo pton1 or_info = Ok or_ci /\ reordered or_ci or_ci /\ reordered or_ci or_ci' /\
  ReasonEntryViolatesConstraint or_none or_ci <> ReasonEntryViolatesConstraint or_none or_ci' /\
  In or_table (p4_tables or_info) /\ table_id or_table = pe_table_id or_none /\ Forall2 key_decl (pt_match_fields or_table) or_keys /\ missing or_keys (pe_match or_none) (mkKey 2 "b" (TExact 8)) /\
  (exists ci m, P4ToConstraintInfo pton1 or_two_keys = Ok ci /\ ReasonEntryViolatesConstraint or_one ci = Err InvalidArgument m) /\
  forall d ks k k', In d (p4_tables or_two_keys) -> table_id d = pe_table_id or_one -> Forall2 key_decl (pt_match_fields d) ks -> missing ks (pe_match or_one) k -> missing ks (pe_match or_one) k' -> k = k'.
Proof.
  split; [exact or_loads|]. split; [apply reordered_refl|]. split; [exact or_reordered|]. split.
  { intros E. assert (ReasonEntryViolatesConstraint or_none or_ci = Err InvalidArgument "missing exact match key 'a';  while parsing P4RT table entry for table 't':") as E1 by (vm_compute; reflexivity).
    assert (ReasonEntryViolatesConstraint or_none or_ci' = Err Internal "Key 'c' of invalid match type detected at runtime: ;  while parsing P4RT table entry for table 't':") as E2 by (vm_compute; reflexivity).
    rewrite E1, E2 in E. discriminate E. }
  split; [now left|]. split; [reflexivity|]. split; [repeat constructor|]. split.
  { split; [right; left; reflexivity|]. split; [intros f []|]. intros v H. inversion H. }
  split.
  { exists (the (mkInfo [] []) (P4ToConstraintInfo pton1 or_two_keys)). eexists. split; vm_compute; reflexivity. }
  assert (forall ks k, Forall2 key_decl [mkMF 1 "a" 8 (MMatchType MTExact); mkMF 2 "b" 8 (MMatchType MTExact); mkMF 3 "c" 8 (MMatchType MTTernary)] ks -> missing ks (pe_match or_one) k -> k = mkKey 2 "b" (TExact 8)) as Hk.
  { intros ks k Hks (Hi & Ho & _). assert (ks = [mkKey 1 "a" (TExact 8); mkKey 2 "b" (TExact 8); mkKey 3 "c" (TTernary 8)]) as -> by (refine (forall2_fun _ key_decl_fun _ _ _ Hks _); repeat constructor).
    destruct Hi as [<-|[<-|[<-|[]]]]; [|reflexivity|].
    - destruct (Ho (mkFM 1 (FMExact "x")) (or_introl eq_refl) eq_refl).
    - destruct (Ho (mkFM 3 (FMTernary "x" "y")) (or_intror (or_introl eq_refl)) eq_refl). }
  intros d ks k k' [<-|[<-|[]]] Eid Hks Hm Hm'; [discriminate Eid|]. rewrite (Hk ks k Hks Hm), (Hk ks k' Hks Hm'). reflexivity.
Qed.

(** A solver that accepts one more constraint and yields an entry, with its keys in another order. *)
Definition sy_ci' : constraint_info := Eval vm_compute in mkInfo (ci_actions sy_ci) (map (fun x => (fst x, turned (snd x))) (ci_tables sy_ci)).
Example C108_solver_case : P4ToConstraintInfo pton1 (mkP4Info [sy_decl] []) = Ok sy_ci /\ reordered sy_ci sy_ci' /\ GetTableInfoOrNull sy_ci 3 = Some sy_table /\
  GetTableInfoOrNull sy_ci' 3 = Some (turned sy_table) /\ turned sy_table <> sy_table /\
  conversation sy_check pton1 sy_table sy_skip [AddsText sy_more; WantsEntry] = Ok [Added (Ok true); Entry (Ok sy_entry)].
Proof.
  split; [vm_compute; reflexivity|]. split.
  { split; intros id; unfold GetTableInfoOrNull, GetActionInfoOrNull, sy_ci, sy_ci'; cbn [ci_tables ci_actions assoc_find]; [|constructor].
    destruct (N.eqb id 3); constructor. repeat split; cbn [ti_keys_by_id ti_keys_by_name].
    - match goal with |- Permutation ?l _ => exact (Permutation_rev l) end.
    - match goal with |- Permutation ?l _ => exact (Permutation_rev l) end. }
  split; [reflexivity|]. split; [reflexivity|]. split; [discriminate|].
  unfold conversation. rewrite sy_created. cbn [bind replies]. rewrite sy_added. cbn [fst snd]. rewrite sy_concretized. reflexivity.
Qed.
