(** C41-C48: the symbolic interpreter. *)
From Coq Require Import String Ascii List ZArith NArith Bool Lia.
From Verif Require Import Base Num Token Ast Quote AstConstructors Info TypeChecker Parser ConstraintInfo Interpreter Z3 Symbolic SpecLexer SpecGrammar SpecTyping TypeFacts SpecSemantics SpecInfo SpecSymbolic SpecSolver
  NumFacts LiteralFacts ParserFacts4 EntryFacts EvalFacts SemFacts SemFacts2 ExplainFacts VerdictFacts InfoFacts InfoFacts2 InterpFacts InterpFacts2 SymFacts SymFacts2 SymBytes SymKeys SymState SymMeaning SymComplete SymDemo PropertiesParser PropertiesInfo PropertiesVerdict.
Import ListNotations.
Open Scope string_scope.

(** The scope and the meaning of names for an entry with match fields [l] and priority [p]. *)
Notation scope_of t := (InTable (ti_keys_by_name t)).
Lemma int32_nonneg ks : int32_widths ks -> forall k w, In k ks -> width (k_type k) w -> (0 <= w)%Z.
Proof. intros H k w Hk Hw. apply (H k w Hk Hw). Qed.

Lemma forall2_in {A B} (R : A -> B -> Prop) l m : Forall2 R l m -> forall a, In a l -> exists b, In b m /\ R a b.
Proof. induction 1 as [|x y l m H HF IH]; intros a []; [subst; exists y; cbn; auto|]. destruct (IH a) as (b & Hb & HR); [assumption|]. exists b. cbn. auto. Qed.
Section Env.
  Variables (t : table_info) (ks : list key_info) (fields : list field_match) (key : string -> option value) (p : Z).
  Hypothesis HK : table_keys t ks.
  Hypothesis Hw : forall k w, In k ks -> width (k_type k) w -> (0 <= w)%Z.
  Hypothesis Hco : consistent ks fields.
  Hypothesis Hkey : forall n v, key n = Some v <-> Assigned ks fields n v.
  Let entry := mkEntry (ti_id t) fields None p.
  Lemma entry_env_ok : env_ok (scope_of t) (TableEnv key p).
  Proof.
    destruct (entry_total t ks HK entry Hco) as [ctx Hp]. pose proof (entry_env t ks HK entry ctx Hp) as H. specialize (H ltac:(intros n k w Hk; apply (by_name t ks HK) in Hk as [Hk _]; now apply Hw)).
    pose proof (entry_env_eq t ks entry ctx key HK Hp Hkey) as HE. destruct (env_of ctx) as [key' p'|]; [|contradiction]. destruct HE as [-> HE]. inversion H as [? ? ? H1 H2|]; subst. constructor; [|exact H2].
    intros n ty Hd Hu. destruct (H1 n ty Hd Hu) as (v & Hv & Ht). exists v. split; [congruence|exact Ht].
  Qed.
  Lemma entry_den e0 e : InferTable e0 t = Ok e -> e_type e = TBool -> literals e0 -> exists b, Den (scope_of t) (TableEnv key p) e0 (VBool b).
  Proof.
    intros Hi Ht Hl. destruct (den_total None (Some t) _ (table_in_scope t ks HK) (TableEnv key p) e0 TBool) as (v & Hd & Hty).
    - exact entry_env_ok.
    - rewrite <- Ht. exact (proj1 (infer_ok None (Some t) _ (table_in_scope t ks HK) _ _ Hi)).
    - exact Hl.
    - eauto.
    - inversion Hty; subst. eauto.
  Qed.
End Env.

(** * C41 *)
(** In the state after any calls, the term for a type-checked constraint is true of an assignment that
    depicts an entry iff the constraint holds of the entry. ([reorders]: the signed comparisons, see below.) *)
Theorem C41_encoding_agrees_partial : forall check pton t ks skip cs l e0 e src u m fields key p, table_keys t ks -> History check pton t skip cs l ->
  InferTable e0 t = Ok e -> literals e0 -> EvaluateConstraintSymbolically (cs_env cs) src e = Ok u ->
  (forall k w, In k ks -> width (k_type k) w -> (0 <= w)%Z) -> consistent ks fields -> (forall n v, key n = Some v <-> Assigned ks fields n v) ->
  well_sorted m -> (forall k v, In k ks -> live skip k -> Assigned ks fields (k_name k) v -> pictures m k v) -> (prioritized ks -> pictures_priority m p) ->
  ~ reorders (scope_of t) (TableEnv key p) e0 ->
  exists b, zeval m u = VB b /\ (b = true <-> Den (scope_of t) (TableEnv key p) e0 (VBool true)).
Proof.
  intros check pton t ks skip cs l e0 e src u m fields key p HK HH Hi Hl Hu Hw Hco Hkey Hm Hpi Hpp Hr.
  destruct (history_holds t ks HK skip check pton cs l HH) as (base & us & Hs). pose proof (h_built _ _ _ _ _ _ _ _ Hs) as HB.
  assert (encodes (cs_env cs) e u) as Hen by (now exists src). destruct (encodes_bool _ _ _ Hen) as [Et _].
  destruct (entry_den t ks fields key p HK Hw Hco Hkey e0 e Hi Et Hl) as (b & Hd). exists b. split.
  - eapply (encode_den t ks HK skip _ _ HB m key p Hm); eauto. intros k v Hk Hlv Hv. apply Hpi; auto. now apply Hkey.
  - split; [intros ->; exact Hd|]. intros Hd'. pose proof (den_fun None (Some t) _ (table_in_scope t ks HK) _ _ _ _ Hd Hd') as E. congruence.
Qed.
Print Assumptions C41_encoding_agrees_partial.
(** The same for the concrete checker: its verdict, if it gives one, is the value of the term. *)
Theorem C41_verdict_agrees_partial : forall check pton t ks skip cs l e0 e src u m entry text, table_keys t ks -> History check pton t skip cs l ->
  ti_constraint t = Some e -> InferTable e0 t = Ok e -> literals e0 -> EvaluateConstraintSymbolically (cs_env cs) src e = Ok u ->
  (forall k w, In k ks -> width (k_type k) w -> (0 <= w)%Z) ->
  well_sorted m -> (forall k v, In k ks -> live skip k -> Assigned ks (pe_match entry) (k_name k) v -> pictures m k v) -> (prioritized ks -> pictures_priority m (pe_priority entry)) ->
  (forall key, (forall n v, key n = Some v <-> Assigned ks (pe_match entry) n v) -> ~ reorders (scope_of t) (TableEnv key (pe_priority entry)) e0) ->
  ReasonTableViolates t entry = Ok text -> zeval m u = VB (String.eqb text "").
Proof.
  intros check pton t ks skip cs l e0 e src u m entry text HK HH Hc Hi Hl Hu Hw Hm Hpi Hpp Hr Hv.
  apply table_ok in Hv as [(E & _)|(e' & ctx & He' & Hty & Hpa & Hch)]; [congruence|]. assert (e' = e) as -> by congruence.
  destruct (entry_ok t ks HK entry ctx Hpa) as (Hco & keys & Ectx & HN & HA). set (key := fun n => assoc_find String.eqb n keys).
  assert (forall n v, key n = Some v <-> Assigned ks (pe_match entry) n v) as Hkey. { intros n v. rewrite <- HA. unfold key. now apply (afind_iff String.eqb String.eqb_eq). }
  assert (Den (scope_of t) (TableEnv key (pe_priority entry)) e0 (VBool (String.eqb text ""))) as Hd.
  { eapply den_ext; [exact (entry_env_eq t ks entry ctx key HK Hpa Hkey)|]. apply (ev_sound None (Some t) _ (table_in_scope t ks HK) ctx e0 e); [exact Hi|exact Hl|]. apply ev_bool_ok. destruct (String.eqb_spec text "") as [->|Hne].
    - now apply check_accepts.
    - now apply (check_rejects ctx e text Hne) in Hch as [Hch _]. }
  destruct (history_holds t ks HK skip check pton cs l HH) as (base & us & Hs). pose proof (h_built _ _ _ _ _ _ _ _ Hs) as HB.
  eapply (encode_den t ks HK skip _ _ HB m key (pe_priority entry) Hm); [|exact Hpp|exact Hi|now exists src|now apply Hr|exact Hd]. intros k v Hk Hlv E. apply Hpi; auto. now apply Hkey.
Qed.
Print Assumptions C41_verdict_agrees_partial.
(** The hypotheses hold of a table with all kinds of keys, two accepted constraints and the solver's entry. *)
Example C41_case : table_keys sy_table sy_keys /\ History sy_check pton1 sy_table sy_skip sy_cs2 [sy_checked; sy_more_checked] /\ ti_constraint sy_table = Some sy_checked /\
  InferTable sy_tree sy_table = Ok sy_checked /\ literals sy_tree /\ (exists u, EvaluateConstraintSymbolically (cs_env sy_cs2) sy_source sy_checked = Ok u) /\
  (forall k w, In k sy_keys -> width (k_type k) w -> (0 <= w)%Z) /\ consistent sy_keys (pe_match sy_entry) /\ (forall n v, sy_key n = Some v <-> Assigned sy_keys (pe_match sy_entry) n v) /\
  well_sorted (complete sy_model) /\ (forall k v, In k sy_keys -> live sy_skip k -> Assigned sy_keys (pe_match sy_entry) (k_name k) v -> pictures (complete sy_model) k v) /\
  (prioritized sy_keys -> pictures_priority (complete sy_model) (pe_priority sy_entry)) /\ (forall key, ~ reorders (scope_of sy_table) (TableEnv key (pe_priority sy_entry)) sy_tree) /\
  ReasonTableViolates sy_table sy_entry = Ok "".
Proof.
  split; [exact sy_table_keys|]. split; [exact sy_history|]. split; [exact sy_constraint|]. split; [exact (proj1 sy_inferred)|]. split; [exact (proj1 sy_literals)|].
  split; [vm_compute; eexists; reflexivity|]. split; [exact (int32_nonneg _ sy_widths)|]. split; [exact sy_consistent|]. split; [exact sy_key_iff|]. split; [apply listed_sorted|].
  split; [exact sy_pictures|]. split; [intros _; exact sy_priority|]. split; [intros key; exact (proj1 (sy_no_reorder _))|]. vm_compute. reflexivity.
Qed.
(** Without the side condition the claim fails: ordered comparisons of fixed-width values are signed in the
    encoding and unsigned in the constraint language. *)
Theorem C41_signed_refuted : exists check t ks cs e0 e u entry key m, table_keys t ks /\ sound_solver check /\ History check pton1 t never_skip cs [e] /\
  InferTable e0 t = Ok e /\ literals e0 /\ EvaluateConstraintSymbolically (cs_env cs) (ti_source t) e = Ok u /\ consistent ks (pe_match entry) /\
  (forall n v, key n = Some v <-> Assigned ks (pe_match entry) n v) /\ well_sorted m /\
  (forall k v, In k ks -> Assigned ks (pe_match entry) (k_name k) v -> pictures m k v) /\ pictures_priority m (pe_priority entry) /\
  zeval m u = VB true /\ ~ Den (scope_of t) (TableEnv key (pe_priority entry)) e0 (VBool true).
Proof.
  assert (exists v, ti_constraint sg_low = Some v /\ InferTable sg_low_tree sg_low = Ok v) as (e & Ee & Hi) by (vm_compute; eexists; split; reflexivity).
  assert (exists u, EvaluateConstraintSymbolically (cs_env sg_cs) (ti_source sg_low) e = Ok u /\ zeval (complete sg_model) u = VB true) as (u & Hu & Hz) by (vm_compute in Ee; injection Ee as <-; vm_compute; eexists; split; reflexivity).
  exists sg_check, sg_low, sg_keys, sg_cs, sg_low_tree, e, u, sg_entry, sg_key, (complete sg_model).
  split; [exact sg_low_keys|]. split; [apply candidate_sound, listed_sorted|]. split. { pose proof (hi_create sg_check pton1 sg_low never_skip sg_cs sg_created) as H. rewrite Ee in H. exact H. }
  split; [exact Hi|]. split; [exact sg_literals|]. split; [exact Hu|]. split; [exact sg_consistent|]. split; [exact sg_key_iff|]. split; [apply listed_sorted|]. split; [exact sg_pictures|]. split; [reflexivity|]. split; [exact Hz|].
  exact sg_low_false.
Qed.
Print Assumptions C41_signed_refuted.

(** * C42 *)
Theorem C42_key_assertions : forall k sk a m, AddSymbolicKey k = Ok (sk, a) -> well_sorted m ->
  (satisfies m a <-> exists f v, canonical_match (k_type k) f v /\ pictures m k v).
Proof. intros k sk a m Ha Hm. exact (key_canonical k sk a Ha m Hm). Qed.
Print Assumptions C42_key_assertions.
(** Every canonical match is depicted by some assignment, provided the names of the key's symbols differ. *)
Theorem C42_every_match : forall k sk a f v, AddSymbolicKey k = Ok (sk, a) -> canonical_match (k_type k) f v -> apart [k] ->
  exists m, well_sorted m /\ pictures m k v /\ satisfies m a.
Proof.
  intros k sk a f v Ha Hc Hap. assert (canonical_value (k_type k) v) as Hv by (apply canonical_iff; [exact (key_widths k sk a Ha)|eauto]).
  assert (forall k', In k' [k] -> canonical_value (k_type k') v /\ (forall w, width (k_type k') w -> (0 < w)%Z)) as HV by (intros k' [<-|[]]; split; [exact Hv|exact (key_widths k sk a Ha)]).
  set (m := assign [k] (fun _ => v) 1). pose proof (assign_sorted [k] (fun _ => v) 1 HV : well_sorted m) as Hm. pose proof (assign_pictures [k] (fun _ => v) 1 HV Hap k (or_introl eq_refl) : pictures m k v) as Hp.
  exists m. split; [exact Hm|]. split; [exact Hp|]. now apply (key_canonical_value k sk a Ha m v Hm Hp).
Qed.
Print Assumptions C42_every_match.
(** Which keys can be represented: nonzero width and not a range. *)
Theorem C42_representable : forall k, (exists r, AddSymbolicKey k = Ok r) <-> representable k.
Proof. exact add_key_iff. Qed.
Print Assumptions C42_representable.
Theorem C42_unrepresentable : forall k, (forall w, width (k_type k) w -> (0 <= w)%Z) -> ~ representable k -> exists c s, AddSymbolicKey k = Err c s.
Proof. exact add_key_err. Qed.
Print Assumptions C42_unrepresentable.
Theorem C42_priority : forall m, well_sorted m -> (satisfies m (snd AddSymbolicPriority) <-> exists p, pictures_priority m p /\ priority_ok p).
Proof. exact prio_sat. Qed.
Print Assumptions C42_priority.
Example C42_case : (exists r, AddSymbolicKey (mkKey 2 "t" (TTernary 16)) = Ok r) /\ apart [mkKey 2 "t" (TTernary 16)] /\ representable (mkKey 4 "l" (TLpm 32)) /\ ~ representable (mkKey 3 "r" (TRange 4)) /\
  canonical_match (TTernary 16) (Some (FMTernary (String (ascii_of_nat 1) (String (ascii_of_nat 2) "")) (String (ascii_of_nat 5) (String (ascii_of_nat 2) "")))) (VTernary 258 1282) /\ priority_ok 12.
Proof.
  split; [vm_compute; eexists; reflexivity|]. split; [exact t_apart|]. split; [apply add_key_iff; vm_compute; eexists; reflexivity|].
  split; [intros H; apply add_key_iff in H as [r H]; discriminate H|]. split; [exact t_canonical|]. unfold priority_ok. lia.
Qed.

(** * C43 *)
Theorem C43_entries_well_formed : forall check pton t ks skip cs l entry, table_keys t ks -> int32_widths ks -> sound_solver check -> History check pton t skip cs l ->
  ConcretizeEntry check cs = Ok entry ->
  pe_table_id entry = ti_id t /\ pe_action entry = None /\ well_formed (live_keys skip ks) (pe_match entry) /\
  (prioritized ks -> priority_ok (pe_priority entry)) /\ (~ prioritized ks -> pe_priority entry = 0%Z).
Proof.
  intros check pton t ks skip cs l entry HK Hw Hso HH He. destruct (history_holds t ks HK skip check pton cs l HH) as (base & us & Hs).
  destruct (check (assertions (cs_stack cs))) as [mo|] eqn:Ec; [|unfold ConcretizeEntry in He; rewrite Ec in He; discriminate He]. destruct (Hso _ _ Ec) as [Hm Hsat]. rewrite (h_assertions _ _ _ _ _ _ _ _ Hs) in Hsat.
  destruct (concretize_ok t ks HK skip check cs l base us Hs mo Hm Hsat) as (fields & p & E & HW & H1 & H2 & _); [intros k w Hk Hkw; exact (proj2 (Hw k w Hk Hkw))|exact Ec|].
  rewrite E in He. apply Ok_inj in He as <-. cbn. split; [reflexivity|]. split; [reflexivity|]. split; [exact HW|]. split; [intros HP; now apply H1|exact H2].
Qed.
Print Assumptions C43_entries_well_formed.
(** If no skipped key must be matched, the concrete parser accepts the entry. *)
Theorem C43_entries_parse : forall check pton t ks skip cs l entry, table_keys t ks -> int32_widths ks -> sound_solver check -> History check pton t skip cs l ->
  ConcretizeEntry check cs = Ok entry -> (forall k, In k ks -> ~ live skip k -> exists v, wildcard (k_type k) v) -> exists ctx, ParseTableEntry entry t = Ok ctx.
Proof.
  intros check pton t ks skip cs l entry HK Hw Hso HH He Hsk. destruct (C43_entries_well_formed _ _ _ _ _ _ _ _ HK Hw Hso HH He) as (_ & _ & HW & _). apply (entry_total t ks HK).
  apply (formed_consistent ks skip); auto. now apply int32_nonneg.
Qed.
Print Assumptions C43_entries_parse.
(** No failures other than the solver's. *)
Theorem C43_entry_exists : forall check pton t ks skip cs l, table_keys t ks -> int32_widths ks -> sound_solver check -> History check pton t skip cs l ->
  check (assertions (cs_stack cs)) <> None -> exists entry, ConcretizeEntry check cs = Ok entry.
Proof.
  intros check pton t ks skip cs l HK Hw Hso HH Hc. destruct (history_holds t ks HK skip check pton cs l HH) as (base & us & Hs).
  destruct (check (assertions (cs_stack cs))) as [mo|] eqn:Ec; [|congruence]. destruct (Hso _ _ Ec) as [Hm Hsat]. rewrite (h_assertions _ _ _ _ _ _ _ _ Hs) in Hsat.
  destruct (concretize_ok t ks HK skip check cs l base us Hs mo Hm Hsat) as (fields & p & E & _); [intros k w Hk Hkw; exact (proj2 (Hw k w Hk Hkw))|exact Ec|]. eauto.
Qed.
Print Assumptions C43_entry_exists.
Example C43_case : table_keys sy_table sy_keys /\ int32_widths sy_keys /\ sound_solver sy_check /\ History sy_check pton1 sy_table sy_skip sy_cs2 [sy_checked; sy_more_checked] /\
  ConcretizeEntry sy_check sy_cs2 = Ok sy_entry /\ (forall k, In k sy_keys -> ~ live sy_skip k -> exists v, wildcard (k_type k) v) /\ prioritized sy_keys /\ List.length (pe_match sy_entry) = 4%nat.
Proof.
  split; [exact sy_table_keys|]. split; [exact sy_widths|]. split; [exact sy_sound|]. split; [exact sy_history|]. split; [exact sy_concretized|]. split; [exact sy_skipped|]. split; [|reflexivity].
  exists (mkKey 2 "t" (TTernary 16)), 16%Z. cbn. auto.
Qed.

(** * C44 *)
(** The entry satisfies the table's constraint and every constraint AddConstraint accepted. *)
Theorem C44_entries_satisfy_partial : forall check pton t ks skip cs l entry key e0 e, table_keys t ks -> int32_widths ks -> sound_solver check -> History check pton t skip cs l ->
  ConcretizeEntry check cs = Ok entry -> (forall k, In k ks -> ~ live skip k -> exists v, wildcard (k_type k) v) ->
  (forall n v, key n = Some v <-> Assigned ks (pe_match entry) n v) ->
  In e l -> InferTable e0 t = Ok e -> literals e0 -> ~ reorders (scope_of t) (TableEnv key (pe_priority entry)) e0 ->
  Den (scope_of t) (TableEnv key (pe_priority entry)) e0 (VBool true).
Proof.
  intros check pton t ks skip cs l entry key e0 e HK Hw Hso HH He Hsk Hkey Hin Hi Hl Hr. destruct (history_holds t ks HK skip check pton cs l HH) as (base & us & Hs).
  destruct (check (assertions (cs_stack cs))) as [mo|] eqn:Ec; [|unfold ConcretizeEntry in He; rewrite Ec in He; discriminate He]. destruct (Hso _ _ Ec) as [Hm Hsat]. rewrite (h_assertions _ _ _ _ _ _ _ _ Hs) in Hsat.
  destruct (concretize_ok t ks HK skip check cs l base us Hs mo Hm Hsat) as (fields & p & E & HW & H1 & H2 & H3); [intros k w Hk Hkw; exact (proj2 (Hw k w Hk Hkw))|exact Ec|].
  rewrite E in He. apply Ok_inj in He as <-. cbn [pe_match pe_priority] in *. assert (consistent ks fields) as Hco by (apply (formed_consistent ks skip); auto; now apply int32_nonneg).
  destruct (forall2_in _ _ _ (h_encoded _ _ _ _ _ _ _ _ Hs) e Hin) as (u & Hu & Hen).
  destruct (encodes_bool _ _ _ Hen) as [Et _]. destruct (entry_den t ks fields key p HK (int32_nonneg _ Hw) Hco Hkey e0 e Hi Et Hl) as (b & Hd).
  assert (zeval (complete mo) u = VB b) as Ez. { eapply (encode_den t ks HK skip _ _ (h_built _ _ _ _ _ _ _ _ Hs) (complete mo) key p Hm); eauto; [intros k v Hk Hlv Ek; apply H3; auto; now apply Hkey|intros HP; now apply H1]. }
  rewrite (Hsat u) in Ez by (apply in_or_app; auto). injection Ez as <-. exact Hd.
Qed.
Print Assumptions C44_entries_satisfy_partial.
Lemma own_in check pton t skip cs l e : History check pton t skip cs l -> ti_constraint t = Some e -> In e l.
Proof. intros HH He. induction HH as [cs H|cs l e1 src cs' H IH HA|cs l e1 src r cs' H IH HA Hr|cs l text e0 e1 cs' H IH HA Hp Hi|cs l text r cs' H IH HA Hr]; auto; [rewrite He; now left|apply in_or_app; auto..]. Qed.
(** The concrete checker accepts the entry. Ordered comparisons of exact keys it does not evaluate (C21). *)
Theorem C44_entries_accepted_partial : forall check pton t ks skip cs l entry, table_keys t ks -> int32_widths ks -> sound_solver check -> History check pton t skip cs l ->
  ConcretizeEntry check cs = Ok entry -> (forall k, In k ks -> ~ live skip k -> exists v, wildcard (k_type k) v) ->
  (forall e, ti_constraint t = Some e -> exists e0, InferTable e0 t = Ok e /\ literals e0 /\ ~ orders_exact (scope_of t) e0 /\
    forall key, (forall n v, key n = Some v <-> Assigned ks (pe_match entry) n v) -> ~ reorders (scope_of t) (TableEnv key (pe_priority entry)) e0) ->
  ReasonTableViolates t entry = Ok "".
Proof.
  intros check pton t ks skip cs l entry HK Hw Hso HH He Hsk Hc. apply table_ok. destruct (ti_constraint t) as [e|] eqn:Et; [right|now left].
  destruct (Hc e eq_refl) as (e0 & Hi & Hl & Ho & Hr). destruct (C43_entries_parse _ _ _ _ _ _ _ _ HK Hw Hso HH He Hsk) as (ctx & Hpa). exists e, ctx. split; [reflexivity|].
  destruct (entry_ok t ks HK entry ctx Hpa) as (Hco & keys & Ectx & HN & HA). set (key := fun n => assoc_find String.eqb n keys).
  assert (forall n v, key n = Some v <-> Assigned ks (pe_match entry) n v) as Hkey. { intros n v. rewrite <- HA. unfold key. now apply (afind_iff String.eqb String.eqb_eq). }
  pose proof (own_in _ _ _ _ _ _ e HH Et) as Hin.
  pose proof (C44_entries_satisfy_partial check pton t ks skip cs l entry key e0 e HK Hw Hso HH He Hsk Hkey Hin Hi Hl (Hr key Hkey)) as Hd.
  split. { destruct (history_holds t ks HK skip check pton cs l HH) as (base & us & Hs). destruct (forall2_in _ _ _ (h_encoded _ _ _ _ _ _ _ _ Hs) e Hin) as (u & _ & Hen). exact (proj1 (encodes_bool _ _ _ Hen)). }
  split; [exact Hpa|]. apply check_accepts, ev_bool_ok. apply (ev_complete None (Some t) _ (table_in_scope t ks HK) ctx e0 (VBool true)).
  - apply (entry_env t ks HK entry ctx Hpa). intros n k w Hk. apply (by_name t ks HK) in Hk as [Hk _]. exact (int32_nonneg ks Hw k w Hk).
  - eapply den_ext; [apply env_eq_sym; exact (entry_env_eq t ks entry ctx key HK Hpa Hkey)|exact Hd].
  - exact Ho.
  - exact Hi.
Qed.
Print Assumptions C44_entries_accepted_partial.
(** From P4Info to the verdict. *)
Theorem C44_declared_tables_partial : forall check pton p ci d ks t skip cs l entry, pton_ok pton -> P4ToConstraintInfo pton p = Ok ci -> In d (p4_tables p) -> Forall2 key_decl (pt_match_fields d) ks ->
  GetTableInfoOrNull ci (pr_id (pt_preamble d)) = Some t -> int32_widths ks -> sound_solver check -> History check pton t skip cs l -> ConcretizeEntry check cs = Ok entry ->
  (forall k, In k ks -> ~ live skip k -> exists v, wildcard (k_type k) v) ->
  (forall src e0, restricted kTableConstraint (pt_preamble d) src -> reads_as pton kTableConstraint src e0 -> ~ orders_exact (key_scope ks) e0 /\
    forall key, (forall n v, key n = Some v <-> Assigned ks (pe_match entry) n v) -> ~ reorders (scope_of t) (TableEnv key (pe_priority entry)) e0) ->
  ReasonEntryViolatesConstraint entry ci = Ok "".
Proof.
  intros check pton p ci d ks t skip cs l entry Hp Hci Hd Hf Hg Hw Hso HH He Hsk Hc. pose proof Hci as Hci'. apply info_lookup in Hci as (Ht & _). destruct (proj1 (info_iff pton p) (ex_intro _ ci Hci')) as (_ & _ & H3 & _).
  destruct (H3 d Hd) as [t' Et']. assert (t' = t) as ->. { assert (GetTableInfoOrNull ci (pr_id (pt_preamble d)) = Some t') as E by (apply Ht; exists d; auto). congruence. }
  destruct (table_parsed _ _ _ Et') as [ks' [Hid _ Hf' HK Hco]]. assert (ks' = ks) as -> by (eapply forall2_fun; [exact key_decl_fun|exact Hf'|exact Hf]).
  assert (ReasonTableViolates t entry = Ok "") as Hv.
  { eapply C44_entries_accepted_partial; eauto. intros e E. destruct Hco as [(_ & E')|(e0 & e' & Hr & Hpa & Hi & E')]; [congruence|]. assert (e' = e) as -> by congruence. apply (text_iff pton Hp) in Hpa as Hra. destruct (Hc _ _ Hr Hra) as [H1 H2].
    exists e0. split; [exact Hi|]. split; [exact (parse_literals _ _ _ _ Hp Hpa)|]. split; [|exact H2]. intros Hx. apply H1. eapply orders_scope; [exact (key_scope_same t ks HK)|exact Hx]. }
  destruct (C43_entries_well_formed _ _ _ _ _ _ _ _ HK Hw Hso HH He) as (Eid & Ea & _). unfold ReasonEntryViolatesConstraint. rewrite Eid, Hid, Hg, Hv, Ea. reflexivity.
Qed.
Print Assumptions C44_declared_tables_partial.
Example C44_case : table_keys sy_table sy_keys /\ int32_widths sy_keys /\ sound_solver sy_check /\ History sy_check pton1 sy_table sy_skip sy_cs2 [sy_checked; sy_more_checked] /\
  ConcretizeEntry sy_check sy_cs2 = Ok sy_entry /\ (forall k, In k sy_keys -> ~ live sy_skip k -> exists v, wildcard (k_type k) v) /\
  (forall n v, sy_key n = Some v <-> Assigned sy_keys (pe_match sy_entry) n v) /\ InferTable sy_more_tree sy_table = Ok sy_more_checked /\ literals sy_more_tree /\
  (forall r, ~ reorders (scope_of sy_table) r sy_tree /\ ~ reorders (scope_of sy_table) r sy_more_tree) /\ ~ orders_exact (scope_of sy_table) sy_tree /\ ti_constraint sy_table = Some sy_checked.
Proof.
  split; [exact sy_table_keys|]. split; [exact sy_widths|]. split; [exact sy_sound|]. split; [exact sy_history|]. split; [exact sy_concretized|]. split; [exact sy_skipped|].
  split; [exact sy_key_iff|]. split; [exact (proj2 sy_inferred)|]. split; [exact (proj2 sy_literals)|]. split; [exact sy_no_reorder|]. split; [exact sy_no_exact|]. reflexivity.
Qed.
(** The entry a sound solver yields can violate the table's own constraint when that orders fixed-width values. *)
Theorem C44_signed_refuted : exists check t ks cs e entry text, table_keys t ks /\ int32_widths ks /\ sound_solver check /\ Create check t never_skip = Ok cs /\ ti_constraint t = Some e /\
  History check pton1 t never_skip cs [e] /\ ConcretizeEntry check cs = Ok entry /\ ReasonTableViolates t entry = Ok text /\ text <> "".
Proof.
  assert (exists v, ti_constraint sg_low = Some v) as (e & Ee) by (vm_compute; eexists; reflexivity). assert (exists text, ReasonTableViolates sg_low sg_entry = Ok text /\ text <> "") as (text & Ht & Hne) by (vm_compute; eexists; split; [reflexivity|discriminate]).
  exists sg_check, sg_low, sg_keys, sg_cs, e, sg_entry, text. split; [exact sg_low_keys|]. split; [exact sg_widths|]. split; [apply candidate_sound, listed_sorted|]. split; [exact sg_created|]. split; [exact Ee|].
  split. { pose proof (hi_create sg_check pton1 sg_low never_skip sg_cs sg_created) as H. rewrite Ee in H. exact H. }
  split; [vm_compute; reflexivity|]. split; assumption.
Qed.
Print Assumptions C44_signed_refuted.

(** * C45 *)
(** Anything but "true" changes nothing; "true" adds the constraint, and the solver found all of them satisfiable together. *)
Theorem C45_refused_unchanged : forall check cs e src r cs', AddConstraint check cs e src = (r, cs') -> r <> Ok true -> cs' = cs.
Proof. intros check cs e src r cs' H Hr. apply add_cases in H as [[_ H]|[H _]]; [exact H|congruence]. Qed.
Print Assumptions C45_refused_unchanged.
Theorem C45_refused_text_unchanged : forall check pton cs text r cs', AddConstraintString check pton cs text = (r, cs') -> r <> Ok true -> cs' = cs.
Proof. intros check pton cs text r cs' H Hr. apply add_text_cases in H as [[_ H]|(e0 & e & _ & _ & H)]; [exact H|]. eapply C45_refused_unchanged; eauto. Qed.
Print Assumptions C45_refused_text_unchanged.
Theorem C45_accepted_added : forall check cs e src cs', AddConstraint check cs e src = (Ok true, cs') ->
  cs_table cs' = cs_table cs /\ cs_env cs' = cs_env cs /\ cs_skip cs' = cs_skip cs /\
  exists u, EvaluateConstraintSymbolically (cs_env cs) src e = Ok u /\ assertions (cs_stack cs') = (assertions (cs_stack cs) ++ [u])%list.
Proof.
  intros check cs e src cs' H. apply add_cases in H as [[H _]|(_ & u & Hu & -> & _ & _)]; [congruence|]. cbn [set_stack cs_table cs_env cs_skip cs_stack]. repeat split. exists u. split; [exact Hu|apply assertions_push].
Qed.
Print Assumptions C45_accepted_added.
(** After any calls the assertions are satisfiable. *)
Theorem C45_always_satisfiable : forall check pton t ks skip cs l, table_keys t ks -> sound_solver check -> History check pton t skip cs l -> satisfiable (assertions (cs_stack cs)).
Proof. intros check pton t ks skip cs l HK Hso HH. destruct (history_holds t ks HK skip check pton cs l HH) as (base & us & Hs). exact (holds_satisfiable t ks skip check cs l base us Hso Hs). Qed.
Print Assumptions C45_always_satisfiable.
(** So with a sound solver there is always an entry, unless the solver fails to answer. *)
Theorem C45_always_entry : forall check pton t ks skip cs l, table_keys t ks -> int32_widths ks -> sound_solver check -> History check pton t skip cs l ->
  (exists entry, ConcretizeEntry check cs = Ok entry) \/ (satisfiable (assertions (cs_stack cs)) /\ check (assertions (cs_stack cs)) = None).
Proof.
  intros check pton t ks skip cs l HK Hw Hso HH. destruct (check (assertions (cs_stack cs))) as [mo|] eqn:E.
  - left. eapply C43_entry_exists; eauto. congruence.
  - right. split; [|reflexivity]. eapply C45_always_satisfiable; eauto.
Qed.
Print Assumptions C45_always_entry.
(** What AddConstraint answers for an encodable constraint: true iff it is satisfiable together with the others, unless the solver fails to answer. *)
Theorem C45_answer : forall check pton t ks skip cs l e src u r cs', table_keys t ks -> sound_solver check -> History check pton t skip cs l ->
  EvaluateConstraintSymbolically (cs_env cs) src e = Ok u -> sort_of u = SBool -> AddConstraint check cs e src = (r, cs') ->
  (r = Ok true -> satisfiable (assertions (cs_stack cs) ++ [u])%list) /\
  (r <> Ok true -> satisfiable (assertions (cs_stack cs) ++ [u])%list -> exists l', satisfiable l' /\ check l' = None) /\
  (r = Ok true \/ r = Ok false \/ exists l', satisfiable l' /\ check l' = None).
Proof.
  intros check pton t ks skip cs l e src u r cs' HK Hso HH Hu Hb HA. pose proof (C45_always_satisfiable _ _ _ _ _ _ _ HK Hso HH) as Hsat.
  destruct (check (assertions (cs_stack cs))) as [mo|] eqn:E1; [|assert (exists l', satisfiable l' /\ check l' = None) as Hex by eauto; split; [|auto]].
  - destruct (check (assertions (cs_stack cs) ++ [u])%list) as [mo'|] eqn:E2.
    + rewrite (add_true check cs e src u) in HA by congruence. injection HA as <- <-. split; [intros _; exists (complete mo'); exact (Hso _ _ E2)|]. split; [congruence|auto].
    + rewrite (add_false check cs e src u) in HA by congruence. injection HA as <- <-. split; [discriminate|]. split; [eauto|auto].
  - intros ->. apply add_cases in HA as [[H _]|(_ & u' & Hu' & _ & H & _)]; congruence.
Qed.
Print Assumptions C45_answer.
Example C45_case : sound_solver sy_check /\ AddConstraintString sy_check pton1 sy_cs sy_more = (Ok true, sy_cs2) /\
  AddConstraintString sy_check pton1 sy_cs2 "e == 9" = (Ok false, sy_cs2) /\ AddConstraintString sy_check pton1 sy_cs2 "::priority != 12" = (Ok false, sy_cs2) /\
  (exists c s, AddConstraintString sy_check pton1 sy_cs2 "r::low == 0" = (Err c s, sy_cs2)) /\
  ConcretizeEntry sy_check (snd (AddConstraintString sy_check pton1 sy_cs2 "e == 9")) = Ok sy_entry.
Proof. split; [exact sy_sound|]. split; [exact sy_added|]. split; [vm_compute; reflexivity|]. split; [vm_compute; reflexivity|]. split; vm_compute; [do 2 eexists|]; reflexivity. Qed.

(** * C46 *)
(** A constraint on live keys that holds of the entry. *)
Definition fulfilled (t : table_info) (ks : list key_info) (skip : string -> outcome bool) (key : string -> option value) (p : Z) (e : expr) : Prop :=
  exists e0, InferTable e0 t = Ok e /\ e_type e = TBool /\ literals e0 /\ (forall n, mentions e0 n -> exists k, In k (live_keys skip ks) /\ k_name k = n) /\
    (has_attribute e0 -> prioritized ks) /\ Den (scope_of t) (TableEnv key p) e0 (VBool true) /\ ~ reorders (scope_of t) (TableEnv key p) e0.
Section Complete.
  Variables (t : table_info) (ks : list key_info) (skip : string -> outcome bool) (fields : list field_match) (key : string -> option value) (p : Z).
  Hypothesis HK : table_keys t ks.
  Hypothesis Hrep : forall k, In k ks -> live skip k -> representable k.
  Hypothesis Hap : apart (live_keys skip ks).
  Hypothesis HW : well_formed (live_keys skip ks) fields.
  Hypothesis Hpr : prioritized ks -> priority_ok p.
  Hypothesis Hkey : forall n v, key n = Some v <-> Assigned (live_keys skip ks) fields n v.
  Let val (k : key_info) : value := match key (k_name k) with Some v => v | None => VBool true end.
  Lemma val_ok k : In k (live_keys skip ks) -> key (k_name k) = Some (val k) /\ canonical_value (k_type k) (val k) /\ (forall w, width (k_type k) w -> (0 < w)%Z).
  Proof.
    intros Hk. pose proof (proj1 (live_in skip ks k) Hk) as [Hk' Hl]. destruct (proj2 (add_key_iff k) (Hrep k Hk' Hl)) as ([sk a] & Ha). pose proof (key_widths k sk a Ha) as Hw.
    destruct (formed_value t ks HK skip fields k HW Hk' Hl) as (f & v & Hc & Hf). assert (key (k_name k) = Some v) as E.
    { apply Hkey. destruct f as [x|]; [apply (as_present _ _ k (mkFM (k_id k) x)); auto|apply as_omitted; auto]; [apply canonical_field; [exact Hc|intros w Hw'; specialize (Hw w Hw'); lia]|now apply canonical_wild]. }
    unfold val. rewrite E. split; [reflexivity|]. split; [|exact Hw]. apply canonical_iff; eauto.
  Qed.
  Let m := assign (live_keys skip ks) val p.
  Lemma m_sorted : well_sorted m.
  Proof. apply assign_sorted. intros k Hk. exact (proj2 (val_ok k Hk)). Qed.
  Lemma m_pictures k v : In k ks -> live skip k -> key (k_name k) = Some v -> pictures m k v.
  Proof.
    intros Hk Hl E. assert (In k (live_keys skip ks)) as Hk' by now apply live_in. assert (val k = v) as <- by (destruct (val_ok k Hk') as [E' _]; congruence). apply assign_pictures; auto. intros k' H'. exact (proj2 (val_ok k' H')).
  Qed.
  Lemma m_priority : pictures_priority m p.
  Proof. apply assign_priority; auto. intros k Hk. exact (proj2 (val_ok k Hk)). Qed.
  Lemma m_base env base : built ks skip env base -> satisfies m base.
  Proof.
    intros HB. apply (b_base _ _ _ _ HB m m_sorted). split.
    - intros k sk a Hk Hl Ha. assert (In k (live_keys skip ks)) as Hk' by now apply live_in. destruct (val_ok k Hk') as (E & Hc & _). apply (key_canonical_value k sk a Ha m (val k) m_sorted); [|exact Hc]. now apply m_pictures.
    - intros HP. exists p. split; [exact m_priority|auto].
  Qed.
  Lemma m_term env base e u : built ks skip env base -> fulfilled t ks skip key p e -> encodes env e u -> zeval m u = VB true.
  Proof.
    intros HB (e0 & Hi & _ & _ & _ & _ & Hd & Hr) He. eapply (encode_den t ks HK skip env base HB m key p m_sorted); eauto; [exact m_pictures|intros _; exact m_priority].
  Qed.
  Lemma m_encodes env base e src : built ks skip env base -> fulfilled t ks skip key p e -> exists u, EvaluateConstraintSymbolically env src e = Ok u /\ sort_of u = SBool.
  Proof.
    intros HB (e0 & Hi & Ht & Hl & Hme & Hat & _). eapply (encode_total t ks HK skip env base e0 e src); eauto. intros n Hn. destruct (Hme n Hn) as (k & Hk & E). apply live_in in Hk as [Hk Hlv]. eauto.
  Qed.
  Lemma m_terms env base l us : built ks skip env base -> Forall (fulfilled t ks skip key p) l -> Forall2 (encodes env) l us -> satisfies m us.
  Proof.
    intros HB HF H2. induction H2 as [|e u l us He H2 IH]; [apply satisfies_nil|]. inversion HF; subst. apply satisfies_cons. split; [eapply m_term; eauto|auto].
  Qed.
End Complete.
(** If some well-formed entry fulfils the table's constraint then Create succeeds, unless the solver fails to answer. *)
Theorem C46_create_partial : forall check t ks skip fields key p, table_keys t ks ->
  (forall k, In k ks -> skipped skip k \/ live skip k /\ representable k) -> apart (live_keys skip ks) -> well_formed (live_keys skip ks) fields -> (prioritized ks -> priority_ok p) ->
  (forall n v, key n = Some v <-> Assigned (live_keys skip ks) fields n v) -> (forall e, ti_constraint t = Some e -> fulfilled t ks skip key p e) ->
  (exists cs, Create check t skip = Ok cs) \/ (exists l, satisfiable l /\ check l = None).
Proof.
  intros check t ks skip fields key p HK Hsk Hap HW Hpr Hkey Hc.
  assert (forall k, In k ks -> live skip k -> representable k) as Hrep. { intros k Hk Hl. destruct (Hsk k Hk) as [H|[_ H]]; [unfold skipped, live in *; congruence|exact H]. }
  destruct (create_keys_total skip (Ordered (ti_keys_by_name t))) with (prio := false) (keys := @nil (string * symbolic_key)) (asserted := @nil term) as ([[prio keys] asserted] & Ec).
  { intros n k Hi. apply (in_ordered t ks HK) in Hi as [Hk <-]. exact (Hsk k Hk). }
  pose proof (built_env t ks HK skip prio keys asserted Ec) as HB. unfold Create. rewrite Ec. cbn [bind].
  assert ((if prio then ([(kSymbolicPriorityAttributeName, fst AddSymbolicPriority)], (asserted ++ snd AddSymbolicPriority)%list) else ([], asserted))
      = ((if prio then [(kSymbolicPriorityAttributeName, fst AddSymbolicPriority)] else []), (if prio then asserted ++ snd AddSymbolicPriority else asserted)%list)) as E by now destruct prio.
  rewrite E. clear E. revert HB. generalize (if prio then asserted ++ snd AddSymbolicPriority else asserted)%list as base. generalize (if prio then [(kSymbolicPriorityAttributeName, fst AddSymbolicPriority)] else []) as attrs. intros attrs base HB.
  assert (assertions [base] = base) as Ea by (unfold assertions; cbn; apply app_nil_r).
  destruct (ti_constraint t) as [e|]; [|eauto]. specialize (Hc e eq_refl).
  destruct (m_encodes t ks skip key p HK (mkEnv keys attrs) base e (ti_source t) HB Hc) as (u & Hu & Hsb).
  set (m := assign (live_keys skip ks) (fun k => match key (k_name k) with Some v => v | None => VBool true end) p).
  assert (well_sorted m) as Hm by (eapply m_sorted; eauto). assert (satisfies m base) as Hb by (eapply m_base; eauto).
  assert (zeval m u = VB true) as Hz by (eapply m_term; eauto; now exists (ti_source t)).
  destruct (check base) as [mo|] eqn:E1; [|right; exists base; split; [exists m; auto|exact E1]].
  destruct (check (base ++ [u])%list) as [mo'|] eqn:E2; [|right; exists (base ++ [u])%list; split; [exists m; split; [exact Hm|]; apply satisfies_app; split; [exact Hb|]; apply satisfies_cons; split; [exact Hz|apply satisfies_nil]|exact E2]].
  left. rewrite (add_true check _ e (ti_source t) u); cbn [cs_stack cs_env]; [eauto|rewrite Ea; congruence|exact Hu|exact Hsb|rewrite Ea; congruence].
Qed.
Print Assumptions C46_create_partial.
(** The same for AddConstraint after any calls. *)
Theorem C46_add_partial : forall check pton t ks skip cs l fields key p e src, table_keys t ks -> History check pton t skip cs l ->
  apart (live_keys skip ks) -> well_formed (live_keys skip ks) fields -> (prioritized ks -> priority_ok p) ->
  (forall n v, key n = Some v <-> Assigned (live_keys skip ks) fields n v) -> Forall (fulfilled t ks skip key p) l -> fulfilled t ks skip key p e ->
  (exists cs', AddConstraint check cs e src = (Ok true, cs')) \/ (exists l, satisfiable l /\ check l = None).
Proof.
  intros check pton t ks skip cs l fields key p e src HK HH Hap HW Hpr Hkey HF He. destruct (history_holds t ks HK skip check pton cs l HH) as (base & us & Hs). pose proof (h_built _ _ _ _ _ _ _ _ Hs) as HB.
  pose proof (b_repr _ _ _ _ HB) as Hrep. destruct (m_encodes t ks skip key p HK _ base e src HB He) as (u & Hu & Hsb).
  set (m := assign (live_keys skip ks) (fun k => match key (k_name k) with Some v => v | None => VBool true end) p).
  assert (well_sorted m) as Hm by (eapply m_sorted; eauto). assert (satisfies m (assertions (cs_stack cs))) as Hb.
  { rewrite (h_assertions _ _ _ _ _ _ _ _ Hs). apply satisfies_app. split; [eapply m_base; eauto|]. eapply m_terms; eauto. exact (h_encoded _ _ _ _ _ _ _ _ Hs). }
  assert (zeval m u = VB true) as Hz by (eapply m_term; eauto; now exists src).
  destruct (check (assertions (cs_stack cs))) as [mo|] eqn:E1; [|right; eexists; split; [exists m; eauto|exact E1]].
  destruct (check (assertions (cs_stack cs) ++ [u])%list) as [mo'|] eqn:E2; [|right; eexists; split; [exists m; split; [exact Hm|]; apply satisfies_app; split; [exact Hb|]; apply satisfies_cons; split; [exact Hz|apply satisfies_nil]|exact E2]].
  left. rewrite (add_true check cs e src u); [eauto|congruence|exact Hu|exact Hsb|congruence].
Qed.
Print Assumptions C46_add_partial.
Lemma typed_mentions keys e ty n : Typed (InTable keys) e ty -> mentions e n -> exists t, declared keys n t.
Proof.
  intros H. remember (InTable keys) as G eqn:EG. induction H; intros Hm; inversion Hm; subst; auto; try discriminate. match goal with H : InTable _ = InTable _ |- _ => injection H as -> end. eauto.
Qed.
(** In terms of the concrete checker, without skipped keys: a constraint with an accepted well-formed entry is not turned down. *)
Theorem C46_accepted_entry_partial : forall check t ks entry e0 e, table_keys t ks -> (forall k, In k ks -> representable k) -> apart ks -> well_formed ks (pe_match entry) ->
  (prioritized ks -> priority_ok (pe_priority entry)) -> ti_constraint t = Some e -> InferTable e0 t = Ok e -> literals e0 -> (has_attribute e0 -> prioritized ks) ->
  (forall key, (forall n v, key n = Some v <-> Assigned ks (pe_match entry) n v) -> ~ reorders (scope_of t) (TableEnv key (pe_priority entry)) e0) ->
  ReasonTableViolates t entry = Ok "" ->
  (exists cs, Create check t (fun _ => Ok false) = Ok cs) \/ (exists l, satisfiable l /\ check l = None).
Proof.
  intros check t ks entry e0 e HK Hrep Hap HW Hpr He Hi Hl Hat Hr Hv. set (skip := fun _ : string => Ok false).
  assert (live_keys skip ks = ks) as EL by (unfold live_keys, skip; clear; induction ks; cbn; congruence).
  apply table_ok in Hv as [(E & _)|(e' & ctx & He' & Hty & Hpa & Hch)]; [congruence|]. assert (e' = e) as -> by congruence.
  destruct (entry_ok t ks HK entry ctx Hpa) as (Hco & keys & Ectx & HN & HA). set (key := fun n => assoc_find String.eqb n keys).
  assert (forall n v, key n = Some v <-> Assigned ks (pe_match entry) n v) as Hkey. { intros n v. rewrite <- HA. unfold key. now apply (afind_iff String.eqb String.eqb_eq). }
  apply (C46_create_partial check t ks skip (pe_match entry) key (pe_priority entry) HK); try rewrite EL; auto.
  - intros k Hk. right. split; [reflexivity|auto].
  - intros e1 E1. assert (e1 = e) as -> by congruence. exists e0. split; [exact Hi|]. split; [exact Hty|]. split; [exact Hl|]. split; [|split; [exact Hat|split]].
    + intros n Hn. rewrite EL. destruct (typed_mentions (ti_keys_by_name t) e0 (e_type e) n) as (ty & k & Hk & _); [exact (proj1 (infer_ok None (Some t) _ (table_in_scope t ks HK) _ _ Hi))|exact Hn|]. apply (by_name t ks HK) in Hk as [Hk <-]. eauto.
    + eapply den_ext; [exact (entry_env_eq t ks entry ctx key HK Hpa Hkey)|]. apply (ev_sound None (Some t) _ (table_in_scope t ks HK) ctx e0 e); [exact Hi|exact Hl|]. apply ev_bool_ok. now apply check_accepts.
    + now apply Hr.
Qed.
Print Assumptions C46_accepted_entry_partial.
Example C46_case : table_keys ac_table sg_keys /\ (forall k, In k sg_keys -> representable k) /\ apart sg_keys /\ well_formed sg_keys (pe_match sg_entry) /\ (prioritized sg_keys -> priority_ok (pe_priority sg_entry)) /\
  ti_constraint ac_table = Some ac_checked /\ InferTable ac_tree ac_table = Ok ac_checked /\ literals ac_tree /\ (has_attribute ac_tree -> prioritized sg_keys) /\ has_attribute ac_tree /\
  (forall r, ~ reorders (scope_of ac_table) r ac_tree) /\ ReasonTableViolates ac_table sg_entry = Ok "" /\ exists cs, Create sg_check ac_table never_skip = Ok cs.
Proof.
  split; [exact ac_keys|]. split; [exact sg_representable|]. split; [exact sg_apart|]. split; [exact sg_formed|]. split; [intros _; unfold priority_ok; cbn; lia|]. split; [reflexivity|]. split; [exact ac_inferred|].
  split; [exact ac_literals|]. split; [intros _; exists (mkKey 1 "v" (TTernary 8)), 8%Z; cbn; auto|]. split; [apply ha_right, ha_left, ha_here|].
  split; [eapply unordered; [repeat constructor; cbn; intuition discriminate|exact ac_inferred|reflexivity]|]. split; vm_compute; [reflexivity|]. eexists. reflexivity.
Qed.
(** The hypotheses of [C46_create_partial] and [C46_add_partial], with a key skipped. *)
Example C46_skip_case : (forall k, In k sy_keys -> skipped sy_skip k \/ live sy_skip k /\ representable k) /\ apart (live_keys sy_skip sy_keys) /\ well_formed (live_keys sy_skip sy_keys) (pe_match sy_entry) /\
  exists key, (forall n v, key n = Some v <-> Assigned (live_keys sy_skip sy_keys) (pe_match sy_entry) n v) /\ fulfilled sy_table sy_keys sy_skip key 12 sy_checked.
Proof.
  split. { intros k Hk. cbn in Hk. repeat destruct Hk as [<-|Hk]; try contradiction; try (left; reflexivity); right; (split; [reflexivity|]); apply add_key_iff; vm_compute; eexists; reflexivity. }
  split; [repeat constructor; cbn; intuition discriminate|]. destruct (C43_entries_well_formed _ _ _ _ _ _ _ _ sy_table_keys sy_widths sy_sound sy_history sy_concretized) as (_ & _ & HW & _). split; [exact HW|].
  exists sl_key. split; [exact sl_key_iff|]. exists sy_tree. split; [exact (proj1 sy_inferred)|]. split; [reflexivity|]. split; [exact (proj1 sy_literals)|]. split; [exact sl_mentions|].
  split; [intros _; exists (mkKey 2 "t" (TTernary 16)), 16%Z; cbn; auto|]. split; [exact sl_den|exact (proj1 (sy_no_reorder _))].
Qed.
(** An entry that ReasonEntryViolatesConstraint accepts although no sound solver can be created for the table. *)
Theorem C46_signed_refuted : exists t ks entry, table_keys t ks /\ (forall k, In k ks -> representable k) /\ apart ks /\ well_formed ks (pe_match entry) /\ priority_ok (pe_priority entry) /\
  ReasonTableViolates t entry = Ok "" /\ forall check cs, sound_solver check -> Create check t never_skip <> Ok cs.
Proof. exists sg_high, sg_keys, sg_entry. split; [exact sg_high_keys|]. split; [exact sg_representable|]. split; [exact sg_apart|]. split; [exact sg_formed|]. split; [unfold priority_ok; cbn; lia|]. split; [vm_compute; reflexivity|exact sg_high_refused]. Qed.
Print Assumptions C46_signed_refuted.
(** Names of keys may coincide with the names of other keys' symbols. *)
Theorem C46_names_refuted : exists t ks entry, table_keys t ks /\ (forall k, In k ks -> representable k) /\ well_formed ks (pe_match entry) /\ priority_ok (pe_priority entry) /\
  ReasonTableViolates t entry = Ok "" /\ (exists e0 e, ti_constraint t = Some e /\ InferTable e0 t = Ok e /\ forall r, ~ reorders (scope_of t) r e0) /\ forall check cs, sound_solver check -> Create check t never_skip <> Ok cs.
Proof. exists al_table, al_keys, al_entry. split; [exact al_table_keys|]. split; [exact al_representable|]. split; [exact al_formed|]. split; [unfold priority_ok; cbn; lia|]. split; [vm_compute; reflexivity|]. split; [|exact al_refused].
  exists al_tree. destruct (ti_constraint al_table) as [e|] eqn:E; [|discriminate E]. exists e. split; [reflexivity|]. injection E as <-. split; [vm_compute; reflexivity|exact al_unordered]. Qed.
Print Assumptions C46_names_refuted.
(** Constraints on the priority cannot be encoded for tables without ternary and optional keys. *)
Theorem C46_priority_refuted : exists t ks entry, table_keys t ks /\ (forall k, In k ks -> representable k) /\ apart ks /\ well_formed ks (pe_match entry) /\
  ReasonTableViolates t entry = Ok "" /\ (exists e0 e, ti_constraint t = Some e /\ InferTable e0 t = Ok e /\ forall r, ~ reorders (scope_of t) r e0) /\ forall check cs, sound_solver check -> Create check t never_skip <> Ok cs.
Proof. exists np_table, np_keys, np_entry. split; [exact np_table_keys|]. split; [exact np_representable|]. split; [exact np_apart|]. split; [exact np_formed|]. split; [vm_compute; reflexivity|]. split; [|exact np_refused].
  exists np_tree. destruct (ti_constraint np_table) as [e|] eqn:E; [|discriminate E]. exists e. split; [reflexivity|]. injection E as <-. split; [vm_compute; reflexivity|exact np_unordered]. Qed.
Print Assumptions C46_priority_refuted.

(** * C47 *)
Lemma strip_shorter s : (String.length (strip_leading_zeros s) <= String.length s)%nat.
Proof. induction s as [|c s IH]; cbn [strip_leading_zeros String.length]; [lia|]. destruct (Ascii.eqb c NUL); cbn [String.length]; lia. Qed.
Lemma strip_no_zero s r : strip_leading_zeros s <> String NUL r.
Proof. induction s as [|c s IH]; cbn [strip_leading_zeros]; [discriminate|]. destruct (Ascii.eqb_spec c NUL); [exact IH|]. intros [= E _]. contradiction. Qed.
Lemma canonical_shortest w s s' : (0 < w)%Z -> canonical_bytes w s -> s' <> "" -> unsigned s' = unsigned s -> (String.length s <= String.length s')%nat.
Proof.
  intros Hw Hs Hne E. assert (unsigned (strip_leading_zeros s') = unsigned s') as E' by (rewrite !unsigned_be; now rewrite strip_number).
  destruct (String.eqb_spec (strip_leading_zeros s') "") as [Ez|Hz].
  - rewrite Ez in E'. assert (s = str1 NUL) as ->. { apply (canonical_unique w w); [exact Hs| |].
      - split; [discriminate|]. split; [now left|]. cbn. apply Z.pow_pos_nonneg; lia.
      - rewrite <- E, <- E'. reflexivity. } destruct s'; [contradiction|]. cbn. lia.
  - assert (s = strip_leading_zeros s') as ->; [|apply strip_shorter]. apply (canonical_unique w w); [exact Hs| |congruence]. split; [exact Hz|]. split; [right; apply strip_no_zero|]. rewrite E', E. apply Hs.
Qed.
(** The text of a model value becomes the shortest byte string for it, which the concrete parser reads back. *)
Theorem C47_round_trip : forall w v, (0 < w)%Z -> (0 <= v < 2 ^ w)%Z -> exists s, Z3BitvectorValueToP4RuntimeBytestring (bv_to_string w v) w = Ok s /\
  unsigned s = v /\ ParseP4RTInteger s = v /\ s <> "" /\ (forall s', s' <> "" -> unsigned s' = v -> (String.length s <= String.length s')%nat).
Proof.
  intros w v Hw Hv. destruct (value_bytes w v Hw Hv) as (s & E & Hc & Hu). exists s. split; [exact E|]. split; [exact Hu|]. split; [now rewrite p4rt_unsigned|]. split; [apply Hc|].
  intros s' Hne E'. apply (canonical_shortest w); auto. congruence.
Qed.
Print Assumptions C47_round_trip.
(** The shortest byte string is unique, whatever the width. *)
Theorem C47_unique : forall w w' v s s', (0 < w)%Z -> (0 < w')%Z -> (0 <= v < 2 ^ w)%Z -> (0 <= v < 2 ^ w')%Z ->
  Z3BitvectorValueToP4RuntimeBytestring (bv_to_string w v) w = Ok s -> Z3BitvectorValueToP4RuntimeBytestring (bv_to_string w' v) w' = Ok s' -> s = s'.
Proof.
  intros w w' v s s' Hw Hw' Hv Hv' E E'. destruct (value_bytes w v Hw Hv) as (x & Ex & Hx & Ux), (value_bytes w' v Hw' Hv') as (y & Ey & Hy & Uy).
  rewrite E in Ex. rewrite E' in Ey. apply Ok_inj in Ex as ->, Ey as ->. eapply canonical_unique; eauto. congruence.
Qed.
Print Assumptions C47_unique.
(** All canonical byte strings arise. *)
Theorem C47_onto : forall w s, (0 < w)%Z -> canonical_bytes w s -> Z3BitvectorValueToP4RuntimeBytestring (bv_to_string w (unsigned s)) w = Ok s.
Proof.
  intros w s Hw Hs. destruct (value_bytes w (unsigned s) Hw) as (x & Ex & Hx & Ux); [split; [apply unsigned_nonneg|apply Hs]|]. rewrite Ex. f_equal. eapply canonical_unique; eauto.
Qed.
Print Assumptions C47_onto.
Example C47_case : canonical_bytes 16 (String (ascii_of_nat 1) (String (ascii_of_nat 2) "")) /\
  Z3BitvectorValueToP4RuntimeBytestring (bv_to_string 16 258) 16 = Ok (String (ascii_of_nat 1) (String (ascii_of_nat 2) "")) /\
  Z3BitvectorValueToP4RuntimeBytestring (bv_to_string 9 0) 9 = Ok (String (ascii_of_nat 0) "").
Proof. split; [exact two_bytes|]. split; vm_compute; reflexivity. Qed.

(** * C48 *)
Theorem C48_skipped_absent : forall check pton t ks skip cs l entry k, table_keys t ks -> int32_widths ks -> sound_solver check -> History check pton t skip cs l ->
  ConcretizeEntry check cs = Ok entry -> In k ks -> ~ live skip k -> omitted k (pe_match entry).
Proof.
  intros check pton t ks skip cs l entry k HK Hw Hso HH He Hk Hl f Hf E. destruct (C43_entries_well_formed _ _ _ _ _ _ _ _ HK Hw Hso HH He) as (_ & _ & [_ W2 _] & _).
  destruct (W2 f Hf) as (k' & v & Hk' & E' & _). apply live_in in Hk' as [Hk' Hl']. assert (k' = k) as -> by (apply (nodup_keys k_id ks); [apply HK|congruence..]). contradiction.
Qed.
Print Assumptions C48_skipped_absent.
Theorem C48_mention_refused : forall check pton t ks skip cs l e0 e src k r cs', table_keys t ks -> History check pton t skip cs l ->
  InferTable e0 t = Ok e -> In k ks -> ~ live skip k -> mentions e0 (k_name k) -> AddConstraint check cs e src = (r, cs') -> (forall b, r <> Ok b) /\ cs' = cs.
Proof.
  intros check pton t ks skip cs l e0 e src k r cs' HK HH Hi Hk Hl Hme HA. destruct (history_holds t ks HK skip check pton cs l HH) as (base & us & Hs). pose proof (h_built _ _ _ _ _ _ _ _ Hs) as HB.
  assert (forall u, EvaluateConstraintSymbolically (cs_env cs) src e <> Ok u) as Hno. { eapply (encode_skipped t ks HK skip); eauto. intros k' Hk' E. assert (k' = k) as -> by (apply (nodup_keys k_name ks); [apply HK|assumption..]). exact Hl. }
  assert (forall b, r <> Ok b) as Hr. { intros b ->. unfold AddConstraint in HA. destruct (negb (is_sat check (cs_stack cs))); [discriminate HA|]. destruct (EvaluateConstraintSymbolically (cs_env cs) src e) as [u| |]; try discriminate HA. exact (Hno u eq_refl). }
  split; [exact Hr|]. eapply C45_refused_unchanged; eauto.
Qed.
Print Assumptions C48_mention_refused.
(** It is an error, not a crash. *)
Theorem C48_mention_error : forall check pton t ks skip cs l e0 e src k, table_keys t ks -> (forall k w, In k ks -> width (k_type k) w -> (0 < w)%Z) -> History check pton t skip cs l ->
  InferTable e0 t = Ok e -> literals e0 -> In k ks -> ~ live skip k -> mentions e0 (k_name k) -> exists c s, AddConstraint check cs e src = (Err c s, cs).
Proof.
  intros check pton t ks skip cs l e0 e src k HK Hw HH Hi Hlit Hk Hl Hme. destruct (history_holds t ks HK skip check pton cs l HH) as (base & us & Hs). pose proof (h_built _ _ _ _ _ _ _ _ Hs) as HB.
  destruct (encode_err t ks HK skip _ _ e0 e src (k_name k) HB Hlit Hi Hme) as (c & s & E); [|exact Hw|].
  - intros k' Hk' E. assert (k' = k) as -> by (apply (nodup_keys k_name ks); [apply HK|assumption..]). exact Hl.
  - unfold AddConstraint. rewrite E. destruct (negb (is_sat check (cs_stack cs))); eauto.
Qed.
Print Assumptions C48_mention_error.
(** Given as text. *)
Theorem C48_text_error : forall check pton t ks skip cs l text e0 k, pton_ok pton -> table_keys t ks -> (forall k w, In k ks -> width (k_type k) w -> (0 < w)%Z) -> History check pton t skip cs l ->
  reads_as pton kTableConstraint (text_source t text) e0 -> (exists ty, Typed (scope_of t) e0 ty) -> In k ks -> ~ live skip k -> mentions e0 (k_name k) -> exists c s, AddConstraintString check pton cs text = (Err c s, cs).
Proof.
  intros check pton t ks skip cs l text e0 k Hp HK Hw HH Hra [ty Hty] Hk Hl Hme. apply (text_iff pton Hp) in Hra.
  destruct (history_holds t ks HK skip check pton cs l HH) as (base & us & Hs). pose proof (h_table _ _ _ _ _ _ _ _ Hs) as Et.
  destruct (infer_complete None (Some t) _ (table_in_scope t ks HK) e0 ty Hty) as (e & Hi & _).
  assert (AddConstraintString check pton cs text = AddConstraint check cs e (text_source (cs_table cs) text)) as -> by (apply (add_text check pton cs text e0 e); rewrite Et; assumption).
  eapply C48_mention_error; eauto. exact (parse_literals _ _ _ _ Hp Hra).
Qed.
Print Assumptions C48_text_error.
(** A table constraint on a skipped key: no solver. *)
Theorem C48_create_refused : forall check t ks skip e0 e k, table_keys t ks -> ti_constraint t = Some e -> InferTable e0 t = Ok e -> In k ks -> ~ live skip k -> mentions e0 (k_name k) ->
  forall cs, Create check t skip <> Ok cs.
Proof.
  intros check t ks skip e0 e k HK He Hi Hk Hl Hme cs Hc. destruct (create_holds t ks HK skip check cs Hc) as (base & us & Hs). pose proof (h_encoded _ _ _ _ _ _ _ _ Hs) as H2. unfold own in H2. rewrite He in H2.
  inversion H2 as [|? u ? ? (src & Hu) _]; subst. eapply (encode_skipped t ks HK skip _ base e0 e src (k_name k)); eauto; [exact (h_built _ _ _ _ _ _ _ _ Hs)|].
  intros k' Hk' E. assert (k' = k) as -> by (apply (nodup_keys k_name ks); [apply HK|assumption..]). exact Hl.
Qed.
Print Assumptions C48_create_refused.
Example C48_case : table_keys sy_table sy_keys /\ History sy_check pton1 sy_table sy_skip sy_cs2 [sy_checked; sy_more_checked] /\ In (mkKey 3 "r" (TRange 4)) sy_keys /\ ~ live sy_skip (mkKey 3 "r" (TRange 4)) /\
  (forall k w, In k sy_keys -> width (k_type k) w -> (0 < w)%Z) /\
  reads_as pton1 kTableConstraint (text_source sy_table sk_text) sk_tree /\ (exists ty, Typed (scope_of sy_table) sk_tree ty) /\ InferTable sk_tree sy_table = Ok sk_checked /\ literals sk_tree /\ mentions sk_tree "r" /\
  (exists s, AddConstraintString sy_check pton1 sy_cs2 sk_text = (Err NotFound s, sy_cs2)) /\ (exists c s, Create sy_check sy_table (fun n => Ok (String.eqb n "e" || String.eqb n "r")) = Err c s).
Proof.
  split; [exact sy_table_keys|]. split; [exact sy_history|]. split; [cbn; tauto|]. split; [discriminate|].
  split. { intros k w Hk Hw. cbn in Hk. repeat (destruct Hk as [<-|Hk]; [cbn in Hw; inversion Hw; subst; lia|]). contradiction. }
  split; [apply (text_iff pton1 pton1_ok); exact sk_parsed|]. split; [exists (e_type sk_checked); exact (proj1 (infer_ok None (Some sy_table) _ (table_in_scope _ _ sy_table_keys) _ _ sk_inferred))|].
  split; [exact sk_inferred|]. split; [exact (parse_literals _ _ _ _ pton1_ok sk_parsed)|]. split; [exact sk_mentions|]. split; [exact sk_refused|]. vm_compute. do 2 eexists. reflexivity.
Qed.
