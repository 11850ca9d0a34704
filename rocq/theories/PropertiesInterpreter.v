(** C21-C25, C27-C30: evaluation of constraints. *)
From Coq Require Import String Ascii List ZArith NArith Bool Lia Permutation.
From Verif Require Import Base Num Token Ast Lexer Quote AstConstructors Parser Info TypeChecker ConstraintInfo Interpreter SpecLexer SpecGrammar SpecTyping SpecSemantics SpecInfo
  StrFacts NumFacts LiteralFacts ParserFacts4 TypeFacts EvalFacts SemFacts SemFacts2 EntryFacts ExplainFacts VerdictFacts InfoFacts2 InterpFacts PropertiesParser PropertiesTypes PropertiesInfo.
Import ListNotations.
Open Scope string_scope.

(** The value of a type-checked expression, without cache. *)
Definition value_of (ctx : eval_context) (e : expr) : outcome value := fst (Eval ctx e [] None).
Lemma value_ev ctx e : value_of ctx e = ev ctx e.
Proof. apply Eval_ev. Qed.

(** * C21 *)
(** Consistent entries. Missing for the full property: constraints that order exact keys. *)
Theorem C21_table_partial : forall pton t ks e0 e entry, pton_ok pton -> table_keys t ks ->
  (forall k w, In k ks -> width (k_type k) w -> (0 <= w)%Z) ->
  ParseConstraint pton kTableConstraint (ti_source t) = Ok e0 -> InferTable e0 t = Ok e -> e_type e = TBool ->
  ~ orders_exact (InTable (ti_keys_by_name t)) e0 -> consistent ks (pe_match entry) ->
  exists ctx b, ParseTableEntry entry t = Ok ctx /\ value_of ctx e = Ok (VBool b).
Proof.
  intros pton t ks e0 e entry Hp HK Hw Hpa Hi Ht Ho Hc. apply (entry_iff t ks HK) in Hc as [ctx Hc].
  assert (in_scope None (Some t) (InTable (ti_keys_by_name t))) as HG by (constructor; exact (tk_by_name_unique _ _ HK)).
  assert (env_ok (InTable (ti_keys_by_name t)) (env_of ctx)) as HE.
  { apply (entry_env t ks HK entry ctx Hc). intros n k w Hk. apply (by_name t ks HK) in Hk as [Hk _]. now apply Hw. }
  destruct (ev_bool_total None (Some t) _ HG ctx HE e0 e Hi Ht) as [b Hb].
  { split; [exact (parse_literals _ _ _ _ Hp Hpa)|]. split; [exact Ho|eauto]. }
  exists ctx, b. split; [exact Hc|]. rewrite value_ev. now apply ev_bool_ok.
Qed.
Print Assumptions C21_table_partial.
(** Complete actions. Missing: constraints that mention attributes. *)
Theorem C21_action_partial : forall pton a ps e0 e x, pton_ok pton -> action_params a ps ->
  (forall p, In p ps -> usable (k_type p) -> exists w, k_type p = TBit w /\ (0 <= w)%Z) ->
  ParseConstraint pton kActionConstraint (ai_source a) = Ok e0 -> InferAction e0 a = Ok e -> e_type e = TBool ->
  ~ has_attribute e0 -> acceptable ps (pa_params x) -> (forall p, In p ps -> In (k_id p) (map fst (pa_params x))) ->
  exists ctx b, ParseAction x a = Ok ctx /\ value_of ctx e = Ok (VBool b).
Proof.
  intros pton a ps e0 e x Hp HP Hty Hpa Hi Ht Ha Hc Hall. destruct (action_total a ps HP x Hc) as [ctx Hctx].
  assert (in_scope (Some a) None (InAction (ai_params_by_name a))) as HG by (constructor; exact (ap_by_name_unique _ _ HP)).
  assert (env_ok (InAction (ai_params_by_name a)) (env_of ctx)) as HE.
  { apply (action_env a ps x ctx HP Hctx); [intros p Hpi Hu; destruct (Hty p Hpi Hu) as (w & E & _); eauto|exact Hall|].
    intros p w Hpi Hwd. destruct (Hty p Hpi) as (w' & E & Hw'); [split; [intros E|intros n E]; rewrite E in Hwd; inversion Hwd|]. rewrite E in Hwd. inversion Hwd; subst. exact Hw'. }
  assert (forall e1 t1, Typed (InAction (ai_params_by_name a)) e1 t1 -> forall w, t1 <> TExact w) as Hne.
  { intros e1 t1 HT w E1. subst t1. inversion HT; subst; try discriminate.
    - match goal with H : InAction _ = InAction _ |- _ => injection H as <- end. match goal with H : declared _ _ _ |- _ => destruct H as (k & Hk & E) end.
      apply (param_by_name a ps HP) in Hk as [Hk _]. destruct (Hty k Hk) as (w' & E' & _); [rewrite E; split; discriminate|congruence].
    - match goal with H : has_field _ _ _ |- _ => inversion H end. }
  pose proof (orders_exact_sub _ Hne e0) as Ho.
  destruct (ev_bool_total (Some a) None _ HG ctx HE e0 e Hi Ht) as [b Hb].
  { split; [exact (parse_literals _ _ _ _ Hp Hpa)|]. split; [exact Ho|contradiction]. }
  exists ctx, b. split; [exact Hctx|]. rewrite value_ev. now apply ev_bool_ok.
Qed.
Print Assumptions C21_action_partial.
Example C21_case : exists ci t ks e0 e, P4ToConstraintInfo pton1 ex_info = Ok ci /\ GetTableInfoOrNull ci 7 = Some t /\ table_keys t ks /\
  (forall k w, In k ks -> width (k_type k) w -> (0 <= w)%Z) /\ ParseConstraint pton1 kTableConstraint (ti_source t) = Ok e0 /\ InferTable e0 t = Ok e /\ e_type e = TBool /\
  ~ orders_exact (InTable (ti_keys_by_name t)) e0.
Proof.
  destruct C37_case as (ci & t & Hci & Ht & Hc & _). destruct (C37_exact _ _ _ Hci) as (_ & H & _). destruct (H _ _ Ht) as (d & ks & Hd & Hid & Ho).
  destruct Ho as [_ _ Hf HK [(_ & E)|(e0 & e & _ & Hp & Hi & He)]]; [contradiction|]. exists ci, t, ks, e0, e.
  assert (Some t = GetTableInfoOrNull (match P4ToConstraintInfo pton1 ex_info with Ok c => c | _ => ci end) 7) as Et by (rewrite Hci, Ht; reflexivity).
  vm_compute in Et. injection Et as Et.
  split; [exact Hci|]. split; [exact Ht|]. split; [exact HK|]. split.
  - intros k w Hk Hw. assert (In (k_name k, k) (ti_keys_by_name t)) as Hin by (apply (by_name t ks HK); auto). rewrite Et in Hin. cbn [ti_keys_by_name] in Hin.
    destruct Hin as [[= _ <-]|[[= _ <-]|[[= _ <-]|[]]]]; inversion Hw; lia.
  - split; [exact Hp|]. split; [exact Hi|].
    subst t. vm_compute in Hp. apply Ok_inj in Hp as <-. vm_compute in Hi. apply Ok_inj in Hi as <-. split; [reflexivity|].
    set (G := InTable _).
    intros Ho. repeat match goal with H : orders_exact _ (_ _) |- _ => inversion H; clear H; subst end;
      repeat match goal with H : ordering ?o |- _ => inversion H; clear H; subst end;
      repeat match goal with H : Typed _ (EAttr _ _) _ |- _ => inversion H; clear H; subst | H : Typed _ (EInt _ _) _ |- _ => inversion H; clear H; subst end.
    match goal with H : common TInt TInt _ |- _ => apply no_common_exact in H; [exact H|discriminate..] end.
Qed.
(** The full property is false. *)
Definition exact_decl : p4_table := mkP4Table (mkPre 1 "t" [restriction "entry" ["k < 5"]]) [mkMF 1 "k" 8 (MMatchType MTExact)].
Theorem C21_exact_order_refuted : exists ci t ks m, P4ToConstraintInfo pton1 (mkP4Info [exact_decl] []) = Ok ci /\ GetTableInfoOrNull ci 1 = Some t /\ table_keys t ks /\
  consistent ks [mkFM 1 (FMExact "a")] /\ ReasonEntryViolatesConstraint (mkEntry 1 [mkFM 1 (FMExact "a")] None 0) ci = Err Internal m.
Proof.
  eexists _, _, [mkKey 1 "k" (TExact 8)], _. split; [vm_compute; reflexivity|]. split; [vm_compute; reflexivity|]. split; [|split; [|vm_compute; reflexivity]].
  - split; cbn; try (intros x; reflexivity); repeat constructor; intros [].
  - split; cbn.
    + intros f [<-|[]]. exists (mkKey 1 "k" (TExact 8)), (VExact (unsigned "a")). split; [now left|]. split; [reflexivity|constructor].
    + repeat constructor. intros [].
    + intros k [<-|[]] Ho. exfalso. exact (Ho _ (or_introl eq_refl) eq_refl).
Qed.
Print Assumptions C21_exact_order_refuted.
Theorem C21_action_priority_refuted : exists ci m,
  P4ToConstraintInfo pton1 (mkP4Info [mkP4Table (mkPre 1 "t" []) []] [mkP4ActionDecl (mkPre 2 "a" [restriction "action" ["::priority == 0"]]) []]) = Ok ci /\
  ReasonEntryViolatesConstraint (mkEntry 1 [] (Some (TAction (mkP4Action 2 []))) 0) ci = Err Internal m.
Proof. eexists _, _. split; [vm_compute; reflexivity|]. vm_compute. reflexivity. Qed.
Print Assumptions C21_action_priority_refuted.

(** * C22 *)
(** [s] is [t] with zero bytes put in front; [t] has none itself. *)
Definition without_zeros (s t : string) : Prop := (exists k, s = repeat_char k NUL ++ t) /\ forall u, t <> String NUL u.
Theorem C22_big_endian : forall s, ParseP4RTInteger s = unsigned s.
Proof. exact p4rt_unsigned. Qed.
Print Assumptions C22_big_endian.
Lemma strip_without s : without_zeros s (strip_leading_zeros s).
Proof.
  induction s as [|c s [[k Hk] Hn]]; [split; [exists 0%nat; reflexivity|intros u E; discriminate]|]. cbn [strip_leading_zeros]. destruct (Ascii.eqb_spec c NUL) as [->|Hc].
  - split; [exists (S k); exact (f_equal (String NUL) Hk)|exact Hn].
  - split; [exists 0%nat; reflexivity|intros u [= E _]; contradiction].
Qed.
Lemma zeros_number k s : unsigned (repeat_char k NUL ++ s) = unsigned s.
Proof. induction k as [|k IH]; [reflexivity|]. unfold unsigned in *. cbn [repeat_char append]. exact IH. Qed.
Lemma number_fold bs : forall acc, number acc bs = fold_left (fun n d => (n * 256 + d)%N) bs acc.
Proof. induction bs as [|b bs IH]; intros acc; cbn; auto. Qed.
Lemma unsigned_digits s : unsigned s = Z.of_N (of_digits 256 (map N_of_ascii (chars s))).
Proof. unfold unsigned, of_digits. now rewrite number_fold. Qed.
Lemma bytes_small s : Forall (fun d => (d < 256)%N) (map N_of_ascii (chars s)).
Proof. apply Forall_forall. intros d H. apply in_map_iff in H as (c & <- & _). apply N_ascii_bounded. Qed.
Lemma bytes_inj s t : map N_of_ascii (chars s) = map N_of_ascii (chars t) -> s = t.
Proof.
  unfold chars. revert t. induction s as [|c s IH]; intros [|d t] H; cbn in H; try discriminate; [reflexivity|]. injection H as H1 H2. rewrite (IH t H2). f_equal. rewrite <- (ascii_N_embedding c), <- (ascii_N_embedding d). now rewrite H1.
Qed.
Lemma canonical_bytes c s : c <> NUL -> canonical (map N_of_ascii (chars (String c s))).
Proof. intros Hc. right. exists (N_of_ascii c), (map N_of_ascii (chars s)). split; [reflexivity|]. intros E. apply Hc. rewrite <- (ascii_N_embedding c), E. reflexivity. Qed.
Theorem C22_equal_iff : forall s s', ParseP4RTInteger s = ParseP4RTInteger s' <-> exists t, without_zeros s t /\ without_zeros s' t.
Proof.
  intros s s'. rewrite !p4rt_unsigned. split.
  - intros H. exists (strip_leading_zeros s). split; [apply strip_without|]. destruct (strip_without s) as [[k Hk] Hn]. destruct (strip_without s') as [[k' Hk'] Hn'].
    assert (strip_leading_zeros s = strip_leading_zeros s') as E; [|rewrite E; apply strip_without].
    rewrite Hk, Hk', !zeros_number, !unsigned_digits in H. apply N2Z.inj in H. set (a := strip_leading_zeros s) in *. set (b := strip_leading_zeros s') in *.
    destruct a as [|x a], b as [|y b]; [reflexivity|..].
    + exfalso. assert (y <> NUL) as Hy by (intros ->; now apply (Hn' b)). pose proof (canonical_bytes y b Hy) as [E|(d & r & E & Hd)].
      * cbn in E. injection E as E _. apply Hy. rewrite <- (ascii_N_embedding y), E. reflexivity.
      * pose proof (of_digits_pos 256 d r ltac:(lia) Hd). rewrite <- E, <- H in H0. cbn in H0. lia.
    + exfalso. assert (x <> NUL) as Hy by (intros ->; now apply (Hn a)). pose proof (canonical_bytes x a Hy) as [E|(d & r & E & Hd)].
      * cbn in E. injection E as E _. apply Hy. rewrite <- (ascii_N_embedding x), E. reflexivity.
      * pose proof (of_digits_pos 256 d r ltac:(lia) Hd). rewrite <- E, H in H0. cbn in H0. lia.
    + apply bytes_inj. rewrite <- (digits_of_canonical 256 (map N_of_ascii (chars (String x a)))); [|lia|apply bytes_small|apply canonical_bytes; intros ->; now apply (Hn a)].
      rewrite H. apply digits_of_canonical; [lia|apply bytes_small|apply canonical_bytes; intros ->; now apply (Hn' b)].
  - intros (t & ([k ->] & _) & ([k' ->] & _)). now rewrite !zeros_number.
Qed.
Print Assumptions C22_equal_iff.
Theorem C22_leading_zeros : forall k s, ParseP4RTInteger (repeat_char k NUL ++ s) = ParseP4RTInteger s.
Proof. intros k s. rewrite !p4rt_unsigned. apply zeros_number. Qed.
Print Assumptions C22_leading_zeros.
Example C22_case : ParseP4RTInteger (repeat_char 3 NUL ++ "AB") = 16706%Z /\ ParseP4RTInteger "" = 0%Z.
Proof. split; vm_compute; reflexivity. Qed.

(** * C23 *)
(** The context an accepted entry is checked in: every key has exactly the value
    the entry assigns to it, by being present or by being omitted. *)
Theorem C23_complete_assignment : forall t ks entry ctx, table_keys t ks -> ParseTableEntry entry t = Ok ctx ->
  exists keys, ctx = mkCtx (CtxTable (ti_name t) (pe_priority entry) keys) (ti_source t) /\
    (forall n v, assoc_find String.eqb n keys = Some v <-> Assigned ks (pe_match entry) n v) /\
    (forall k, In k ks -> exists v, assoc_find String.eqb (k_name k) keys = Some v /\ of_type (k_type k) v).
Proof.
  intros t ks entry ctx HK H. destruct (entry_ok t ks HK entry ctx H) as (Hc & keys & -> & HN & HA). exists keys. split; [reflexivity|].
  assert (forall n v, assoc_find String.eqb n keys = Some v <-> Assigned ks (pe_match entry) n v) as HF.
  { intros n v. rewrite (afind_iff String.eqb String.eqb_eq) by exact HN. apply HA. }
  split; [exact HF|]. intros k Hk. destruct Hc as [C1 C2 C3].
  destruct (existsb (fun f => N.eqb (fm_id f) (k_id k)) (pe_match entry)) eqn:E.
  - apply existsb_exists in E as (f & Hf & Hid). apply N.eqb_eq in Hid. destruct (C1 f Hf) as (k' & v & Hk' & Hid' & Hv).
    assert (k' = k) as -> by (apply (nodup_keys k_id ks); [apply HK|exact Hk'|exact Hk|congruence]). exists v. split; [apply HF; eapply as_present; eauto|eapply field_value_typed; eauto].
  - assert (omitted k (pe_match entry)) as Ho. { intros f Hf Hid. assert (existsb (fun f => N.eqb (fm_id f) (k_id k)) (pe_match entry) = true) as X; [|congruence]. apply existsb_exists. exists f. split; [exact Hf|now apply N.eqb_eq]. }
    destruct (C3 k Hk Ho) as (v & Hv). exists v. split; [apply HF; now apply as_omitted|now apply wildcard_typed].
Qed.
Print Assumptions C23_complete_assignment.
(** Accepted are exactly the consistent entries. *)
Theorem C23_accepted_iff : forall t ks entry, table_keys t ks -> ((exists ctx, ParseTableEntry entry t = Ok ctx) <-> consistent ks (pe_match entry)).
Proof. intros t ks entry HK. exact (entry_iff t ks HK entry). Qed.
Print Assumptions C23_accepted_iff.
Definition full_keys : list key_info :=
  [mkKey 1 "e" (TExact 8); mkKey 2 "t" (TTernary 8); mkKey 3 "l" (TLpm 8); mkKey 4 "r" (TRange 8); mkKey 5 "o" (TOptional 8)].
Definition full_table : table_info :=
  mkTable 1 "full" None default_csource (map (fun k => (k_id k, k)) full_keys) (rev (map (fun k => (k_name k, k)) full_keys)).
Lemma full_table_keys : table_keys full_table full_keys.
Proof.
  assert (NoDup (map k_id full_keys)) as H1. { repeat (constructor; [cbn; intuition discriminate|]). constructor. }
  assert (NoDup (map k_name full_keys)) as H2. { repeat (constructor; [cbn; intuition discriminate|]). constructor. }
  split; [exact H1|exact H2|intros x; reflexivity|intros x; symmetry; apply in_rev|exact H1|]. cbn [ti_keys_by_name full_table]. rewrite map_rev. apply NoDup_rev. exact H2.
Qed.
Example C23_case : table_keys full_table full_keys /\ exists ctx, ParseTableEntry (mkEntry 1 [mkFM 5 (FMOptional "a"); mkFM 1 (FMExact "b")] None 7) full_table = Ok ctx /\
  Assigned full_keys [mkFM 5 (FMOptional "a"); mkFM 1 (FMExact "b")] "r" (VRange 0 255).
Proof.
  split; [exact full_table_keys|]. eexists. split; [vm_compute; reflexivity|]. apply (as_omitted full_keys _ (mkKey 4 "r" (TRange 8))); [cbn; tauto| |apply (wc_range 8); lia].
  intros f [<-|[<-|[]]]; discriminate.
Qed.

(** * C24 *)
Theorem C24_inconsistent_rejected : forall ci t ks entry r, GetTableInfoOrNull ci (pe_table_id entry) = Some t -> table_keys t ks -> ti_constraint t <> None ->
  (exists f, In f (pe_match entry) /\ forall k, In k ks -> k_id k <> fm_id f) \/
  ~ NoDup (map fm_id (pe_match entry)) \/
  (exists f k, In f (pe_match entry) /\ In k ks /\ k_id k = fm_id f /\ forall v, ~ field_value (k_type k) (fm_value f) v) \/
  (exists k w, In k ks /\ k_type k = TExact w /\ omitted k (pe_match entry)) ->
  ReasonEntryViolatesConstraint entry ci <> Ok r.
Proof.
  intros ci t ks entry r Ht HK Hc Hbad H. unfold ReasonEntryViolatesConstraint in H. rewrite Ht in H. apply bind_ok in H as (r' & H & _). apply table_ok in H as [(E & _)|(e & ctx & _ & _ & Hp & _)]; [contradiction|].
  assert (consistent ks (pe_match entry)) as [C1 C2 C3] by (apply (entry_iff t ks HK); eauto). destruct Hbad as [(f & Hf & Hk)|[Hd|[(f & k & Hf & Hk & Hid & Hv)|(k & w & Hk & Ht' & Ho)]]].
  - destruct (C1 f Hf) as (k & v & Hki & Hid & _). exact (Hk k Hki Hid).
  - contradiction.
  - destruct (C1 f Hf) as (k' & v & Hk' & Hid' & Hv'). assert (k' = k) as -> by (apply (nodup_keys k_id ks); [apply HK|exact Hk'|exact Hk|congruence]). exact (Hv v Hv').
  - destruct (C3 k Hk Ho) as (v & Hv). rewrite Ht' in Hv. inversion Hv.
Qed.
Print Assumptions C24_inconsistent_rejected.
(** Actions: unknown and repeated arguments. *)
Theorem C24_action_rejected : forall ci a ps x r, GetActionInfoOrNull ci (pa_id x) = Some a -> action_params a ps -> ai_constraint a <> None ->
  (exists id s, In (id, s) (pa_params x) /\ forall p, In p ps -> k_id p <> id) \/ ~ NoDup (map fst (pa_params x)) -> ReasonActionViolates ci x <> Ok r.
Proof.
  intros ci a ps x r Ha HP Hc Hbad H. apply action_verdict in H as (a' & Ha' & H). assert (a' = a) as -> by congruence. destruct H as [(E & _)|(e & ctx & _ & _ & Hp & _)]; [contradiction|].
  destruct (action_ok a ps HP x ctx Hp) as ([A1 A2] & _). destruct Hbad as [(id & s & Hi & Hk)|Hd]; [|contradiction]. destruct (A1 id s Hi) as (p & Hpi & Hid). exact (Hk p Hpi Hid).
Qed.
Print Assumptions C24_action_rejected.
Example C24_case : exists ci t, P4ToConstraintInfo pton1 ex_info = Ok ci /\ GetTableInfoOrNull ci 7 = Some t /\ ti_constraint t <> None.
Proof. destruct C37_case as (ci & t & H1 & H2 & H3 & _). eauto. Qed.

(** * C25 *)
(** The same table with other iteration orders of its maps. *)
Definition same_table (t t' : table_info) : Prop :=
  ti_id t = ti_id t' /\ ti_name t = ti_name t' /\ ti_constraint t = ti_constraint t' /\ ti_source t = ti_source t' /\
  Permutation (ti_keys_by_id t) (ti_keys_by_id t') /\ Permutation (ti_keys_by_name t) (ti_keys_by_name t').
Lemma perm_same {A} (l m : list A) : Permutation l m -> same_entries l m.
Proof. intros H x. split; apply Permutation_in; [exact H|now apply Permutation_sym]. Qed.
Lemma same_keys t t' ks : same_table t t' -> table_keys t ks -> table_keys t' ks.
Proof.
  intros (_ & _ & _ & _ & H1 & H2) [K1 K2 K3 K4 K5 K6]. split; [exact K1|exact K2| | | |].
  - intros x. rewrite <- (perm_same _ _ H1 x). apply K3.
  - intros x. rewrite <- (perm_same _ _ H2 x). apply K4.
  - exact (Permutation_NoDup (Permutation_map fst H1) K5).
  - exact (Permutation_NoDup (Permutation_map fst H2) K6).
Qed.
Lemma assigned_perm ks l l' n v : Permutation l l' -> Assigned ks l n v -> Assigned ks l' n v.
Proof.
  intros Hp H. destruct H as [k f v Hk Hf Hid Hv|k v Hk Ho Hv].
  - eapply as_present; eauto. exact (Permutation_in _ Hp Hf).
  - apply as_omitted; [exact Hk| |exact Hv]. intros f Hf. apply Ho. exact (Permutation_in _ (Permutation_sym Hp) Hf).
Qed.
Lemma table_perm t t' ks entry entry' r : table_keys t ks -> same_table t t' -> Permutation (pe_match entry) (pe_match entry') -> pe_priority entry = pe_priority entry' ->
  ReasonTableViolates t entry = Ok r -> ReasonTableViolates t' entry' = Ok r.
Proof.
  intros HK Hs Hp Hpr H. pose proof (same_keys _ _ _ Hs HK) as HK'. destruct Hs as (_ & En & Ec & Es & _). apply table_ok in H. apply table_ok. rewrite <- Ec. destruct H as [H|(e & ctx & He & Ht & Hpa & Hc)]; [now left|right].
  destruct (entry_ok t ks HK entry ctx Hpa) as ([C1 C2 C3] & keys & -> & HN & HA).
  assert (exists ctx', ParseTableEntry entry' t' = Ok ctx') as [ctx' Hpa'].
  { apply (entry_iff t' ks HK'). split.
    - intros f Hf. apply C1. exact (Permutation_in _ (Permutation_sym Hp) Hf).
    - exact (Permutation_NoDup (Permutation_map fm_id Hp) C2).
    - intros k Hk Ho. apply C3; [exact Hk|]. intros f Hf. apply Ho. exact (Permutation_in _ Hp Hf). }
  destruct (entry_ok t' ks HK' entry' ctx' Hpa') as (_ & keys' & -> & HN' & HA'). exists e. eexists. split; [exact He|]. split; [exact Ht|]. split; [exact Hpa'|]. rewrite <- Hc, <- En, <- Es, <- Hpr. symmetry. apply check_same; [exact HN|exact HN'|].
  intros [n v]. rewrite HA, HA'. split; apply assigned_perm; [exact Hp|now apply Permutation_sym].
Qed.
Theorem C25_order_independent : forall ci ci' t t' ks entry entry' r,
  GetTableInfoOrNull ci (pe_table_id entry) = Some t -> GetTableInfoOrNull ci' (pe_table_id entry') = Some t' -> table_keys t ks -> same_table t t' ->
  (forall id, GetActionInfoOrNull ci id = GetActionInfoOrNull ci' id) ->
  Permutation (pe_match entry) (pe_match entry') -> pe_priority entry = pe_priority entry' -> pe_action entry = pe_action entry' ->
  (ReasonEntryViolatesConstraint entry ci = Ok r <-> ReasonEntryViolatesConstraint entry' ci' = Ok r).
Proof.
  intros ci ci' t t' ks entry entry' r Ht Ht' HK Hs Ha Hp Hpr Hac. unfold ReasonEntryViolatesConstraint. rewrite Ht, Ht', !bind_ok, <- Hac.
  assert (forall a, ReasonActionViolates ci a = ReasonActionViolates ci' a) as Ea by (intros a; unfold ReasonActionViolates; now rewrite Ha).
  assert (forall l, ReasonActionSetViolates ci l = ReasonActionSetViolates ci' l) as El by (induction l as [|a l IH]; cbn [ReasonActionSetViolates]; [reflexivity|now rewrite Ea, IH]).
  assert (same_table t' t) as Hs'. { destruct Hs as (? & ? & ? & ? & ? & ?). repeat split; auto using Permutation_sym. }
  split; intros (x & Hx & H); exists x; (split; [eapply table_perm; [| |apply Hp || (apply Permutation_sym; apply Hp)| |exact Hx]; eauto using same_keys|]); destruct (negb _); try exact H; destruct (pe_action entry) as [[]|]; try exact H; rewrite ?Ea, ?El in *; exact H.
Qed.
Print Assumptions C25_order_independent.
(** Actions: the order of the arguments. *)
Theorem C25_action_order_independent : forall ci a ps x x' r, GetActionInfoOrNull ci (pa_id x) = Some a -> action_params a ps -> pa_id x = pa_id x' -> Permutation (pa_params x) (pa_params x') ->
  (ReasonActionViolates ci x = Ok r <-> ReasonActionViolates ci x' = Ok r).
Proof.
  intros ci a ps x x' r Ha HP Hid Hp.
  assert (forall x x', GetActionInfoOrNull ci (pa_id x) = Some a -> pa_id x = pa_id x' -> Permutation (pa_params x) (pa_params x') -> ReasonActionViolates ci x = Ok r -> ReasonActionViolates ci x' = Ok r) as Hx.
  { clear x x' Ha Hid Hp. intros x x' Ha Hid Hp H. apply action_verdict in H as (a' & Ha' & H). assert (a' = a) as -> by congruence. apply action_verdict. exists a. split; [congruence|].
    destruct H as [H|(e & ctx & He & Ht & Hpa & Hc)]; [now left|right]. destruct (action_ok a ps HP x ctx Hpa) as ([A1 A2] & params & -> & HN & HA).
    assert (acceptable ps (pa_params x')) as Hacc.
    { split; [intros id s Hi; apply (A1 id s); exact (Permutation_in _ (Permutation_sym Hp) Hi)|exact (Permutation_NoDup (Permutation_map fst Hp) A2)]. }
    destruct (action_total a ps HP x' Hacc) as [ctx' Hpa']. destruct (action_ok a ps HP x' ctx' Hpa') as (_ & params' & -> & HN' & HA'). exists e. eexists. split; [exact He|]. split; [exact Ht|]. split; [exact Hpa'|].
    rewrite <- Hc, <- Hid. symmetry. apply check_same_action; [exact HN|exact HN'|]. intros [n z]. rewrite HA, HA'.
    split; intros (p & s & Hpi & Hi & E); exists p, s; (split; [exact Hpi|split; [|exact E]]); [exact (Permutation_in _ Hp Hi)|exact (Permutation_in _ (Permutation_sym Hp) Hi)]. }
  split; apply Hx; [exact Ha|exact Hid|exact Hp|congruence|congruence|now apply Permutation_sym].
Qed.
Print Assumptions C25_action_order_independent.
Example C25_case : same_table full_table (mkTable 1 "full" None default_csource (rev (ti_keys_by_id full_table)) (rev (ti_keys_by_name full_table))) /\
  ti_keys_by_id full_table <> rev (ti_keys_by_id full_table).
Proof. split; [|discriminate]. repeat split; cbn [ti_keys_by_id ti_keys_by_name]; apply Permutation_rev. Qed.
