(** The debug build of loading and checking. *)
From Coq Require Import String Ascii List ZArith NArith Bool Lia.
From Verif Require Import Base Num Token Ast Lexer Quote AstConstructors Parser Info TypeChecker ConstraintInfo Interpreter DebugBuild
  StrFacts SpecLexer SpecSemantics SpecInfo SpecDebug LiteralFacts LexerFacts LexerFacts2 LexerFacts4 LexerFacts5 LexerFacts7 EntryFacts InterpFacts InfoFacts InfoFacts2 DebugFacts DebugFacts2 PropertiesInfo.
Import ListNotations.
Open Scope string_scope.

Lemma dParse_spec pton ck cs :
  (dParseConstraint pton ck cs = None /\ trips (cs_string cs)) \/
  (dParseConstraint pton ck cs = Some (ParseConstraint pton ck cs) /\ ~ trips (cs_string cs)).
Proof.
  unfold dParseConstraint, ParseConstraint. destruct (dTokenize_spec cs) as [[-> H]|[-> H]]; [left; auto|]. right. cbn [dlet]. rewrite dParseTokens_eq. auto.
Qed.
Lemma forall2_pick {A B} (R : A -> B -> Prop) l m b : Forall2 R l m -> In b m -> exists a, In a l /\ R a b.
Proof. induction 1 as [|x y l m H Hf IH]; [contradiction|]. intros [->|Hi]; [exists x; split; [now left|exact H]|]. destruct (IH Hi) as (a & H1 & H2). exists a. split; [now right|exact H2]. Qed.
Lemma key_good f k : key_decl f k -> mf_bitwidth f <> (-1)%Z -> good_type (k_type k).
Proof. intros (_ & _ & H) Hw. unfold good_type. destruct H; cbn in *; congruence. Qed.
Lemma param_good f k : param_decl f k -> ap_bitwidth f <> (-1)%Z -> good_type (k_type k).
Proof. intros (_ & _ & H) Hw. unfold good_type. destruct H as [[_ ->]|[_ ->]]; cbn in *; congruence. Qed.
Lemma names_good {D} (R : D -> key_info -> Prop) (l : list D) ks n k : Forall2 R l ks -> (forall f k, In f l -> R f k -> good_type (k_type k)) ->
  assoc_find String.eqb n (map (fun k => (k_name k, k)) ks) = Some k -> good_type (k_type k).
Proof.
  intros Hf Hg H. apply (afind_in String.eqb String.eqb_eq) in H. apply in_map_iff in H as (k' & E & Hi). injection E as _ <-.
  destruct (forall2_pick _ _ _ _ Hf Hi) as (f & Hi' & Hr). eauto.
Qed.

Lemma dtable_spec pton d : (forall f, In f (pt_match_fields d) -> mf_bitwidth f <> (-1)%Z) ->
  (dParseTableInfo pton d = Some (ParseTableInfo pton d) /\ ~ table_trips d) \/ (dParseTableInfo pton d = None /\ table_trips d).
Proof.
  intros Hw. unfold dParseTableInfo, ParseTableInfo.
  destruct (insert_keys _ (map ParseMatchField (pt_match_fields d)) [] []) as [[bi bn]|c m|w] eqn:Ek; cbn [dbind bind].
  2, 3: left; split; [reflexivity|]; intros (ks & cs & Hf & H1 & H2 & _);
    rewrite (proj2 (insert_keys_ok _ _ [] [] (map (fun k => (k_id k, k)) ks, map (fun k => (k_name k, k)) ks) (NoDup_nil _) (NoDup_nil _))) in Ek; [discriminate|];
    exists ks; cbn [fst snd app]; rewrite maps_keys, maps_names; (split; [|auto]); apply forall2_map; now apply (forall2_iff _ _ _ _ match_field_ok).
  apply insert_keys_ok in Ek as (ks & Hf & E & Hi & Hn); [|constructor..]. apply pair_equal_spec in E as [-> ->].
  cbn [fst snd app] in Hi, Hn. rewrite forall2_map in Hf. apply (forall2_iff _ _ _ _ match_field_ok) in Hf. rewrite maps_keys in Hi. rewrite maps_names in Hn.
  destruct (ExtractConstraint kTableConstraint (pt_preamble d)) as [[cs|]|c m|w] eqn:Ec; cbn [dbind bind].
  2, 3, 4: left; split; [reflexivity|]; intros (ks' & cs & _ & _ & _ & Hr & _); apply extract_some in Hr; congruence.
  apply extract_some in Ec. destruct (dParse_spec pton kTableConstraint cs) as [[-> Ht]|[-> Ht]].
  { right. split; [reflexivity|]. exists ks, cs. auto. }
  left. split.
  - apply dbind_some. intros e _. unfold InferTable. rewrite dInfer_eq; [apply dbind_some; reflexivity|].
    split; [|discriminate]. intros t n k [= <-] H. cbn [ti_keys_by_name app] in H.
    apply (names_good _ _ _ _ _ Hf) in H; [exact H|]. intros f k' Hf' Hr. exact (key_good _ _ Hr (Hw f Hf')).
  - intros (ks' & cs' & _ & _ & _ & Hr & Ht'). rewrite (restricted_fun _ _ _ _ Ec Hr) in Ht. auto.
Qed.
Lemma daction_spec pton d : (forall f, In f (pad_params d) -> ap_bitwidth f <> (-1)%Z) ->
  (dParseActionInfo pton d = Some (ParseActionInfo pton d) /\ ~ action_trips d) \/ (dParseActionInfo pton d = None /\ action_trips d).
Proof.
  intros Hw. unfold dParseActionInfo, ParseActionInfo.
  destruct (insert_keys _ (map ParseParam (pad_params d)) [] []) as [[bi bn]|c m|w] eqn:Ek; cbn [dbind bind].
  2, 3: left; split; [reflexivity|]; intros (ks & cs & Hf & H1 & H2 & _);
    rewrite (proj2 (insert_keys_ok _ _ [] [] (map (fun k => (k_id k, k)) ks, map (fun k => (k_name k, k)) ks) (NoDup_nil _) (NoDup_nil _))) in Ek; [discriminate|];
    exists ks; cbn [fst snd app]; rewrite maps_keys, maps_names; (split; [|auto]); apply forall2_map; now apply (forall2_iff _ _ _ _ param_ok).
  apply insert_keys_ok in Ek as (ks & Hf & E & Hi & Hn); [|constructor..]. apply pair_equal_spec in E as [-> ->].
  cbn [fst snd app] in Hi, Hn. rewrite forall2_map in Hf. apply (forall2_iff _ _ _ _ param_ok) in Hf. rewrite maps_keys in Hi. rewrite maps_names in Hn.
  destruct (ExtractConstraint kActionConstraint (pad_preamble d)) as [[cs|]|c m|w] eqn:Ec; cbn [dbind bind].
  2, 3, 4: left; split; [reflexivity|]; intros (ks' & cs & _ & _ & _ & Hr & _); apply extract_some in Hr; congruence.
  apply extract_some in Ec. destruct (dParse_spec pton kActionConstraint cs) as [[-> Ht]|[-> Ht]].
  { right. split; [reflexivity|]. exists ks, cs. auto. }
  left. split.
  - apply dbind_some. intros e _. unfold InferAction. rewrite dInfer_eq; [apply dbind_some; reflexivity|].
    split; [discriminate|]. intros t n k [= <-] H. cbn [ai_params_by_name app] in H.
    apply (names_good _ _ _ _ _ Hf) in H; [exact H|]. intros f k' Hf' Hr. exact (param_good _ _ Hr (Hw f Hf')).
  - intros (ks' & cs' & _ & _ & _ & Hr & Ht'). rewrite (restricted_fun _ _ _ _ Ec Hr) in Ht. auto.
Qed.

Lemma dcollect_spec {D I} (parse : D -> outcome I) dparse (bad : D -> Prop) id dup l :
  (forall d, In d l -> (dparse d = Some (parse d) /\ ~ bad d) \/ (dparse d = None /\ bad d)) -> forall bi es,
  (dcollect dparse id dup l bi es = Some (collect parse id dup l bi es) /\
     ((forall d, In d l -> ~ bad d) \/ exists w, collect parse id dup l bi es = Crash w)) \/
  (dcollect dparse id dup l bi es = None /\ exists d, In d l /\ bad d).
Proof.
  induction l as [|d l IH]; intros Hd bi es; cbn [dcollect collect].
  { left. split; [reflexivity|]. left. intros d []. }
  specialize (IH (fun d' H => Hd d' (or_intror H))).
  destruct (Hd d (or_introl eq_refl)) as [[-> Hb]|[-> Hb]].
  2: { right. split; [reflexivity|]. exists d. split; [now left|exact Hb]. }
  cbn [dlet].
  assert (forall bi es, (dcollect dparse id dup l bi es = Some (collect parse id dup l bi es) /\
     ((forall d', In d' (d :: l) -> ~ bad d') \/ exists w, collect parse id dup l bi es = Crash w)) \/
    (dcollect dparse id dup l bi es = None /\ exists d', In d' (d :: l) /\ bad d')) as IH'.
  { intros bi' es'. destruct (IH bi' es') as [[E [H|H]]|[E (d' & H1 & H2)]].
    - left. split; [exact E|]. left. intros d' [<-|H']; auto.
    - left. split; [exact E|]. right. exact H.
    - right. split; [exact E|]. exists d'. split; [now right|exact H2]. }
  destruct (parse d) as [i|c m|w].
  - destruct (assoc_insert N.eqb (id d) i bi); apply IH'.
  - apply IH'.
  - left. split; [reflexivity|]. right. eauto.
Qed.

Lemma dinfo_spec pton p : ~ minus_one p ->
  (dP4ToConstraintInfo pton p = Some (P4ToConstraintInfo pton p) /\ (~ info_trips p \/ exists w, P4ToConstraintInfo pton p = Crash w)) \/
  (dP4ToConstraintInfo pton p = None /\ info_trips p).
Proof.
  intros Hm. unfold dP4ToConstraintInfo, P4ToConstraintInfo.
  destruct (dcollect_spec (ParseTableInfo pton) (dParseTableInfo pton) table_trips (fun t => pr_id (pt_preamble t)) "duplicate table: " (p4_tables p)) with (bi := @nil (N * table_info)) (es := @nil string) as [[-> H1]|[-> (d & H1 & H2)]].
  { intros d Hd. apply dtable_spec. intros f Hf E. apply Hm. left. eauto. }
  2: { right. split; [reflexivity|]. left. eauto. }
  destruct (collect_result (ParseTableInfo pton) (fun t => pr_id (pt_preamble t)) "duplicate table: " (p4_tables p) [] []) as [[[ts es] E]|(d & w & _ & _ & E)];
    rewrite E in *; cbn [dbind bind].
  2: { left. split; [reflexivity|]. right. eauto. }
  destruct H1 as [H1|[w H1]]; [|discriminate].
  destruct (dcollect_spec (ParseActionInfo pton) (dParseActionInfo pton) action_trips (fun t => pr_id (pad_preamble t)) "duplicate action: " (p4_actions p)) with (bi := @nil (N * action_info)) (es := es) as [[-> H2]|[-> (d & H2 & H3)]].
  { intros d Hd. apply daction_spec. intros f Hf E'. apply Hm. right. eauto. }
  2: { right. split; [reflexivity|]. right. eauto. }
  destruct (collect_result (ParseActionInfo pton) (fun t => pr_id (pad_preamble t)) "duplicate action: " (p4_actions p) [] es) as [[[as_ es'] E']|(d & w & _ & _ & E')];
    rewrite E' in *; cbn [dbind bind].
  2: { left. split; [reflexivity|]. right. eauto. }
  destruct H2 as [H2|[w H2]]; [|discriminate].
  left. split; [destruct es'; reflexivity|]. left. intros [(d & Hd & Ht)|(d & Hd & Ht)]; [exact (H1 d Hd Ht)|exact (H2 d Hd Ht)].
Qed.

(** * Checking *)
Lemma loaded_good pton p ci : ~ minus_one p -> P4ToConstraintInfo pton p = Ok ci ->
  (forall id t e, GetTableInfoOrNull ci id = Some t -> ti_constraint t = Some e -> good_casts e) /\
  (forall id a e, GetActionInfoOrNull ci id = Some a -> ai_constraint a = Some e -> good_casts e).
Proof.
  intros Hm Hci. destruct (C37_exact _ _ _ Hci) as (_ & Ht & _ & Ha). split.
  - intros id t e Hg He. destruct (Ht _ _ Hg) as (d & ks & Hd & _ & [_ _ Hf HK Hc]). destruct Hc as [[_ E]|(e0 & e' & _ & _ & Hi & E)]; [congruence|].
    assert (e' = e) as -> by congruence. apply (infer_good None (Some t)) in Hi; [apply Hi|]. split; [|discriminate]. intros t' n k [= <-] H.
    destruct HK as [_ _ _ K _ _]. apply (afind_in String.eqb String.eqb_eq) in H. apply K in H. apply in_map_iff in H as (k' & E' & Hk). injection E' as _ <-.
    destruct (forall2_pick _ _ _ _ Hf Hk) as (f & Hi' & Hr). apply (key_good _ _ Hr). intros E'. apply Hm. left. eauto.
  - intros id t e Hg He. destruct (Ha _ _ Hg) as (d & ks & Hd & _ & [_ _ Hf HK Hc]). destruct Hc as [[_ E]|(e0 & e' & _ & _ & Hi & E)]; [congruence|].
    assert (e' = e) as -> by congruence. apply (infer_good (Some t) None) in Hi; [apply Hi|]. split; [discriminate|]. intros t' n k [= <-] H.
    destruct HK as [_ _ _ K _ _]. apply (afind_in String.eqb String.eqb_eq) in H. apply K in H. apply in_map_iff in H as (k' & E' & Hk). injection E' as _ <-.
    destruct (forall2_pick _ _ _ _ Hf Hk) as (f & Hi' & Hr). apply (param_good _ _ Hr). intros E'. apply Hm. right. eauto.
Qed.
Lemma dreason_eq ci : (forall id t e, GetTableInfoOrNull ci id = Some t -> ti_constraint t = Some e -> good_casts e) ->
  (forall id a e, GetActionInfoOrNull ci id = Some a -> ai_constraint a = Some e -> good_casts e) ->
  forall entry, dReasonEntryViolatesConstraint entry ci = Some (ReasonEntryViolatesConstraint entry ci).
Proof.
  intros Ht Ha.
  assert (forall a, dReasonActionViolates ci a = Some (ReasonActionViolates ci a)) as HA.
  { intros a. unfold dReasonActionViolates, ReasonActionViolates. destruct (GetActionInfoOrNull ci (pa_id a)) as [ai|] eqn:E; [|reflexivity].
    destruct (ai_constraint ai) as [e|] eqn:Ee; [|reflexivity]. destruct (negb _); [reflexivity|]. apply dbind_some. intros ctx _. apply dcheck_constraint_eq. exact (Ha _ _ _ E Ee). }
  assert (forall l, dReasonActionSetViolates ci l = Some (ReasonActionSetViolates ci l)) as HS.
  { induction l as [|a l IH]; [reflexivity|]. cbn [dReasonActionSetViolates ReasonActionSetViolates]. rewrite HA. apply dbind_some. intros r _. destruct (String.eqb r ""); [exact IH|reflexivity]. }
  intros entry. unfold dReasonEntryViolatesConstraint, ReasonEntryViolatesConstraint. destruct (GetTableInfoOrNull ci (pe_table_id entry)) as [t|] eqn:E; [|reflexivity].
  assert (dReasonTableViolates t entry = Some (ReasonTableViolates t entry)) as ->.
  { unfold dReasonTableViolates, ReasonTableViolates. destruct (ti_constraint t) as [e|] eqn:Ee; [|reflexivity]. destruct (negb _); [reflexivity|].
    apply dbind_some. intros ctx _. apply dcheck_constraint_eq. exact (Ht _ _ _ E Ee). }
  apply dbind_some. intros r _. destruct (negb (String.eqb r "")); [reflexivity|]. destruct (pe_action entry) as [[a|?|?|l|]|]; try reflexivity; auto.
Qed.

(** * Well-formed text *)
Lemma only_runes (q bad : ascii -> Prop) t : (forall c, q c -> (N_of_ascii c < 128)%N /\ ~ bad c) -> only q t -> runes bad t.
Proof.
  intros Hq. induction t as [|c t IH]; intros Ho; [constructor|]. apply only_cons in Ho as [Hc Ho]. change (String c t) with (String c "" ++ t).
  destruct (Hq c Hc). constructor; [now constructor| |auto]. intros d [= <-]. assumption.
Qed.
Lemma shape_runes n lx it : shape n lx it -> runes (fun _ => False) lx.
Proof.
  assert (forall (q : ascii -> Prop) t, (forall c, q c -> (N_of_ascii c < 128)%N) -> only q t -> runes (fun _ => False) t) as Ho.
  { intros q t Hq. apply only_runes. intros c Hc. split; [auto|tauto]. }
  assert (forall c, letter c \/ digit c -> (N_of_ascii c < 128)%N) as Hl.
  { intros c [[->|[H|H]]|H]; [reflexivity|unfold digit, between in *; lia..]. }
  assert (forall p t, runes (fun _ => False) p -> runes (fun _ => False) t -> runes (fun _ => False) (p ++ t)) as Happ by (intros; now apply runes_app).
  assert (forall c t, (N_of_ascii c < 128)%N -> runes (fun _ => False) t -> runes (fun _ => False) (String c t)) as Hcons.
  { intros c t Hc Ht. change (String c t) with (String c "" ++ t). constructor; [now constructor|tauto|exact Ht]. }
  assert (forall (bad : ascii -> Prop) t, runes bad t -> runes (fun _ => False) t) as Hweak by (intros bad t; apply runes_weaken; tauto).
  intros H. inversion H as [t Hne Hb| t Hb|t Ht|t Ht|t Ht|k t Hin|c t Hc Hd|p t Hp _ Hd|p t Hp _ Hd|p t Hp _ Hd|p t Hp _ Hd|t Ht]; subst.
  - apply (Ho _ _) in Hb; [exact Hb|]. intros c [->| ->]; reflexivity.
  - destruct Hb as [->|[->| ->]]; repeat (apply Hcons; [reflexivity|]); constructor.
  - repeat (apply Hcons; [reflexivity|]). eapply Hweak, Ht.
  - repeat (apply Hcons; [reflexivity|]). apply Happ; [exact Ht|]. repeat (apply Hcons; [reflexivity|]). constructor.
  - repeat (apply Hcons; [reflexivity|]). exact Ht.
  - cbn in Hin. repeat (destruct Hin as [Hin|Hin]; [injection Hin as <- <-; repeat (apply Hcons; [reflexivity|]); constructor|]). destruct Hin.
  - apply Hcons; [apply Hl; now left|]. apply (Ho _ _ Hl Hd).
  - assert (runes (fun _ => False) t) as Ht by (apply (Ho _ _) in Hd; [exact Hd|]; unfold between; intros; lia). destruct Hp as [->| ->]; repeat (apply Hcons; [reflexivity|]); exact Ht.
  - assert (runes (fun _ => False) t) as Ht by (apply (Ho _ _) in Hd; [exact Hd|]; unfold between; intros; lia). destruct Hp as [->| ->]; repeat (apply Hcons; [reflexivity|]); exact Ht.
  - assert (runes (fun _ => False) t) as Ht by (apply (Ho _ _) in Hd; [exact Hd|]; unfold hexdigit, digit, between; intros; lia). destruct Hp as [->| ->]; repeat (apply Hcons; [reflexivity|]); exact Ht.
  - assert (runes (fun _ => False) t) as Ht by (apply (Ho _ _) in Hd; [exact Hd|]; unfold digit, between; intros; lia). destruct Hp as [->|[->| ->]]; repeat (apply Hcons; [reflexivity|]); exact Ht.
  - cbn [append str1]. apply Hcons; [reflexivity|]. apply Happ; [eapply Hweak, Ht|]. apply Hcons; [reflexivity|constructor].
Qed.
Lemma trips_utf8 s : runes (fun _ => False) s -> ~ trips s.
Proof.
  intros Hs (ch & t & rest & Ht & Ho & Hne).
  revert s Hs Ht. induction ch as [|[lx it] ch IH]; intros s Hs Ht; cbn [app] in Ht; inversion Ht as [|? ? ? ? ? ? Hx Ht']; subst; pose proof (next_app _ _ _ _ Hx) as Ea; rewrite Ea in Hs;
    destruct (next_shape _ _ _ _ Hx) as [n Hn]; apply shape_runes in Hn; apply runes_app_inv in Hs; try exact Hn.
  - inversion Ht' as [? Hno|]; subst. destruct Hs as [|r s Hr Hb Hs]; [congruence|].
    assert (open_left ("/*" ++ t) (r ++ s)) as Hop by (exists t; auto).
    destruct (dstep_spec 0 (("/*" ++ t) ++ r ++ s) default_loc) as [(lx & rest & Hx2 & Hno' & _)|[(lx & rest & Hx2 & _ & Hm & _)|[(lx & k & t2 & rest & Hx2 & _)|(Hno' & _)]]].
    + destruct (next_fun _ _ _ _ _ _ _ Hx Hx2) as (<- & _ & <-). contradiction.
    + destruct (next_fun _ _ _ _ _ _ _ Hx Hx2) as (_ & _ & <-). rewrite match_rune_complete in Hm; [discriminate|exact Hr|reflexivity].
    + destruct (next_fun _ _ _ _ _ _ _ Hx Hx2) as (_ & E & _). discriminate.
    + elim (Hno' _ _ _ Hx).
  - exact (IH _ Hs Ht').
Qed.
