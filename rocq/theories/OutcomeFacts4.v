(** Faulty entries, and verdicts of tables and actions. *)
From Coq Require Import String Ascii List ZArith NArith Bool Lia Sorted.
From Verif Require Import Base Num Token Ast Lexer Quote AstConstructors Parser Info TypeChecker ConstraintInfo Interpreter SpecLexer SpecGrammar SpecParser SpecTyping SpecSemantics SpecInfo SpecExplain SpecCrash SpecReading SpecOutcome
  StrFacts NumFacts LiteralFacts ParserFacts4 TypeFacts EvalFacts SemFacts SemFacts2 EntryFacts EntryFacts2 ExplainFacts ExplainFacts2 VerdictFacts InfoFacts InfoFacts2 InterpFacts InterpFacts2 ReadingFacts ReadingFacts2 CrashFacts PropertiesCrash OutcomeFacts OutcomeFacts2 OutcomeFacts3.
Import ListNotations.
Open Scope string_scope.

(** * Faulty match fields *)
Lemma cut_cases {A} (a a' : list A) f f' b b' : (a' ++ f' :: b' = a ++ f :: b)%list -> (a' = a /\ f' = f) \/ (exists c, a = (a' ++ f' :: c)%list) \/ (exists c, a' = (a ++ f :: c)%list).
Proof.
  revert a'. induction a as [|x a IH]; intros [|x' a'] E; cbn in E; injection E as E1 E2.
  - auto.
  - subst. right. right. exists a'. reflexivity.
  - subst. right. left. exists a. reflexivity.
  - subst x'. destruct (IH a' E2) as [(-> & ->)|[(c & ->)|(c & ->)]]; [auto|right; left; exists c; reflexivity|right; right; exists c; reflexivity].
Qed.
Lemma fill_err l : forall keys c m, fill_defaults l keys = Err c m -> exists n k m', In (n, k) l /\ ~ In n (map fst keys) /\ default_value k = Err c m'.
Proof.
  induction l as [|[n k] l IH]; intros keys c m; cbn [fill_defaults]; [discriminate|].
  destruct (assoc_find String.eqb n keys) as [v|] eqn:Ef.
  - intros H. apply IH in H as (n' & k' & m' & H1 & H2). exists n', k', m'. split; [now right|exact H2].
  - apply (afind_none String.eqb String.eqb_eq) in Ef. destruct (default_value k) as [v|c' m0|w] eqn:E; cbn [bind]; intros H; [|injection H as -> ->; exists n, k, m; auto using in_eq|discriminate].
    apply IH in H as (n' & k' & m' & H1 & H2 & H3). exists n', k', m'. split; [now right|]. split; [|exact H3]. intros Hx. apply H2. rewrite map_app. apply in_or_app. now left.
Qed.
Lemma default_err k c m : default_value k = Err c m -> (forall w, width (k_type k) w -> (0 <= w)%Z) -> (c = InvalidArgument /\ exists w, k_type k = TExact w) \/ (c = Internal /\ forall w, ~ match_type w (k_type k)).
Proof.
  unfold default_value. destruct (k_type k) eqn:Et; cbn [bind]; intros H Hw; try discriminate.
  all: try (injection H as <- _; first [left; split; [reflexivity|]; eauto; fail|right; split; [reflexivity|]; intros w0 Hm; inversion Hm; fail]).
  unfold MaxValueForBitwidth, shl1 in H. destruct (Z.ltb_spec w 0); cbn in H; discriminate.
Qed.
Section Fault.
  Variables (t : table_info) (ks : list key_info).
  Hypothesis HK : table_keys t ks.
  Hypothesis Hw : forall k w, In k ks -> width (k_type k) w -> (0 <= w)%Z.
  Lemma faulty_of entry c m : ParseTableEntry entry t = Err c m -> faulty ks (pe_match entry) c.
  Proof.
    intros H. unfold ParseTableEntry in H. assert (matched ks [] []) as HM by (split; [constructor|intros k _; reflexivity]).
    destruct (parse_fields_cases t ks HK Hw (pe_match entry) [] [] HM) as [(Hall & keys' & Hk' & HM')|(a & f & b & El & Hall & [(Hmf & m' & Hpm)|(Hmf & Hnf & m' & Hpm)])].
    - rewrite Hk' in H. cbn [bind] in H. destruct (fill_defaults (ti_keys_by_name t) keys') as [?|c' m'|?] eqn:E; cbn [bind] in H; try discriminate. injection H as -> ->.
      apply fill_err in E as (n & k & m' & Hk & Hni & Hd). apply (by_name t ks HK) in Hk as [Hk En].
      assert (omitted k (pe_match entry)) as Ho. { intros f Hff Eid. apply Hni. rewrite <- En. apply (proj2 HM' k Hk). cbn [app]. rewrite <- Eid. now apply in_map. }
      apply default_err in Hd as [(-> & w & Ew)|(-> & Hn)]; [exact (fl_missing _ _ k w Hall Hk Ho Ew)|exact (fl_unsupported _ _ k Hall Hk Ho Hn)|]. intros w. exact (Hw k w Hk).
    - rewrite Hpm in H. cbn [bind] in H. injection H as <- _. exact (fl_misfit _ _ a f b El Hall Hmf).
    - rewrite Hpm in H. cbn [bind] in H. injection H as <- _. exact (fl_other _ _ a f b El Hall Hnf Hmf).
  Qed.
  Lemma misfit_not pre f : misfit ks f -> ~ fine ks pre f.
  Proof. intros (k & Hk & Hidk & _ & Hnf1) (k' & Hk1 & Hid1 & Hfit & _). assert (k = k') as <- by (apply (nodup_keys k_id ks); [apply HK|assumption..|congruence]). contradiction. Qed.
  (** The first field that is not fine is unique. *)
  Lemma first_fault l a f b a' f' b' : l = (a ++ f :: b)%list -> all_fine ks a -> ~ fine ks a f -> l = (a' ++ f' :: b')%list -> all_fine ks a' -> ~ fine ks a' f' -> f = f'.
  Proof.
    intros E H1 H2 E' H1' H2'. rewrite E in E'. destruct (cut_cases _ _ _ _ _ _ E') as [(-> & ->)|[(c & Ea)|(c & Ea)]]; [reflexivity| |]; exfalso.
    - exact (H2 (H1' _ _ _ Ea)).
    - exact (H2' (H1 _ _ _ Ea)).
  Qed.
  Lemma faulty_fun l c c' : (forall k, In k ks -> exists w, match_type w (k_type k)) -> faulty ks l c -> faulty ks l c' -> c = c'.
  Proof.
    intros Hs H H'.
    destruct H as [a f b E Hall Hm|a f b E Hall Hn Hm|k w Hall Hk Ho Et|k Hall Hk Ho Hn]; [| | |destruct (Hs k Hk) as [w Hw']; destruct (Hn w Hw')];
      (destruct H' as [a' f' b' E' Hall' Hm'|a' f' b' E' Hall' Hn' Hm'|k' w' Hall' Hk' Ho' Et'|k' Hall' Hk' Ho' Hn']; [| | |destruct (Hs k' Hk') as [w1 Hw1]; destruct (Hn' w1 Hw1)]); try reflexivity; exfalso.
    - assert (f = f') as <- by exact (first_fault l a f b a' f' b' E Hall (misfit_not _ _ Hm) E' Hall' Hn'). contradiction.
    - exact (misfit_not _ _ Hm (Hall' _ _ _ E)).
    - assert (f = f') as <- by exact (first_fault l a f b a' f' b' E Hall Hn E' Hall' (misfit_not _ _ Hm')). contradiction.
    - exact (misfit_not _ _ Hm' (Hall _ _ _ E')).
  Qed.
  Lemma nodup_cut {A B} (g : A -> B) a x b : NoDup (map g (a ++ x :: b)) -> ~ In (g x) (map g a).
  Proof. rewrite map_app. cbn. intros H Hin. apply NoDup_remove_2 in H. apply H. apply in_or_app. now left. Qed.
  Lemma value_fits ty f v : field_value ty f v -> fits ty f.
  Proof. destruct 1; constructor. Qed.
  Lemma consistent_fine l : consistent ks l -> all_fine ks l.
  Proof.
    intros [H1 H2 _] a f b E. destruct (H1 f) as (k & v & Hk & Hid & Hv); [rewrite E; apply in_or_app; right; now left|]. exists k. split; [exact Hk|]. split; [exact Hid|]. split; [exact (value_fits _ _ _ Hv)|].
    rewrite E in H2. exact (nodup_cut _ _ _ _ H2).
  Qed.
  Lemma faulty_not l c : faulty ks l c -> ~ consistent ks l.
  Proof.
    intros H HC. pose proof (consistent_fine l HC) as HA. destruct H as [a f b E Hall Hm|a f b E Hall Hn Hm|k w Hall Hk Ho Et|k Hall Hk Ho Hn].
    - exact (misfit_not _ _ Hm (HA _ _ _ E)).
    - exact (Hn (HA _ _ _ E)).
    - destruct HC as [_ _ H3]. destruct (H3 k Hk Ho) as [v Hv]. rewrite Et in Hv. inversion Hv.
    - destruct HC as [_ _ H3]. destruct (H3 k Hk Ho) as [v Hv]. destruct Hv as [w|w|w|w]; apply (Hn w); constructor.
  Qed.
  Lemma parse_nocrash entry w : ParseTableEntry entry t <> Crash w.
  Proof.
    intros H. apply entry_crash in H as (k & z & Hk & Hz & Hneg). enough (In k ks) as Hin by (specialize (Hw k z Hin Hz); lia).
    destruct Hk as [Hk|Hk]; apply in_map_iff in Hk as ([n k'] & E & Hk); cbn in E; subst k'; [apply (tk_by_id _ _ HK) in Hk|apply (tk_by_name _ _ HK) in Hk]; apply in_map_iff in Hk as (k' & [= _ ->] & Hk); exact Hk.
  Qed.
  Lemma faulty_to entry c : (forall k, In k ks -> exists w, match_type w (k_type k)) -> faulty ks (pe_match entry) c -> exists m, ParseTableEntry entry t = Err c m.
  Proof.
    intros Hs H. destruct (ParseTableEntry entry t) as [ctx|c' m|w] eqn:E.
    - exfalso. exact (faulty_not _ _ H (proj1 (entry_ok t ks HK entry ctx E))).
    - apply faulty_of in E. rewrite (faulty_fun _ _ _ Hs H E). eauto.
    - exfalso. exact (parse_nocrash _ _ E).
  Qed.
End Fault.

(** * Constraints of declared tables and actions *)
Lemma check_safe pton ck pre cs e0 e ai ti G ctx w : pton_ok pton -> restricted ck pre cs -> reads_as pton ck cs e0 -> displayable cs e0 -> in_scope ai ti G -> Infer ai ti e0 = Ok e ->
  (forall n k z, In (n, k) (names G) -> width (k_type k) z -> (0 <= z)%Z) -> ec_src ctx = cs -> check ctx e <> Crash w.
Proof.
  intros Hp Hr Hra Hdi HG Hi Hw Hc H. rewrite <- check_agrees in H. apply check_crash in H as [(s & Hs & Hq)|(m & a & z & Hs & Hz & Hneg)].
  - destruct (infer_sub ai ti G HG _ _ Hi _ Hs) as (s0 & Hs0 & E1 & E2). destruct (parts_quoted _ _ _ _ _ Hp Hr Hra Hdi _ Hs0) as [r Er]. rewrite E1, E2 in Er. rewrite Hc in Hq. congruence.
  - destruct (cast_origin ai ti G HG _ _ Hi _ _ _ Hs Hz) as (n & k & Hk & Hkz). specialize (Hw n k z Hk Hkz). lia.
Qed.
Section Declared.
  Variables (pton : inet_pton6) (p : p4info) (ci : constraint_info).
  Hypothesis Hp : pton_ok pton.
  Hypothesis Hci : P4ToConstraintInfo pton p = Ok ci.
  Hypothesis Hs : sane_widths p.
  Hypothesis Hleg : legible pton p.
  Lemma table_core d ks t e0 e entry ctx key v : In d (p4_tables p) -> Forall2 key_decl (pt_match_fields d) ks -> table_keys t ks -> restricted kTableConstraint (pt_preamble d) (ti_source t) ->
    reads_as pton kTableConstraint (ti_source t) e0 -> InferTable e0 t = Ok e -> e_type e = TBool -> ParseTableEntry entry t = Ok ctx -> (forall n v, key n = Some v <-> Assigned ks (pe_match entry) n v) ->
    (Judged (fun s x => Meant unordered_exact (key_scope ks) (TableEnv key (pe_priority entry)) s (VBool x)) (table_report (ti_name t) (ti_source t) key (pe_priority entry)) e0 v <-> reports (check ctx e) v).
  Proof.
    intros Hd Hf HK Hr Hra Hi Hty Hpa Hkey. pose proof (table_in_scope t ks HK) as HG. pose proof (key_scope_same t ks HK) as HS.
    pose proof (entry_env_eq t ks entry ctx key HK Hpa Hkey) as HE. pose proof (entry_fits t ks entry ctx HK Hpa) as Hfit.
    destruct (entry_ok t ks HK entry ctx Hpa) as (_ & keys & Ec & HN & HA).
    assert (displayable (ti_source t) e0) as Hdi by exact (Hleg _ _ _ (dc_table _ _ _ Hd Hr) Hra).
    assert (ec_src ctx = ti_source t) as Esrc by now rewrite Ec.
    assert (literals e0) as Hl by (apply (text_iff pton Hp) in Hra; exact (parse_literals _ _ _ _ Hp Hra)).
    rewrite <- (judged None (Some t) (InTable (ti_keys_by_name t)) HG (fun ps H => ltac:(discriminate)) ctx Hfit (no_bool_keys t ks _ HK Hf) (table_report (ti_name t) (ti_source t) key (pe_priority entry))
      (fun s s' x r text Hm Hq => ltac:(rewrite <- Esrc; apply (table_told ctx (ti_name t) (pe_priority entry) keys key); [now rewrite Ec|exact HN|intros n u; rewrite Hkey; symmetry; apply HA|exact Hm|exact Hq])) e0 e v Hi Hty Hl).
    - unfold truth_of. split; apply judged_ext; auto; intros s x; split; intros HM.
      + apply (meant_scope _ _ _ _ _ _ (same_scope_sym _ _ HS)). eapply meant_ext; [apply env_eq_sym; exact HE|exact HM].
      + apply (meant_scope _ _ _ _ _ _ HS). eapply meant_ext; [exact HE|exact HM].
      + apply (meant_scope _ _ _ _ _ _ HS). eapply meant_ext; [exact HE|exact HM].
      + apply (meant_scope _ _ _ _ _ _ (same_scope_sym _ _ HS)). eapply meant_ext; [apply env_eq_sym; exact HE|exact HM].
    - intros s Hs'. rewrite Esrc. exact (parts_quoted _ _ _ _ _ Hp Hr Hra Hdi s Hs').
    - intros w. apply (check_safe pton kTableConstraint (pt_preamble d) (ti_source t) e0 e None (Some t) _ ctx w Hp Hr Hra Hdi HG Hi); [|exact Esrc].
      intros n k z Hk Hz. cbn [names] in Hk. apply (by_name t ks HK) in Hk as [Hk _]. exact (key_widths _ _ _ _ _ Hs Hd Hf Hk Hz).
  Qed.
  Lemma action_core d ps a e0 e x ctx param v : In d (p4_actions p) -> Forall2 param_decl (pad_params d) ps -> action_params a ps -> restricted kActionConstraint (pad_preamble d) (ai_source a) ->
    reads_as pton kActionConstraint (ai_source a) e0 -> InferAction e0 a = Ok e -> e_type e = TBool -> ParseAction x a = Ok ctx -> (forall n z, param n = Some z <-> Passed ps (pa_params x) n z) ->
    (Judged (fun s b => Meant unordered_exact (param_scope ps) (ActionEnv param) s (VBool b)) (action_report (ai_name a) (ai_source a) param) e0 v <-> reports (check ctx e) v).
  Proof.
    intros Hd Hf HK Hr Hra Hi Hty Hpa Hkey. pose proof (action_in_scope a ps HK) as HG. pose proof (param_scope_same a ps HK) as HS.
    pose proof (action_env_eq a ps x ctx param HK Hpa Hkey) as HE. pose proof (action_fits a ps x ctx HK (params_bits _ _ Hf) Hpa) as Hfit.
    destruct (action_ok a ps HK x ctx Hpa) as (_ & keys & Ec & HN & HA).
    assert (displayable (ai_source a) e0) as Hdi by exact (Hleg _ _ _ (dc_action _ _ _ Hd Hr) Hra).
    assert (ec_src ctx = ai_source a) as Esrc by now rewrite Ec.
    assert (literals e0) as Hl by (apply (text_iff pton Hp) in Hra; exact (parse_literals _ _ _ _ Hp Hra)).
    assert (only_bits (InAction (ai_params_by_name a))) as Hob.
    { intros qs [= <-] n ty (k & Hk & <-) Hu. apply (param_by_name a ps HK) in Hk as [Hk _]. exact (params_bits _ _ Hf k Hk Hu). }
    rewrite <- (judged (Some a) None (InAction (ai_params_by_name a)) HG Hob ctx Hfit (no_bool_params a ps _ HK Hf) (action_report (ai_name a) (ai_source a) param)
      (fun s s' b r text Hm Hq => ltac:(rewrite <- Esrc; apply (action_told ctx (pa_id x) (ai_name a) keys param); [now rewrite Ec|exact HN|intros n u; rewrite Hkey; symmetry; apply HA|exact Hm|exact Hq])) e0 e v Hi Hty Hl).
    - unfold truth_of. split; apply judged_ext; auto; intros s b; split; intros HM.
      + apply (meant_scope _ _ _ _ _ _ (same_scope_sym _ _ HS)). eapply meant_ext; [apply env_eq_sym; exact HE|exact HM].
      + apply (meant_scope _ _ _ _ _ _ HS). eapply meant_ext; [exact HE|exact HM].
      + apply (meant_scope _ _ _ _ _ _ HS). eapply meant_ext; [exact HE|exact HM].
      + apply (meant_scope _ _ _ _ _ _ (same_scope_sym _ _ HS)). eapply meant_ext; [apply env_eq_sym; exact HE|exact HM].
    - intros s Hs'. rewrite Esrc. exact (parts_quoted _ _ _ _ _ Hp Hr Hra Hdi s Hs').
    - intros w. apply (check_safe pton kActionConstraint (pad_preamble d) (ai_source a) e0 e (Some a) None _ ctx w Hp Hr Hra Hdi HG Hi); [|exact Esrc].
      intros n k z Hk Hz. cbn [names] in Hk. apply (param_by_name a ps HK) in Hk as [Hk _]. exact (param_widths _ _ _ _ _ Hs Hd Hf Hk Hz).
  Qed.
End Declared.
