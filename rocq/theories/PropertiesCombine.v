(** C56: combinations are accepted as their parts are. *)
From Coq Require Import String Ascii List ZArith NArith Bool Lia.
From Verif Require Import Base Num Token Ast Lexer Quote AstConstructors Parser Info TypeChecker ConstraintInfo Interpreter SpecLexer SpecGrammar SpecParser SpecTyping SpecSemantics SpecInfo SpecMisc SpecLaws SpecReading SpecExplain
  StrFacts NumFacts LiteralFacts ParserFacts4 TypeFacts EvalFacts SemFacts SemFacts2 EntryFacts InfoFacts InfoFacts2 InterpFacts InterpFacts2 LawFacts RetoldFacts CombineFacts ReadingFacts ReadingFacts2 ReadingFacts3
  PropertiesParser PropertiesTypes PropertiesInfo PropertiesVerdict PropertiesExplain PropertiesEntries PropertiesLaws PropertiesReading PropertiesSession.
Import ListNotations.
Open Scope string_scope.

(** What an answered check says of the constraint's text. *)
Lemma answered pton ci id ks s entry text l e : pton_ok pton -> PropertiesLaws.table_says pton ci id ks s -> pe_table_id entry = id -> pe_action entry = None ->
  reads_as pton kTableConstraint (mkCSource s l) e -> ReasonEntryViolatesConstraint entry ci = Ok text ->
  consistent ks (pe_match entry) /\ exists key, (forall n v, key n = Some v <-> Assigned ks (pe_match entry) n v) /\
    Typed (key_scope ks) e TBool /\ Meant unordered_exact (key_scope ks) (TableEnv key (pe_priority entry)) e (VBool (String.eqb text "")).
Proof.
  intros Hp (p & d & l' & L & Hd & Hid & Hf & Hr) Hent Hact Hre H.
  assert (SpecReading.table_says pton d entry (String.eqb text "")) as HS.
  { destruct (String.eqb_spec text "") as [->|Hne].
    - apply (C58_accepted_iff pton p ci entry Hp L) in H as ((d' & Hd' & Hid' & Ha) & _).
      destruct (C37_loads_iff pton p Hp) as [HL _]. destruct (HL (ex_intro _ ci L)) as (HN & _).
      assert (d' = d) as -> by (refine (nodup_keys table_id (p4_tables p) _ _ HN Hd' Hd _); congruence).
      destruct Ha as [Hu|Ha]; [exfalso; exact (restricted_not _ _ _ Hu Hr)|exact Ha].
    - apply (C58_rejected pton p ci entry text Hp L Hne) in H as (d' & Hd' & Hid' & Ha).
      destruct (C37_loads_iff pton p Hp) as [HL _]. destruct (HL (ex_intro _ ci L)) as (HN & _).
      assert (d' = d) as -> by (refine (nodup_keys table_id (p4_tables p) _ _ HN Hd' Hd _); congruence).
      destruct Ha as [Ha|(_ & pre & a & post & d'' & E & _)]; [exact Ha|].
      exfalso. unfold actions_of in E. rewrite Hact in E. destruct pre; discriminate E. }
  destruct HS as (ks' & cs & e' & key & Hf' & Hr' & Hre' & Hco & Hk & Ht & Hm).
  assert (ks' = ks) as -> by (eapply forall2_fun; [exact key_decl_fun|exact Hf'|exact Hf]).
  pose proof (restricted_fun _ _ _ _ Hr' Hr) as ->. split; [exact Hco|]. exists key. split; [exact Hk|].
  assert (Alike e' e) as HA. { eapply (alike_unique pton kTableConstraint); [exact Hp| |apply (text_iff pton Hp); exact Hre'|apply (text_iff pton Hp); exact Hre]. unfold same_tokens. now rewrite !LexerFacts5.kts_loc. }
  split; [exact (typed_alike _ _ _ _ HA Ht)|exact (meant_alike _ _ _ _ _ _ HA Hm)].
Qed.
(** A constraint that reads true is accepted. *)
Lemma accepted pton ci id ks s entry l e key : pton_ok pton -> PropertiesLaws.table_says pton ci id ks s -> pe_table_id entry = id -> pe_action entry = None ->
  reads_as pton kTableConstraint (mkCSource s l) e -> consistent ks (pe_match entry) -> (forall n v, key n = Some v <-> Assigned ks (pe_match entry) n v) ->
  Typed (key_scope ks) e TBool -> Meant unordered_exact (key_scope ks) (TableEnv key (pe_priority entry)) e (VBool true) -> ReasonEntryViolatesConstraint entry ci = Ok "".
Proof.
  intros Hp HS Hent Hact Hre Hco Hk Ht Hm. destruct (says_reads _ _ _ _ _ Hp HS) as (p & d & l' & e' & L & Hd & Hid & Hf & Hr & Hre' & _).
  apply (C58_accepted_iff pton p ci entry Hp L). split; [|split].
  - exists d. split; [exact Hd|]. split; [congruence|]. right. exists ks, (mkCSource s l'), e', key.
    assert (Alike e e') as HA. { eapply (alike_unique pton kTableConstraint); [exact Hp| |apply (text_iff pton Hp); exact Hre|apply (text_iff pton Hp); exact Hre']. unfold same_tokens. now rewrite !LexerFacts5.kts_loc. }
    split; [exact Hf|]. split; [exact Hr|]. split; [exact Hre'|]. split; [exact Hco|]. split; [exact Hk|]. split; [exact (typed_alike _ _ _ _ HA Ht)|exact (meant_alike _ _ _ _ _ _ HA Hm)].
  - unfold direct. now rewrite Hact.
  - unfold actions_of. rewrite Hact. intros a [].
Qed.
Lemma same_key ks fields (key key' : string -> option value) : (forall n v, key n = Some v <-> Assigned ks fields n v) -> (forall n v, key' n = Some v <-> Assigned ks fields n v) -> forall n, key' n = key n.
Proof.
  intros Hk Hk' n. destruct (key n) as [v|] eqn:E; [now apply Hk', Hk|]. destruct (key' n) as [v|] eqn:E'; [|reflexivity]. apply Hk', Hk in E'. congruence.
Qed.
Lemma one_reading ks key key' p fields e x y : NoDup (map k_name ks) -> (forall n v, key n = Some v <-> Assigned ks fields n v) -> (forall n v, key' n = Some v <-> Assigned ks fields n v) ->
  Meant unordered_exact (key_scope ks) (TableEnv key p) e x -> Meant unordered_exact (key_scope ks) (TableEnv key' p) e y -> x = y.
Proof.
  intros HN Hk Hk' H H'. assert (forall n, key' n = key n) as E by (apply (same_key ks fields); assumption).
  apply (PropertiesSession.meant_ext _ _ _ _ _ _ _ E) in H'.
  assert (NoDup (map fst (map (fun k => (k_name k, k)) ks))) as HN' by (rewrite map_map; exact HN).
  exact (meant_fun _ _ _ (scope_witness _ HN') unordered_exact unordered_fun _ _ _ _ H H').
Qed.

(** If the parts are answered then the combination is accepted exactly if the truth table says so. *)
Theorem C56_combined_accepted : forall pton op o a b ci ca cb id ks entry ta tb, pton_ok pton -> connects op o -> ~ ends_in_comment a -> ~ ends_in_comment b ->
  PropertiesLaws.table_says pton ca id ks a -> PropertiesLaws.table_says pton cb id ks b -> PropertiesLaws.table_says pton ci id ks (combined op a b) ->
  pe_table_id entry = id -> pe_action entry = None ->
  ReasonEntryViolatesConstraint entry ca = Ok ta -> ReasonEntryViolatesConstraint entry cb = Ok tb ->
  (ReasonEntryViolatesConstraint entry ci = Ok "" <-> truth o (String.eqb ta "") (String.eqb tb "") = true).
Proof.
  intros pton op o a b ci ca cb id ks entry ta tb Hp Hop Na Nb Sa Sb Sc Hid Hact Ha Hb. split.
  - intros H. now rewrite <- (C56_combined_verdict pton op o a b ci ca cb id ks entry "" ta tb Hp Hop Na Nb Sa Sb Sc Hid Hact Ha Hb H).
  - intros E. destruct (says_reads _ _ _ _ _ Hp Sa) as (_ & _ & la & ea & _ & _ & _ & _ & _ & Ra & _ & _ & HN). destruct (says_reads _ _ _ _ _ Hp Sb) as (_ & _ & lb & eb & _ & _ & _ & _ & _ & Rb & _).
    destruct (combined_reads pton kTableConstraint op o a b la lb la ea eb Hop Na Nb Ra Rb) as (m & ea' & eb' & Rc & Aa & Ab).
    destruct (answered _ _ _ _ _ _ _ _ _ Hp Sa Hid Hact Ra Ha) as (Hco & key & Hk & Ta & Ma). destruct (answered _ _ _ _ _ _ _ _ _ Hp Sb Hid Hact Rb Hb) as (_ & key' & Hk' & Tb & Mb).
    assert (forall n, key' n = key n) as Ek by (apply (same_key ks (pe_match entry)); assumption).
    apply (PropertiesSession.meant_ext _ _ _ _ _ _ _ Ek) in Mb. apply (meant_alike _ _ _ _ _ _ Aa) in Ma. apply (meant_alike _ _ _ _ _ _ Ab) in Mb.
    assert (connective o) as Hc by (destruct Hop; constructor).
    refine (accepted pton ci id ks _ entry la _ key Hp Sc Hid Hact Rc Hco Hk _ _).
    + apply T_conn; [exact Hc|exact (typed_alike _ _ _ _ Aa Ta)|exact (typed_alike _ _ _ _ Ab Tb)].
    + rewrite <- E. now apply mn_both.
Qed.
Print Assumptions C56_combined_accepted.
(** The right part need not be answered if the left one decides. *)
Theorem C56_left_decides : forall pton op o a b ci ca cb id ks entry ta y eb lb, pton_ok pton -> connects op o -> ~ ends_in_comment a -> ~ ends_in_comment b ->
  PropertiesLaws.table_says pton ca id ks a -> PropertiesLaws.table_says pton cb id ks b -> PropertiesLaws.table_says pton ci id ks (combined op a b) ->
  ParseConstraint pton kTableConstraint (mkCSource b lb) = Ok eb -> Typed (key_scope ks) eb TBool ->
  pe_table_id entry = id -> pe_action entry = None ->
  ReasonEntryViolatesConstraint entry ca = Ok ta -> (forall x, truth o (String.eqb ta "") x = y) ->
  (ReasonEntryViolatesConstraint entry ci = Ok "" <-> y = true).
Proof.
  intros pton op o a b ci ca cb id ks entry ta y eb lb Hp Hop Na Nb Sa Sb Sc Rb Tb Hid Hact Ha Hy. apply (text_iff pton Hp) in Rb.
  destruct (says_reads _ _ _ _ _ Hp Sa) as (_ & _ & la & ea & _ & _ & _ & _ & _ & Ra & _ & _ & HN).
  destruct (combined_reads pton kTableConstraint op o a b la lb la ea eb Hop Na Nb Ra Rb) as (m & ea' & eb' & Rc & Aa & Ab).
  destruct (answered _ _ _ _ _ _ _ _ _ Hp Sa Hid Hact Ra Ha) as (Hco & key & Hk & Ta & Ma). apply (meant_alike _ _ _ _ _ _ Aa) in Ma.
  assert (connective o) as Hc by (destruct Hop; constructor).
  pose proof (mn_left unordered_exact (key_scope ks) (TableEnv key (pe_priority entry)) m o ea' eb' _ y Hc Ma Hy) as Mc. split.
  - intros H. destruct (answered _ _ _ _ _ _ _ _ _ Hp Sc Hid Hact Rc H) as (_ & key' & Hk' & _ & Mc'). pose proof (one_reading _ _ _ _ _ _ _ _ HN Hk Hk' Mc Mc') as X. injection X as X. exact X.
  - intros ->. refine (accepted pton ci id ks _ entry la _ key Hp Sc Hid Hact Rc Hco Hk _ Mc). apply T_conn; [exact Hc|exact (typed_alike _ _ _ _ Aa Ta)|exact (typed_alike _ _ _ _ Ab Tb)].
Qed.
Print Assumptions C56_left_decides.
Theorem C56_negated_accepted : forall pton a ci ca id ks entry ta, pton_ok pton -> ~ ends_in_comment a ->
  PropertiesLaws.table_says pton ca id ks a -> PropertiesLaws.table_says pton ci id ks (negated a) -> pe_table_id entry = id -> pe_action entry = None ->
  ReasonEntryViolatesConstraint entry ca = Ok ta -> (ReasonEntryViolatesConstraint entry ci = Ok "" <-> ta <> "").
Proof.
  intros pton a ci ca id ks entry ta Hp Na Sa Sc Hid Hact Ha. split.
  - intros H. now apply (C56_negated_verdict pton a ci ca id ks entry "" ta Hp Na Sa Sc Hid Hact Ha H).
  - intros Hne. destruct (says_reads _ _ _ _ _ Hp Sa) as (_ & _ & la & ea & _ & _ & _ & _ & _ & Ra & _ & _ & HN).
    destruct (negated_reads pton kTableConstraint a la la ea Na Ra) as (m & ea' & Rc & Aa).
    destruct (answered _ _ _ _ _ _ _ _ _ Hp Sa Hid Hact Ra Ha) as (Hco & key & Hk & Ta & Ma). apply (meant_alike _ _ _ _ _ _ Aa) in Ma.
    apply String.eqb_neq in Hne. rewrite Hne in Ma.
    refine (accepted pton ci id ks _ entry la _ key Hp Sc Hid Hact Rc Hco Hk _ _); [constructor; exact (typed_alike _ _ _ _ Aa Ta)|exact (mn_not _ _ _ m _ _ Ma)].
Qed.
Print Assumptions C56_negated_accepted.
(** The second part has no answer by itself. *)
Definition part_c : string := "e < 5".
Example C56_left_case : ~ ends_in_comment part_a /\ ~ ends_in_comment part_c /\ connects "||" OOR /\
  PropertiesLaws.table_says pton1 (says_ci part_a) 3 demo_keys part_a /\ PropertiesLaws.table_says pton1 (says_ci part_c) 3 demo_keys part_c /\
  PropertiesLaws.table_says pton1 (says_ci (combined "||" part_a part_c)) 3 demo_keys (combined "||" part_a part_c) /\
  let entry := mkEntry 3 [mkFM 1 (FMExact "a"); mkFM 2 (FMTernary "a" "a")] None 1 in
  ReasonEntryViolatesConstraint entry (says_ci part_a) = Ok "" /\ (exists c m, ReasonEntryViolatesConstraint entry (says_ci part_c) = Err c m) /\
  (forall x, truth OOR (String.eqb "" "") x = true) /\ ReasonEntryViolatesConstraint entry (says_ci (combined "||" part_a part_c)) = Ok "".
Proof.
  assert (forall s, existsb (Ascii.eqb "/"%char) (chars s) = false -> ~ ends_in_comment s) as NC. { intros s H. apply no_slash. now apply (no_special "/"%char s). }
  split; [apply NC; reflexivity|]. split; [apply NC; reflexivity|]. split; [constructor|]. do 3 (split; [apply demo_says; vm_compute; reflexivity|]). cbn zeta.
  split; [vm_compute; reflexivity|]. split; [eexists; eexists; vm_compute; reflexivity|]. split; [reflexivity|vm_compute; reflexivity].
Qed.
