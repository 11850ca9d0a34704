(** C58-C60: what the checker and the solver decide, exactly. *)
From Coq Require Import String Ascii List ZArith NArith Bool Lia.
From Verif Require Import Base Num Token Ast Lexer Quote AstConstructors Parser Info TypeChecker ConstraintInfo Interpreter Z3 Symbolic SpecLexer SpecGrammar SpecParser SpecTyping SpecSemantics SpecInfo SpecExplain SpecSymbolic SpecSolver SpecReading SpecSession SpecMissed
  StrFacts NumFacts LiteralFacts ParserFacts4 TypeFacts EvalFacts SemFacts SemFacts2 EntryFacts EntryFacts2 ExplainFacts VerdictFacts InfoFacts InfoFacts2 InterpFacts InterpFacts2 SymFacts SymFacts2 SymKeys SymState SymMeaning SymDemo ReadingFacts ReadingFacts2 ReadingFacts3 LoadFacts
  PropertiesParser PropertiesTypes PropertiesInfo PropertiesInterpreter PropertiesVerdict PropertiesExplain PropertiesEntries PropertiesSymbolic.
Import ListNotations.
Open Scope string_scope.

(** * C58 *)
Section Checker.
  Variables (pton : inet_pton6) (p : p4info) (ci : constraint_info).
  Hypothesis Hp : pton_ok pton.
  Hypothesis Hci : P4ToConstraintInfo pton p = Ok ci.
  Lemma no_constraint_table d t id : In d (p4_tables p) -> pr_id (pt_preamble d) = id -> GetTableInfoOrNull ci id = Some t -> (unrestricted kTableConstraint (pt_preamble d) <-> ti_constraint t = None).
  Proof.
    intros Hd Hid Ht. destruct (table_info_of pton p ci Hci t _ Ht) as (d' & ks & Hd' & Hid' & Ho). assert (d' = d) as -> by (apply (table_decl_same pton p ci Hci); congruence).
    destruct Ho as [_ _ _ _ [(Hu & E)|(e0 & e & Hr & _ & _ & E)]]; [tauto|]. split; [intros Hu; destruct (restricted_not _ _ _ Hu Hr)|congruence].
  Qed.
  Lemma no_constraint_action d a id : In d (p4_actions p) -> pr_id (pad_preamble d) = id -> GetActionInfoOrNull ci id = Some a -> (unrestricted kActionConstraint (pad_preamble d) <-> ai_constraint a = None).
  Proof.
    intros Hd Hid Ht. destruct (action_info_of pton p ci Hci a _ Ht) as (d' & ks & Hd' & Hid' & Ho). assert (d' = d) as -> by (apply (action_decl_same pton p ci Hci); congruence).
    destruct Ho as [_ _ _ _ [(Hu & E)|(e0 & e & Hr & _ & _ & E)]]; [tauto|]. split; [intros Hu; destruct (restricted_not _ _ _ Hu Hr)|congruence].
  Qed.
  Lemma table_part entry : table_holds ci entry <-> exists d, In d (p4_tables p) /\ table_id d = pe_table_id entry /\ table_allows pton d entry.
  Proof.
    unfold table_holds, table_allows, table_id. split.
    - intros (t & Ht & H). destruct (table_info_of pton p ci Hci t _ Ht) as (d & ks & Hd & Hid & _). exists d. split; [exact Hd|]. split; [exact Hid|]. destruct H as [E|(e & ctx & He & Hty & Hpa & Hv)].
      + left. eapply no_constraint_table; eauto.
      + right. apply (check_table pton p ci Hp Hci d t entry true Hd Hid Ht). rewrite value_ev in Hv. apply ev_bool_ok in Hv. eauto 6.
    - intros (d & Hd & Hid & H). destruct (table_info_to pton p ci Hci d Hd) as [t Ht]. rewrite Hid in Ht. exists t. split; [exact Ht|]. destruct H as [Hu|H].
      + left. eapply no_constraint_table; eauto.
      + right. pose proof (proj1 (check_table pton p ci Hp Hci d t entry true Hd Hid Ht) H) as (e & ctx & He & Hty & Hpa & Hv). apply ev_bool_ok in Hv. exists e, ctx. rewrite value_ev. auto.
  Qed.
  Lemma action_part a : action_holds ci a <-> exists d, In d (p4_actions p) /\ action_id d = pa_id a /\ action_allows pton d a.
  Proof.
    unfold action_holds, action_allows, action_id. split.
    - intros (t & Ht & H). destruct (action_info_of pton p ci Hci t _ Ht) as (d & ks & Hd & Hid & _). exists d. split; [exact Hd|]. split; [exact Hid|]. destruct H as [E|(e & ctx & He & Hty & Hpa & Hv)].
      + left. eapply no_constraint_action; eauto.
      + right. apply (check_action pton p ci Hp Hci d t a true Hd Hid Ht). rewrite value_ev in Hv. apply ev_bool_ok in Hv. eauto 6.
    - intros (d & Hd & Hid & H). destruct (action_info_to pton p ci Hci d Hd) as [t Ht]. rewrite Hid in Ht. exists t. split; [exact Ht|]. destruct H as [Hu|H].
      + left. eapply no_constraint_action; eauto.
      + right. pose proof (proj1 (check_action pton p ci Hp Hci d t a true Hd Hid Ht) H) as (e & ctx & He & Hty & Hpa & Hv). apply ev_bool_ok in Hv. exists e, ctx. rewrite value_ev. auto.
  Qed.
  Lemma action_reject a text : text <> "" -> ReasonActionViolates ci a = Ok text -> exists d, In d (p4_actions p) /\ action_id d = pa_id a /\ action_says pton d a false.
  Proof.
    intros Hne H. apply action_verdict in H as (t & Ht & [(_ & E)|(e & ctx & He & Hty & Hpa & Hc)]); [congruence|]. destruct (action_info_of pton p ci Hci t _ Ht) as (d & ks & Hd & Hid & _).
    exists d. split; [exact Hd|]. split; [exact Hid|]. apply (check_action pton p ci Hp Hci d t a false Hd Hid Ht). apply check_rejects in Hc as [Hc _]; [|exact Hne]. eauto 6.
  Qed.
  Lemma table_reject t entry text : text <> "" -> GetTableInfoOrNull ci (pe_table_id entry) = Some t -> ReasonTableViolates t entry = Ok text ->
    exists d, In d (p4_tables p) /\ table_id d = pe_table_id entry /\ table_says pton d entry false.
  Proof.
    intros Hne Ht H. apply table_ok in H as [(_ & E)|(e & ctx & He & Hty & Hpa & Hc)]; [congruence|]. destruct (table_info_of pton p ci Hci t _ Ht) as (d & ks & Hd & Hid & _).
    exists d. split; [exact Hd|]. split; [exact Hid|]. apply (check_table pton p ci Hp Hci d t entry false Hd Hid Ht). apply check_rejects in Hc as [Hc _]; [|exact Hne]. eauto 6.
  Qed.
End Checker.
(** An entry is accepted iff its table is declared and its constraint, if any, allows the entry,
    the action is given by value, and so for every action it names. *)
Theorem C58_accepted_iff : forall pton p ci entry, pton_ok pton -> P4ToConstraintInfo pton p = Ok ci ->
  (ReasonEntryViolatesConstraint entry ci = Ok "" <->
   (exists d, In d (p4_tables p) /\ table_id d = pe_table_id entry /\ table_allows pton d entry) /\
   direct entry /\
   forall a, In a (actions_of entry) -> exists d, In d (p4_actions p) /\ action_id d = pa_id a /\ action_allows pton d a).
Proof.
  intros pton p ci entry Hp Hci. rewrite C34_accepted_iff, (table_part pton p ci Hp Hci). split; intros (H1 & H2 & H3); (split; [exact H1|]); (split; [exact H2|]); intros a Ha; apply (action_part pton p ci Hp Hci); auto.
Qed.
Print Assumptions C58_accepted_iff.
(** A P4Info is loaded iff ids are distinct and every declaration is well-formed. *)
Theorem C37_loads_iff : forall pton p, pton_ok pton ->
  ((exists ci, P4ToConstraintInfo pton p = Ok ci) <->
   NoDup (map table_id (p4_tables p)) /\ NoDup (map action_id (p4_actions p)) /\
   (forall d, In d (p4_tables p) -> loadable_table pton d) /\ (forall d, In d (p4_actions p) -> loadable_action pton d)).
Proof.
  intros pton p Hp. rewrite info_iff. split; intros (H1 & H2 & H3 & H4); (split; [exact H1|]); (split; [exact H2|]); split; intros d Hd.
  - apply (table_loads_iff pton d Hp). auto.
  - apply (action_loads_iff pton d Hp). auto.
  - apply (table_loads_iff pton d Hp). auto.
  - apply (action_loads_iff pton d Hp). auto.
Qed.
Print Assumptions C37_loads_iff.
(** An explanation is given only if some constraint says no; it is about the first such part. *)
Theorem C58_rejected : forall pton p ci entry text, pton_ok pton -> P4ToConstraintInfo pton p = Ok ci -> text <> "" -> ReasonEntryViolatesConstraint entry ci = Ok text ->
  exists d, In d (p4_tables p) /\ table_id d = pe_table_id entry /\
   (table_says pton d entry false \/
    table_allows pton d entry /\ exists pre a post d', actions_of entry = (pre ++ a :: post)%list /\
      (forall b, In b pre -> exists d'', In d'' (p4_actions p) /\ action_id d'' = pa_id b /\ action_allows pton d'' b) /\
      In d' (p4_actions p) /\ action_id d' = pa_id a /\ action_says pton d' a false).
Proof.
  intros pton p ci entry text Hp Hci Hne H. assert (direct entry \/ ~ direct entry) as [Hd|Hd] by (unfold direct; destruct (pe_action entry) as [[]|]; tauto).
  - apply C34_first_rejected in H; [|intros [= E]; contradiction|exact Hd]. destruct H as [H|(H & pre & a & post & E & Hpre & Ha)].
    + unfold ReasonEntryViolatesConstraint in H. cbn [pe_table_id pe_action with_action] in H. destruct (GetTableInfoOrNull ci (pe_table_id entry)) as [t|] eqn:Ht; [|discriminate].
      apply bind_ok in H as (r & Hr & H). destruct (String.eqb_spec r "") as [->|Hn]; cbn [negb] in H; apply Ok_inj in H; [congruence|]. subst r.
      change (ReasonTableViolates t (with_action entry None)) with (ReasonTableViolates t entry) in Hr. destruct (table_reject pton p ci Hp Hci t entry text Hne Ht Hr) as (d & H1 & H2 & H3). eauto 6.
    + rewrite (C34_action_alone _ _ _ H) in Ha. pose proof H as H0. apply (C58_accepted_iff pton p ci _ Hp Hci) in H as ((d & Hdd & Hid & Hal) & _). exists d. split; [exact Hdd|]. split; [exact Hid|]. right. split; [exact Hal|].
      destruct (action_reject pton p ci Hp Hci a text Hne Ha) as (d' & H1 & H2 & H3). exists pre, a, post, d'. split; [exact E|]. split; [|auto].
      intros b Hb. apply (action_part pton p ci Hp Hci), action_accepts. rewrite <- (C34_action_alone ci entry b H0). auto.
  - unfold ReasonEntryViolatesConstraint in H. destruct (GetTableInfoOrNull ci (pe_table_id entry)) as [t|] eqn:Ht; [|discriminate]. apply bind_ok in H as (r & Hr & H).
    destruct (String.eqb_spec r "") as [->|Hn]; cbn [negb] in H; [unfold direct in Hd; destruct (pe_action entry) as [[]|]; try discriminate; destruct (Hd I)|]. apply Ok_inj in H. subst r.
    destruct (table_reject pton p ci Hp Hci t entry text Hne Ht Hr) as (d & H1 & H2 & H3). eauto 6.
Qed.
Print Assumptions C58_rejected.
(** A constraint says at most one thing about an entry, or an action. *)
Theorem C58_one_answer : forall pton p ci, pton_ok pton -> P4ToConstraintInfo pton p = Ok ci ->
  (forall d entry x y, In d (p4_tables p) -> table_says pton d entry x -> table_says pton d entry y -> x = y) /\
  (forall d a x y, In d (p4_actions p) -> action_says pton d a x -> action_says pton d a y -> x = y).
Proof.
  intros pton p ci Hp Hci. split.
  - intros d entry x y Hd Hx Hy. set (en := mkEntry (pr_id (pt_preamble d)) (pe_match entry) None (pe_priority entry)). destruct (table_info_to pton p ci Hci d Hd) as [t Ht].
    pose proof (proj1 (check_table pton p ci Hp Hci d t en x Hd eq_refl Ht) Hx) as (e & ctx & He & _ & Hc & Hv). pose proof (proj1 (check_table pton p ci Hp Hci d t en y Hd eq_refl Ht) Hy) as (e' & ctx' & He' & _ & Hc' & Hv'). congruence.
  - intros d a x y Hd Hx Hy. set (en := mkP4Action (pr_id (pad_preamble d)) (pa_params a)). destruct (action_info_to pton p ci Hci d Hd) as [t Ht].
    pose proof (proj1 (check_action pton p ci Hp Hci d t en x Hd eq_refl Ht) Hx) as (e & ctx & He & _ & Hc & Hv). pose proof (proj1 (check_action pton p ci Hp Hci d t en y Hd eq_refl Ht) Hy) as (e' & ctx' & He' & _ & Hc' & Hv'). congruence.
Qed.
Print Assumptions C58_one_answer.
(** This reading agrees with the documented one wherever it says something. *)
Theorem C58_documented : forall G r e v, (Meant documented G r e v <-> Den G r e v) /\ (Meant unordered_exact G r e v -> Den G r e v).
Proof. intros G r e v. split; [apply meant_den|apply unordered_den]. Qed.
Print Assumptions C58_documented.
(** The reading is not the documented one only where exact keys are ordered: there the checker has no answer,
    unless it does not get to the comparison. *)
Definition half_decl : p4_table := mkP4Table (mkPre 1 "t" [restriction "entry" ["k == 3 || k < 5"]]) [mkMF 1 "k" 8 (MMatchType MTExact)].
Definition half_entry (n : nat) : p4_entry := mkEntry 1 [mkFM 1 (FMExact (String (ascii_of_nat n) ""))] None 0.
Definition half_ci : constraint_info := Eval vm_compute in the (mkInfo [] []) (P4ToConstraintInfo pton1 (mkP4Info [half_decl] [])).
Definition half_table : table_info := Eval vm_compute in match GetTableInfoOrNull half_ci 1 with Some t => t | None => mkTable 0 "" None (mkCSource "" (mkLoc 0 0 SrcNone)) [] [] end.
Lemma half_parsed : P4ToConstraintInfo pton1 (mkP4Info [half_decl] []) = Ok half_ci /\ GetTableInfoOrNull half_ci 1 = Some half_table.
Proof. split; vm_compute; reflexivity. Qed.
Definition errs {A} (o : outcome A) : bool := match o with Err Internal _ => true | _ => false end.
Example C58_case : ReasonEntryViolatesConstraint (half_entry 3) half_ci = Ok "" /\ errs (ReasonEntryViolatesConstraint (half_entry 4) half_ci) = true /\
  table_says pton1 half_decl (half_entry 3) true /\ forall x, ~ table_says pton1 half_decl (half_entry 4) x.
Proof.
  destruct half_parsed as [Hci Ht]. assert (ReasonEntryViolatesConstraint (half_entry 3) half_ci = Ok "") as H1 by (vm_compute; reflexivity). split; [exact H1|]. split; [vm_compute; reflexivity|]. split.
  - apply (C58_accepted_iff _ _ _ _ pton1_ok Hci) in H1 as ((d & [<-|[]] & _ & [Hu|H]) & _); [|exact H]. exfalso. apply (no_constraint_table pton1 _ half_ci Hci half_decl half_table 1%N (or_introl eq_refl) eq_refl Ht) in Hu. discriminate Hu.
  - intros x H. pose proof (proj1 (check_table pton1 _ half_ci pton1_ok Hci half_decl half_table (half_entry 4) x (or_introl eq_refl) eq_refl Ht) H) as (e & ctx & He & _ & Hp & Hv).
    assert (match ti_constraint half_table with Some e => match ParseTableEntry (half_entry 4) half_table with Ok ctx => errs (ev_bool ctx e) | _ => false end | None => false end = true) as E by (vm_compute; reflexivity).
    rewrite He, Hp, Hv in E. discriminate E.
Qed.

(** * C59 *)
(** The solver's constraints are [written t l0 l]: as written [l0], as type checked [l]. *)
Lemma solvable_encodes t ks skip env base e0 e src : table_keys t ks -> built ks skip env base -> solvable t ks skip e0 -> InferTable e0 t = Ok e -> e_type e = TBool /\ exists u, EvaluateConstraintSymbolically env src e = Ok u /\ sort_of u = Z3.SBool.
Proof.
  intros HK HB (Hty & Hl & Hme & Hat) Hi. assert (e_type e = TBool) as Et. { eapply (typed_fun None (Some t) _ (table_in_scope t ks HK)); [exact (proj1 (infer_ok None (Some t) _ (table_in_scope t ks HK) _ _ Hi))|exact Hty]. }
  split; [exact Et|]. eapply (encode_total t ks HK skip env base e0 e src); eauto. intros n Hn. destruct (Hme n Hn) as (k & Hk & E). apply live_in in Hk as [Hk Hlv]. eauto.
Qed.
(** After any calls, AddConstraint answers whether some well-formed entry is a solution of all the constraints so far and the new one,
    unless Z3 misses a model of what it is asked. *)
Theorem C59_add : forall check pton t ks skip cs l l0 e0 e src, table_keys t ks -> int32_widths ks -> sound_solver check -> apart (live_keys skip ks) ->
  History check pton t skip cs l -> written t l0 l -> InferTable e0 t = Ok e -> solvable t ks skip e0 ->
  let soluble := exists fields p, solution t ks skip (l0 ++ [e0]) fields p in
  misses check (assertions (cs_stack cs)) \/ exists b cs', AddConstraint check cs e src = (Ok b, cs') /\ (b = true -> soluble) /\ (soluble -> b = true \/ misses_adding check cs e src).
Proof.
  intros check pton t ks skip cs l l0 e0 e src HK Hw Hso Hap HH HL Hi Hsv soluble. destruct (history_holds t ks HK skip check pton cs l HH) as (base & us & Hs). pose proof (h_built _ _ _ _ _ _ _ _ Hs) as HB.
  destruct (solvable_encodes _ _ _ _ _ _ _ src HK HB Hsv Hi) as (_ & u & Hu & Hbo). pose proof (C45_always_satisfiable _ _ _ _ _ _ _ HK Hso HH) as Hsat. pose proof (h_assertions _ _ _ _ _ _ _ _ Hs) as EA.
  assert (written t (l0 ++ [e0]) (l ++ [e])) as HL' by (apply Forall2_app; [exact HL|constructor; [split; [exact Hi|apply Hsv]|constructor]]).
  assert (Forall2 (encodes (cs_env cs)) (l ++ [e]) (us ++ [u])) as HE by (apply Forall2_app; [exact (h_encoded _ _ _ _ _ _ _ _ Hs)|constructor; [now exists src|constructor]]).
  destruct (check (assertions (cs_stack cs))) as [mo0|] eqn:E1; [|left; split; auto]. right. assert (check (assertions (cs_stack cs)) <> None) as E1' by congruence.
  destruct (check (assertions (cs_stack cs) ++ [u])%list) as [mo|] eqn:E2.
  - exists true. eexists. split; [apply (add_true check cs e src u); [auto|exact Hu|exact Hbo|congruence]|]. split; [intros _|auto].
    apply (sat_solution t ks skip HK Hw (cs_env cs) base HB (l0 ++ [e0]) (l ++ [e]) (us ++ [u])%list HL' HE). rewrite app_assoc, <- EA. exists (complete mo). exact (Hso _ _ E2).
  - exists false. eexists. split; [apply (add_false check cs e src u); [auto|exact Hu|exact Hbo|exact E2]|]. split; [discriminate|]. intros (fields & p & H). right.
    right. exists u. split; [exact Hu|]. split; [|exact E2]. rewrite EA, <- app_assoc. exact (solution_sat t ks skip HK Hw (cs_env cs) base HB Hap _ _ _ _ _ HL' HE H).
Qed.
Print Assumptions C59_add.
Lemma missed_text check pton cs text q : asked pton cs text q -> satisfiable q -> check q = None -> overlooks check pton cs text.
Proof. intros H1 H2 H3. exists q. auto. Qed.
(** The same for constraints given as text. *)
Theorem C59_add_text : forall check pton t ks skip cs l l0 text e0, pton_ok pton -> table_keys t ks -> int32_widths ks -> sound_solver check -> apart (live_keys skip ks) ->
  History check pton t skip cs l -> written t l0 l -> reads_as pton kTableConstraint (text_source t text) e0 -> solvable t ks skip e0 ->
  let soluble := exists fields p, solution t ks skip (l0 ++ [e0]) fields p in
  overlooks check pton cs text \/ exists b cs', AddConstraintString check pton cs text = (Ok b, cs') /\ (b = true -> soluble) /\ (soluble -> b = true \/ overlooks check pton cs text).
Proof.
  intros check pton t ks skip cs l l0 text e0 Hp HK Hw Hso Hap HH HL Hr Hsv soluble. apply (text_iff pton Hp) in Hr. destruct (history_holds t ks HK skip check pton cs l HH) as (base & us & Hs). pose proof (h_table _ _ _ _ _ _ _ _ Hs) as Et.
  destruct (infer_complete None (Some t) _ (table_in_scope t ks HK) e0 TBool (proj1 Hsv)) as (e & Hi & _).
  rewrite (add_text check pton cs text e0 e); [|now rewrite Et|now rewrite Et].
  destruct (C59_add check pton t ks skip cs l l0 e0 e (text_source (cs_table cs) text) HK Hw Hso Hap HH HL Hi Hsv) as [[M1 M2]|(b & cs' & E & H1 & H2)]; [left; exact (missed_text check pton cs text _ (or_introl eq_refl) M1 M2)|]. right. exists b, cs'. split; [exact E|]. split; [exact H1|].
  intros H. destruct (H2 H) as [Hb|[[M1 M2]|(u & Hu & M1 & M2)]]; [left; exact Hb|right; exact (missed_text check pton cs text _ (or_introl eq_refl) M1 M2)|]. right. refine (missed_text check pton cs text _ (or_intror _) M1 M2). exists e0, e, (text_source (cs_table cs) text), u. rewrite Et in *. auto.
Qed.
Print Assumptions C59_add_text.
(** Unless Z3 overlooks a model the answer is exact. *)
Theorem C59_decides : forall check pton t ks skip cs l l0 text e0, pton_ok pton -> table_keys t ks -> int32_widths ks -> sound_solver check -> apart (live_keys skip ks) ->
  History check pton t skip cs l -> written t l0 l -> reads_as pton kTableConstraint (text_source t text) e0 -> solvable t ks skip e0 -> ~ overlooks check pton cs text ->
  exists b cs', AddConstraintString check pton cs text = (Ok b, cs') /\ (b = true <-> exists fields p, solution t ks skip (l0 ++ [e0]) fields p).
Proof.
  intros check pton t ks skip cs l l0 text e0 Hp HK Hw Hso Hap HH HL Hr Hsv Hng.
  destruct (C59_add_text check pton t ks skip cs l l0 text e0 Hp HK Hw Hso Hap HH HL Hr Hsv) as [Hg|(b & cs' & E & H1 & H2)]; [contradiction|]. exists b, cs'. split; [exact E|]. split; [exact H1|]. intros H. destruct (H2 H); [assumption|contradiction].
Qed.
Print Assumptions C59_decides.
(** Create succeeds iff the table's own constraint has a solution. *)
Theorem C59_create : forall check t ks skip l0, table_keys t ks -> int32_widths ks -> sound_solver check -> apart (live_keys skip ks) ->
  (forall k, In k ks -> skipped skip k \/ live skip k /\ representable k) -> written t l0 (match ti_constraint t with Some e => [e] | None => [] end) -> Forall (solvable t ks skip) l0 ->
  let soluble := exists fields p, solution t ks skip l0 fields p in
  ((exists cs, Create check t skip = Ok cs) -> soluble) /\ (soluble -> (exists cs, Create check t skip = Ok cs) \/ misses_creating check t skip).
Proof.
  intros check t ks skip l0 HK Hw Hso Hap Hsk HL Hsv soluble. split.
  - intros (cs & Hc). pose proof (hi_create check (fun _ => None) t skip cs Hc) as HH. destruct (history_holds t ks HK skip check _ cs _ HH) as (base & us & Hs). pose proof (C45_always_satisfiable _ _ _ _ _ _ _ HK Hso HH) as Hsat.
    rewrite (h_assertions _ _ _ _ _ _ _ _ Hs) in Hsat. exact (sat_solution t ks skip HK Hw (cs_env cs) base (h_built _ _ _ _ _ _ _ _ Hs) l0 _ us HL (h_encoded _ _ _ _ _ _ _ _ Hs) Hsat).
  - intros (fields & p & Hsol).
    destruct (create_keys_total skip (Ordered (ti_keys_by_name t))) with (prio := false) (keys := @nil (string * symbolic_key)) (asserted := @nil term) as ([[prio keys] asserted] & Ec).
    { intros n k Hi. apply (in_ordered t ks HK) in Hi as [Hk <-]. exact (Hsk k Hk). }
    pose proof (built_env t ks HK skip prio keys asserted Ec) as HB. unfold misses_creating, Create. cbn [without_constraint ti_keys_by_name ti_constraint]. rewrite Ec. cbn [bind].
    assert ((if prio then ([(kSymbolicPriorityAttributeName, fst AddSymbolicPriority)], (asserted ++ snd AddSymbolicPriority)%list) else ([], asserted))
      = ((if prio then [(kSymbolicPriorityAttributeName, fst AddSymbolicPriority)] else []), (if prio then asserted ++ snd AddSymbolicPriority else asserted)%list)) as E by now destruct prio.
    rewrite E. clear E. revert HB. generalize (if prio then asserted ++ snd AddSymbolicPriority else asserted)%list as base. generalize (if prio then [(kSymbolicPriorityAttributeName, fst AddSymbolicPriority)] else []) as attrs. intros attrs base HB.
    assert (assertions [base] = base) as Ea by (unfold assertions; cbn; apply app_nil_r).
    destruct (ti_constraint t) as [e|]; [|eauto]. inversion HL as [|e0 ? ? ? [Hi Hl] HL']; subst. inversion HL'; subst. inversion Hsv as [|? ? Hs1 _]; subst.
    destruct (solvable_encodes _ _ _ _ _ _ _ (ti_source t) HK HB Hs1 Hi) as (_ & u & Hu & Hbo).
    assert (satisfiable (base ++ [u])) as Hsat. { apply (solution_sat t ks skip HK Hw (mkEnv keys attrs) base HB Hap [e0] [e] [u] fields p HL); [constructor; [now exists (ti_source t)|constructor]|exact Hsol]. }
    assert (satisfiable base) as Hsb. { destruct Hsat as (m & Hm & Hs). apply satisfies_app in Hs as [Hs _]. exists m. auto. }
    destruct (check base) as [mo|] eqn:E1; [|right; eexists _, e; split; [reflexivity|]; split; [reflexivity|]; left; cbn [cs_stack]; rewrite Ea; now split].
    destruct (check (base ++ [u])%list) as [mo'|] eqn:E2; [|right; eexists _, e; split; [reflexivity|]; split; [reflexivity|]; right; exists u; cbn [cs_stack cs_env]; rewrite Ea; split; [exact Hu|now split]]. left.
    rewrite (add_true check _ e (ti_source t) u); cbn [cs_stack cs_env]; [eauto|rewrite Ea; congruence|exact Hu|exact Hbo|rewrite Ea; congruence].
Qed.
Print Assumptions C59_create.
(** Every entry it concretizes is a solution. *)
Theorem C59_entries : forall check pton t ks skip cs l l0 entry, table_keys t ks -> int32_widths ks -> sound_solver check -> History check pton t skip cs l -> written t l0 l ->
  ConcretizeEntry check cs = Ok entry -> solution t ks skip l0 (pe_match entry) (pe_priority entry).
Proof.
  intros check pton t ks skip cs l l0 entry HK Hw Hso HH HL He. destruct (history_holds t ks HK skip check pton cs l HH) as (base & us & Hs).
  destruct (check (assertions (cs_stack cs))) as [mo|] eqn:Ec; [|unfold ConcretizeEntry in He; rewrite Ec in He; discriminate He]. destruct (Hso _ _ Ec) as [Hm Hsat]. rewrite (h_assertions _ _ _ _ _ _ _ _ Hs) in Hsat.
  destruct (concretize_ok t ks HK skip check cs l base us Hs mo Hm Hsat) as (fields & p & E & HW & H1 & H2 & H3); [intros k w Hk Hkw; exact (proj2 (Hw k w Hk Hkw))|exact Ec|].
  rewrite E in He. apply Ok_inj in He as <-. cbn [pe_match pe_priority]. split; [exact HW|]. split; [intros HP; now apply H1|].
  destruct (key_function (live_keys skip ks) fields) as (key & Hkey); [apply nodup_filter; apply HK|apply nodup_filter; apply HK|apply live_formed; [apply int32_nonneg, Hw|exact HW]|].
  exists key. split; [exact Hkey|]. apply satisfies_app in Hsat as [_ Hsat].
  eapply (terms_true t ks skip HK Hw (cs_env cs) base (h_built _ _ _ _ _ _ _ _ Hs) (complete mo) fields key p Hm HW Hkey); [|intros HP; now apply H1|exact HL|exact (h_encoded _ _ _ _ _ _ _ _ Hs)|exact Hsat].
  intros k v Hk Hl Ev. apply (H3 k v Hk Hl). apply Hkey in Ev. eapply assigned_mono; [|exact Ev]. intros k' Hk'. now apply live_in in Hk'.
Qed.
Print Assumptions C59_entries.
(** The solver's reading is the documented one, unless some ordered comparison has exactly one operand in the upper half of its type. *)
Theorem C59_agrees : forall t ks r e v, table_keys t ks -> env_ok (InTable (ti_keys_by_name t)) r -> ~ reorders (InTable (ti_keys_by_name t)) r e ->
  Den (InTable (ti_keys_by_name t)) r e v -> forall v', Meant signed_order (InTable (ti_keys_by_name t)) r e v' <-> v' = v.
Proof.
  intros t ks r e v HK HE Hn Hd v'. pose proof (den_meant None (Some t) _ r (table_in_scope t ks HK) HE e v Hd Hn) as H. split; [|now intros ->].
  intros H'. eapply meant_fun; [exact (table_in_scope t ks HK)|exact signed_fun|exact H'|exact H].
Qed.
Print Assumptions C59_agrees.
(** The hypotheses hold of the table with all kinds of keys, one of them skipped, and its two constraints. *)
Example C59_case : table_keys sy_table sy_keys /\ int32_widths sy_keys /\ sound_solver sy_check /\ apart (live_keys sy_skip sy_keys) /\ History sy_check pton1 sy_table sy_skip sy_cs [sy_checked] /\
  written sy_table [sy_tree] [sy_checked] /\ reads_as pton1 kTableConstraint (text_source sy_table sy_more) sy_more_tree /\ solvable sy_table sy_keys sy_skip sy_more_tree /\
  AddConstraintString sy_check pton1 sy_cs sy_more = (Ok true, sy_cs2) /\ solution sy_table sy_keys sy_skip [sy_tree; sy_more_tree] (pe_match sy_entry) (pe_priority sy_entry).
Proof.
  split; [exact sy_table_keys|]. split; [exact sy_widths|]. split; [exact sy_sound|]. split; [repeat constructor; cbn; intuition discriminate|].
  split. { pose proof (hi_create sy_check pton1 sy_table sy_skip sy_cs sy_created) as H. exact H. }
  split. { constructor; [split; [exact (proj1 sy_inferred)|exact (proj1 sy_literals)]|constructor]. }
  split. { apply (C08_parser_iff_grammar pton1 _ _ _ pton1_ok). vm_compute. reflexivity. }
  split. { split; [|split; [exact (proj2 sy_literals)|]].
    - assert (e_type sy_more_checked = TBool) as <- by reflexivity. exact (proj1 (infer_ok None (Some sy_table) _ (table_in_scope _ _ sy_table_keys) _ _ (proj2 sy_inferred))).
    - split; [|intros _; exists (mkKey 2 "t" (TTernary 16)), 16%Z; cbn; auto]. intros n Hn. repeat match goal with H : mentions _ _ |- _ => inversion H; clear H; subst end.
      all: cbn; eauto 10. }
  split; [exact sy_added|].
  apply (C59_entries sy_check pton1 sy_table sy_keys sy_skip sy_cs2 [sy_checked; sy_more_checked] _ sy_entry sy_table_keys sy_widths sy_sound sy_history); [|exact sy_concretized].
  repeat constructor; try apply sy_inferred; apply sy_literals.
Qed.
