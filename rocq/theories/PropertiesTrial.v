(** C100: what the solver asks of Z3 can be decided by trying all values, and a Z3 that overlooks nothing answers like this. *)
From Coq Require Import String List ZArith NArith Bool Lia.
From Verif Require Import Base Num Token Ast AstConstructors Parser Info TypeChecker ConstraintInfo Interpreter Z3 Symbolic SpecLexer SpecGrammar SpecTyping SpecSemantics SpecInfo SpecSymbolic SpecSolver SpecReading SpecShared SpecSingle SpecSession SpecMissed SpecSkip SpecTrial.
From Verif Require Import PropertiesVerdict LiteralFacts SemFacts TypeFacts InfoFacts EntryFacts SymFacts SymState PropertiesParser PropertiesInfo PropertiesSymbolic PropertiesReading PropertiesShared PropertiesSingle PropertiesQueries PropertiesSkip TrialFacts SymDemo.
Import ListNotations.
Open Scope string_scope.

(** It is sound, as is assumed of Z3. *)
Theorem C100_sound : forall top, sound_solver (trial top).
Proof. exact trial_sound. Qed.
Print Assumptions C100_sound.
(** For every table some number is high enough. *)
Theorem C100_high_enough : forall ks skip, exists top, high_enough top ks skip.
Proof.
  intros ks skip. assert (forall l : list key_info, exists top, (2147483647 <= top)%Z /\ forall k w, In k l -> k_type k = TLpm w -> (w <= top)%Z) as H.
  { induction l as [|k l (top & H1 & H2)]; [exists 2147483647%Z; split; [lia|intros k w []]|]. destruct (k_type k) eqn:E.
    8: match goal with E : k_type k = TLpm ?v |- _ => exists (Z.max top v) end; split; [lia|]; intros k' w' [<-|Hi] E'; [rewrite E in E'; injection E' as <-; lia|specialize (H2 k' w' Hi E'); lia].
    all: exists top; split; [exact H1|]; intros k' w' [<-|Hi] E'; [congruence|exact (H2 k' w' Hi E')]. }
  destruct (H ks) as (top & H1 & H2). exists top. split; [|intros _; exact H1]. intros k w Hk _ Hw. exact (H2 k w Hk Hw).
Qed.
Print Assumptions C100_high_enough.
(** It finds a model of whatever satisfiable formulas Z3 is asked about, whichever constraints have been added before. *)
Theorem C100_decides : forall check pton t ks skip cs l top text q, table_keys t ks -> high_enough top ks skip -> History check pton t skip cs l -> asked pton cs text q ->
  (trial top q <> None <-> satisfiable q).
Proof.
  intros check pton t ks skip cs l top text q HK Ht HH Hq. split.
  - intros H. destruct (trial top q) as [mo|] eqn:E; [|congruence]. exists (complete mo). exact (trial_sound top q mo E).
  - destruct Hq as [->|(e0 & e & src & u & _ & _ & Hu & ->)]; [exact (proj1 (trial_misses check pton t ks skip HK cs l top (ENotSet (mkMeta (mkLoc 0 0 SrcNone) (mkLoc 0 0 SrcNone) TNotSet)) (mkCSource "" (mkLoc 0 0 SrcNone)) HH Ht))|exact (proj2 (trial_misses check pton t ks skip HK cs l top e src HH Ht) u Hu)].
Qed.
Print Assumptions C100_decides.
Lemma trial_attentive check pton t ks skip cs l top text : table_keys t ks -> high_enough top ks skip -> History check pton t skip cs l -> ~ overlooks (trial top) pton cs text.
Proof. intros HK Ht HH (q & Hq & Hs & E). apply (C100_decides check pton t ks skip cs l top text q HK Ht HH Hq) in Hs. congruence. Qed.
Lemma trial_not_misses_adding check pton t ks skip cs l top e src : table_keys t ks -> high_enough top ks skip -> History check pton t skip cs l -> ~ misses_adding (trial top) cs e src.
Proof. intros HK Ht HH. destruct (trial_misses check pton t ks skip HK cs l top e src HH Ht) as [H1 H2]. intros [[S E]|(u & Hu & S & E)]; [exact (H1 S E)|exact (H2 u Hu S E)]. Qed.
Lemma keys_without t ks : table_keys t ks -> table_keys (without_constraint t) ks.
Proof. intros H. destruct H. split; assumption. Qed.

(** With it, a solver is created exactly for the tables that have an entry, *)
Theorem C100_create : forall t ks skip top l0, table_keys t ks -> int32_widths ks -> high_enough top ks skip ->
  (forall k, In k ks -> skipped skip k \/ live skip k /\ representable k) -> written t l0 (match ti_constraint t with Some e => [e] | None => [] end) -> Forall (solvable t ks skip) l0 ->
  (exists cs, Create (trial top) t skip = Ok cs) <-> exists fields p, coherent_solution t ks skip l0 fields p.
Proof.
  intros t ks skip top l0 HK Hw Ht Hsk HL Hsv. destruct (C88_create (trial top) t ks skip l0 HK Hw (trial_sound top) Hsk HL Hsv) as [H1 H2]. split; [exact H1|]. intros H. destruct (H2 H) as [Hc|(cs & e & Hc & _ & Hm)]; [exact Hc|exfalso].
  pose proof (hi_create (trial top) (fun _ => None) (without_constraint t) skip cs Hc) as HH. exact (trial_not_misses_adding _ _ _ ks _ _ _ _ _ _ (keys_without t ks HK) Ht HH Hm).
Qed.
Print Assumptions C100_create.
(** a constraint is accepted exactly if it leaves an entry, and it is decided whether there is one, *)
Theorem C100_exact : forall pton t ks skip cs l l0 top text e0, pton_ok pton -> table_keys t ks -> int32_widths ks -> high_enough top ks skip ->
  History (trial top) pton t skip cs l -> written t l0 l -> reads_as pton kTableConstraint (text_source t text) e0 -> solvable t ks skip e0 ->
  exists b cs', AddConstraintString (trial top) pton cs text = (Ok b, cs') /\ (b = true <-> exists fields p, coherent_solution t ks skip (l0 ++ [e0]) fields p).
Proof.
  intros pton t ks skip cs l l0 top text e0 Hp HK Hw Ht HH HL Hr Hsv. exact (C88_decides (trial top) pton t ks skip cs l l0 text e0 Hp HK Hw (trial_sound top) HH HL Hr Hsv (trial_attentive _ _ _ _ _ _ _ _ _ HK Ht HH)).
Qed.
Print Assumptions C100_exact.
(** there is always an entry, *)
Theorem C100_entry : forall pton t ks skip cs l l0 top, table_keys t ks -> int32_widths ks -> high_enough top ks skip -> History (trial top) pton t skip cs l -> written t l0 l ->
  exists entry, ConcretizeEntry (trial top) cs = Ok entry /\ coherent_solution t ks skip l0 (pe_match entry) (pe_priority entry).
Proof.
  intros pton t ks skip cs l l0 top HK Hw Ht HH HL. destruct (C45_always_entry (trial top) pton t ks skip cs l HK Hw (trial_sound top) HH) as [(entry & He)|[S E]].
  - exists entry. split; [exact He|]. exact (C88_entries (trial top) pton t ks skip cs l l0 entry HK Hw (trial_sound top) HH HL He).
  - exfalso. apply (C100_decides (trial top) pton t ks skip cs l top "" _ HK Ht HH (or_introl eq_refl)) in S. congruence.
Qed.
Print Assumptions C100_entry.
(** and concretizing and excluding entries until the last is refused gives all of them, each once. *)
Theorem C100_loop : forall num pton t ks skip cs l l0 top, (forall n, Decimal (num n) n) -> pton_ok pton -> table_keys t ks -> int32_widths ks -> high_enough top ks skip ->
  identifiers (live_keys skip ks) -> History (trial top) pton t skip cs l -> written t l0 l ->
  exists entries cs' entry text, Enumerates num (trial top) pton ks skip cs entries cs' /\ ConcretizeEntry (trial top) cs' = Ok entry /\ excluding num ks skip entry text /\ AddConstraintString (trial top) pton cs' text = (Ok false, cs') /\
    ForallOrdPairs (fun x y => ~ is_entry ks x (pe_match y) (pe_priority y)) (entries ++ [entry]) /\
    (forall x, In x (entries ++ [entry]) -> coherent_solution t ks skip l0 (pe_match x) (pe_priority x)) /\
    forall fields p, coherent_solution t ks skip l0 fields p -> exists x, In x (entries ++ [entry]) /\ is_entry ks x fields p.
Proof.
  intros num pton t ks skip cs l l0 top Hnum Hp HK Hw Ht Hid HH HL. assert (~ misses_enumerating num (trial top) pton ks skip cs) as Hn.
  { intros (entries & cs' & HE & H). destruct (enumerate_history num (trial top) pton t ks skip Hnum Hp HK Hw (trial_sound top) cs entries cs' HE l l0 HH HL) as (l' & es & HH' & _).
    destruct H as [[S E]|(entry & text & _ & _ & Ho)]; [|exact (trial_attentive _ _ _ _ _ _ _ _ _ HK Ht HH' Ho)]. apply (C100_decides (trial top) pton t ks skip cs' l' top "" _ HK Ht HH' (or_introl eq_refl)) in S. congruence. }
  destruct (C89_loop num (trial top) pton t ks skip cs l l0 Hnum Hp HK Hw (trial_sound top) Hid HH HL) as [H|(entries & cs' & entry & text & H1 & H2 & H3 & H4 & H5 & H6 & H7)]; [contradiction|].
  exists entries, cs', entry, text. split; [exact H1|]. split; [exact H2|]. split; [exact H3|]. split; [exact H4|]. split; [exact H6|]. split; [now apply Forall_forall|]. intros fields p H. destruct (H7 fields p H) as [Hx|Hx]; [exact Hx|contradiction].
Qed.
Print Assumptions C100_loop.

(** Z3 may find other models, but as long as it overlooks none the answers are the same. *)
Lemma same_add check pton t ks skip cs l top e src : table_keys t ks -> high_enough top ks skip -> sound_solver check -> History check pton t skip cs l -> ~ misses_adding check cs e src ->
  AddConstraint check cs e src = AddConstraint (trial top) cs e src.
Proof.
  intros HK Ht Hso HH Hn. apply C92_two_questions. destruct (trial_misses check pton t ks skip HK cs l top e src HH Ht) as [H1 H2].
  assert (forall q, check q <> None -> satisfiable q) as HS by (intros q H; destruct (check q) as [mo|] eqn:E; [exists (complete mo); exact (Hso q mo E)|congruence]).
  assert (forall q, trial top q <> None -> satisfiable q) as HT by (intros q H; destruct (trial top q) as [mo|] eqn:E; [exists (complete mo); exact (trial_sound top q mo E)|congruence]).
  intros q [->|(u & Hu & ->)]; split; intros H.
  - exact (H1 (HS _ H)).
  - intros E. apply Hn. left. split; [exact (HT _ H)|exact E].
  - exact (H2 u Hu (HS _ H)).
  - intros E. apply Hn. right. exists u. split; [exact Hu|]. split; [exact (HT _ H)|exact E].
Qed.
Lemma same_text check pton t ks skip cs l top text : table_keys t ks -> high_enough top ks skip -> sound_solver check -> History check pton t skip cs l -> ~ overlooks check pton cs text ->
  AddConstraintString check pton cs text = AddConstraintString (trial top) pton cs text.
Proof.
  intros HK Ht Hso HH Hn. unfold AddConstraintString. destruct (ParseConstraint _ _ _) as [e0| |] eqn:Ep; cbn [bind]; try reflexivity. destruct (InferTable e0 (cs_table cs)) as [e| |] eqn:Ei; try reflexivity.
  apply (same_add check pton t ks skip cs l top e _ HK Ht Hso HH). intros [[S E]|(u & Hu & S & E)]; apply Hn.
  - exists (assertions (cs_stack cs)). split; [now left|auto].
  - eexists. split; [right; exists e0, e; eexists _, u; split; [exact Ep|]; split; [exact Ei|]; split; [exact Hu|reflexivity]|auto].
Qed.
Theorem C100_same_create : forall check t ks skip top, table_keys t ks -> high_enough top ks skip -> sound_solver check -> ~ misses_creating check t skip ->
  Create check t skip = Create (trial top) t skip.
Proof.
  intros check t ks skip top HK Ht Hso Hn. unfold misses_creating in Hn. assert (Create check (without_constraint t) skip = Create (trial top) (without_constraint t) skip) as E0 by reflexivity.
  unfold Create in *. cbn [without_constraint ti_keys_by_name ti_constraint] in Hn. destruct (create_keys skip (Ordered (ti_keys_by_name t)) false [] []) as [[[prio keys] asserted]| |] eqn:Ec; cbn [bind] in *; try reflexivity.
  destruct (if prio then _ else _) as [attrs base] eqn:Ep. destruct (ti_constraint t) as [e|] eqn:Et; [|reflexivity].
  set (cs0 := mkCS t (mkEnv keys attrs) skip [base]) in *. set (cs1 := mkCS (without_constraint t) (mkEnv keys attrs) skip [base]) in *.
  assert (History check (fun _ => None) (without_constraint t) skip cs1 []) as HH. { refine (hi_create check (fun _ => None) (without_constraint t) skip cs1 _). unfold Create. cbn [without_constraint ti_keys_by_name ti_constraint]. rewrite Ec. cbn [bind]. rewrite Ep. reflexivity. }
  assert (forall c, AddConstraint c cs0 e (ti_source t) = (fst (AddConstraint c cs1 e (ti_source t)), mkCS t (cs_env (snd (AddConstraint c cs1 e (ti_source t)))) skip (cs_stack (snd (AddConstraint c cs1 e (ti_source t)))))) as HA.
  { intros c. unfold AddConstraint, cs0, cs1. cbn [cs_stack cs_env]. destruct (is_sat c [base]); cbn [negb fst snd cs_env cs_stack]; [|reflexivity]. destruct (EvaluateConstraintSymbolically _ _ _) as [u| |]; try reflexivity. destruct (is_sbool u); cbn [negb]; [|reflexivity]. destruct (is_sat c _); reflexivity. }
  rewrite (HA check), (HA (trial top)). rewrite (same_add check _ (without_constraint t) ks skip cs1 [] top e (ti_source t) (keys_without t ks HK) Ht Hso HH); [reflexivity|]. intros Hm. apply Hn. exists cs1, e. split; [reflexivity|]. split; [reflexivity|exact Hm].
Qed.
Print Assumptions C100_same_create.
Theorem C100_same_answers : forall check pton t ks skip cs l top texts, table_keys t ks -> high_enough top ks skip -> sound_solver check -> History check pton t skip cs l -> attentive check pton cs texts ->
  conversation check pton cs texts = conversation (trial top) pton cs texts.
Proof.
  intros check pton t ks skip cs l top texts HK Ht Hso. revert cs l. induction texts as [|text texts IH]; intros cs l HH Ha; [reflexivity|]. cbn [conversation].
  assert (~ overlooks check pton cs text) as Hn by exact (Ha [] text texts eq_refl). assert (cs_table cs = t) as Et. { destruct (history_holds t ks HK skip check pton cs l HH) as (base & us & Hs). exact (h_table _ _ _ _ _ _ _ _ Hs). }
  destruct (text_history check pton t skip cs l text Et HH) as [l' HH']. rewrite <- (same_text check pton t ks skip cs l top text HK Ht Hso HH Hn). destruct (AddConstraintString check pton cs text) as [r cs1] eqn:E. cbn [snd] in HH'.
  rewrite (IH cs1 l' HH'); [reflexivity|]. intros before text' after Eq. specialize (Ha (text :: before) text' after). cbn [conversation] in Ha. rewrite E in Ha. destruct (conversation check pton cs1 before) as [x y]. apply Ha. now rewrite Eq.
Qed.
Print Assumptions C100_same_answers.

(** All of it runs on a table with a 2-bit exact key and a 3-bit LPM key. ([e < 2] is refused: the solver orders keys as signed numbers.) *)
Definition tr_decl : p4_table := mkP4Table (mkPre 5 "tr" [restriction "entry" ["e != 0 && l::prefix_length >= 2"]]) [mkMF 1 "e" 2 (MMatchType MTExact); mkMF 2 "l" 3 (MMatchType MTLpm)].
Definition tr_keys : list key_info := [mkKey 1 "e" (TExact 2); mkKey 2 "l" (TLpm 3)].
Definition tr_ci : constraint_info := Eval vm_compute in the (mkInfo [] []) (P4ToConstraintInfo pton1 (mkP4Info [tr_decl] [])).
Definition tr_table : table_info := Eval vm_compute in match GetTableInfoOrNull tr_ci 5 with Some t => t | None => no_table end.
Definition tr_cs : constraint_solver := Eval vm_compute in the (mkCS no_table (mkEnv [] []) never_skip []) (Create (trial 3) tr_table keep_all).
Definition tr_texts : list string := ["e == 1 -> l::value == 6"; "e == 0"; "l::prefix_length == 3 ->"; "l::prefix_length != 2"; "e < 2"; "e == 2"; "l::value != 6 && l::prefix_length == 3"].
Example C100_case : table_keys tr_table tr_keys /\ int32_widths tr_keys /\ high_enough 3 tr_keys keep_all /\ ~ prioritized tr_keys /\ History (trial 3) pton1 tr_table keep_all tr_cs (match ti_constraint tr_table with Some e => [e] | None => [] end) /\
  attentive (trial 3) pton1 tr_cs tr_texts /\ fst (conversation (trial 3) pton1 tr_cs tr_texts) = [Some true; Some false; None; Some true; Some false; Some true; Some true].
Proof.
  assert (table_keys tr_table tr_keys) as HK by (split; try (intros x; cbn; tauto); repeat constructor; cbn; intuition discriminate).
  assert (~ prioritized tr_keys) as HP by (intros (k & w & [<-|[<-|[]]] & Hk); cbn in Hk; intuition discriminate).
  assert (high_enough 3 tr_keys keep_all) as Ht. { split; [|intros H; contradiction]. intros k w [<-|[<-|[]]] _ E; cbn in E; [discriminate E|injection E as <-; lia]. }
  assert (Create (trial 3) tr_table keep_all = Ok tr_cs) as Hc by (vm_compute; reflexivity).
  pose proof (hi_create (trial 3) pton1 tr_table keep_all tr_cs Hc) as HH.
  split; [exact HK|]. split. { intros k w [<-|[<-|[]]] Hw; cbn in Hw; inversion Hw; subst; lia. }
  split; [exact Ht|]. split; [exact HP|]. split; [exact HH|]. split; [|vm_compute; reflexivity].
  intros before text after _. assert (exists l, History (trial 3) pton1 tr_table keep_all (snd (conversation (trial 3) pton1 tr_cs before)) l) as (l & HH').
  { clear Hc. revert HH. generalize tr_cs. generalize (match ti_constraint tr_table with Some e => [e] | None => [] end). induction before as [|x before IH]; intros l cs HH; [exists l; exact HH|]. cbn [conversation].
    assert (cs_table cs = tr_table) as Et. { destruct (history_holds tr_table tr_keys HK keep_all (trial 3) pton1 cs l HH) as (base & us & Hs). exact (h_table _ _ _ _ _ _ _ _ Hs). }
    destruct (text_history (trial 3) pton1 tr_table keep_all cs l x Et HH) as [l' HH']. destruct (AddConstraintString (trial 3) pton1 cs x) as [r cs1]. cbn [snd] in HH'. specialize (IH l' cs1 HH'). destruct (conversation (trial 3) pton1 cs1 before) as [a b]. exact IH. }
  exact (trial_attentive (trial 3) pton1 tr_table tr_keys keep_all _ l 3 text HK Ht HH').
Qed.
