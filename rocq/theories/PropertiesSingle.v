(** C89: enumerating the entries of a solver. *)
From Coq Require Import String Ascii List ZArith NArith Bool Lia Permutation.
From Verif Require Import Base Num Token Ast Lexer Quote AstConstructors Parser Info TypeChecker ConstraintInfo Interpreter Z3 Symbolic SpecLexer SpecGrammar SpecParser SpecTyping SpecSemantics SpecInfo SpecSymbolic SpecSolver SpecReading SpecIdioms SpecSession SpecShared SpecSingle SpecMissed
  StrFacts NumFacts LiteralFacts ParserFacts4 TypeFacts EvalFacts SemFacts2 EntryFacts InterpFacts2 SymKeys SymState SymMeaning SymDemo ReadingFacts ReadingFacts2 ReadingFacts3 SharedFacts SharedFacts2
  PropertiesParser PropertiesVerdict PropertiesSymbolic PropertiesReading PropertiesSession PropertiesShared SingleFacts SingleFacts2.
Import ListNotations.
Open Scope string_scope.

Section Enumeration.
  Variables (num : N -> string) (check : solver) (pton : inet_pton6) (t : table_info) (ks : list key_info) (skip : string -> outcome bool).
  Hypothesis Hnum : forall n, Decimal (num n) n.
  Hypothesis Hp : pton_ok pton.
  Hypothesis HK : table_keys t ks.
  Hypothesis Hw : int32_widths ks.
  Hypothesis Hso : sound_solver check.
  Lemma history_repr cs l : History check pton t skip cs l -> forall k, In k ks -> live skip k -> representable k.
  Proof. intros HH. destruct (history_holds t ks HK skip check pton cs l HH) as (base & us & Hs). exact (b_repr _ _ _ _ (h_built _ _ _ _ _ _ _ _ Hs)). Qed.
  Lemma entry_formed cs l l0 entry : History check pton t skip cs l -> written t l0 l -> ConcretizeEntry check cs = Ok entry -> well_formed (live_keys skip ks) (pe_match entry).
  Proof. intros HH HL He. apply (C88_entries check pton t ks skip cs l l0 entry HK Hw Hso HH HL He). Qed.
  Lemma enumerate_history cs entries cs' : Enumerates num check pton ks skip cs entries cs' -> forall l l0, History check pton t skip cs l -> written t l0 l ->
    exists l' es, History check pton t skip cs' l' /\ written t (l0 ++ es) l' /\
      (forall fields p, coherent_solution t ks skip (l0 ++ es) fields p <-> coherent_solution t ks skip l0 fields p /\ forall x, In x entries -> ~ is_entry ks x fields p) /\
      (forall x, In x entries -> exists text, excluding num ks skip x text) /\
      Forall (fun x => coherent_solution t ks skip l0 (pe_match x) (pe_priority x)) entries /\ ForallOrdPairs (fun x y => ~ is_entry ks x (pe_match y) (pe_priority y)) entries.
  Proof.
    intros HE. induction HE as [cs|cs entry text cs1 entries cs' He Hex Hadd HE IH]; intros l l0 HH HL.
    - exists l, []. rewrite app_nil_r. split; [exact HH|]. split; [exact HL|]. split; [intros fields p; split; [intros H; split; [exact H|intros x []]|tauto]|]. split; [intros x []|]. split; constructor.
    - pose proof (C88_entries check pton t ks skip cs l l0 entry HK Hw Hso HH HL He) as Hcs. assert (well_formed (live_keys skip ks) (pe_match entry)) as HW by apply Hcs.
      destruct (excluding_solutions num pton t ks skip Hnum Hp HK Hw (history_repr cs l HH) entry text HW Hex) as (e & Hu & Hse).
      destruct (accepted_history check pton t ks skip Hp HK cs l l0 [text] [e] cs1 HH HL) as (l1 & HH1 & HL1); [constructor; [exact Hu|constructor]|econstructor; [exact Hadd|constructor]|].
      destruct (IH l1 (l0 ++ [e])%list HH1 HL1) as (l' & es & H1 & H2 & H3 & H4 & H5 & H6). exists l', (e :: es). rewrite <- app_assoc in H2, H3. cbn [app] in H2, H3. split; [exact H1|]. split; [exact H2|]. split; [|split; [|split]].
      + intros fields p. rewrite (H3 fields p), (Hse l0 fields p). split.
        * intros ((A & B) & C). split; [exact A|]. intros x [<-|Hx]; [exact B|exact (C x Hx)].
        * intros (A & B). split; [split; [exact A|apply B; now left]|]. intros x Hx. apply B. now right.
      + intros x [<-|Hx]; [now exists text|exact (H4 x Hx)].
      + constructor; [exact Hcs|]. rewrite Forall_forall in *. intros x Hx. exact (proj1 (proj1 (Hse l0 _ _) (H5 x Hx))).
      + constructor; [|exact H6]. rewrite Forall_forall in *. intros x Hx. exact (proj2 (proj1 (Hse l0 _ _) (H5 x Hx))).
  Qed.
  Lemma enumerates_snoc cs entries cs' entry text cs'' : Enumerates num check pton ks skip cs entries cs' -> ConcretizeEntry check cs' = Ok entry -> excluding num ks skip entry text ->
    AddConstraintString check pton cs' text = (Ok true, cs'') -> Enumerates num check pton ks skip cs (entries ++ [entry]) cs''.
  Proof. intros HE He Hex Ha. induction HE as [cs|cs x tx cs1 entries cs' E1 E2 E3 HE IH]; cbn [app]; econstructor; eauto. constructor. Qed.
  (** An entry of the list or none. *)
  Lemma one_of entries fields p : (forall k, In k ks -> live skip k -> representable k) -> Forall (fun x => well_formed (live_keys skip ks) (pe_match x)) entries -> (forall x, In x entries -> exists text, excluding num ks skip x text) -> well_formed (live_keys skip ks) fields ->
    (exists x, In x entries /\ is_entry ks x fields p) \/ forall x, In x entries -> ~ is_entry ks x fields p.
  Proof.
    intros Hrep HF Hex HW. induction HF as [|x entries Hx HF IH]; [right; intros x []|]. destruct (Hex x (or_introl eq_refl)) as (text & Ht).
    destruct (excluding_decides num pton t ks skip Hnum Hp HK Hw Hrep x text fields p Hx Ht HW) as [H|H]; [left; exists x; split; [now left|exact H]|].
    destruct IH as [(y & Hy & H')|H']; [intros y Hy; apply Hex; now right|left; exists y; split; [now right|exact H']|right; intros y [<-|Hy]; auto].
  Qed.
  Lemma enumerate_exhausted cs l l0 entries cs' entry text : History check pton t skip cs l -> written t l0 l -> Enumerates num check pton ks skip cs entries cs' ->
    ConcretizeEntry check cs' = Ok entry -> excluding num ks skip entry text -> fst (AddConstraintString check pton cs' text) = Ok false ->
    forall fields p, coherent_solution t ks skip l0 fields p -> (exists x, In x (entries ++ [entry]) /\ is_entry ks x fields p) \/ overlooks check pton cs' text.
  Proof.
    intros HH HL HE He Hex Hadd fields p Hsol. destruct (enumerate_history cs entries cs' HE l l0 HH HL) as (l' & es & H1 & H2 & H3 & H4 & H5 & H6). pose proof (history_repr cs l HH) as Hrep.
    pose proof (entry_formed cs' l' _ entry H1 H2 He) as HW.
    destruct (one_of (entries ++ [entry]) fields p Hrep) as [H|H]; [| |apply Hsol|left; exact H|].
    { apply Forall_app. split; [|constructor; [exact HW|constructor]]. rewrite Forall_forall in *. intros x Hx. apply (H5 x Hx). }
    { intros x Hx. apply in_app_or in Hx as [Hx|[<-|[]]]; [exact (H4 x Hx)|now exists text]. }
    right. destruct (excluding_solutions num pton t ks skip Hnum Hp HK Hw Hrep entry text HW Hex) as (e & Hu & Hse).
    destruct (step check pton t ks skip Hp HK Hw Hso cs' l' (l0 ++ es) text e H1 H2 Hu) as [Ho|(b & cs2 & Ea & Hb)]; [exact Ho|]. rewrite Ea in Hadd. cbn [fst] in Hadd. apply Ok_inj in Hadd as ->. destruct Hb as [_ Hb]. apply Hb.
    exists fields, p. apply Hse. split; [|apply H; apply in_or_app; right; now left]. apply H3. split; [exact Hsol|]. intros x Hx. apply H. apply in_or_app. now left.
  Qed.
  Lemma enumerate_bounded cs l l0 : History check pton t skip cs l -> written t l0 l -> exists n, forall entries cs', Enumerates num check pton ks skip cs entries cs' -> (List.length entries <= n)%nat.
  Proof.
    intros HH HL. destruct (finitely_many t ks skip HK (history_repr cs l HH)) as (n & Hn). exists n. intros entries cs' HE. destruct (enumerate_history cs entries cs' HE l l0 HH HL) as (l' & es & _ & _ & _ & _ & H5 & H6).
    apply Hn; [|exact H6]. rewrite Forall_forall in *. intros x Hx. destruct (H5 x Hx) as ((A & B & _) & _). now split.
  Qed.
  Lemma concretizes cs l : History check pton t skip cs l -> (exists entry, ConcretizeEntry check cs = Ok entry) \/ misses check (assertions (cs_stack cs)).
  Proof.
    intros HH. destruct (history_holds t ks HK skip check pton cs l HH) as (base & us & Hs). pose proof (C45_always_satisfiable _ _ _ _ _ _ _ HK Hso HH) as Hsat.
    destruct (check (assertions (cs_stack cs))) as [mo|] eqn:Ec; [left|right; split; [exact Hsat|exact Ec]]. destruct (Hso _ _ Ec) as [Hm Hsa]. rewrite (h_assertions _ _ _ _ _ _ _ _ Hs) in Hsa.
    destruct (concretize_ok t ks HK skip check cs l base us Hs mo Hm Hsa) as (fields & p & E & _); [intros k w Hk Hkw; exact (proj2 (Hw k w Hk Hkw))|exact Ec|]. eauto.
  Qed.
  Lemma enumerate_reaches cs l l0 n : identifiers (live_keys skip ks) -> History check pton t skip cs l -> written t l0 l ->
    (exists entries cs', Enumerates num check pton ks skip cs entries cs' /\ List.length entries = n) \/
    (exists entries cs' entry text, Enumerates num check pton ks skip cs entries cs' /\ ConcretizeEntry check cs' = Ok entry /\ excluding num ks skip entry text /\ AddConstraintString check pton cs' text = (Ok false, cs')) \/
    misses_enumerating num check pton ks skip cs.
  Proof.
    intros Hid HH HL. induction n as [|n IH]; [left; exists [], cs; split; [constructor|reflexivity]|]. destruct IH as [(entries & cs' & HE & Hlen)|H]; [|right; exact H].
    destruct (enumerate_history cs entries cs' HE l l0 HH HL) as (l' & es & H1 & H2 & H3 & _). destruct (concretizes cs' l' H1) as [(entry & He)|Hg]; [|right; right; exists entries, cs'; split; [exact HE|left; exact Hg]]. pose proof (history_repr cs l HH) as Hrep.
    pose proof (C88_entries check pton t ks skip cs' l' _ entry HK Hw Hso H1 H2 He) as Hcs. assert (well_formed (live_keys skip ks) (pe_match entry)) as HW by apply Hcs.
    destruct (excluding_exists num t ks skip HK Hrep entry Hid HW) as (text & Hex); [apply Hcs|]. destruct (excluding_solutions num pton t ks skip Hnum Hp HK Hw Hrep entry text HW Hex) as (e & Hu & _).
    destruct (step check pton t ks skip Hp HK Hw Hso cs' l' (l0 ++ es) text e H1 H2 Hu) as [Ho|([] & cs2 & Ea & Hb)]; [right; right; exists entries, cs'; split; [exact HE|right; exists entry, text; auto]| |].
    - left. exists (entries ++ [entry])%list, cs2. split; [eapply enumerates_snoc; eauto|]. rewrite app_length, Hlen. cbn. lia.
    - right. left. destruct Hb as [-> _]. exists entries, cs', entry, text. auto.
  Qed.
End Enumeration.

(** * C89 *)
(** An entry that the solver gave can be excluded with a constraint text, and such a text excludes this entry and no other. *)
Theorem C89_excluded : forall num check pton t ks skip cs l l0 entry, (forall n, Decimal (num n) n) -> pton_ok pton -> table_keys t ks -> int32_widths ks -> sound_solver check ->
  History check pton t skip cs l -> written t l0 l -> ConcretizeEntry check cs = Ok entry ->
  (identifiers (live_keys skip ks) -> exists text, excluding num ks skip entry text) /\
  forall text, excluding num ks skip entry text -> exists e, usable pton t ks skip text e /\
    forall l1 fields p, coherent_solution t ks skip (l1 ++ [e]) fields p <-> coherent_solution t ks skip l1 fields p /\ ~ is_entry ks entry fields p.
Proof.
  intros num check pton t ks skip cs l l0 entry Hnum Hp HK Hw Hso HH HL He. pose proof (history_repr check pton t ks skip HK cs l HH) as Hrep.
  pose proof (C88_entries check pton t ks skip cs l l0 entry HK Hw Hso HH HL He) as ((HW & HPr & _) & _). split.
  - intros Hid. exact (excluding_exists num t ks skip HK Hrep entry Hid HW HPr).
  - intros text Hex. exact (excluding_solutions num pton t ks skip Hnum Hp HK Hw Hrep entry text HW Hex).
Qed.
Print Assumptions C89_excluded.
(** The entries of an enumeration are different solutions. *)
Theorem C89_distinct : forall num check pton t ks skip cs l l0 entries cs', (forall n, Decimal (num n) n) -> pton_ok pton -> table_keys t ks -> int32_widths ks -> sound_solver check ->
  History check pton t skip cs l -> written t l0 l -> Enumerates num check pton ks skip cs entries cs' ->
  Forall (fun x => coherent_solution t ks skip l0 (pe_match x) (pe_priority x)) entries /\ ForallOrdPairs (fun x y => ~ is_entry ks x (pe_match y) (pe_priority y)) entries.
Proof.
  intros num check pton t ks skip cs l l0 entries cs' Hnum Hp HK Hw Hso HH HL HE. destruct (enumerate_history num check pton t ks skip Hnum Hp HK Hw Hso cs entries cs' HE l l0 HH HL) as (l' & es & _ & _ & _ & _ & H5 & H6). now split.
Qed.
Print Assumptions C89_distinct.
(** When the text that excludes the last entry is refused, all solutions have been found, unless Z3 overlooked a model in this last step. *)
Theorem C89_exhausted : forall num check pton t ks skip cs l l0 entries cs' entry text, (forall n, Decimal (num n) n) -> pton_ok pton -> table_keys t ks -> int32_widths ks -> sound_solver check ->
  History check pton t skip cs l -> written t l0 l -> Enumerates num check pton ks skip cs entries cs' ->
  ConcretizeEntry check cs' = Ok entry -> excluding num ks skip entry text -> fst (AddConstraintString check pton cs' text) = Ok false ->
  forall fields p, coherent_solution t ks skip l0 fields p -> (exists x, In x (entries ++ [entry]) /\ is_entry ks x fields p) \/ overlooks check pton cs' text.
Proof.
  intros num check pton t ks skip cs l l0 entries cs' entry text Hnum Hp HK Hw Hso HH HL HE He Hex Hadd. exact (enumerate_exhausted num check pton t ks skip Hnum Hp HK Hw Hso cs l l0 entries cs' entry text HH HL HE He Hex Hadd).
Qed.
Print Assumptions C89_exhausted.
(** Every enumeration ends. *)
Theorem C89_ends : forall num check pton t ks skip cs l l0, (forall n, Decimal (num n) n) -> pton_ok pton -> table_keys t ks -> int32_widths ks -> sound_solver check ->
  History check pton t skip cs l -> written t l0 l -> exists n, forall entries cs', Enumerates num check pton ks skip cs entries cs' -> (List.length entries <= n)%nat.
Proof.
  intros num check pton t ks skip cs l l0 Hnum Hp HK Hw Hso HH HL. exact (enumerate_bounded num check pton t ks skip Hnum Hp HK Hw Hso cs l l0 HH HL).
Qed.
Print Assumptions C89_ends.
(** The loop, run to the end, gives all the solutions, each of them once, unless Z3 misses a model on the way. *)
Theorem C89_loop : forall num check pton t ks skip cs l l0, (forall n, Decimal (num n) n) -> pton_ok pton -> table_keys t ks -> int32_widths ks -> sound_solver check ->
  identifiers (live_keys skip ks) -> History check pton t skip cs l -> written t l0 l ->
  misses_enumerating num check pton ks skip cs \/
  exists entries cs' entry text, Enumerates num check pton ks skip cs entries cs' /\ ConcretizeEntry check cs' = Ok entry /\ excluding num ks skip entry text /\ AddConstraintString check pton cs' text = (Ok false, cs') /\
    Forall (fun x => coherent_solution t ks skip l0 (pe_match x) (pe_priority x)) (entries ++ [entry]) /\
    ForallOrdPairs (fun x y => ~ is_entry ks x (pe_match y) (pe_priority y)) (entries ++ [entry]) /\
    forall fields p, coherent_solution t ks skip l0 fields p -> (exists x, In x (entries ++ [entry]) /\ is_entry ks x fields p) \/ misses_enumerating num check pton ks skip cs.
Proof.
  intros num check pton t ks skip cs l l0 Hnum Hp HK Hw Hso Hid HH HL. destruct (C89_ends num check pton t ks skip cs l l0 Hnum Hp HK Hw Hso HH HL) as (n & Hn).
  destruct (enumerate_reaches num check pton t ks skip Hnum Hp HK Hw Hso cs l l0 (S n) Hid HH HL) as [(entries & cs' & HE & Hlen)|[(entries & cs' & entry & text & HE & He & Hex & Ha)|Hg]]; [specialize (Hn entries cs' HE); clear - Hn Hlen; lia| |left; exact Hg].
  right. exists entries, cs', entry, text. split; [exact HE|]. split; [exact He|]. split; [exact Hex|]. split; [exact Ha|].
  destruct (enumerate_history num check pton t ks skip Hnum Hp HK Hw Hso cs entries cs' HE l l0 HH HL) as (l' & es & H1 & H2 & H3 & H4 & H5 & H6). pose proof (C88_entries check pton t ks skip cs' l' _ entry HK Hw Hso H1 H2 He) as Hcs. apply H3 in Hcs as [Hcs Hnew]. split; [|split].
  - apply Forall_app. split; [exact H5|constructor; [exact Hcs|constructor]].
  - clear - H6 Hnew. induction H6 as [|x entries Hx HO IH]; cbn [app]; [repeat constructor|]. constructor; [|apply IH; intros y Hy; apply Hnew; now right]. apply Forall_app. split; [exact Hx|]. constructor; [apply Hnew; now left|constructor].
  - intros fields p Hsol. assert (fst (AddConstraintString check pton cs' text) = Ok false) as Hf by now rewrite Ha.
    destruct (C89_exhausted num check pton t ks skip cs l l0 entries cs' entry text Hnum Hp HK Hw Hso HH HL HE He Hex Hf fields p Hsol) as [H|Ho]; [left; exact H|right; exists entries, cs'; split; [exact HE|right; exists entry, text; auto]].
Qed.
Print Assumptions C89_loop.
(** The hypotheses hold of a solver that knows two models: the loop gives two entries, and the text that excludes the
    second one is refused. *)
Definition two_models (a b : model) : solver := fun l => match candidate a l with Some m => Some m | None => candidate b l end.
Lemma two_sound a b : well_sorted (complete a) -> well_sorted (complete b) -> sound_solver (two_models a b).
Proof. intros Ha Hb l m H. unfold two_models in H. destruct (candidate a l) eqn:E; [injection H as <-; exact (candidate_sound a Ha l _ E)|exact (candidate_sound b Hb l _ H)]. Qed.
Definition tw_model : model := listed [(("x", SBV 8), 4%Z); (("x_mask", SBV 8), 4%Z); (("priority", SInt), 9%Z)].
Definition tw_check : solver := two_models sh_model tw_model.
Definition tw_cs : constraint_solver := the (mkCS no_table (mkEnv [] []) never_skip []) (Create tw_check sh_table never_skip).
Definition tw_entry (n : nat) (p : Z) : p4_entry :=
  mkEntry 3 [mkFM 1 (FMTernary (String (ascii_of_nat n) "") (String (ascii_of_nat n) "")); mkFM 2 (FMExact (String (ascii_of_nat n) ""))] None p.
Definition tw_surface (n p : N) : surface :=
  SBin AND (SBin EQ (SAttr "priority") (SNum p))
    (SBin AND (SBin AND (field_is (SVar "x" []) "value" n) (field_is (SVar "x" []) "mask" n)) (SBin AND (field_is (SVar "x_mask" []) "value" n) (SBool true))).
Definition tw_text (n p : N) : string := text_of (print dec_N (SNot (tw_surface n p))).
Definition tw_cs1 : constraint_solver := snd (AddConstraintString tw_check pton1 tw_cs (tw_text 2 5)).
Lemma tw_created : Create tw_check sh_table never_skip = Ok tw_cs.
Proof. vm_compute. reflexivity. Qed.
Lemma tw_history : History tw_check pton1 sh_table never_skip tw_cs [sh_checked].
Proof. pose proof (hi_create tw_check pton1 sh_table never_skip tw_cs tw_created) as H. exact H. Qed.
Lemma tw_ident w : In w ["x"; "x_mask"; "value"; "mask"; "priority"] -> ident w.
Proof.
  intros H. assert (forall c, In c (list_ascii_of_string "abcdefghijklmnopqrstuvwxyz_") -> letter c) as HL.
  { intros c Hc. unfold letter, between. cbn in Hc. repeat destruct Hc as [<-|Hc]; try contradiction; first [left; reflexivity|right; left; split; discriminate]. }
  repeat destruct H as [<-|H]; try contradiction; (split; [|split; intros u; discriminate]); eexists _, _; (split; [reflexivity|]); (split; [apply HL; cbn; tauto|]); intros c Hc; left; apply HL; cbn in Hc |- *; tauto.
Qed.
Lemma sh_identifiers : identifiers al_keys.
Proof. intros k [<-|[<-|[]]]; [exists "x", []|exists "x_mask", []]; (split; [reflexivity|]); (constructor; [|constructor]); apply tw_ident; cbn; auto. Qed.
Lemma sh_prioritized : prioritized al_keys.
Proof. exists (mkKey 1 "x" (TTernary 8)), 8%Z. cbn. auto. Qed.
Lemma tw_printable n p : printable (tw_surface n p).
Proof.
  assert (forall op, In op [AND; EQ] -> exists a ch o, binary op a ch o) as HB by (intros op [<-|[<-|[]]]; do 3 eexists; constructor). pose proof tw_ident as HI.
  unfold tw_surface, field_is. cbn [printable]. repeat split; try exact I; try (apply HB; cbn; tauto); try (constructor; [|constructor]); try (apply HI; cbn; tauto).
Qed.
Lemma tw_describes n p : (n = 2 \/ n = 4)%nat -> describes al_keys (pe_match (tw_entry n (Z.of_N p))) (Z.of_N p) (tw_surface (N.of_nat n) p).
Proof.
  intros Hn. constructor. eapply (ds_key _ _ _ _ _ (VTernary (Z.of_N (N.of_nat n)) (Z.of_N (N.of_nat n)))); [split; [now left|now exists "x", []]| |constructor|].
  - apply (as_present _ _ (mkKey 1 "x" (TTernary 8)) (mkFM 1 (FMTernary (String (ascii_of_nat n) "") (String (ascii_of_nat n) "")))); cbn [In pe_match tw_entry]; auto; [now left|].
    apply (canonical_field (TTernary 8)); [|intros w Hw; inversion Hw; lia]. destruct Hn as [->| ->].
    + apply (ca_ternary 8 (String (ascii_of_nat 2) "") (String (ascii_of_nat 2) "")); [byte|byte|discriminate|apply masked_land; reflexivity].
    + apply (ca_ternary 8 (String (ascii_of_nat 4) "") (String (ascii_of_nat 4) "")); [byte|byte|discriminate|apply masked_land; reflexivity].
  - eapply (ds_key _ _ _ _ _ (VExact (Z.of_N (N.of_nat n)))); [split; [now right; left|now exists "x_mask", []]| |constructor|constructor].
    apply (as_present _ _ (mkKey 2 "x_mask" (TExact 8)) (mkFM 2 (FMExact (String (ascii_of_nat n) "")))); cbn [In pe_match tw_entry]; auto; [now right; left|].
    apply (canonical_field (TExact 8)); [|intros w Hw; inversion Hw; lia]. destruct Hn as [->| ->]; [apply (ca_exact 8 (String (ascii_of_nat 2) "")); byte|apply (ca_exact 8 (String (ascii_of_nat 4) "")); byte].
Qed.
Lemma tw_excluding n p : (n = 2 \/ n = 4)%nat -> excluding dec_N al_keys never_skip (tw_entry n (Z.of_N p)) (tw_text (N.of_nat n) p).
Proof. intros Hn. exists (tw_surface (N.of_nat n) p). split; [apply tw_printable|]. split; [left; split; [exact sh_prioritized|exact (tw_describes n p Hn)]|reflexivity]. Qed.
Example C89_case : (forall n, Decimal (dec_N n) n) /\ pton_ok pton1 /\ table_keys sh_table al_keys /\ int32_widths al_keys /\ sound_solver tw_check /\ identifiers (live_keys never_skip al_keys) /\
  History tw_check pton1 sh_table never_skip tw_cs [sh_checked] /\ written sh_table [sh_tree] [sh_checked] /\
  ConcretizeEntry tw_check tw_cs = Ok (tw_entry 2 5) /\ tw_text 2 5 = "( ! ( ( :: priority == 5 ) && ( ( ( ( x :: value ) == 2 ) && ( ( x :: mask ) == 2 ) ) && ( ( ( x_mask :: value ) == 2 ) && true ) ) ) ) " /\
  Enumerates dec_N tw_check pton1 al_keys never_skip tw_cs [tw_entry 2 5] tw_cs1 /\
  ConcretizeEntry tw_check tw_cs1 = Ok (tw_entry 4 9) /\ excluding dec_N al_keys never_skip (tw_entry 4 9) (tw_text 4 9) /\ fst (AddConstraintString tw_check pton1 tw_cs1 (tw_text 4 9)) = Ok false.
Proof.
  assert (ConcretizeEntry tw_check tw_cs = Ok (tw_entry 2 5)) as He by (vm_compute; reflexivity).
  assert (fst (AddConstraintString tw_check pton1 tw_cs (tw_text 2 5)) = Ok true) as Ha by (vm_compute; reflexivity).
  split; [exact dec_N_Decimal|]. split; [exact pton1_ok|]. split; [exact sh_table_keys|]. split; [exact sh_widths|]. split; [exact (two_sound _ _ (listed_sorted _) (listed_sorted _))|]. split; [exact sh_identifiers|].
  split; [exact tw_history|]. split; [exact sh_written|]. split; [exact He|]. split; [vm_compute; reflexivity|].
  split. { eapply (en_one _ _ _ _ _ _ _ (tw_text 2 5)); [exact He|exact (tw_excluding 2 5 (or_introl eq_refl))| |constructor]. rewrite <- Ha. unfold tw_cs1. apply surjective_pairing. }
  split; [vm_compute; reflexivity|]. split; [exact (tw_excluding 4 9 (or_intror eq_refl))|]. vm_compute. reflexivity.
Qed.
