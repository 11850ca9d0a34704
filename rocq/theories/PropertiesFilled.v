(** C101: putting known values into constraints. *)
From Coq Require Import String Ascii List ZArith NArith Bool Lia.
From Verif Require Import Base Num Token Ast Lexer Quote AstConstructors Parser Info TypeChecker ConstraintInfo Interpreter Z3 Symbolic SpecLexer SpecGrammar SpecParser SpecTyping SpecSemantics SpecInfo SpecMisc SpecLaws SpecSymbolic SpecSolver SpecReading SpecSession SpecShared SpecRewritten SpecFilled
  StrFacts NumFacts LiteralFacts ParserFacts4 TypeFacts EvalFacts SemFacts SemFacts2 EntryFacts EntryFacts2 InfoFacts InfoFacts2 InterpFacts InterpFacts2 LawFacts CombineFacts RetoldFacts LoadFacts RenameFacts SymFacts SymFacts2 SymKeys SymState SymMeaning SymComplete SymDemo ReadingFacts ReadingFacts2 ReadingFacts3 SolverLawFacts RewrittenFacts FilledFacts
  PropertiesParser PropertiesTypes PropertiesInfo PropertiesInterpreter PropertiesVerdict PropertiesEntries PropertiesExplain PropertiesSymbolic PropertiesReading PropertiesRobust PropertiesCrash PropertiesSession PropertiesRewrite PropertiesRewritten.
Import ListNotations.
Open Scope string_scope.

(** * The reading *)
Lemma any_comparison t o u v x : True -> (unordered_exact t o u v x <-> unordered_exact t o u v x).
Proof. tauto. Qed.
Lemma equal_comparison t o u v x : equality o -> (signed_order t o u v x <-> unordered_exact t o u v x).
Proof.
  intros Ho. assert (~ ordering o) as Hn by (intros H; destruct Ho; inversion H). unfold signed_order, unordered_exact. tauto.
Qed.
Lemma known_reading ks G r e f : NoDup (map k_name ks) -> G = key_scope ks \/ G = param_scope ks -> Known G r e f ->
  (forall t, Typed G e t -> Typed G f t) /\ forall v, Meant unordered_exact G r e v -> Meant unordered_exact G r f v.
Proof.
  intros HN HG HF. rewrite <- (scope_names ks) in HN. assert (exists ai ti, in_scope ai ti G) as (ai & ti & HG').
  { destruct HG as [->| ->]; [exact (ex_intro _ _ (ex_intro _ _ (scope_witness _ HN)))|].
    exact (ex_intro _ _ (ex_intro _ _ (is_action (mkAction 0 "" None default_csource [] (map (fun k => (k_name k, k)) ks)) HN))). }
  split; [exact (filled_typed ai ti G HG' _ _ r unordered_fun e f HF)|exact (filled_meant ai ti G HG' _ _ r unordered_fun any_comparison e f HF)].
Qed.
(** What was well-typed still is, and has the type it had; what the checker made of it, it still does. *)
Theorem C101_reading : forall ks G r e f, NoDup (map k_name ks) -> G = key_scope ks \/ G = param_scope ks -> Known G r e f ->
  (forall t, Typed G e t -> Typed G f t) /\ forall v, Meant unordered_exact G r e v -> Meant unordered_exact G r f v.
Proof. exact known_reading. Qed.
Print Assumptions C101_reading.

(** * Checking *)
Lemma known_free pton ck G given pre pre' : known_restriction pton ck G given pre pre' -> unrestricted ck pre -> unrestricted ck pre'.
Proof. intros [_ Hu'|? ? ? ? Hr1 _] Hu; [exact Hu'|exfalso; exact (restricted_not _ _ _ Hu Hr1)]. Qed.
Lemma known_read pton ck G given pre pre' cs e : pton_ok pton -> known_restriction pton ck G given pre pre' -> restricted ck pre cs -> reads_as pton ck cs e ->
  exists cs' e', restricted ck pre' cs' /\ reads_as pton ck cs' e' /\ forall r, given r -> Known G r e e'.
Proof.
  intros Hp [Hu _|cs1 cs' e1 e' Hr1 Hr' Hra1 Hra' HL] Hr Hra; [exfalso; exact (restricted_not _ _ _ Hu Hr)|]. rewrite (restricted_fun _ _ _ _ Hr1 Hr) in Hra1. rewrite (reads_as_fun _ _ _ _ _ Hp Hra1 Hra) in HL. eauto.
Qed.
Lemma known_table_says pton p ci d d' entry x : pton_ok pton -> P4ToConstraintInfo pton p = Ok ci -> In d (p4_tables p) -> known_table pton entry d d' -> table_id d = pe_table_id entry ->
  table_says pton d entry x -> table_says pton d' entry x.
Proof.
  intros Hp Hci Hd (_ & Ef & HR) Hid (ks & cs & e & key & Hks & Hr & Hra & Hco & Hkey & Hty & HM).
  destruct (known_read _ _ _ _ _ _ _ _ Hp (HR ks Hks Hid) Hr Hra) as (cs' & e' & H1 & H2 & H3). destruct (table_names _ _ _ _ Hp Hci Hd) as [_ N2]. destruct (key_ids _ _ Hks) as [_ K2]. rewrite <- K2 in N2.
  destruct (known_reading ks _ _ _ _ N2 (or_introl eq_refl) (H3 _ (ex_intro _ key (conj eq_refl Hkey)))) as [L1 L2].
  exists ks, cs', e', key. rewrite <- Ef. split; [exact Hks|]. split; [exact H1|]. split; [exact H2|]. split; [exact Hco|]. split; [exact Hkey|]. split; [exact (L1 _ Hty)|exact (L2 _ HM)].
Qed.
Lemma known_action_says pton p ci d d' l a x : pton_ok pton -> P4ToConstraintInfo pton p = Ok ci -> In d (p4_actions p) -> known_action pton l d d' -> In a l -> action_id d = pa_id a ->
  action_says pton d a x -> action_says pton d' a x.
Proof.
  intros Hp Hci Hd (_ & Ef & HR) Ha Hid (ks & cs & e & key & Hks & Hr & Hra & Hco & Hkey & Hty & HM).
  destruct (known_read _ _ _ _ _ _ _ _ Hp (HR ks a Hks Ha Hid) Hr Hra) as (cs' & e' & H1 & H2 & H3). destruct (action_names _ _ _ _ Hp Hci Hd) as [_ N2]. destruct (param_ids _ _ Hks) as [_ K2]. rewrite <- K2 in N2.
  destruct (known_reading ks _ _ _ _ N2 (or_intror eq_refl) (H3 _ (ex_intro _ key (conj eq_refl Hkey)))) as [L1 L2].
  exists ks, cs', e', key. rewrite <- Ef. split; [exact Hks|]. split; [exact H1|]. split; [exact H2|]. split; [exact Hco|]. split; [exact Hkey|]. split; [exact (L1 _ Hty)|exact (L2 _ HM)].
Qed.
Lemma known_table_allows pton p ci d d' entry : pton_ok pton -> P4ToConstraintInfo pton p = Ok ci -> In d (p4_tables p) -> known_table pton entry d d' -> table_id d = pe_table_id entry ->
  table_allows pton d entry -> table_allows pton d' entry.
Proof.
  intros Hp Hci Hd HT Hid [Hu|Hs]; [|right; exact (known_table_says pton p ci d d' entry true Hp Hci Hd HT Hid Hs)]. left.
  destruct (proj1 (C37_loads_iff pton p Hp) (ex_intro _ ci Hci)) as (_ & _ & H3 & _). destruct (H3 d Hd) as (ks & Hks & _). destruct HT as (_ & _ & HR). exact (known_free _ _ _ _ _ _ (HR ks Hks Hid) Hu).
Qed.
Lemma known_action_allows pton p ci d d' l a : pton_ok pton -> P4ToConstraintInfo pton p = Ok ci -> In d (p4_actions p) -> known_action pton l d d' -> In a l -> action_id d = pa_id a ->
  action_allows pton d a -> action_allows pton d' a.
Proof.
  intros Hp Hci Hd HT Ha Hid [Hu|Hs]; [|right; exact (known_action_says pton p ci d d' l a true Hp Hci Hd HT Ha Hid Hs)]. left.
  destruct (proj1 (C37_loads_iff pton p Hp) (ex_intro _ ci Hci)) as (_ & _ & _ & H3). destruct (H3 d Hd) as (ks & Hks & _). destruct HT as (_ & _ & HR). exact (known_free _ _ _ _ _ _ (HR ks a Hks Ha Hid) Hu).
Qed.
(** An entry that is accepted stays accepted when known values are put into the constraints. *)
Theorem C101_accepts : forall pton p p' ci ci' entry, pton_ok pton -> known pton entry (actions_of entry) p p' -> P4ToConstraintInfo pton p = Ok ci -> P4ToConstraintInfo pton p' = Ok ci' ->
  ReasonEntryViolatesConstraint entry ci = Ok "" -> ReasonEntryViolatesConstraint entry ci' = Ok "".
Proof.
  intros pton p p' ci ci' entry Hp [HT HA] H H' Hr. apply (C58_accepted_iff pton p ci _ Hp H) in Hr as ((d & Hd & Hid & Hal) & Hdir & Ha). apply (C58_accepted_iff pton p' ci' _ Hp H'). split; [|split; [exact Hdir|]].
  - destruct (f2_left _ _ _ _ HT Hd) as (d' & Hd' & HR). exists d'. split; [exact Hd'|]. split; [unfold table_id in *; destruct HR as (E & _); congruence|].
    exact (known_table_allows pton p ci d d' entry Hp H Hd HR Hid Hal).
  - intros a Hi. destruct (Ha a Hi) as (da & Hda & Hida & Hala). destruct (f2_left _ _ _ _ HA Hda) as (d' & Hd' & HR). exists d'. split; [exact Hd'|]. split; [unfold action_id in *; destruct HR as (E & _); congruence|].
    exact (known_action_allows pton p ci da d' _ a Hp H Hda HR Hi Hida Hala).
Qed.
Print Assumptions C101_accepts.
(** One that violates a constraint stays unaccepted. *)
Theorem C101_violates : forall pton p p' ci ci' entry text, pton_ok pton -> known pton entry (actions_of entry) p p' -> P4ToConstraintInfo pton p = Ok ci -> P4ToConstraintInfo pton p' = Ok ci' ->
  text <> "" -> ReasonEntryViolatesConstraint entry ci = Ok text -> ReasonEntryViolatesConstraint entry ci' <> Ok "".
Proof.
  intros pton p p' ci ci' entry text Hp [HT HA] H H' Hne Hr Hr'. apply (C58_accepted_iff pton p' ci' _ Hp H') in Hr' as ((d2 & Hd2 & Hid2 & Hal) & _ & Ha).
  destruct (proj1 (C37_loads_iff pton p' Hp) (ex_intro _ ci' H')) as (N1 & N2 & _). destruct (C58_one_answer pton p' ci' Hp H') as [O1 O2].
  destruct (C58_rejected pton p ci entry text Hp H Hne Hr) as (d & Hd & Hid & [Hs|(_ & pre & a & post & da & Hpost & _ & Hda & Hida & Hs)]).
  - destruct (f2_left _ _ _ _ HT Hd) as (d' & Hd' & HR). assert (d2 = d') as -> by (refine (nodup_keys table_id (p4_tables p') _ _ N1 Hd2 Hd' _); unfold table_id in *; destruct HR as (E & _); congruence).
    pose proof (known_table_says pton p ci d d' entry false Hp H Hd HR Hid Hs) as Hs'. destruct Hal as [Hu|Hal]; [|discriminate (O1 d' entry true false Hd' Hal Hs')]. destruct Hs' as (? & cs & ? & ? & _ & Hre & _). exact (restricted_not _ _ _ Hu Hre).
  - assert (In a (actions_of entry)) as Hi by (rewrite Hpost; apply in_elt). destruct (Ha a Hi) as (d3 & Hd3 & Hid3 & Hal3).
    destruct (f2_left _ _ _ _ HA Hda) as (d' & Hd' & HR). assert (d3 = d') as -> by (refine (nodup_keys action_id (p4_actions p') _ _ N2 Hd3 Hd' _); unfold action_id in *; destruct HR as (E & _); congruence).
    pose proof (known_action_says pton p ci da d' _ a false Hp H Hda HR Hi Hida Hs) as Hs'. destruct Hal3 as [Hu|Hal3]; [|discriminate (O2 d' a true false Hd' Hal3 Hs')]. destruct Hs' as (? & cs & ? & ? & _ & Hre & _). exact (restricted_not _ _ _ Hu Hre).
Qed.
Print Assumptions C101_violates.

(** * Solving *)
(** After constraints that settle the values put in, a constraint and its variant have the same solutions. *)
Theorem C101_solutions : forall t ks skip l e f fields p, table_keys t ks -> int32_widths ks -> (forall k, In k ks -> k_type k <> TNotSet) -> solvable t ks skip e -> settles t ks skip l e f ->
  (solution t ks skip (l ++ [e]) fields p <-> solution t ks skip (l ++ [f]) fields p).
Proof.
  intros t ks skip l e f fields p HK Hw Hset Hsv HS. pose proof (table_in_scope t ks HK) as HG.
  split; intros (H1 & H2 & key & H3 & H4); (split; [exact H1|]); (split; [exact H2|]); exists key; (split; [exact H3|]); apply Forall_app in H4 as [H4 H5]; (apply Forall_app; split; [exact H4|]); inversion H5 as [|? ? H6 _]; subst; (constructor; [|constructor]);
    pose proof (filled_meant None (Some t) _ HG _ _ _ signed_fun equal_comparison _ _ (HS fields p key H1 H2 H3 H4)) as HF; [exact (HF _ H6)|].
  destruct Hsv as (Ty & Li & Me & _). destruct (full_env t ks skip HK Hw Hset fields key p H1 H3) as (key' & Hf & Hag).
  destruct (reading_bool _ (tk_by_name_unique t ks HK) _ Hf e Ty Li) as [x Hx].
  apply (meant_agree _ _ key' key p) in Hx; [|intros n Hn; destruct (Me n Hn) as (k & Hk & <-); symmetry; auto]. pose proof (meant_fun None (Some t) _ HG _ signed_fun _ _ _ _ (HF _ Hx) H6) as E. injection E as ->. exact Hx.
Qed.
Print Assumptions C101_solutions.
(** And unless Z3 overlooks a model they are answered alike. *)
Theorem C101_answers : forall check pton t ks skip cs l l0 a b e f, pton_ok pton -> table_keys t ks -> int32_widths ks -> (forall k, In k ks -> k_type k <> TNotSet) -> sound_solver check ->
  History check pton t skip cs l -> written t l0 l -> usable pton t ks skip a e -> usable pton t ks skip b f -> settles t ks skip l0 e f -> ~ overlooks check pton cs a -> ~ overlooks check pton cs b ->
  exists x cs1 cs2, AddConstraintString check pton cs a = (Ok x, cs1) /\ AddConstraintString check pton cs b = (Ok x, cs2).
Proof.
  intros check pton t ks skip cs l l0 a b e f Hp HK Hw Hset Hso HH HL HU HU' HS No No'.
  assert ((exists fields p, coherent_solution t ks skip (l0 ++ [e]) fields p) <-> (exists fields p, coherent_solution t ks skip (l0 ++ [f]) fields p)) as HE.
  { split; intros (fields & p & Hs & Hc); exists fields, p; (split; [|exact Hc]); apply (C101_solutions t ks skip l0 e f fields p HK Hw Hset (proj2 HU) HS); exact Hs. }
  destruct (step check pton t ks skip Hp HK Hw Hso cs l l0 a e HH HL HU) as [Ho|(x & cs1 & E1 & H1)]; [contradiction|]. destruct (step check pton t ks skip Hp HK Hw Hso cs l l0 b f HH HL HU') as [Ho|(y & cs2 & E2 & H2)]; [contradiction|].
  exists x, cs1, cs2. split; [exact E1|]. enough (x = y) as -> by exact E2. destruct x, y; try reflexivity; exfalso.
  - destruct H1 as (_ & _ & _ & H1). destruct H2 as [_ H2]. exact (No' (H2 (proj1 HE H1))).
  - destruct H2 as (_ & _ & _ & H2). destruct H1 as [_ H1]. exact (No (H1 (proj2 HE H2))).
Qed.
Print Assumptions C101_answers.

(** * Case *)
(** The entry has priority 1, value 20 and the arguments 6 and 0. *)
Definition fi_text1 : string := "::priority > 0 -> k::value <= 200".
Definition fi_text2 : string := "1 > 0 -> 20 <= 200".
Definition fi_act1 : string := "p < 7 && q != p".
Definition fi_act2 : string := "6 < 7 && q != 6".
Definition fi_t1 : expr := Eval vm_compute in the wr_hole (ParseConstraint pton1 kTableConstraint (wr_cs fi_text1)).
Definition fi_t2 : expr := Eval vm_compute in the wr_hole (ParseConstraint pton1 kTableConstraint (wr_cs fi_text2)).
Definition fi_a1 : expr := Eval vm_compute in the wr_hole (ParseConstraint pton1 kActionConstraint (wr_ca fi_act1)).
Definition fi_a2 : expr := Eval vm_compute in the wr_hole (ParseConstraint pton1 kActionConstraint (wr_ca fi_act2)).
Lemma fi_parsed : ParseConstraint pton1 kTableConstraint (wr_cs fi_text1) = Ok fi_t1 /\ ParseConstraint pton1 kTableConstraint (wr_cs fi_text2) = Ok fi_t2 /\
  ParseConstraint pton1 kActionConstraint (wr_ca fi_act1) = Ok fi_a1 /\ ParseConstraint pton1 kActionConstraint (wr_ca fi_act2) = Ok fi_a2.
Proof. repeat split; vm_compute; reflexivity. Qed.
Definition fi_entry (q : string) : p4_entry := wr_entry (wr_byte 20) (wr_byte 255) (wr_byte 6) q.
Ltac numeral n := first [apply (nm_int _ _ n); apply dec_Decimal; vm_compute; reflexivity].
Ltac decl := eexists; split; [cbn; eauto|reflexivity].
Lemma fi_table key p : key "k" = Some (VTernary 20 255) -> p = 1%Z -> Known (key_scope wr_ks) (TableEnv key p) fi_t1 fi_t2.
Proof.
  intros Hk ->. unfold fi_t1, fi_t2. apply fl_bin.
  - apply fl_bin; [|apply fl_alike; constructor]. eapply fl_int; [constructor|econstructor; reflexivity|]. numeral 1%N.
  - match goal with |- Filled _ _ _ _ (EBin ?m ?o ?a ?b) (EBin ?m' ?o ?a' ?b') => apply fl_trans with (EBin m o a' b); [|apply fl_alike; repeat constructor] end.
    apply (fl_left _ _ _ _ _ _ _ _ _ _ 8 20); [exact I|right; constructor| |numeral 20%N|].
    + apply fx_bit; [|eapply mn_field; [eapply mn_key; [reflexivity|exact Hk]|constructor]|lia]. eapply T_field; [eapply T_key; [reflexivity|decl|split; [discriminate|intros ?; discriminate]]|constructor].
    + intros _. exists 200%Z. split; [|lia]. apply (mn_int _ _ _ _ _ 200%N). apply dec_Decimal. vm_compute. reflexivity.
Qed.
Lemma fi_action param : param "p" = Some 6%Z -> Known (param_scope wr_ps) (ActionEnv param) fi_a1 fi_a2.
Proof.
  intros Hk. unfold fi_a1, fi_a2.
  assert (forall m, Fixed unordered_exact (param_scope wr_ps) (ActionEnv param) 8 (EParam m "p") 6) as HF.
  { intros m. apply fx_bit; [|eapply mn_param; [reflexivity|exact Hk]|lia]. eapply T_param; [reflexivity|decl|split; [discriminate|intros ?; discriminate]]. }
  apply fl_bin.
  - match goal with |- Filled _ _ _ _ (EBin ?m ?o ?a ?b) (EBin ?m' ?o ?a' ?b') => apply fl_trans with (EBin m o a' b); [|apply fl_alike; repeat constructor] end.
    apply (fl_left _ _ _ _ _ _ _ _ _ _ 8 6); [exact I|right; constructor|apply HF|numeral 6%N|].
    intros _. exists 7%Z. split; [|lia]. apply (mn_int _ _ _ _ _ 7%N). apply dec_Decimal. vm_compute. reflexivity.
  - match goal with |- Filled _ _ _ _ (EBin ?m ?o ?a ?b) (EBin ?m' ?o ?a' ?b') => apply fl_trans with (EBin m o a b') end.
    + apply (fl_right _ _ _ _ _ _ _ _ _ _ 8 6); [exact I|left; constructor|apply HF|numeral 6%N|].
      intros Ht. exfalso. inversion Ht as [| | |ps ? ? ? EG Hd Hu| | | | | | |]; subst. injection EG as <-. destruct Hd as (k & Hk' & E). cbn in Hk'. destruct Hk' as [Hk'|[Hk'|[]]]; [discriminate Hk'|]. injection Hk' as <-. discriminate E.
    + apply fl_alike. repeat constructor.
Qed.
Lemma fi_known q : known pton1 (fi_entry q) (actions_of (fi_entry q)) (wr_info fi_text1 fi_act1) (wr_info fi_text2 fi_act2).
Proof.
  destruct fi_parsed as (P1 & P2 & P3 & P4). destruct wr_decls as [D1 D2]. split; (constructor; [|constructor]); (split; [reflexivity|]); (split; [reflexivity|]).
  - intros ks Hks _. rewrite (forall2_fun _ key_decl_fun _ _ _ Hks D1).
    apply (kr_some _ _ _ _ _ _ (wr_cs fi_text1) (wr_cs fi_text2) fi_t1 fi_t2); [apply extract_some; vm_compute; reflexivity|apply extract_some; vm_compute; reflexivity|exact (proj1 (text_iff pton1 pton1_ok _ _ _) P1)|exact (proj1 (text_iff pton1 pton1_ok _ _ _) P2)|].
    intros r (key & -> & Hkey). apply fi_table; [|reflexivity]. apply Hkey. apply (as_present _ _ (mkKey 1 "k" (TTernary 8)) (mkFM 1 (FMTernary (wr_byte 20) (wr_byte 255)))); [now left|now left|reflexivity|].
    exact (fv_ternary 8 (wr_byte 20) (wr_byte 255)).
  - intros ps a Hps Ha _. rewrite (forall2_fun _ param_decl_fun _ _ _ Hps D2).
    apply (kr_some _ _ _ _ _ _ (wr_ca fi_act1) (wr_ca fi_act2) fi_a1 fi_a2); [apply extract_some; vm_compute; reflexivity|apply extract_some; vm_compute; reflexivity|exact (proj1 (text_iff pton1 pton1_ok _ _ _) P3)|exact (proj1 (text_iff pton1 pton1_ok _ _ _) P4)|].
    intros r (param & -> & Hkey). apply fi_action. apply Hkey. destruct Ha as [<-|[]]. exists (mkKey 1 "p" (TBit 8)), (wr_byte 6). split; [now left|]. split; [now left|]. split; reflexivity.
Qed.
Definition fi_ci1 : constraint_info := Eval vm_compute in the (mkInfo [] []) (P4ToConstraintInfo pton1 (wr_info fi_text1 fi_act1)).
Definition fi_ci2 : constraint_info := Eval vm_compute in the (mkInfo [] []) (P4ToConstraintInfo pton1 (wr_info fi_text2 fi_act2)).
(** With the second argument 0 the entry is accepted by both programs; with 6 it violates both. *)
Example C101_case : (forall q, known pton1 (fi_entry q) (actions_of (fi_entry q)) (wr_info fi_text1 fi_act1) (wr_info fi_text2 fi_act2)) /\
  P4ToConstraintInfo pton1 (wr_info fi_text1 fi_act1) = Ok fi_ci1 /\ P4ToConstraintInfo pton1 (wr_info fi_text2 fi_act2) = Ok fi_ci2 /\
  ReasonEntryViolatesConstraint (fi_entry (wr_byte 0)) fi_ci1 = Ok "" /\ ReasonEntryViolatesConstraint (fi_entry (wr_byte 0)) fi_ci2 = Ok "" /\
  (exists x y, x <> "" /\ y <> "" /\ ReasonEntryViolatesConstraint (fi_entry (wr_byte 6)) fi_ci1 = Ok x /\ ReasonEntryViolatesConstraint (fi_entry (wr_byte 6)) fi_ci2 = Ok y).
Proof.
  split; [exact fi_known|]. do 4 (split; [vm_compute; reflexivity|]).
  exists (the "" (ReasonEntryViolatesConstraint (fi_entry (wr_byte 6)) fi_ci1)), (the "" (ReasonEntryViolatesConstraint (fi_entry (wr_byte 6)) fi_ci2)). repeat split; vm_compute; try discriminate; reflexivity.
Qed.
(** The other side of the comparison has to fit the width: 300 means 44 for a key of 8 bits, but not beside a literal. *)
Definition fi_ci3 : constraint_info := Eval vm_compute in the (mkInfo [] []) (P4ToConstraintInfo pton1 (wr_info "k::value == 300" fi_act1)).
Definition fi_ci4 : constraint_info := Eval vm_compute in the (mkInfo [] []) (P4ToConstraintInfo pton1 (wr_info "44 == 300" fi_act1)).
Example C101_wraps : let entry := wr_entry (wr_byte 44) (wr_byte 255) (wr_byte 6) (wr_byte 0) in
  P4ToConstraintInfo pton1 (wr_info "k::value == 300" fi_act1) = Ok fi_ci3 /\ P4ToConstraintInfo pton1 (wr_info "44 == 300" fi_act1) = Ok fi_ci4 /\
  ReasonEntryViolatesConstraint entry fi_ci3 = Ok "" /\ ReasonEntryViolatesConstraint entry fi_ci4 <> Ok "".
Proof. cbv zeta. do 3 (split; [vm_compute; reflexivity|]). vm_compute. discriminate. Qed.

(** In a solver: once the priority is 12 it can be put into other constraints. *)
Definition fs_first : string := "::priority == 12".
Definition fs_text1 : string := "::priority > 3 && t::value == 258".
Definition fs_text2 : string := "12 > 3 && t::value == 258".
Definition fs_first_tree : expr := Eval vm_compute in the no_expr (ParseConstraint pton1 kTableConstraint (text_source sy_table fs_first)).
Definition fs_first_checked : expr := Eval vm_compute in the no_expr (InferTable fs_first_tree sy_table).
Definition fs_tree1 : expr := Eval vm_compute in the no_expr (ParseConstraint pton1 kTableConstraint (text_source sy_table fs_text1)).
Definition fs_tree2 : expr := Eval vm_compute in the no_expr (ParseConstraint pton1 kTableConstraint (text_source sy_table fs_text2)).
Definition fs_cs : constraint_solver := snd (AddConstraintString sy_check pton1 sy_cs fs_first).
Lemma fs_parsed : ParseConstraint pton1 kTableConstraint (text_source sy_table fs_first) = Ok fs_first_tree /\ InferTable fs_first_tree sy_table = Ok fs_first_checked /\
  ParseConstraint pton1 kTableConstraint (text_source sy_table fs_text1) = Ok fs_tree1 /\ ParseConstraint pton1 kTableConstraint (text_source sy_table fs_text2) = Ok fs_tree2.
Proof. repeat split; vm_compute; reflexivity. Qed.
Lemma fs_history : History sy_check pton1 sy_table sy_skip fs_cs [sy_checked; fs_first_checked] /\ written sy_table [sy_tree; fs_first_tree] [sy_checked; fs_first_checked].
Proof.
  destruct fs_parsed as (P1 & P2 & _). split.
  - change [sy_checked; fs_first_checked] with ([sy_checked] ++ [fs_first_checked])%list. apply (hi_added_text _ _ _ _ sy_cs [sy_checked] fs_first fs_first_tree); [exact (hi_create sy_check pton1 sy_table sy_skip sy_cs sy_created)|vm_compute; reflexivity|exact P1|exact P2].
  - constructor; [exact (conj (proj1 sy_inferred) (proj1 sy_literals))|]. constructor; [|constructor]. split; [exact P2|exact (parse_literals _ _ _ _ pton1_ok P1)].
Qed.
Lemma fs_usable : usable pton1 sy_table sy_keys sy_skip fs_text1 fs_tree1 /\ usable pton1 sy_table sy_keys sy_skip fs_text2 fs_tree2.
Proof.
  destruct fs_parsed as (_ & _ & P1 & P2).
  split; (eapply se_solvable; [eassumption|vm_compute; reflexivity|reflexivity|]); intros n Hn; repeat match goal with H : mentions _ _ |- _ => inversion H; clear H; subst end; cbn; eauto 10.
Qed.
Lemma fs_settles : settles sy_table sy_keys sy_skip [sy_tree; fs_first_tree] fs_tree1 fs_tree2.
Proof.
  intros fields p key _ _ _ HF. inversion HF as [|? ? _ HF2]; subst. inversion HF2 as [|? ? HP _]; subst.
  assert (p = 12%Z) as ->.
  { unfold fs_first_tree in HP. inversion HP as [| | | | | | |? ? ? ? ? ? Hc|? ? ? ? ? ? Hc|? ? ? ? ta tb t u v u' v' ? _ Ta Tb Hco H1 H2 C1 C2 Hx|]; subst; try (inversion Hc; fail).
    inversion Ta; subst. inversion Tb; subst. assert (common TInt TInt TInt) as Hi by (apply lub_iff; reflexivity). pose proof (common_fun _ _ _ _ Hco Hi) as ->.
    inversion H1 as [| | | |? ? ? E| | | | | |]; subst. injection E as -> ->. inversion H2 as [|? ? n Hn| | | | | | | | |]; subst. assert (n = 12%N) as -> by (destruct Hn as [Hn _]; refine (Reads_fun _ _ _ _ Hn _); assert (Decimal "12" 12) as [H _] by (apply dec_Decimal; vm_compute; reflexivity); exact H).
    rewrite (converts_fun _ _ _ _ _ C1 (cv_same _ _)), (converts_fun _ _ _ _ _ C2 (cv_same _ _)) in Hx. destruct Hx as [[_ [_ Hx]]|[Ho _]]; [|inversion Ho]. pose proof (proj1 Hx eq_refl) as HC. inversion HC; subst. reflexivity. }
  unfold fs_tree1, fs_tree2. apply fl_bin; [|apply fl_alike; repeat constructor]. apply fl_bin; [|apply fl_alike; constructor]. eapply fl_int; [constructor|econstructor; reflexivity|]. numeral 12%N.
Qed.
Example C101_solver_case : (forall k, In k sy_keys -> k_type k <> TNotSet) /\ History sy_check pton1 sy_table sy_skip fs_cs [sy_checked; fs_first_checked] /\ written sy_table [sy_tree; fs_first_tree] [sy_checked; fs_first_checked] /\
  usable pton1 sy_table sy_keys sy_skip fs_text1 fs_tree1 /\ usable pton1 sy_table sy_keys sy_skip fs_text2 fs_tree2 /\ settles sy_table sy_keys sy_skip [sy_tree; fs_first_tree] fs_tree1 fs_tree2 /\
  fst (AddConstraintString sy_check pton1 fs_cs fs_text1) = Ok true /\ fst (AddConstraintString sy_check pton1 fs_cs fs_text2) = Ok true.
Proof.
  split; [intros k Hk; repeat (destruct Hk as [<-|Hk]; [discriminate|]); destruct Hk|]. split; [apply fs_history|]. split; [apply fs_history|]. split; [apply fs_usable|]. split; [apply fs_usable|]. split; [exact fs_settles|]. split; vm_compute; reflexivity.
Qed.
(** Not in the solver's ordered comparisons of fixed width: there 40000 is negative, but not beside a literal. *)
Definition fs_order1 : expr := Eval vm_compute in the no_expr (ParseConstraint pton1 kTableConstraint (text_source sy_table "t::value < 40000")).
Definition fs_order2 : expr := Eval vm_compute in the no_expr (ParseConstraint pton1 kTableConstraint (text_source sy_table "258 < 40000")).
Example C101_signed : forall key p x, key "t" = Some (VTernary 258 x) ->
  let reads e b := Meant signed_order (InTable (ti_keys_by_name sy_table)) (TableEnv key p) e (VBool b) in reads fs_order1 false /\ reads fs_order2 true.
Proof.
  intros key p x Hk reads. assert (Decimal "40000" 40000) as H4 by (apply dec_Decimal; vm_compute; reflexivity). assert (Decimal "258" 258) as H2 by (apply dec_Decimal; vm_compute; reflexivity). split.
  - unfold reads, fs_order1. eapply (mn_compare _ _ _ _ _ _ _ (TBit 16) TInt (TBit 16) (VInt 258) (VInt 40000)); [right; constructor| |constructor|apply lub_iff; reflexivity| |exact (mn_int _ _ _ _ _ 40000%N H4)|apply cv_same|apply (cv_int 16); lia|].
    + eapply T_field; [eapply T_key; [reflexivity|eexists; split; [cbn; eauto 10|reflexivity]|split; [discriminate|intros ?; discriminate]]|constructor].
    + eapply mn_field; [eapply mn_key; [reflexivity|exact Hk]|constructor].
    + right. split; [constructor|]. change (40000 mod 2 ^ 16)%Z with 40000%Z. cbn [twos_complement]. change (40000 <? 2 ^ (16 - 1))%Z with false. change (258 <? 2 ^ (16 - 1))%Z with true. cbn iota. split; [right; split; [constructor|split; eexists; constructor]|].
      split; [discriminate|]. intros H. inversion H as [| |? ? a b Ha Hb L| | |]; subst. inversion Ha; inversion Hb; subst. vm_compute in L. discriminate L.
  - unfold reads, fs_order2. eapply (mn_compare _ _ _ _ _ _ _ TInt TInt TInt (VInt 258) (VInt 40000)); [right; constructor|constructor|constructor|apply lub_iff; reflexivity|exact (mn_int _ _ _ _ _ 258%N H2)|exact (mn_int _ _ _ _ _ 40000%N H4)|apply cv_same|apply cv_same|].
    right. split; [constructor|]. split; [right; split; [constructor|split; eexists; constructor]|]. split; [intros _|reflexivity]. econstructor; [constructor|constructor|reflexivity].
Qed.
