(** C88: what the solver decides for tables whose key names share variables. *)
From Coq Require Import String Ascii List ZArith NArith Bool Lia Permutation.
From Verif Require Import Base Num Token Ast Lexer Quote AstConstructors Parser Info TypeChecker ConstraintInfo Interpreter Z3 Symbolic SpecLexer SpecGrammar SpecParser SpecTyping SpecSemantics SpecInfo SpecExplain SpecSymbolic SpecSolver SpecReading SpecShared SpecSession SpecMissed
  StrFacts NumFacts LiteralFacts ParserFacts4 TypeFacts EvalFacts SemFacts SemFacts2 EntryFacts EntryFacts2 ExplainFacts VerdictFacts InfoFacts InfoFacts2 InterpFacts InterpFacts2 SymFacts SymFacts2 SymKeys SymState SymMeaning SymComplete SymDemo ReadingFacts ReadingFacts2 ReadingFacts3 LoadFacts
  PropertiesParser PropertiesTypes PropertiesInfo PropertiesInterpreter PropertiesVerdict PropertiesExplain PropertiesEntries PropertiesSymbolic PropertiesReading SharedFacts SharedFacts2.
Import ListNotations.
Open Scope string_scope.

(** * C88 *)
(** AddConstraint answers true iff some coherent entry satisfies all constraints, unless Z3 misses a model of what it is asked. *)
Theorem C88_add : forall check pton t ks skip cs l l0 e0 e src, table_keys t ks -> int32_widths ks -> sound_solver check ->
  History check pton t skip cs l -> written t l0 l -> InferTable e0 t = Ok e -> solvable t ks skip e0 ->
  let soluble := exists fields p, coherent_solution t ks skip (l0 ++ [e0]) fields p in
  misses check (assertions (cs_stack cs)) \/ exists b cs', AddConstraint check cs e src = (Ok b, cs') /\ (b = true -> soluble) /\ (soluble -> b = true \/ misses_adding check cs e src).
Proof.
  intros check pton t ks skip cs l l0 e0 e src HK Hw Hso HH HL Hi Hsv soluble. destruct (history_holds t ks HK skip check pton cs l HH) as (base & us & Hs). pose proof (h_built _ _ _ _ _ _ _ _ Hs) as HB.
  destruct (solvable_encodes _ _ _ _ _ _ _ src HK HB Hsv Hi) as (_ & u & Hu & Hbo). pose proof (C45_always_satisfiable _ _ _ _ _ _ _ HK Hso HH) as Hsat. pose proof (h_assertions _ _ _ _ _ _ _ _ Hs) as EA.
  assert (written t (l0 ++ [e0]) (l ++ [e])) as HL' by (apply Forall2_app; [exact HL|constructor; [split; [exact Hi|apply Hsv]|constructor]]).
  assert (Forall2 (encodes (cs_env cs)) (l ++ [e]) (us ++ [u])) as HE by (apply Forall2_app; [exact (h_encoded _ _ _ _ _ _ _ _ Hs)|constructor; [now exists src|constructor]]).
  destruct (check (assertions (cs_stack cs))) as [mo0|] eqn:E1; [|left; split; auto]. right. assert (check (assertions (cs_stack cs)) <> None) as E1' by congruence.
  destruct (check (assertions (cs_stack cs) ++ [u])%list) as [mo|] eqn:E2.
  - exists true. eexists. split; [apply (add_true check cs e src u); [auto|exact Hu|exact Hbo|congruence]|]. split; [intros _|auto].
    apply (sat_coherent t ks skip HK Hw (cs_env cs) base HB (l0 ++ [e0]) (l ++ [e]) (us ++ [u])%list HL' HE). rewrite app_assoc, <- EA. exists (complete mo). exact (Hso _ _ E2).
  - exists false. eexists. split; [apply (add_false check cs e src u); [auto|exact Hu|exact Hbo|exact E2]|]. split; [discriminate|]. intros (fields & p & H). right.
    right. exists u. split; [exact Hu|]. split; [|exact E2]. rewrite EA, <- app_assoc. exact (coherent_sat t ks skip HK Hw (cs_env cs) base HB _ _ _ _ _ HL' HE H).
Qed.
Print Assumptions C88_add.
(** The same for constraints given as text. *)
Theorem C88_add_text : forall check pton t ks skip cs l l0 text e0, pton_ok pton -> table_keys t ks -> int32_widths ks -> sound_solver check ->
  History check pton t skip cs l -> written t l0 l -> reads_as pton kTableConstraint (text_source t text) e0 -> solvable t ks skip e0 ->
  let soluble := exists fields p, coherent_solution t ks skip (l0 ++ [e0]) fields p in
  overlooks check pton cs text \/ exists b cs', AddConstraintString check pton cs text = (Ok b, cs') /\ (b = true -> soluble) /\ (soluble -> b = true \/ overlooks check pton cs text).
Proof.
  intros check pton t ks skip cs l l0 text e0 Hp HK Hw Hso HH HL Hr Hsv soluble. apply (text_iff pton Hp) in Hr. destruct (history_holds t ks HK skip check pton cs l HH) as (base & us & Hs). pose proof (h_table _ _ _ _ _ _ _ _ Hs) as Et.
  destruct (infer_complete None (Some t) _ (table_in_scope t ks HK) e0 TBool (proj1 Hsv)) as (e & Hi & _).
  rewrite (add_text check pton cs text e0 e); [|now rewrite Et|now rewrite Et].
  destruct (C88_add check pton t ks skip cs l l0 e0 e (text_source (cs_table cs) text) HK Hw Hso HH HL Hi Hsv) as [[M1 M2]|(b & cs' & E & H1 & H2)]; [left; exact (missed_text check pton cs text _ (or_introl eq_refl) M1 M2)|]. right. exists b, cs'. split; [exact E|]. split; [exact H1|].
  intros H. destruct (H2 H) as [Hb|[[M1 M2]|(u & Hu & M1 & M2)]]; [left; exact Hb|right; exact (missed_text check pton cs text _ (or_introl eq_refl) M1 M2)|]. right. refine (missed_text check pton cs text _ (or_intror _) M1 M2). exists e0, e, (text_source (cs_table cs) text), u. rewrite Et in *. auto.
Qed.
Print Assumptions C88_add_text.
(** Unless Z3 overlooks a model the answer is exact. *)
Theorem C88_decides : forall check pton t ks skip cs l l0 text e0, pton_ok pton -> table_keys t ks -> int32_widths ks -> sound_solver check ->
  History check pton t skip cs l -> written t l0 l -> reads_as pton kTableConstraint (text_source t text) e0 -> solvable t ks skip e0 -> ~ overlooks check pton cs text ->
  exists b cs', AddConstraintString check pton cs text = (Ok b, cs') /\ (b = true <-> exists fields p, coherent_solution t ks skip (l0 ++ [e0]) fields p).
Proof.
  intros check pton t ks skip cs l l0 text e0 Hp HK Hw Hso HH HL Hr Hsv Hng.
  destruct (C88_add_text check pton t ks skip cs l l0 text e0 Hp HK Hw Hso HH HL Hr Hsv) as [Hg|(b & cs' & E & H1 & H2)]; [contradiction|]. exists b, cs'. split; [exact E|]. split; [exact H1|]. intros H. destruct (H2 H); [assumption|contradiction].
Qed.
Print Assumptions C88_decides.
(** Create succeeds iff the table's own constraint has a coherent solution. *)
Theorem C88_create : forall check t ks skip l0, table_keys t ks -> int32_widths ks -> sound_solver check ->
  (forall k, In k ks -> skipped skip k \/ live skip k /\ representable k) -> written t l0 (match ti_constraint t with Some e => [e] | None => [] end) -> Forall (solvable t ks skip) l0 ->
  let soluble := exists fields p, coherent_solution t ks skip l0 fields p in
  ((exists cs, Create check t skip = Ok cs) -> soluble) /\ (soluble -> (exists cs, Create check t skip = Ok cs) \/ misses_creating check t skip).
Proof.
  intros check t ks skip l0 HK Hw Hso Hsk HL Hsv soluble. split.
  - intros (cs & Hc). pose proof (hi_create check (fun _ => None) t skip cs Hc) as HH. destruct (history_holds t ks HK skip check _ cs _ HH) as (base & us & Hs). pose proof (C45_always_satisfiable _ _ _ _ _ _ _ HK Hso HH) as Hsat.
    rewrite (h_assertions _ _ _ _ _ _ _ _ Hs) in Hsat. exact (sat_coherent t ks skip HK Hw (cs_env cs) base (h_built _ _ _ _ _ _ _ _ Hs) l0 _ us HL (h_encoded _ _ _ _ _ _ _ _ Hs) Hsat).
  - intros (fields & p & Hsol).
    destruct (create_keys_total skip (Ordered (ti_keys_by_name t))) with (prio := false) (keys := @nil (string * symbolic_key)) (asserted := @nil term) as ([[prio keys] asserted] & Ec).
    { intros n k Hi. apply (in_ordered t ks HK) in Hi as [Hk <-]. exact (Hsk k Hk). }
    pose proof (built_env t ks HK skip prio keys asserted Ec) as HB. unfold misses_creating, Create. cbn [without_constraint ti_keys_by_name ti_constraint]. rewrite Ec. cbn [bind].
    assert ((if prio then ([(kSymbolicPriorityAttributeName, fst AddSymbolicPriority)], (asserted ++ snd AddSymbolicPriority)%list) else ([], asserted))
      = ((if prio then [(kSymbolicPriorityAttributeName, fst AddSymbolicPriority)] else []), (if prio then asserted ++ snd AddSymbolicPriority else asserted)%list)) as E by now destruct prio.
    rewrite E. clear E. revert HB. generalize (if prio then asserted ++ snd AddSymbolicPriority else asserted)%list as base. generalize (if prio then [(kSymbolicPriorityAttributeName, fst AddSymbolicPriority)] else []) as attrs. intros attrs base HB.
    assert (assertions [base] = base) as Ea by (unfold assertions; cbn; apply app_nil_r).
    destruct (ti_constraint t) as [e|]; [|eauto]. inversion HL as [|e0 ? ? ? [Hi Hl] HL']; subst. inversion HL'; subst. inversion Hsv as [|? ? Hs1 _]; subst.
    destruct (solvable_encodes _ _ _ _ _ _ _ (ti_source t) HK HB Hs1 Hi) as (_ & u & Hu & Hbo).
    assert (satisfiable (base ++ [u])) as Hsat. { apply (coherent_sat t ks skip HK Hw (mkEnv keys attrs) base HB [e0] [e] [u] fields p HL); [constructor; [now exists (ti_source t)|constructor]|exact Hsol]. }
    assert (satisfiable base) as Hsb. { destruct Hsat as (m & Hm & Hs). apply satisfies_app in Hs as [Hs _]. exists m. auto. }
    destruct (check base) as [mo|] eqn:E1; [|right; eexists _, e; split; [reflexivity|]; split; [reflexivity|]; left; cbn [cs_stack]; rewrite Ea; now split].
    destruct (check (base ++ [u])%list) as [mo'|] eqn:E2; [|right; eexists _, e; split; [reflexivity|]; split; [reflexivity|]; right; exists u; cbn [cs_stack cs_env]; rewrite Ea; split; [exact Hu|now split]]. left.
    rewrite (add_true check _ e (ti_source t) u); cbn [cs_stack cs_env]; [eauto|rewrite Ea; congruence|exact Hu|exact Hbo|rewrite Ea; congruence].
Qed.
Print Assumptions C88_create.
(** Concretized entries are coherent solutions. *)
Theorem C88_entries : forall check pton t ks skip cs l l0 entry, table_keys t ks -> int32_widths ks -> sound_solver check -> History check pton t skip cs l -> written t l0 l ->
  ConcretizeEntry check cs = Ok entry -> coherent_solution t ks skip l0 (pe_match entry) (pe_priority entry).
Proof.
  intros check pton t ks skip cs l l0 entry HK Hw Hso HH HL He. destruct (history_holds t ks HK skip check pton cs l HH) as (base & us & Hs).
  destruct (check (assertions (cs_stack cs))) as [mo|] eqn:Ec; [|unfold ConcretizeEntry in He; rewrite Ec in He; discriminate He]. destruct (Hso _ _ Ec) as [Hm Hsat]. rewrite (h_assertions _ _ _ _ _ _ _ _ Hs) in Hsat.
  destruct (concretize_ok t ks HK skip check cs l base us Hs mo Hm Hsat) as (fields & p & E & HW & H1 & H2 & H3); [intros k w Hk Hkw; exact (proj2 (Hw k w Hk Hkw))|exact Ec|].
  rewrite E in He. apply Ok_inj in He as <-. cbn [pe_match pe_priority].
  exact (model_solution t ks skip HK Hw (cs_env cs) base (h_built _ _ _ _ _ _ _ _ Hs) l0 l us (complete mo) fields p HL (h_encoded _ _ _ _ _ _ _ _ Hs) Hm Hsat HW H1 H3).
Qed.
Print Assumptions C88_entries.
(** And each of them can be concretized: some sound solver gives it (with its match fields in some order). *)
Theorem C88_possible : forall check pton t ks skip cs l l0 fields p, table_keys t ks -> int32_widths ks -> History check pton t skip cs l -> written t l0 l ->
  coherent_solution t ks skip l0 fields p ->
  exists check' entry, sound_solver check' /\ ConcretizeEntry check' cs = Ok entry /\ Permutation fields (pe_match entry) /\ pe_table_id entry = ti_id t /\ (prioritized ks -> pe_priority entry = p).
Proof.
  intros check pton t ks skip cs l l0 fields p HK Hw HH HL Hsol. destruct (history_holds t ks HK skip check pton cs l HH) as (base & us & Hs). pose proof (h_built _ _ _ _ _ _ _ _ Hs) as HB.
  destruct (coherent_model t ks skip HK Hw (cs_env cs) base HB l0 l us fields p HL (h_encoded _ _ _ _ _ _ _ _ Hs) Hsol) as (m & Hm & Hsat & M1 & M2).
  set (mo := fun n s => Some (m n s) : option zval). assert (well_sorted (complete mo)) as Hmo by exact Hm.
  set (check' := candidate mo).
  assert (check' (base ++ us)%list = Some mo) as Ec.
  { unfold check', candidate. assert (forallb (fun u => zval_eqb (zeval (complete mo) u) (VB true)) (base ++ us) = true) as ->; [|reflexivity]. apply forallb_forall. intros u Hu. apply zval_eqb_eq. exact (Hsat u Hu). }
  assert (holds t ks skip check' cs l base us) as HH'. { destruct Hs as [A1 A2 A3 A4 A5 A6]. split; auto. right. rewrite Ec. discriminate. }
  destruct (concretize_ok t ks HK skip check' cs l base us HH' mo Hm Hsat) as (fields' & p' & E & HW & H1 & H2 & H3); [intros k w Hk Hkw; exact (proj2 (Hw k w Hk Hkw))|now rewrite (h_assertions _ _ _ _ _ _ _ _ Hs)|].
  exists check', (mkEntry (ti_id t) fields' None p'). split; [exact (candidate_sound mo Hmo)|]. split; [exact E|]. cbn [pe_match pe_priority pe_table_id]. split; [|split; [reflexivity|]].
  - apply (same_entry t ks skip HK (b_repr _ _ _ _ HB)); [apply Hsol|exact HW|]. intros k v v' Hk Ha Ha'. pose proof (proj1 (live_in skip ks k) Hk) as [Hk' Hl].
    apply (pictures_same m k); [exact (M1 k v Hk' Hl Ha)|]. apply (H3 k v' Hk' Hl). eapply assigned_mono; [|exact Ha']. intros k0 H0. now apply live_in in H0.
  - intros HP. pose proof (M2 HP) as P1. pose proof (proj2 (H1 HP)) as P2. unfold pictures_priority in P1, P2. change (complete mo "priority" SInt) with (m "priority" SInt) in P2. congruence.
Qed.
Print Assumptions C88_possible.
(** With distinct variables nothing is lost. *)
Theorem C88_apart : forall t ks skip l fields p, table_keys t ks -> (forall k, In k (live_keys skip ks) -> representable k) -> apart (live_keys skip ks) ->
  solution t ks skip l fields p -> coherent ks skip fields p.
Proof.
  intros t ks skip l fields p HK Hrep Hap (HW & Hpr & key & Hkey & _). assert (forall k, In k ks -> live skip k -> representable k) as Hrep' by (intros k Hk Hl; apply Hrep; now apply live_in).
  apply (pictured_coherent ks skip fields p (assign (live_keys skip ks) (fun k => match key (k_name k) with Some v => v | None => VBool true end) p)).
  - intros k v Hk Hl Ha. eapply m_pictures; eauto. now apply Hkey.
  - intros _. eapply m_priority; eauto.
Qed.
Print Assumptions C88_apart.
(** Variables are distinct exactly if no key is named like the mask of another one of the same width
    (for names without NUL characters). *)
Theorem C88_names : forall ks, NoDup (map k_name ks) -> (forall k, In k ks -> representable k) -> (forall k, In k ks -> ~ In NUL (list_ascii_of_string (k_name k))) ->
  (apart ks <-> plain_names ks).
Proof.
  intros ks HN Hr Hnul. split.
  - intros Ha. split; [exact Hnul|]. exact (apart_plain ks Hnul Hr Ha).
  - intros [_ H]. exact (plain_apart ks HN Hnul H).
Qed.
Print Assumptions C88_names.
(** What a shared variable does: the mask of [n] and the key [n_mask] are equal in every entry. *)
Theorem C88_mask : forall check pton t ks skip cs l entry k k' w z x y, table_keys t ks -> int32_widths ks -> sound_solver check -> History check pton t skip cs l ->
  ConcretizeEntry check cs = Ok entry -> In k (live_keys skip ks) -> In k' (live_keys skip ks) -> k_type k = TTernary w \/ k_type k = TOptional w -> k_type k' = TExact w -> k_name k' = k_name k ++ "_mask" ->
  Assigned (live_keys skip ks) (pe_match entry) (k_name k) (VTernary z x) -> Assigned (live_keys skip ks) (pe_match entry) (k_name k') (VExact y) -> x = y.
Proof.
  intros check pton t ks skip cs l entry k k' w z x y HK Hw Hso HH He Hk Hk' Ht Ht' En Ha Ha'. destruct (history_holds t ks HK skip check pton cs l HH) as (base & us & Hs).
  destruct (check (assertions (cs_stack cs))) as [mo|] eqn:Ec; [|unfold ConcretizeEntry in He; rewrite Ec in He; discriminate He]. destruct (Hso _ _ Ec) as [Hm Hsat]. rewrite (h_assertions _ _ _ _ _ _ _ _ Hs) in Hsat.
  destruct (concretize_ok t ks HK skip check cs l base us Hs mo Hm Hsat) as (fields & p & E & HW & H1 & H2 & H3); [intros k0 w0 Hk0 Hkw; exact (proj2 (Hw k0 w0 Hk0 Hkw))|exact Ec|].
  rewrite E in He. apply Ok_inj in He as <-. cbn [pe_match] in *.
  assert (coherent ks skip fields p) as Hco.
  { apply (pictured_coherent ks skip fields p (complete mo)); [|intros HP; now apply H1]. intros k0 v0 Hk0 Hl0 Ha0. apply (H3 k0 v0 Hk0 Hl0). eapply assigned_mono; [|exact Ha0]. intros k1 Hk1. now apply live_in in Hk1. }
  apply (Hco (c_str (k_name k')) (SBV w)); [rewrite En; eapply ne_key; [exact Hk|exact Ha|]; now constructor|eapply ne_key; [exact Hk'|exact Ha'|]; now constructor].
Qed.
Print Assumptions C88_mask.
(** The hypotheses hold of a table with such names. Its entries with different numbers for the mask of x and
    for x_mask are not found; those with the same number are. *)
Definition sh_text : string := "x::mask != 1".
Definition sh_table : table_info := Eval vm_compute in made_table sh_text al_fields.
Definition sh_tree : expr := Eval vm_compute in made_tree sh_text.
Definition sh_checked : expr := Eval vm_compute in match ti_constraint sh_table with Some e => e | None => no_expr end.
Definition sh_model : model := listed [(("x", SBV 8), 2%Z); (("x_mask", SBV 8), 2%Z); (("priority", SInt), 5%Z)].
Definition sh_check : solver := candidate sh_model.
Definition sh_cs : constraint_solver := the (mkCS no_table (mkEnv [] []) never_skip []) (Create sh_check sh_table never_skip).
Definition sh_more : string := "x_mask == 2".
Definition sh_more_tree : expr := Eval vm_compute in the no_expr (ParseConstraint pton1 kTableConstraint (text_source sh_table sh_more)).
Definition sh_fields (y : nat) : list field_match := [mkFM 1 (FMTernary (String (ascii_of_nat 2) "") (String (ascii_of_nat 2) "")); mkFM 2 (FMExact (String (ascii_of_nat y) ""))].
Lemma sh_table_keys : table_keys sh_table al_keys.
Proof. split; try (intros x; cbn; tauto); repeat constructor; cbn; intuition discriminate. Qed.
Lemma sh_widths : int32_widths al_keys.
Proof. intros k w [<-|[<-|[]]] Hw; cbn in Hw; inversion Hw; subst; lia. Qed.
Lemma sh_parsed : ParseConstraint pton1 kTableConstraint (mkCSource sh_text (mkLoc 0 0 (SrcTable "sg"))) = Ok sh_tree.
Proof. vm_compute. reflexivity. Qed.
Lemma sh_created : Create sh_check sh_table never_skip = Ok sh_cs.
Proof. vm_compute. reflexivity. Qed.
Lemma sh_history : History sh_check pton1 sh_table never_skip sh_cs [sh_checked].
Proof. pose proof (hi_create sh_check pton1 sh_table never_skip sh_cs sh_created) as H. exact H. Qed.
Lemma sh_written : written sh_table [sh_tree] [sh_checked].
Proof. constructor; [|constructor]. split; [vm_compute; reflexivity|exact (parse_literals _ _ _ _ pton1_ok sh_parsed)]. Qed.
Lemma sh_more_parsed : ParseConstraint pton1 kTableConstraint (text_source sh_table sh_more) = Ok sh_more_tree.
Proof. vm_compute. reflexivity. Qed.
Lemma sh_solvable : solvable sh_table al_keys never_skip sh_more_tree.
Proof.
  split; [|split; [exact (parse_literals _ _ _ _ pton1_ok sh_more_parsed)|]].
  - assert (exists e, InferTable sh_more_tree sh_table = Ok e /\ e_type e = TBool) as (e & Hi & Et) by (vm_compute; eexists; split; reflexivity). rewrite <- Et.
    exact (proj1 (infer_ok None (Some sh_table) _ (table_in_scope _ _ sh_table_keys) _ _ Hi)).
  - split; [|intros _; exists (mkKey 1 "x" (TTernary 8)), 8%Z; cbn; auto]. intros n Hn. repeat match goal with H : mentions _ _ |- _ => inversion H; clear H; subst end. cbn; eauto 10.
Qed.
Definition sh_entry : p4_entry := mkEntry 3 (sh_fields 2) None 5.
Lemma sh_concretized : ConcretizeEntry sh_check sh_cs = Ok sh_entry.
Proof. vm_compute. reflexivity. Qed.
(** The incoherent entry: mask 2, x_mask 7. *)
Lemma sh_formed y : (0 < y < 256)%nat -> well_formed al_keys (sh_fields y).
Proof.
  intros Hy. split; [repeat constructor; cbn; intuition discriminate| |].
  - intros f [<-|[<-|[]]].
    + exists (mkKey 1 "x" (TTernary 8)), (VTernary 2 2). split; [now left|]. split; [reflexivity|]. apply (ca_ternary 8 (String (ascii_of_nat 2) "") (String (ascii_of_nat 2) "")); [byte|byte|discriminate|apply masked_land; reflexivity].
    + exists (mkKey 2 "x_mask" (TExact 8)), (VExact (unsigned (String (ascii_of_nat y) ""))). split; [now right; left|]. split; [reflexivity|]. apply (ca_exact 8 (String (ascii_of_nat y) "")). split; [discriminate|]. split.
      * right. intros r E. injection E as E _. apply (f_equal nat_of_ascii) in E. rewrite nat_ascii_embedding in E by lia. cbn in E. lia.
      * unfold unsigned. cbn. destruct (ascii_of_nat y) as [[][][][][][][][]]; reflexivity.
  - intros k [<-|[<-|[]]] Ho; [eexists; constructor|]. exfalso. apply (Ho (mkFM 2 (FMExact (String (ascii_of_nat y) "")))); cbn; auto.
Qed.
Lemma sh_solution : solution sh_table al_keys never_skip [sh_tree] (sh_fields 7) 5.
Proof.
  split; [apply (sh_formed 7); lia|]. split; [intros _; unfold priority_ok; lia|].
  assert (ParseTableEntry (mkEntry 3 (sh_fields 7) None 5) sh_table = Ok (mkCtx (CtxTable "sg" 5 [("x", VTernary 2 2); ("x_mask", VExact 7)]) (ti_source sh_table))) as Hp by (vm_compute; reflexivity).
  destruct (entry_ok _ _ sh_table_keys _ _ Hp) as (Hcons & keys & E & HN & HI). injection E as <-.
  exists (fun n => assoc_find String.eqb n [("x", VTernary 2 2); ("x_mask", VExact 7)]). split; [intros n v; rewrite (afind_iff String.eqb String.eqb_eq) by exact HN; apply HI|]. constructor; [|constructor].
  set (key := fun n => assoc_find String.eqb n [("x", VTernary 2 2); ("x_mask", VExact 7)]).
  assert (Den (InTable (ti_keys_by_name sh_table)) (TableEnv key 5) sh_tree (VBool true)) as Hd.
  { assert (ev (mkCtx (CtxTable "sg" 5 [("x", VTernary 2 2); ("x_mask", VExact 7)]) (ti_source sh_table)) sh_checked = Ok (VBool true)) as He by (vm_compute; reflexivity).
    pose proof sh_written as HWr; inversion HWr as [|? ? ? ? [Hi Hl] _]; subst. exact (ev_sound None (Some sh_table) _ (table_in_scope _ _ sh_table_keys) _ _ _ _ Hi Hl He). }
  assert (env_ok (InTable (ti_keys_by_name sh_table)) (TableEnv key 5)) as HE.
  { constructor; [|intros n ty w (k & Hi & <-) Hw; apply (by_name sh_table al_keys sh_table_keys) in Hi as [Hk _]; exact (proj1 (sh_widths k w Hk Hw))].
    intros n ty (k & Hi & <-) _. apply (by_name sh_table al_keys sh_table_keys) in Hi as [[<-|[<-|[]]] <-]; cbn; eexists; (split; [reflexivity|constructor]). }
  assert (forall r, ~ reorders (InTable (ti_keys_by_name sh_table)) r sh_tree) as Hno. { eapply unordered; [repeat constructor; cbn; intuition discriminate|pose proof sh_written as HWr; inversion HWr as [|? ? ? ? [Hi _] _]; exact Hi|reflexivity]. }
  apply (C59_agrees sh_table al_keys _ sh_tree (VBool true) sh_table_keys HE (Hno _) Hd). reflexivity.
Qed.
Example C88_case : table_keys sh_table al_keys /\ int32_widths al_keys /\ sound_solver sh_check /\ ~ apart (live_keys never_skip al_keys) /\ ~ plain_names al_keys /\
  History sh_check pton1 sh_table never_skip sh_cs [sh_checked] /\ written sh_table [sh_tree] [sh_checked] /\
  reads_as pton1 kTableConstraint (text_source sh_table sh_more) sh_more_tree /\ solvable sh_table al_keys never_skip sh_more_tree /\
  fst (AddConstraintString sh_check pton1 sh_cs sh_more) = Ok true /\ ConcretizeEntry sh_check sh_cs = Ok sh_entry /\ coherent_solution sh_table al_keys never_skip [sh_tree] (sh_fields 2) 5 /\
  solution sh_table al_keys never_skip [sh_tree] (sh_fields 7) 5 /\ ~ coherent al_keys never_skip (sh_fields 7) 5.
Proof.
  assert (~ plain_names al_keys) as Hn. { intros [_ H]. apply H. exists (mkKey 1 "x" (TTernary 8)), (mkKey 2 "x_mask" (TExact 8)), 8%Z. cbn. repeat (split; auto). constructor. }
  split; [exact sh_table_keys|]. split; [exact sh_widths|]. split; [exact (candidate_sound _ (listed_sorted _))|]. split.
  { change (live_keys never_skip al_keys) with al_keys. intros Ha. apply Hn. apply C88_names; [repeat constructor; cbn; intuition discriminate|exact al_representable| |exact Ha]. intros k [<-|[<-|[]]]; cbn; intuition discriminate. }
  split; [exact Hn|]. split; [exact sh_history|]. split; [exact sh_written|].
  split. { apply (C08_parser_iff_grammar pton1 _ _ _ pton1_ok). exact sh_more_parsed. }
  split; [exact sh_solvable|]. split; [vm_compute; reflexivity|]. split; [exact sh_concretized|].
  split. { exact (C88_entries sh_check pton1 sh_table al_keys never_skip sh_cs [sh_checked] [sh_tree] sh_entry sh_table_keys sh_widths (candidate_sound _ (listed_sorted _)) sh_history sh_written sh_concretized). }
  split; [exact sh_solution|].
  intros Hco. assert (2 = 7)%Z; [|discriminate]. apply (Hco "x_mask" (SBV 8)).
  - apply (ne_key _ _ _ _ (mkKey 1 "x" (TTernary 8)) (VTernary 2 2) "x_mask" (SBV 8) 2); [cbn; auto| |apply st_mask; cbn; auto].
    apply (as_present _ _ (mkKey 1 "x" (TTernary 8)) (mkFM 1 (FMTernary (String (ascii_of_nat 2) "") (String (ascii_of_nat 2) "")))); cbn; auto. apply (canonical_field (TTernary 8)); [|intros w Hw; inversion Hw; lia].
    apply (ca_ternary 8 (String (ascii_of_nat 2) "") (String (ascii_of_nat 2) "")); [byte|byte|discriminate|apply masked_land; reflexivity].
  - apply (ne_key _ _ _ _ (mkKey 2 "x_mask" (TExact 8)) (VExact 7) "x_mask" (SBV 8) 7); [cbn; auto| |apply SpecShared.st_exact; reflexivity].
    apply (as_present _ _ (mkKey 2 "x_mask" (TExact 8)) (mkFM 2 (FMExact (String (ascii_of_nat 7) "")))); cbn; auto. apply (canonical_field (TExact 8)); [|intros w Hw; inversion Hw; lia].
    apply (ca_exact 8 (String (ascii_of_nat 7) "")). byte.
Qed.
