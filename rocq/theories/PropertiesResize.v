(** Other widths of match fields and parameters (C95). *)
From Coq Require Import String Ascii List ZArith NArith Bool Lia.
From Verif Require Import Base Num Token Ast Lexer Quote AstConstructors Parser Info TypeChecker ConstraintInfo Interpreter SpecLexer SpecGrammar SpecTyping SpecSemantics SpecInfo SpecReading SpecResize
  NumFacts LiteralFacts DebugFacts2 TypeFacts SemFacts EntryFacts InfoFacts InfoFacts2 InterpFacts2 LoadFacts ReadingFacts3 RenameFacts RetoldFacts RecastFacts RecastFacts3 ResizeFacts PropertiesParser PropertiesInfo PropertiesVerdict PropertiesExplain PropertiesEntries PropertiesReading.
Import ListNotations.
Open Scope string_scope.

(** * C95 *)
Section Width.
  Variable N : Z.
  Hypothesis HN : (0 <= N)%Z.
  Notation paired := (paired (akin N)).
  Notation carries := (carries (akin N) equal_values).

  Lemma resized_pair f f' k k' : resized_field N f f' -> key_decl f k -> key_decl f' k' -> paired k k'.
  Proof.
    intros HR (E1 & E2 & Ht) (E1' & E2' & Ht'). destruct HR as [->|(m & w' & Hm & Hf & Hw & Hw' & ->)].
    - split; [congruence|]. split; [congruence|]. left. exact (key_type_fun _ _ _ Ht' Ht).
    - split; [exact (eq_trans E1' (eq_sym E1))|]. split; [exact (eq_trans E2' (eq_sym E2))|]. right. exists (mf_bitwidth f), w'. split; [exact Hw|]. split; [exact Hw'|].
      destruct f as [i n w mt]. cbn in *. subst mt. destruct Hm as [-> | ->]; inversion Ht; inversion Ht'; constructor.
  Qed.
  Lemma resized_param_pair f f' k k' : resized_param N f f' -> param_decl f k -> param_decl f' k' -> paired k k'.
  Proof.
    intros HR (E1 & E2 & Ht) (E1' & E2' & Ht'). assert (ap_type_name f' = ap_type_name f /\ k_id k' = k_id k /\ k_name k' = k_name k) as (En & Ei & Em) by (destruct HR as [->|(w' & _ & _ & ->)]; cbn in *; repeat split; congruence).
    split; [exact Ei|]. split; [exact Em|]. destruct Ht as [[A B]|[A B]], Ht' as [[A' B']|[A' B']]; try congruence; rewrite B, B'.
    - destruct HR as [->|(w' & Hw & Hw' & ->)]; [now left|]. right. exists (ap_bitwidth f), w'. split; [exact Hw|]. split; [exact Hw'|constructor].
    - left. now rewrite En.
  Qed.
  Lemma resized_pairs {F} (rel : F -> F -> Prop) (decl : F -> key_info -> Prop) fs fs' : (forall f f' k k', rel f f' -> decl f k -> decl f' k' -> paired k k') -> Forall2 rel fs fs' ->
    forall ks ks', Forall2 decl fs ks -> Forall2 decl fs' ks' -> Forall2 paired ks ks'.
  Proof. intros HP. induction 1 as [|f f' fs fs' H HF IH]; intros ks ks' H1 H2; inversion H1; inversion H2; subst; constructor; eauto. Qed.
  Lemma paired_sym k k' : paired k k' -> paired k' k.
  Proof. intros (A & B & C). split; [congruence|]. split; [congruence|now apply akin_sym]. Qed.
  Lemma field_akin t t' x v : akin N t t' -> field_value t x v -> field_value t' x v.
  Proof. intros [->|(w & w' & _ & _ & Hs)] H; [exact H|]. destruct Hs; inversion H; constructor. Qed.

  Lemma carries_pairs ks ks' l : (forall k, In k ks -> exists k', In k' ks' /\ paired k k') -> (forall k', In k' ks' -> exists k, In k ks /\ paired k k') ->
    (forall k k' v, In k ks -> In k' ks' -> paired k k' -> k_type k' <> k_type k -> omitted k l -> ~ wildcard (k_type k) v) -> carries ks ks' l l.
  Proof.
    intros HA HB HW. split; [exact HA|exact HB| |].
    - clear HW. induction l as [|x l IH]; constructor; [|exact IH]. split; [reflexivity|]. intros k k' v _ _ (_ & _ & Ha) _ Hv. exists v. split; [exact (field_akin _ _ _ _ Ha Hv)|reflexivity].
    - intros k k' v Hk Hk' HP Ho Hw. assert (k_type k' = k_type k \/ k_type k' <> k_type k) as [E|Hn] by (destruct (ty_eqb (k_type k') (k_type k)) eqn:E; [left; now apply DebugFacts2.ty_eqb_eq|right; intros X; rewrite X, DebugFacts2.ty_eqb_refl in E; discriminate E]); [rewrite E; exists v; split; [exact Hw|reflexivity]|]. destruct (HW k k' v Hk Hk' HP Hn Ho Hw).
  Qed.
  Lemma wildcard_resized t t' v : akin N t t' -> t' <> t -> wildcard t v -> exists w w', t = TRange w /\ t' = TRange w'.
  Proof. intros [->|(w & w' & _ & _ & Hs)] Hn Hw; [destruct (Hn eq_refl)|]. destruct Hs; inversion Hw; eauto. Qed.

  Section Tables.
    Variables (d d' : p4_table) (entry : p4_entry).
    Hypothesis HR : resized_table N d d'.
    Hypothesis HG : gives_ranges d d' entry.
    Hypothesis N1 : NoDup (map mf_id (pt_match_fields d')).
    Variables ks ks' : list key_info.
    Hypothesis Hks : Forall2 key_decl (pt_match_fields d) ks.
    Hypothesis Hks' : Forall2 key_decl (pt_match_fields d') ks'.
    Lemma table_pairs : Forall2 paired ks ks'.
    Proof. exact (resized_pairs _ key_decl _ _ resized_pair (proj2 HR) _ _ Hks Hks'). Qed.
    Lemma given k k' w w' : In k ks -> In k' ks' -> paired k k' -> k_type k = TRange w -> k_type k' = TRange w' -> k_type k' <> k_type k -> ~ omitted k (pe_match entry).
    Proof.
      intros Hk Hk' (Ei & _ & _) Et Et' Hn Ho. destruct (forall2_other _ _ _ k Hks Hk) as (f & Hf & Df). pose proof Df as (E1 & _ & Tf). rewrite Et in Tf.
      destruct (HG f Hf) as (x & Hx & Ex).
      - intros Hf'. destruct (forall2_other _ _ _ k' Hks' Hk') as (f' & Hff & Df'). pose proof Df' as (E1' & _ & Tf'). assert (f' = f) as -> by (refine (nodup_keys mf_id _ _ _ N1 Hff Hf' _); congruence).
        apply Hn. rewrite Et. exact (key_type_fun _ _ _ Tf' Tf).
      - inversion Tf. reflexivity.
      - apply (Ho x Hx). congruence.
    Qed.
    Lemma table_forth : carries ks ks' (pe_match entry) (pe_match entry).
    Proof.
      apply carries_pairs; [intros k Hk; exact (forall2_left _ _ _ k table_pairs Hk)|intros k Hk; exact (forall2_other _ _ _ k table_pairs Hk)|]. intros k k' v Hk Hk' HP Hn Ho Hw.
      destruct (wildcard_resized _ _ _ (proj2 (proj2 HP)) Hn Hw) as (w & w' & E & E'). exact (given k k' w w' Hk Hk' HP E E' Hn Ho).
    Qed.
    Lemma table_back : carries ks' ks (pe_match entry) (pe_match entry).
    Proof.
      apply carries_pairs.
      - intros k' Hk'. destruct (forall2_other _ _ _ k' table_pairs Hk') as (k & Hk & HP). exists k. split; [exact Hk|now apply paired_sym].
      - intros k Hk. destruct (forall2_left _ _ _ k table_pairs Hk) as (k' & Hk' & HP). exists k'. split; [exact Hk'|now apply paired_sym].
      - intros k' k v Hk' Hk HP Hn Ho Hw. destruct (wildcard_resized _ _ _ (proj2 (proj2 HP)) Hn Hw) as (w & w' & E & E').
        apply (given k k' w' w Hk Hk' (paired_sym _ _ HP) E' E (not_eq_sym Hn)). intros x Hx. destruct HP as (-> & _). now apply Ho.
    Qed.
  End Tables.

  (** Small integers. *)
  Lemma within_small G r e : small_literals N G e -> within (below_N N) G r e.
  Proof.
    intros HL a b t z Hc Ha Hb Hn HM. destruct (HL a b t Hc Ha Hb Hn) as (m & s & n & -> & Hd & Hlt). inversion HM; subst. split; [lia|].
    match goal with X : Decimal s ?k |- _ => rewrite (Reads_fun _ _ _ _ (proj1 X) (proj1 Hd)) end. exact Hlt.
  Qed.
  Lemma compared_typed G e a b : compared a b e -> forall t, Typed G e t -> exists ta tb, Typed G a ta /\ Typed G b tb.
  Proof. induction 1; intros t T; inversion T; subst; eauto. Qed.
  Lemma small_other G r G' r' e t : linked (akin N) equal_values G r G' r' -> Typed G e t -> small_literals N G e -> small_literals N G' e.
  Proof.
    intros HL T HS a b t' Hc Ha Hb Hn. destruct (compared_typed G e a b Hc t T) as (ta & tb & Ta & Tb).
    pose proof (typed_K _ _ _ (widths_simulate N HN) _ _ _ _ a HL _ _ Ta Ha) as Ka. pose proof (typed_K _ _ _ (widths_simulate N HN) _ _ _ _ b HL _ _ Tb Hb) as Kb.
    apply akin_sym, akin_int in Ka. subst ta. apply (HS a b tb Hc Ta Tb). intros ->. apply akin_int in Kb. exact (Hn Kb).
  Qed.
  Lemma linked_empty ks ks' : NoDup (map k_name ks') -> (forall k, In k ks -> exists k', In k' ks' /\ paired k k') ->
    linked (akin N) equal_values (key_scope ks) (TableEnv (fun _ => None) 0) (key_scope ks') (TableEnv (fun _ => None) 0) /\
    linked (akin N) equal_values (param_scope ks) (ActionEnv (fun _ => None)) (param_scope ks') (ActionEnv (fun _ => None)).
  Proof.
    intros Hnd HA. assert (forall n t t', declared (map (fun k => (k_name k, k)) ks) n t -> declared (map (fun k => (k_name k, k)) ks') n t' -> akin N t t') as H.
    { intros n t t' Hd Hd'. apply declared_in in Hd as (k & Hk & Enk & <-). apply declared_in in Hd' as (k' & Hk' & Enk' & <-). destruct (HA k Hk) as (a & Ha & HP). pose proof HP as (_ & E & HK).
      replace k' with a; [exact HK|]. refine (nodup_keys k_name ks' _ _ Hnd Ha Hk' _). congruence. }
    split; constructor; intros n t t' Hd _ Hd' _; (split; [exact (H n t t' Hd Hd')|]); discriminate.
  Qed.
  Lemma small_table_back pton d d' : pton_ok pton -> resized_table N d d' -> loadable_table pton d -> loadable_table pton d' -> small_table pton N d -> small_table pton N d'.
  Proof.
    intros Hp HR (ks & Hks & _ & _ & HL) (_ & _ & _ & N2' & _) HS ks' cs e Hks' Hr Hra. rewrite (proj1 HR) in Hr. specialize (HS ks cs e Hks Hr Hra).
    destruct HL as [Hu|(cs0 & e0 & t & Hr0 & Hra0 & Ht)]; [exfalso; exact (restricted_not _ _ _ Hu Hr)|]. rewrite (restricted_fun _ _ _ _ Hr0 Hr) in Hra0. rewrite (reads_as_fun _ _ _ _ _ Hp Hra0 Hra) in Ht.
    refine (small_other _ _ _ _ e t (proj1 (linked_empty ks ks' _ _)) Ht HS); [rewrite (decl_names_k _ _ Hks'); exact N2'|]. intros k Hk. exact (forall2_left _ _ _ k (table_pairs d d' HR ks ks' Hks Hks') Hk).
  Qed.
  Lemma action_pairs d d' ps ps' : resized_action N d d' -> Forall2 param_decl (pad_params d) ps -> Forall2 param_decl (pad_params d') ps' -> Forall2 paired ps ps'.
  Proof. intros HR. exact (resized_pairs _ param_decl _ _ resized_param_pair (proj2 HR) ps ps'). Qed.
  Lemma small_action_back pton d d' : pton_ok pton -> resized_action N d d' -> loadable_action pton d -> loadable_action pton d' -> small_action pton N d -> small_action pton N d'.
  Proof.
    intros Hp HR (ks & Hks & _ & _ & HL) (_ & _ & _ & N2' & _) HS ks' cs e Hks' Hr Hra. rewrite (proj1 HR) in Hr. specialize (HS ks cs e Hks Hr Hra).
    destruct HL as [Hu|(cs0 & e0 & t & Hr0 & Hra0 & Ht)]; [exfalso; exact (restricted_not _ _ _ Hu Hr)|]. rewrite (restricted_fun _ _ _ _ Hr0 Hr) in Hra0. rewrite (reads_as_fun _ _ _ _ _ Hp Hra0 Hra) in Ht.
    refine (small_other _ _ _ _ e t (proj2 (linked_empty ks ks' _ _)) Ht HS); [rewrite (decl_names_p _ _ Hks'); exact N2'|]. intros k Hk. exact (forall2_left _ _ _ k (action_pairs d d' ks ks' HR Hks Hks') Hk).
  Qed.

  Lemma resized_table_says pton d d' entry x : pton_ok pton -> resized_table N d d' -> gives_ranges d d' entry -> loadable_table pton d -> loadable_table pton d' -> small_table pton N d ->
    (table_says pton d entry x <-> table_says pton d' entry x).
  Proof.
    intros Hp HR HG HL HL' HS. pose proof HL' as (_ & _ & N1' & _ & _). split.
    - apply (says_carried (akin N) equal_values (below_N N) (widths_simulate N HN) (akin_bool N)); try assumption; [exact (proj1 HR)|reflexivity| |].
      + intros ks ks' H H'. exact (table_forth d d' entry HR HG N1' ks ks' H H').
      + intros ks cs e key H Hr Hra _. apply within_small. exact (HS ks cs e H Hr Hra).
    - apply (says_carried (akin N) equal_values (below_N N) (widths_simulate N HN) (akin_bool N)); try assumption; [symmetry; exact (proj1 HR)|reflexivity| |].
      + intros ks' ks H' H. exact (table_back d d' entry HR HG N1' ks ks' H H').
      + intros ks cs e key H Hr Hra _. apply within_small. exact (small_table_back pton d d' Hp HR HL HL' HS ks cs e H Hr Hra).
  Qed.
  Lemma resized_action_says pton d d' a x : pton_ok pton -> resized_action N d d' -> loadable_action pton d -> loadable_action pton d' -> small_action pton N d ->
    (action_says pton d a x <-> action_says pton d' a x).
  Proof.
    intros Hp HR HL HL' HS. split.
    - apply (action_carried (akin N) equal_values (below_N N) (widths_simulate N HN) (akin_bool N)); try assumption; [exact (proj1 HR)| |].
      + intros ps ps' H H'. split; [|reflexivity]. intros k Hk. exact (forall2_left _ _ _ k (action_pairs d d' ps ps' HR H H') Hk).
      + intros ps cs e key H Hr Hra _. apply within_small. exact (HS ps cs e H Hr Hra).
    - apply (action_carried (akin N) equal_values (below_N N) (widths_simulate N HN) (akin_bool N)); try assumption; [symmetry; exact (proj1 HR)| |].
      + intros ps' ps H' H. split; [|reflexivity]. intros k Hk. destruct (forall2_other _ _ _ k (action_pairs d d' ps ps' HR H H') Hk) as (k' & Hk' & HP). exists k'. split; [exact Hk'|now apply paired_sym].
      + intros ps cs e key H Hr Hra _. apply within_small. exact (small_action_back pton d d' Hp HR HL HL' HS ps cs e H Hr Hra).
  Qed.
End Width.

(** The constraint of a table says the same of an entry, whatever the widths of its exact and range keys. *)
Theorem C95_table : forall pton N d d' entry x, pton_ok pton -> (0 <= N)%Z -> resized_table N d d' -> gives_ranges d d' entry ->
  loadable_table pton d -> loadable_table pton d' -> small_table pton N d ->
  (table_says pton d entry x <-> table_says pton d' entry x).
Proof. intros pton N d d' entry x Hp HN. exact (resized_table_says N HN pton d d' entry x Hp). Qed.
Print Assumptions C95_table.
(** The same for an action and its parameters. *)
Theorem C95_action : forall pton N d d' a x, pton_ok pton -> (0 <= N)%Z -> resized_action N d d' ->
  loadable_action pton d -> loadable_action pton d' -> small_action pton N d ->
  (action_says pton d a x <-> action_says pton d' a x).
Proof. intros pton N d d' a x Hp HN. exact (resized_action_says N HN pton d d' a x Hp). Qed.
Print Assumptions C95_action.
(** An entry is accepted with the old widths iff it is accepted with the new ones. *)
Theorem C95_accepted : forall pton N p p' ci ci' entry, pton_ok pton -> (0 <= N)%Z -> resized N p p' -> P4ToConstraintInfo pton p = Ok ci -> P4ToConstraintInfo pton p' = Ok ci' ->
  (forall d, In d (p4_tables p) -> small_table pton N d) -> (forall d, In d (p4_actions p) -> small_action pton N d) ->
  (forall d d', In d (p4_tables p) -> In d' (p4_tables p') -> table_id d = pe_table_id entry -> table_id d' = pe_table_id entry -> gives_ranges d d' entry) ->
  (ReasonEntryViolatesConstraint entry ci = Ok "" <-> ReasonEntryViolatesConstraint entry ci' = Ok "").
Proof.
  intros pton N p p' ci ci' entry Hp HN [HT HA] Hci Hci' HST HSA HG.
  destruct (proj1 (C37_loads_iff pton p Hp) (ex_intro _ ci Hci)) as (_ & _ & L & LA). destruct (proj1 (C37_loads_iff pton p' Hp) (ex_intro _ ci' Hci')) as (_ & _ & L' & LA').
  assert (forall d d', In d (p4_tables p) -> In d' (p4_tables p') -> resized_table N d d' -> table_id d = pe_table_id entry -> (table_allows pton d entry <-> table_allows pton d' entry)) as ET.
  { intros d d' Hd Hd' HR Ei. unfold table_allows. rewrite (proj1 HR). rewrite (C95_table pton N d d' entry true Hp HN HR); [reflexivity|apply HG; [exact Hd|exact Hd'|exact Ei|unfold table_id in *; rewrite (proj1 HR); exact Ei]|auto..]. }
  assert (forall d d' a, In d (p4_actions p) -> In d' (p4_actions p') -> resized_action N d d' -> (action_allows pton d a <-> action_allows pton d' a)) as EA.
  { intros d d' a Hd Hd' HR. unfold action_allows. rewrite (proj1 HR). rewrite (C95_action pton N d d' a true Hp HN HR); [reflexivity|auto..]. }
  rewrite (C58_accepted_iff pton p ci entry Hp Hci), (C58_accepted_iff pton p' ci' entry Hp Hci'). split; intros ((d & Hd & Ei & Ha) & Hdi & H).
  - split; [|split; [exact Hdi|]].
    + destruct (forall2_left _ _ _ d HT Hd) as (d' & Hd' & HR). exists d'. split; [exact Hd'|]. split; [unfold table_id in *; rewrite (proj1 HR); exact Ei|]. now apply (ET d d' Hd Hd' HR Ei).
    + intros a Hin. destruct (H a Hin) as (g & Hg & Eg & Hal). destruct (forall2_left _ _ _ g HA Hg) as (g' & Hg' & HR). exists g'. split; [exact Hg'|]. split; [unfold action_id in *; rewrite (proj1 HR); exact Eg|]. now apply (EA g g' a Hg Hg' HR).
  - split; [|split; [exact Hdi|]].
    + destruct (forall2_other _ _ _ d HT Hd) as (d' & Hd' & HR). assert (table_id d' = pe_table_id entry) as Ei' by (unfold table_id in *; rewrite <- (proj1 HR); exact Ei). exists d'. split; [exact Hd'|]. split; [exact Ei'|]. now apply (ET d' d Hd' Hd HR Ei').
    + intros a Hin. destruct (H a Hin) as (g & Hg & Eg & Hal). destruct (forall2_other _ _ _ g HA Hg) as (g' & Hg' & HR). exists g'. split; [exact Hg'|]. split; [unfold action_id in *; rewrite <- (proj1 HR); exact Eg|]. now apply (EA g' g a Hg' Hg HR).
Qed.
Print Assumptions C95_accepted.

(** The table and the action of the other examples with other widths. *)
Definition scaled_decl : p4_table := mkP4Table (pt_preamble demo_decl) [mkMF 1 "e" 16 (MMatchType MTExact); mkMF 2 "t" 16 (MMatchType MTTernary); mkMF 3 "r" 9 (MMatchType MTRange)].
Definition scaled_action : p4_action_decl := mkP4ActionDecl (pad_preamble demo_action) [mkAP 1 "p" 32 ""; mkAP 2 "q" 4 ""].
Definition scaled_info : p4info := mkP4Info [scaled_decl; mkP4Table (mkPre 5 "free" []) []] [scaled_action].
Definition scaled_ci : constraint_info := Eval vm_compute in the (mkInfo [] []) (P4ToConstraintInfo pton1 scaled_info).
Definition scaled_entry (z : string) : p4_entry := mkEntry 3 [mkFM 3 (FMRange "a" "b"); mkFM 1 (FMExact z)] (Some (TAction (mkP4Action 4 [(1%N, "b"); (2%N, String (ascii_of_N 0) "")]))) 0.
Ltac pick_small := match goal with
  | Ha : Typed _ (EInt ?m ?s) TInt, Hb : Typed _ (EInt _ _) _, Hn : _ <> TInt |- _ => exfalso; inversion Hb; subst; now apply Hn
  | Hb : Typed _ (EInt _ _) ?t, Ha : Typed _ _ TInt, Hn : ?t <> TInt |- _ => exfalso; inversion Hb; subst; now apply Hn
  | Hb : Typed _ (EAttr _ _) ?t, Hn : ?t <> TInt |- _ => exfalso; inversion Hb; subst; now apply Hn
  | Ha : Typed _ (EInt ?m ?s) TInt |- _ => exists m, s
  end.
Lemma scaled_small_table : small_table pton1 4 demo_decl.
Proof.
  intros ks cs e Hks Hr Hra. rewrite (restricted_fun _ _ _ _ Hr demo_restricted) in Hra. rewrite (reads_as_fun _ _ _ _ _ pton1_ok Hra demo_reads). rewrite (forall2_fun key_decl key_decl_fun _ _ _ Hks demo_decls). clear.
  intros a b t Hc Ha Hb Hn. unfold demo_tree in Hc.
  repeat match goal with H : compared _ _ _ |- _ => inversion H; clear H; subst end.
  all: try (match goal with H : comparison _ |- _ => inversion H; match goal with X : equality _ |- _ => inversion X | X : ordering _ |- _ => inversion X end; fail end).
  all: try pick_small; try (exists 0%N; split; [reflexivity|]; split; [now apply dec_Decimal|reflexivity]).
Qed.
Lemma scaled_small_action : small_action pton1 4 demo_action.
Proof.
  intros ks cs e Hks Hr Hra. rewrite (restricted_fun _ _ _ _ Hr demo_arestricted) in Hra. rewrite (reads_as_fun _ _ _ _ _ pton1_ok Hra demo_areads). rewrite (forall2_fun param_decl param_decl_fun _ _ _ Hks demo_adecls). clear.
  intros a b t Hc Ha Hb Hn. unfold demo_atree in Hc.
  repeat match goal with H : compared _ _ _ |- _ => inversion H; clear H; subst end.
  all: try (match goal with H : comparison _ |- _ => inversion H; match goal with X : equality _ |- _ => inversion X | X : ordering _ |- _ => inversion X end; fail end).
  all: try pick_small; try (exists 0%N; split; [reflexivity|]; split; [now apply dec_Decimal|reflexivity]); try (exists 3%N; split; [reflexivity|]; split; [now apply dec_Decimal|reflexivity]).
Qed.
Example C95_case : resized 4 demo_info scaled_info /\ P4ToConstraintInfo pton1 demo_info = Ok demo_ci /\ P4ToConstraintInfo pton1 scaled_info = Ok scaled_ci /\
  (forall d, In d (p4_tables demo_info) -> small_table pton1 4 d) /\ (forall d, In d (p4_actions demo_info) -> small_action pton1 4 d) /\
  (forall z d d', In d (p4_tables demo_info) -> In d' (p4_tables scaled_info) -> table_id d = 3%N -> table_id d' = 3%N -> gives_ranges d d' (scaled_entry z)) /\
  ReasonEntryViolatesConstraint (scaled_entry "a") demo_ci = Ok "" /\ ReasonEntryViolatesConstraint (scaled_entry "a") scaled_ci = Ok "" /\
  ReasonEntryViolatesConstraint (scaled_entry "") demo_ci <> Ok "" /\ ReasonEntryViolatesConstraint (scaled_entry "") scaled_ci <> Ok "".
Proof.
  split; [|split; [exact demo_parsed|split; [vm_compute; reflexivity|split; [|split; [|split]]]]].
  - split; constructor; [split; [reflexivity|]|constructor; [split; [reflexivity|constructor]|constructor]|split; [reflexivity|]|constructor].
    + constructor; [|constructor; [now left|constructor; [|constructor]]]; right.
      * exists MTExact, 16%Z. split; [now left|]. split; [reflexivity|]. cbn. split; [lia|]. split; [lia|reflexivity].
      * exists MTRange, 9%Z. split; [now right|]. split; [reflexivity|]. cbn. split; [lia|]. split; [lia|reflexivity].
    + constructor; [|constructor; [|constructor]]; right; [exists 32%Z|exists 4%Z]; cbn; (split; [lia|]); (split; [lia|reflexivity]).
  - intros d [<-|[<-|[]]]; [exact scaled_small_table|]. intros ks cs e _ Hr _. exfalso. refine (restricted_not _ _ _ _ Hr). exists "", 0%Z. left. constructor.
  - intros d [<-|[]]. exact scaled_small_action.
  - intros z d d' [<-|[<-|[]]] [<-|[<-|[]]] E E'; try discriminate E; try discriminate E'. intros f [<-|[<-|[<-|[]]]] _ Em; try discriminate Em. eexists. split; [now left|reflexivity].
  - split; [vm_compute; reflexivity|]. split; [vm_compute; reflexivity|]. split; vm_compute; discriminate.
Qed.
(** Both conditions are needed: literals wrap around, and omitted ranges depend on the width. *)
Definition tall (source : string) (w : Z) : p4info := mkP4Info [mkP4Table (mkPre 3 "demo" [restriction "entry" [source]]) [mkMF 1 "e" w (MMatchType MTExact); mkMF 2 "r" w (MMatchType MTRange)]] [].
Definition tall_ci (source : string) (w : Z) : constraint_info := the (mkInfo [] []) (P4ToConstraintInfo pton1 (tall source w)).
Example C95_conditions : forall source, In source ["e == 353"; "r::high == 255"] -> resized 8 (tall source 8) (tall source 16) /\
  P4ToConstraintInfo pton1 (tall source 8) = Ok (tall_ci source 8) /\ P4ToConstraintInfo pton1 (tall source 16) = Ok (tall_ci source 16) /\
  ReasonEntryViolatesConstraint (mkEntry 3 [mkFM 1 (FMExact "a")] None 0) (tall_ci source 8) = Ok "" /\
  ReasonEntryViolatesConstraint (mkEntry 3 [mkFM 1 (FMExact "a")] None 0) (tall_ci source 16) <> Ok "".
Proof.
  intros source Hs. split.
  - split; [|constructor]. constructor; [|constructor]. split; [reflexivity|]. constructor; [|constructor; [|constructor]]; right.
    + exists MTExact, 16%Z. split; [now left|]. split; [reflexivity|]. cbn. split; [lia|]. split; [lia|reflexivity].
    + exists MTRange, 16%Z. split; [now right|]. split; [reflexivity|]. cbn. split; [lia|]. split; [lia|reflexivity].
  - destruct Hs as [<-|[<-|[]]]; (split; [vm_compute; reflexivity|]); (split; [vm_compute; reflexivity|]); (split; [vm_compute; reflexivity|vm_compute; discriminate]).
Qed.
