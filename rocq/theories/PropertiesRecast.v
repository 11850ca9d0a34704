(** More general kinds of matches (C94). *)
From Coq Require Import String Ascii List ZArith NArith Bool Lia.
From Verif Require Import Base Num Token Ast Lexer Quote AstConstructors Parser Info TypeChecker ConstraintInfo Interpreter SpecLexer SpecGrammar SpecTyping SpecSemantics SpecInfo SpecReading SpecRecast
  LiteralFacts TypeFacts SemFacts EntryFacts InfoFacts InfoFacts2 InterpFacts2 LoadFacts ReadingFacts3 RenameFacts RetoldFacts RecastFacts RecastFacts2 RecastFacts3 PropertiesParser PropertiesInfo PropertiesVerdict PropertiesExplain PropertiesEntries PropertiesReading.
Import ListNotations.
Open Scope string_scope.

(** * C94 *)
Notation paired := (paired kin).
Notation carries := (carries kin alike_values).
Lemma kin_bool t : kin TBool t -> t = TBool.
Proof. intros [E|(w & _ & [H|H])]; [exact E|inversion H..]. Qed.
Lemma carries_sym_keys ks ks' : Forall2 paired ks ks' -> (forall k, In k ks -> exists k', In k' ks' /\ paired k k') /\ (forall k', In k' ks' -> exists k, In k ks /\ paired k k').
Proof. intros H. split; intros k Hk; [exact (forall2_left _ _ _ k H Hk)|exact (forall2_other _ _ _ k H Hk)]. Qed.
Lemma paired_sym k k' : paired k k' -> paired k' k.
Proof. intros (A & B & C). split; [congruence|]. split; [congruence|now apply kin_sym]. Qed.

Lemma recast_kin f f' k k' : recast_field f f' -> key_decl f k -> key_decl f' k' -> paired k k'.
Proof.
  intros HR (E1 & E2 & Ht) (E1' & E2' & Ht'). destruct HR as [->|(m & m' & Hm & Hw & Hf & ->)].
  - split; [congruence|]. split; [congruence|]. left. exact (key_type_fun _ _ _ Ht' Ht).
  - split; [exact (eq_trans E1' (eq_sym E1))|]. split; [exact (eq_trans E2' (eq_sym E2))|]. right. exists (mf_bitwidth f). split; [exact Hw|]. left. destruct f as [i n w mt]. cbn in *. subst mt. destruct Hm; inversion Ht; inversion Ht'; constructor.
Qed.
Lemma decl_pair fs fs' : Forall2 recast_field fs fs' -> forall ks ks', Forall2 key_decl fs ks -> Forall2 key_decl fs' ks' -> Forall2 paired ks ks'.
Proof.
  induction 1 as [|f f' fs fs' H HF IH]; intros ks ks' H1 H2; inversion H1; inversion H2; subst; constructor; eauto using recast_kin.
Qed.
Lemma recast_same f f' k k' v v' x : recast_field f f' -> key_decl f k -> key_decl f' k' -> recast_value f f' v v' -> field_value (k_type k) v x ->
  exists x', field_value (k_type k') v' x' /\ alike_values (k_type k) (k_type k') x x'.
Proof.
  intros HR (_ & _ & Ht) (_ & _ & Ht') [[-> ->]|(m & m' & Em & Em' & Hs)] Hv.
  - exists x. rewrite (key_type_fun _ _ _ Ht' Ht). split; [exact Hv|now left].
  - assert (0 <= mf_bitwidth f)%Z as Hw. { destruct HR as [->|(? & ? & _ & Hw & _)]; [|exact Hw]. exfalso. assert (m' = m) as -> by congruence. inversion Hs. }
    assert (mf_bitwidth f' = mf_bitwidth f) as Ew by (destruct HR as [->|(? & ? & _ & _ & _ & ->)]; reflexivity).
    destruct f as [i n w mt], f' as [i' n' w' mt']. cbn in *. subst. unfold alike_values.
    revert Ht Ht' Hv. generalize (k_type k) (k_type k'). intros t t' Ht Ht' Hv. inversion Hs; subst; inversion Ht; subst; inversion Ht'; subst; inversion Hv; subst; eexists; (split; [constructor; assumption|]); right; exists w; (split; [assumption|]); left;
      repeat match goal with X : unsigned _ = _ |- _ => rewrite X end; constructor; assumption.
Qed.
Lemma recast_back f f' k k' v v' x' : recast_field f f' -> key_decl f k -> key_decl f' k' -> recast_value f f' v v' -> field_value (k_type k') v' x' ->
  exists x, field_value (k_type k) v x /\ alike_values (k_type k') (k_type k) x' x.
Proof.
  intros HR (_ & _ & Ht) (_ & _ & Ht') [[-> ->]|(m & m' & Em & Em' & Hs)] Hv.
  - exists x'. rewrite (key_type_fun _ _ _ Ht Ht'). split; [exact Hv|now left].
  - assert (0 <= mf_bitwidth f)%Z as Hw. { destruct HR as [->|(? & ? & _ & Hw & _)]; [|exact Hw]. exfalso. assert (m' = m) as -> by congruence. inversion Hs. }
    assert (mf_bitwidth f' = mf_bitwidth f) as Ew by (destruct HR as [->|(? & ? & _ & _ & _ & ->)]; reflexivity).
    destruct f as [i n w mt], f' as [i' n' w' mt']. cbn in *. subst. unfold alike_values.
    revert Ht Ht' Hv. generalize (k_type k) (k_type k'). intros t t' Ht Ht' Hv. inversion Hs; subst; inversion Ht; subst; inversion Ht'; subst; inversion Hv; subst; eexists; (split; [constructor; assumption|]); right; exists w; (split; [assumption|]); right;
      repeat match goal with X : unsigned _ = _ |- _ => rewrite X end; constructor; assumption.
Qed.
Lemma wild_kin t t' v : kin t t' -> (forall w, t' <> TExact w) -> wildcard t v -> exists v', wildcard t' v' /\ alike_values t t' v v'.
Proof.
  intros [->|(w & Hw & [H|H])] HE Hv; [exists v; split; [exact Hv|now left]| |]; destruct H; inversion Hv; subst; try (exfalso; exact (HE _ eq_refl)).
  - exists (VTernary 0 0). split; [constructor|]. right. exists w. split; [exact Hw|]. left. constructor.
  - exists (VTernary 0 0). split; [constructor|]. right. exists w. split; [exact Hw|]. left.
    pose proof (be_lt w 0 0 (conj (Z.le_refl 0) Hw)) as B. rewrite Z.sub_0_r, Z.sub_diag in B. exact B.
  - exists (VTernary 0 0). split; [constructor|]. right. exists w. split; [exact Hw|]. right. constructor.
  - exists (VLpm 0 0). split; [constructor|]. right. exists w. split; [exact Hw|]. right.
    pose proof (be_lt w 0 0 (conj (Z.le_refl 0) Hw)) as B. rewrite Z.sub_0_r, Z.sub_diag in B. exact B.
Qed.

Section Tables.
  Variables (d d' : p4_table) (entry entry' : p4_entry).
  Hypothesis HR : recast_table d d'.
  Hypothesis HE : recast_entry d d' entry entry'.
  Hypothesis HX : gives_exact d entry.
  Hypothesis N1 : NoDup (map mf_id (pt_match_fields d')).
  Variables ks ks' : list key_info.
  Hypothesis Hks : Forall2 key_decl (pt_match_fields d) ks.
  Hypothesis Hks' : Forall2 key_decl (pt_match_fields d') ks'.
  Lemma of_pair k k' : In k ks -> In k' ks' -> paired k k' ->
    exists f f', In f (pt_match_fields d) /\ In f' (pt_match_fields d') /\ key_decl f k /\ key_decl f' k' /\ recast_field f f'.
  Proof.
    intros Hk Hk' (Eid & _ & _). destruct (forall2_other _ _ _ k Hks Hk) as (f & Hf & Df). destruct (forall2_other _ _ _ k' Hks' Hk') as (f' & Hf' & Df').
    destruct (forall2_left _ _ _ f (proj2 HR) Hf) as (g & Hg & HRg). exists f, f'. split; [exact Hf|]. split; [exact Hf'|]. split; [exact Df|]. split; [exact Df'|].
    replace f' with g; [exact HRg|]. refine (nodup_keys mf_id (pt_match_fields d') _ _ N1 Hg Hf' _). destruct Df as (E1 & _), Df' as (E2 & _).
    assert (mf_id g = mf_id f) as -> by (destruct HRg as [->|(? & ? & _ & _ & _ & ->)]; reflexivity). congruence.
  Qed.
  Lemma carries_forth : carries ks ks' (pe_match entry) (pe_match entry').
  Proof.
    destruct (carries_sym_keys ks ks' (decl_pair _ _ (proj2 HR) _ _ Hks Hks')) as [A B]. split; [exact A|exact B| |].
    - destruct HE as (_ & _ & _ & HF). eapply forall2_weaken; [|exact HF]. intros x x' [E H]. split; [exact E|]. intros k k' v Hk Hk' HP Hid Hv.
      destruct (of_pair k k' Hk Hk' HP) as (f & f' & Hf & Hf' & Df & Df' & HRf).
      refine (recast_same f f' k k' _ _ _ HRf Df Df' (H f f' Hf Hf' _ _) Hv); [destruct Df; congruence|destruct HP, Df'; congruence].
    - intros k k' v Hk Hk' HP Ho Hw. apply wild_kin; [apply HP| |exact Hw]. intros w Ew. destruct (of_pair k k' Hk Hk' HP) as (f & f' & Hf & Hf' & (_ & _ & Tf) & (_ & _ & Tf') & HRf).
      rewrite Ew in Tf'. destruct HRf as [->|(m & m' & Hm & _ & _ & ->)].
      + pose proof (key_type_fun _ _ _ Tf Tf') as E. rewrite E in Hw. inversion Hw.
      + destruct Hm; inversion Tf'.
  Qed.
  Lemma carries_back : carries ks' ks (pe_match entry') (pe_match entry).
  Proof.
    destruct (carries_sym_keys ks ks' (decl_pair _ _ (proj2 HR) _ _ Hks Hks')) as [A B]. split.
    - intros k' Hk'. destruct (B k' Hk') as (k & Hk & HP). exists k. split; [exact Hk|now apply paired_sym].
    - intros k Hk. destruct (A k Hk) as (k' & Hk' & HP). exists k'. split; [exact Hk'|now apply paired_sym].
    - destruct HE as (_ & _ & _ & HF). eapply forall2_flipped; [|exact HF]. intros x x' [E H]. split; [now symmetry|]. intros k' k v Hk' Hk HP Hid Hv. apply paired_sym in HP.
      destruct (of_pair k k' Hk Hk' HP) as (f & f' & Hf & Hf' & Df & Df' & HRf).
      refine (recast_back f f' k k' _ _ _ HRf Df Df' (H f f' Hf Hf' _ _) Hv); [destruct HP, Df; congruence|destruct Df'; congruence].
    - intros k' k v Hk' Hk HP Ho Hw. apply wild_kin; [apply HP| |exact Hw]. intros w Ew. destruct (of_pair k k' Hk Hk' (paired_sym _ _ HP)) as (f & f' & Hf & Hf' & Df & _ & _).
      destruct Df as (Ei & _ & Tf). rewrite Ew in Tf. destruct (HX f Hf) as (x & Hx & Ex). { inversion Tf. reflexivity. }
      destruct HE as (_ & _ & _ & HF). destruct (forall2_left _ _ _ x HF Hx) as (x' & Hx' & E & _). apply (Ho x' Hx'). destruct HP. congruence.
  Qed.
End Tables.

(** The constraint says the same of an entry and its translation. *)
Theorem C94_verdict : forall pton d d' entry entry' x, pton_ok pton -> recast_table d d' -> recast_entry d d' entry entry' -> gives_exact d entry ->
  loadable_table pton d -> loadable_table pton d' ->
  (table_says pton d entry x <-> table_says pton d' entry' x).
Proof.
  intros pton d d' entry entry' x Hp HR HE HX HL HL'. pose proof (proj1 HR) as Epre. pose proof (proj1 (proj2 (proj2 HE))) as Epri. pose proof HL' as (_ & _ & N1 & _ & _). split.
  - apply (says_carried kin alike_values (fun _ => True) kinds_simulate kin_bool); try assumption; [|intros; intro; intros; exact I]. intros ks ks' H H'. exact (carries_forth d d' entry entry' HR HE N1 ks ks' H H').
  - apply (says_carried kin alike_values (fun _ => True) kinds_simulate kin_bool); try assumption; [now symmetry..| |intros; intro; intros; exact I]. intros ks' ks H' H. exact (carries_back d d' entry entry' HR HE HX N1 ks ks' H H').
Qed.
Print Assumptions C94_verdict.

(** If both P4Infos can be loaded, an entry is accepted iff its translation is. *)
Theorem C94_accepted : forall pton p p' ci ci' d d' entry entry', pton_ok pton -> recast p p' -> P4ToConstraintInfo pton p = Ok ci -> P4ToConstraintInfo pton p' = Ok ci' ->
  In d (p4_tables p) -> In d' (p4_tables p') -> table_id d = pe_table_id entry -> table_id d' = pe_table_id entry ->
  recast_entry d d' entry entry' -> gives_exact d entry ->
  (ReasonEntryViolatesConstraint entry ci = Ok "" <-> ReasonEntryViolatesConstraint entry' ci' = Ok "").
Proof.
  intros pton p p' ci ci' d d' entry entry' Hp [HT HAc] Hci Hci' Hd Hd' Eid Eid' HE HX.
  destruct (proj1 (C37_loads_iff pton p Hp) (ex_intro _ ci Hci)) as (U & _ & L & _). destruct (proj1 (C37_loads_iff pton p' Hp) (ex_intro _ ci' Hci')) as (U' & _ & L' & _).
  assert (recast_table d d') as HR.
  { destruct (forall2_left _ _ _ d HT Hd) as (g & Hg & HRg). replace d' with g; [exact HRg|]. refine (nodup_keys table_id (p4_tables p') _ _ U' Hg Hd' _). unfold table_id in *. rewrite (proj1 HRg). congruence. }
  pose proof (C94_verdict pton d d' entry entry' true Hp HR HE HX (L d Hd) (L' d' Hd')) as HV. destruct HE as (E1 & E2 & _).
  assert (actions_of entry' = actions_of entry) as EA by (unfold actions_of; now rewrite E2). assert (direct entry' <-> direct entry) as ED by (unfold direct; now rewrite E2).
  rewrite (C58_accepted_iff pton p ci entry Hp Hci), (C58_accepted_iff pton p' ci' entry' Hp Hci'), HAc, EA, ED, E1. split; intros ((g & Hg & Eg & Ha) & H).
  - split; [|exact H]. assert (g = d) as -> by (refine (nodup_keys table_id (p4_tables p) _ _ U Hg Hd _); congruence). exists d'. split; [exact Hd'|]. split; [exact Eid'|]. unfold table_allows. rewrite (proj1 HR). destruct Ha as [Ha|Ha]; [now left|right; now apply HV].
  - split; [|exact H]. assert (g = d') as -> by (refine (nodup_keys table_id (p4_tables p') _ _ U' Hg Hd' _); congruence). exists d. split; [exact Hd|]. split; [exact Eid|]. unfold table_allows in Ha. rewrite (proj1 HR) in Ha. destruct Ha as [Ha|Ha]; [now left|right; now apply HV].
Qed.
Print Assumptions C94_accepted.

(** A table with an exact and an lpm field that both become ternary. *)
Definition cast_decl (source : string) (m1 m2 : p4_match_type) : p4_table :=
  mkP4Table (mkPre 3 "demo" [restriction "entry" [source]]) [mkMF 1 "k" 8 (MMatchType m1); mkMF 2 "l" 8 (MMatchType m2)].
Definition cast_source : string := "k == 97 || k::value < 3 && l::value == 96".
Definition cast_info (source : string) (m1 m2 : p4_match_type) : p4info := mkP4Info [cast_decl source m1 m2] [].
Definition cast_ci (source : string) (m1 m2 : p4_match_type) : constraint_info := the (mkInfo [] []) (P4ToConstraintInfo pton1 (cast_info source m1 m2)).
Definition byte (n : N) : string := String (ascii_of_N n) "".
Definition cast_old (n : N) : p4_entry := mkEntry 3 [mkFM 2 (FMLpm "`" 4); mkFM 1 (FMExact (byte n))] None 0.
Definition cast_new (n : N) : p4_entry := mkEntry 3 [mkFM 2 (FMTernary "`" (byte 240)); mkFM 1 (FMTernary (byte n) (byte 255))] None 0.
Lemma cast_translated n : recast_entry (cast_decl cast_source MTExact MTLpm) (cast_decl cast_source MTTernary MTTernary) (cast_old n) (cast_new n).
Proof.
  split; [reflexivity|]. split; [reflexivity|]. split; [reflexivity|]. constructor; [|constructor; [|constructor]]; (split; [reflexivity|]); cbn; intros f f' [<-|[<-|[]]] [<-|[<-|[]]] E E'; try discriminate E; try discriminate E'; right.
  - exists MTLpm, MTTernary. split; [reflexivity|]. split; [reflexivity|]. apply sm_lpm_ternary; [cbn; lia|vm_compute; reflexivity].
  - exists MTExact, MTTernary. split; [reflexivity|]. split; [reflexivity|]. apply sm_exact_ternary. vm_compute. reflexivity.
Qed.
Example C94_case : recast (cast_info cast_source MTExact MTLpm) (cast_info cast_source MTTernary MTTernary) /\
  P4ToConstraintInfo pton1 (cast_info cast_source MTExact MTLpm) = Ok (cast_ci cast_source MTExact MTLpm) /\
  P4ToConstraintInfo pton1 (cast_info cast_source MTTernary MTTernary) = Ok (cast_ci cast_source MTTernary MTTernary) /\
  (forall n, recast_entry (cast_decl cast_source MTExact MTLpm) (cast_decl cast_source MTTernary MTTernary) (cast_old n) (cast_new n) /\ gives_exact (cast_decl cast_source MTExact MTLpm) (cast_old n)) /\
  (forall n, In n [97; 2]%N -> ReasonEntryViolatesConstraint (cast_old n) (cast_ci cast_source MTExact MTLpm) = Ok "" /\ ReasonEntryViolatesConstraint (cast_new n) (cast_ci cast_source MTTernary MTTernary) = Ok "") /\
  ReasonEntryViolatesConstraint (cast_old 5) (cast_ci cast_source MTExact MTLpm) <> Ok "" /\ ReasonEntryViolatesConstraint (cast_new 5) (cast_ci cast_source MTTernary MTTernary) <> Ok "".
Proof.
  split. { split; [|reflexivity]. constructor; [|constructor]. split; [reflexivity|]. constructor; [|constructor; [|constructor]]; right.
    - exists MTExact, MTTernary. split; [constructor|]. split; [cbn; lia|]. split; reflexivity.
    - exists MTLpm, MTTernary. split; [constructor|]. split; [cbn; lia|]. split; reflexivity. }
  split; [vm_compute; reflexivity|]. split; [vm_compute; reflexivity|]. split. { intros n. split; [exact (cast_translated n)|]. intros f [<-|[<-|[]]] E; [|discriminate E]. exists (mkFM 1 (FMExact (byte n))). split; [right; now left|reflexivity]. }
  split; [intros n [<-|[<-|[]]]; split; vm_compute; reflexivity|]. split; vm_compute; discriminate.
Qed.
(** Exact fields must be given: an entry without one fits the new table only. *)
Example C94_exact_needed : exists entry, recast_entry (cast_decl cast_source MTExact MTTernary) (cast_decl cast_source MTTernary MTTernary) entry entry /\
  is_ok (ReasonEntryViolatesConstraint entry (cast_ci cast_source MTExact MTTernary)) = false /\
  ReasonEntryViolatesConstraint entry (cast_ci cast_source MTTernary MTTernary) = Ok "".
Proof.
  exists (mkEntry 3 [mkFM 2 (FMTernary "`" (byte 240))] None 0). split; [|split; vm_compute; reflexivity].
  split; [reflexivity|]. split; [reflexivity|]. split; [reflexivity|]. constructor; [|constructor]. split; [reflexivity|]. cbn. intros f f' [<-|[<-|[]]] [<-|[<-|[]]] E E'; try discriminate E; try discriminate E'. left. split; reflexivity.
Qed.
(** Either of the P4Infos may fail to load although the other can be loaded. *)
Example C94_both_load : is_ok (P4ToConstraintInfo pton1 (cast_info "k < 3" MTExact MTLpm)) = true /\ is_ok (P4ToConstraintInfo pton1 (cast_info "k < 3" MTTernary MTLpm)) = false /\
  is_ok (P4ToConstraintInfo pton1 (cast_info "k::mask == 0" MTExact MTLpm)) = false /\ is_ok (P4ToConstraintInfo pton1 (cast_info "k::mask == 0" MTTernary MTLpm)) = true.
Proof. split; [|split; [|split]]; vm_compute; reflexivity. Qed.
