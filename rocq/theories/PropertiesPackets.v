(** C78: verdicts depend on the packets that entries match. *)
From Coq Require Import String Ascii List ZArith NArith Bool Lia.
From Verif Require Import Base Num Token Ast Info ConstraintInfo Interpreter SpecLexer SpecGrammar SpecTyping SpecSemantics SpecInfo SpecRobust SpecPackets EvalFacts EntryFacts PacketFacts PropertiesParser PropertiesInfo PropertiesVerdict PropertiesRobust Z3 Symbolic SpecSymbolic SpecSolver SymFacts SymKeys SymState SymMeaning SymDemo PropertiesSymbolic.
Import ListNotations.
Open Scope string_scope.

(** * C78 *)
(** Canonical entries that match the same packets, with the same priority and actions, get the same answer. *)
Theorem C78_same_packets : forall pton p ci d ks entry entry' r, P4ToConstraintInfo pton p = Ok ci -> In d (p4_tables p) -> table_id d = pe_table_id entry -> Forall2 key_decl (pt_match_fields d) ks ->
  (forall k w, In k ks -> width (k_type k) w -> (0 <= w)%Z) ->
  pe_table_id entry' = pe_table_id entry -> pe_priority entry' = pe_priority entry -> same_table_action (pe_action entry) (pe_action entry') ->
  canonical_entry ks (pe_match entry) -> canonical_entry ks (pe_match entry') ->
  (forall pk, packet ks pk -> (matches_packet ks (pe_match entry) pk <-> matches_packet ks (pe_match entry') pk)) ->
  (ReasonEntryViolatesConstraint entry ci = Ok r <-> ReasonEntryViolatesConstraint entry' ci = Ok r).
Proof.
  intros pton p ci d ks entry entry' r Hci Hd Hid Hf Hw Hid' Hpr Hsa HC HC' HS. apply (entry_alike pton p ci d ks); auto. intros HN HM. split.
  - split; intros _; [exact (proj1 HC')|exact (proj1 HC)].
  - intros n v. split; apply (same_assigned ks HN HM Hw); try assumption. intros pk Hpk. symmetry. now apply HS.
Qed.
Print Assumptions C78_same_packets.
(** The specification's example, 10 &&& 10 and 11 &&& 10: both match the packets 10 and 11, but only the first is canonical.
    This is assumed, not checked: the entries get different answers. *)
Definition two_bits : p4_table := mkP4Table (mkPre 1 "t" [restriction "entry" ["k::value == 2"]]) [mkMF 1 "k" 2 (MMatchType MTTernary)].
Definition two_keys : list key_info := [mkKey 1 "k" (TTernary 2)].
Definition two_ci : constraint_info := Eval vm_compute in the (mkInfo [] []) (P4ToConstraintInfo pton1 (mkP4Info [two_bits] [])).
Definition two_entry (v m : N) : p4_entry := mkEntry 1 [mkFM 1 (FMTernary (String (ascii_of_N v) "") (String (ascii_of_N m) ""))] None 1.
Lemma two_packets x : (0 <= x < 4)%Z -> (x = 0 \/ x = 1 \/ x = 2 \/ x = 3)%Z.
Proof. lia. Qed.
Theorem C78_not_enforced : exists text, P4ToConstraintInfo pton1 (mkP4Info [two_bits] []) = Ok two_ci /\ Forall2 key_decl (pt_match_fields two_bits) two_keys /\
  canonical_entry two_keys (pe_match (two_entry 2 2)) /\ consistent two_keys (pe_match (two_entry 3 2)) /\
  (forall pk, packet two_keys pk -> (matches_packet two_keys (pe_match (two_entry 2 2)) pk <-> matches_packet two_keys (pe_match (two_entry 3 2)) pk)) /\
  ReasonEntryViolatesConstraint (two_entry 2 2) two_ci = Ok "" /\ ReasonEntryViolatesConstraint (two_entry 3 2) two_ci = Ok text /\ text <> "".
Proof.
  eexists. split; [vm_compute; reflexivity|]. split; [repeat constructor|].
  assert (forall v, consistent two_keys (pe_match (two_entry v 2))) as Hc.
  { intros v. split.
    - intros f [<-|[]]. exists (mkKey 1 "k" (TTernary 2)). eexists. split; [now left|]. split; [reflexivity|constructor].
    - repeat constructor. intros [].
    - intros k [<-|[]] Ho. exfalso. exact (Ho _ (or_introl eq_refl) eq_refl). }
  split. { split; [apply Hc|]. intros f k w [<-|[]] [<-|[]] _ Hw. inversion Hw; subst. constructor; vm_compute; reflexivity. }
  split; [apply Hc|]. split.
  { intros pk _. split; intros H f k w [<-|[]] [<-|[]] Hid Hw; inversion Hw; subst; specialize (H _ _ _ (or_introl eq_refl) (or_introl eq_refl) eq_refl Hw); constructor; inversion H; subst;
      match goal with E : Z.land _ _ = _ |- _ => exact E end. }
  split; [vm_compute; reflexivity|]. split; [vm_compute; reflexivity|discriminate].
Qed.
Print Assumptions C78_not_enforced.
(** Different ways to write an entry that matches the packets 10 and 11; and an omitted key. *)
Example C78_case : P4ToConstraintInfo pton1 (mkP4Info [two_bits] []) = Ok two_ci /\ (forall k w, In k two_keys -> width (k_type k) w -> (0 <= w)%Z) /\
  canonical_entry two_keys (pe_match (two_entry 0 0)) /\ canonical_entry two_keys [] /\ packet two_keys (fun _ => 3%Z) /\
  matches_packet two_keys (pe_match (two_entry 2 2)) (fun _ => 3%Z) /\ ~ matches_packet two_keys (pe_match (two_entry 2 2)) (fun _ => 1%Z) /\
  (forall pk, packet two_keys pk -> (matches_packet two_keys (pe_match (two_entry 0 0)) pk <-> matches_packet two_keys [] pk)).
Proof.
  split; [vm_compute; reflexivity|]. split; [intros k w [<-|[]] Hw; inversion Hw; lia|].
  split. { split; [split|].
    - intros f [<-|[]]. exists (mkKey 1 "k" (TTernary 2)). eexists. split; [now left|]. split; [reflexivity|constructor].
    - repeat constructor. intros [].
    - intros k [<-|[]] Ho. exfalso. exact (Ho _ (or_introl eq_refl) eq_refl).
    - intros f k w [<-|[]] [<-|[]] _ Hw. inversion Hw; subst. constructor; vm_compute; reflexivity. }
  split. { split; [split; [intros f []|constructor|intros k [<-|[]] _; eexists; constructor]|intros f k w []]. }
  split. { intros k w [<-|[]] Hw. inversion Hw; subst. cbn. lia. }
  split. { intros f k w [<-|[]] [<-|[]] _ Hw. inversion Hw; subst. constructor. vm_compute. reflexivity. }
  split. { intros H. specialize (H _ _ _ (or_introl eq_refl) (or_introl eq_refl) eq_refl (wi_ternary 2)). inversion H as [| ? ? ? E | | |]; subst. vm_compute in E. discriminate. }
  intros pk _. split; [intros _ f k w []|]. intros _ f k w [<-|[]] [<-|[]] _ Hw. inversion Hw; subst. constructor. change (unsigned (String (ascii_of_N 0) "")) with 0%Z. now rewrite !Z.land_0_r.
Qed.
(** What the solver returns is canonical. *)
Theorem C78_solver_entries : forall check pton t ks skip cs l entry, table_keys t ks -> int32_widths ks -> sound_solver check -> History check pton t skip cs l ->
  ConcretizeEntry check cs = Ok entry -> (forall k, In k ks -> ~ live skip k -> exists v, wildcard (k_type k) v) -> canonical_entry ks (pe_match entry).
Proof.
  intros check pton t ks skip cs l entry HK Hw Hso HH He Hsk. destruct (C43_entries_well_formed _ _ _ _ _ _ _ _ HK Hw Hso HH He) as (_ & _ & HW & _). split.
  - apply (formed_consistent ks skip); auto. now apply int32_nonneg.
  - intros f k w Hf Hk Hid Hkw. destruct (wf_known _ _ HW f Hf) as (k' & v & Hk' & Hid' & Hc). assert (k' = k) as -> by (apply (nodup_keys k_id ks); [apply HK| |assumption|congruence]; unfold live_keys in Hk'; apply filter_In in Hk'; apply Hk').
    clear - Hc Hkw. remember (Some (fm_value f)) as o eqn:E. destruct Hc; try discriminate E; injection E as <-; inversion Hkw; subst;
      repeat match goal with H : canonical_bytes _ _ |- _ => destruct H as (_ & _ & H) end; constructor; try assumption; try lia.
    + apply Z.bits_inj'. intros i _. rewrite Z.land_spec. destruct (Z.testbit (unsigned s) i) eqn:B; [now rewrite (H2 i B)|reflexivity].
    + destruct H1 as [q ->]. apply Z.mod_mul. apply Z.pow_nonzero; lia.
Qed.
Print Assumptions C78_solver_entries.
Example C78_solver_case : canonical_entry sy_keys (pe_match sy_entry) /\ List.length (pe_match sy_entry) = 4%nat.
Proof.
  split; [|reflexivity]. exact (C78_solver_entries sy_check pton1 sy_table sy_keys sy_skip sy_cs2 _ sy_entry sy_table_keys sy_widths sy_sound sy_history sy_concretized sy_skipped).
Qed.
