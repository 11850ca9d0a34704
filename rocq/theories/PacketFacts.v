(** Canonical entries that match the same packets are the same. *)
From Coq Require Import String List ZArith NArith Bool Lia.
From Verif Require Import Base Num Token Ast Info Interpreter SpecLexer SpecGrammar SpecTyping SpecSemantics SpecPackets EvalFacts SemFacts EntryFacts.
Import ListNotations.
Open Scope Z_scope.

Lemma unsigned_nonneg s : 0 <= unsigned s.
Proof. unfold unsigned. lia. Qed.
(** Canonical values. *)
Inductive cval (w : Z) : ty -> value -> Prop :=
| ck_exact x : 0 <= x < 2 ^ w -> cval w (TExact w) (VExact x)
| ck_ternary v m : 0 <= v < 2 ^ w -> 0 <= m < 2 ^ w -> Z.land v m = v -> cval w (TTernary w) (VTernary v m)
| ck_optional v m : 0 <= v < 2 ^ w -> 0 <= m < 2 ^ w -> Z.land v m = v -> cval w (TOptional w) (VTernary v m)
| ck_lpm v p : 0 <= v < 2 ^ w -> 0 <= p <= w -> v mod 2 ^ (w - p) = 0 -> cval w (TLpm w) (VLpm v p)
| ck_range l h : 0 <= l -> l <= h < 2 ^ w -> cval w (TRange w) (VRange l h).
Lemma block v k x : 0 <= k -> v mod 2 ^ k = 0 -> (x / 2 ^ k = v / 2 ^ k <-> v <= x < v + 2 ^ k).
Proof.
  intros Hk Hv. assert (0 < 2 ^ k) as Hp by (apply Z.pow_pos_nonneg; lia). generalize dependent (2 ^ k). intros q Hv Hq.
  pose proof (Z.div_mod x q ltac:(lia)) as Hx. pose proof (Z.div_mod v q ltac:(lia)) as Hw. pose proof (Z.mod_pos_bound x q Hq) as Hb. rewrite Hv in Hw. split.
  - intros E. rewrite E in Hx. lia.
  - intros H. symmetry. apply (Z.div_unique x q (v / q) (x - v)); lia.
Qed.
Lemma blocks v v' k k' w : 0 <= k <= w -> 0 <= k' <= w -> 0 <= v < 2 ^ w -> 0 <= v' < 2 ^ w -> v mod 2 ^ k = 0 -> v' mod 2 ^ k' = 0 ->
  (forall x, 0 <= x < 2 ^ w -> (v <= x < v + 2 ^ k <-> v' <= x < v' + 2 ^ k')) -> v = v' /\ k = k'.
Proof.
  intros Hk Hk' Hv Hv' M M' H.
  assert (forall k v, 0 <= k <= w -> 0 <= v < 2 ^ w -> v mod 2 ^ k = 0 -> 0 < 2 ^ k /\ v + 2 ^ k <= 2 ^ w) as Hfit.
  { clear. intros k v Hk Hv M. assert (0 < 2 ^ k) as Hp by (apply Z.pow_pos_nonneg; lia). split; [exact Hp|].
    assert (2 ^ w = 2 ^ k * 2 ^ (w - k)) as E by (rewrite <- Z.pow_add_r by lia; f_equal; lia). rewrite E in *.
    pose proof (Z.div_mod v (2 ^ k) ltac:(lia)) as D. rewrite M in D. assert (v / 2 ^ k < 2 ^ (w - k)) as Hq by nia. nia. }
  destruct (Hfit _ _ Hk Hv M) as [P F]. destruct (Hfit _ _ Hk' Hv' M') as [P' F'].
  pose proof (H v ltac:(lia)) as H1. pose proof (H v' ltac:(lia)) as H2. pose proof (H (v + 2 ^ k - 1) ltac:(lia)) as H3. pose proof (H (v' + 2 ^ k' - 1) ltac:(lia)) as H4.
  assert (v = v') as -> by lia. split; [reflexivity|]. assert (2 ^ k = 2 ^ k') as E by lia. apply (Z.pow_inj_r 2); lia.
Qed.
Lemma shiftr_block w p x v : 0 <= p <= w -> (Z.shiftr x (w - p) = Z.shiftr v (w - p) <-> x / 2 ^ (w - p) = v / 2 ^ (w - p)).
Proof. intros H. now rewrite !Z.shiftr_div_pow2 by lia. Qed.
Lemma small_bits x w i : 0 <= w -> 0 <= x < 2 ^ w -> w <= i -> Z.testbit x i = false.
Proof.
  intros Hw Hx Hi. destruct (Z.eq_dec x 0) as [->|Hn]; [apply Z.bits_0|]. apply Z.bits_above_log2; [lia|].
  enough (Z.log2 x < w) by lia. apply Z.log2_lt_pow2; lia.
Qed.
Lemma ternaries v v' m m' w : 0 <= w -> 0 <= v < 2 ^ w -> 0 <= v' < 2 ^ w -> 0 <= m < 2 ^ w -> 0 <= m' < 2 ^ w -> Z.land v m = v -> Z.land v' m' = v' ->
  (forall x, 0 <= x < 2 ^ w -> (Z.land x m = Z.land v m <-> Z.land x m' = Z.land v' m')) -> v = v' /\ m = m'.
Proof.
  intros Hw Hv Hv' Hm Hm' C C' H. rewrite C, C' in H.
  assert (Z.land v m' = v') as E by (apply H; [exact Hv|exact C]).
  assert (m = m') as <-.
  { apply Z.bits_inj'. intros i Hi. destruct (Z_lt_le_dec i w) as [Hlt|Hge]; [|now rewrite !(small_bits _ w i) by lia].
    assert (0 <= 2 ^ i < 2 ^ w) as Hp by (split; [apply Z.pow_nonneg; lia|apply Z.pow_lt_mono_r; lia]).
    assert (forall a, 0 <= a < 2 ^ w -> 0 <= Z.lxor a (2 ^ i) < 2 ^ w) as Hx.
    { intros a Ha. split; [apply Z.lxor_nonneg; lia|]. destruct (Z.eq_dec (Z.lxor a (2 ^ i)) 0) as [->|Hn]; [lia|]. apply Z.log2_lt_pow2; [enough (0 <= Z.lxor a (2 ^ i)) by lia; apply Z.lxor_nonneg; lia|].
      assert (Z.log2 (Z.lxor a (2 ^ i)) <= Z.max (Z.log2 a) (Z.log2 (2 ^ i))) as Hl by (apply Z.log2_lxor; lia). rewrite Z.log2_pow2 in Hl by exact Hi.
      assert (Z.log2 a < w) by (destruct (Z.eq_dec a 0) as [->|]; [cbn; lia|apply Z.log2_lt_pow2; lia]). lia. }
    pose proof (H (Z.lxor v (2 ^ i)) (Hx v Hv)) as Hi2.
    assert (forall n t, Z.land v n = t -> (Z.land (Z.lxor v (2 ^ i)) n = t <-> Z.testbit n i = false)) as Hflip.
    { clear - Hi. intros n t Et. split.
      - intros Ex. assert (Z.testbit (Z.land (Z.lxor v (2 ^ i)) n) i = Z.testbit (Z.land v n) i) as Eb by congruence.
        rewrite !Z.land_spec, Z.lxor_spec, Z.pow2_bits_true in Eb by exact Hi. destruct (Z.testbit v i), (Z.testbit n i); cbn in Eb; congruence.
      - intros En. rewrite <- Et. apply Z.bits_inj'. intros j Hj. rewrite !Z.land_spec, Z.lxor_spec. destruct (Z.eq_dec j i) as [->|Hne]; [now rewrite En, !andb_false_r|].
        rewrite Z.pow2_bits_false by congruence. now rewrite xorb_false_r. }
    rewrite (Hflip m v C), (Hflip m' v' E) in Hi2. destruct (Z.testbit m i), (Z.testbit m' i); try reflexivity; [exact (proj2 Hi2 eq_refl)|symmetry; exact (proj1 Hi2 eq_refl)]. }
  split; [congruence|reflexivity].
Qed.
Lemma matches_ternary w v m x : Matches w (VTernary v m) x <-> Z.land x m = Z.land v m.
Proof. split; [intros H; now inversion H|now constructor]. Qed.
Lemma matches_lpm w v p x : Matches w (VLpm v p) x <-> Z.shiftr x (w - p) = Z.shiftr v (w - p).
Proof. split; [intros H; now inversion H|now constructor]. Qed.
Lemma matches_range w l h x : Matches w (VRange l h) x <-> l <= x <= h.
Proof. split; [intros H; now inversion H|now constructor]. Qed.
Lemma matches_exact w v x : Matches w (VExact v) x <-> x = v.
Proof. split; [intros H; now inversion H|intros ->; constructor]. Qed.
Lemma cval_unique w t v v' : 0 <= w -> cval w t v -> cval w t v' -> (forall x, 0 <= x < 2 ^ w -> (Matches w v x <-> Matches w v' x)) -> v = v'.
Proof.
  intros Hw H H' HM. destruct H as [x Hx|v m H1 H2 H3|v m H1 H2 H3|v p H1 H2 H3|l h H1 H2]; inversion H'; subst.
  - pose proof (HM x Hx) as E. rewrite !matches_exact in E. f_equal. apply E. reflexivity.
  - setoid_rewrite matches_ternary in HM. destruct (ternaries v v0 m m0 w) as [-> ->]; auto.
  - setoid_rewrite matches_ternary in HM. destruct (ternaries v v0 m m0 w) as [-> ->]; auto.
  - setoid_rewrite matches_lpm in HM. destruct (blocks v v0 (w - p) (w - p0) w) as [-> E]; try assumption; try lia.
    + intros x Hx. rewrite <- !block by (assumption || lia). rewrite <- !shiftr_block by assumption. auto.
    + f_equal. lia.
  - setoid_rewrite matches_range in HM. pose proof (HM l ltac:(lia)). pose proof (HM h ltac:(lia)). pose proof (HM l0 ltac:(lia)). pose proof (HM h0 ltac:(lia)). f_equal; lia.
Qed.
Lemma cval_inhabited w t v : 0 <= w -> cval w t v -> exists x, 0 <= x < 2 ^ w /\ Matches w v x.
Proof.
  intros Hw H. destruct H as [x Hx|v m H1 H2 H3|v m H1 H2 H3|v p H1 H2 H3|l h H1 H2].
  - exists x. split; [exact Hx|constructor].
  - exists v. split; [exact H1|now constructor].
  - exists v. split; [exact H1|now constructor].
  - exists v. split; [exact H1|now constructor].
  - exists l. split; [lia|constructor; lia].
Qed.

Section T.
  Variable ks : list key_info.
  Hypothesis Hids : NoDup (map k_id ks).
  Hypothesis Hnames : NoDup (map k_name ks).
  Hypothesis Hw : forall k w, In k ks -> width (k_type k) w -> 0 <= w.
  (** What an entry demands of one key. *)
  Definition demands (l : list field_match) (k : key_info) (x : Z) : Prop := forall f w, In f l -> k_id k = fm_id f -> width (k_type k) w -> met w (fm_value f) x.
  Lemma land_ones_id x w : 0 <= w -> 0 <= x < 2 ^ w -> Z.land x (2 ^ w - 1) = x.
  Proof. intros H Hx. replace (2 ^ w - 1) with (Z.ones w) by (rewrite Z.ones_equiv; lia). rewrite Z.land_ones by exact H. now apply Z.mod_small. Qed.
  Lemma met_value t w f v x : width t w -> 0 <= w -> field_value t f v -> canonical_field w f -> 0 <= x < 2 ^ w -> (met w f x <-> Matches w v x).
  Proof.
    intros HW H0 Hf Hc Hx. destruct Hf; inversion HW; subst; inversion Hc; subst.
    - rewrite matches_exact. split; [intros E; now inversion E|intros ->; constructor].
    - rewrite matches_ternary. split; [intros E; now inversion E|now constructor].
    - rewrite matches_lpm, shiftr_block by assumption. split; [intros E; now inversion E|now constructor].
    - rewrite matches_range. split; [intros E; now inversion E|now constructor].
    - rewrite matches_ternary, !land_ones_id by (first [assumption|split; [apply unsigned_nonneg|assumption]]). split; [intros E; now inversion E|intros ->; constructor].
  Qed.
  Lemma value_cval t w f v : width t w -> 0 <= w -> field_value t f v -> canonical_field w f -> cval w t v.
  Proof.
    intros HW H0 Hf Hc. destruct Hf as [w1 s|w1 s m|w1 s p|w1 l h|w1 s ?]; inversion HW; subst; inversion Hc; subst.
    - constructor. split; [apply unsigned_nonneg|assumption].
    - constructor; try assumption; (split; [apply unsigned_nonneg|assumption]).
    - constructor; try assumption; (split; [apply unsigned_nonneg|assumption]).
    - constructor; [apply unsigned_nonneg|assumption].
    - assert (0 < 2 ^ w) by (apply Z.pow_pos_nonneg; lia). pose proof (unsigned_nonneg s). constructor; [lia|lia|apply land_ones_id; lia].
  Qed.
  Lemma wild_cval t w v x : width t w -> 0 <= w -> wildcard t v -> 0 <= x < 2 ^ w -> cval w t v /\ Matches w v x.
  Proof.
    intros HW H0 Hf Hx. assert (0 < 2 ^ w) as Hp by (apply Z.pow_pos_nonneg; lia). destruct Hf; inversion HW; subst.
    - split; [constructor; try lia; reflexivity|constructor; now rewrite !Z.land_0_r].
    - split; [constructor; try lia; reflexivity|constructor; now rewrite !Z.land_0_r].
    - split; [constructor; try lia; now apply Z.mod_0_l, Z.pow_nonzero; lia|constructor]. rewrite Z.sub_0_r, !Z.shiftr_div_pow2, Z.div_0_l, Z.div_small by lia. reflexivity.
    - split; [constructor; lia|constructor; lia].
  Qed.
  Lemma value_width t f v : field_value t f v -> exists w, width t w.
  Proof. destruct 1; eexists; constructor. Qed.
  Lemma wild_width t v : wildcard t v -> exists w, width t w.
  Proof. destruct 1; eexists; constructor. Qed.
  Lemma width_fun t w w' : width t w -> width t w' -> w = w'.
  Proof. intros H H'. destruct H; now inversion H'. Qed.
  Lemma assigned_facts l k v : canonical_entry ks l -> In k ks -> Assigned ks l (k_name k) v ->
    exists w, width (k_type k) w /\ cval w (k_type k) v /\ forall x, 0 <= x < 2 ^ w -> (demands l k x <-> Matches w v x).
  Proof.
    intros [[C1 C2 C3] HC] Hk HA. remember (k_name k) as n eqn:En. destruct HA as [k' f v Hk' Hf Hid Hv|k' v Hk' Ho Hv].
    - assert (k' = k) as -> by (apply (nodup_keys k_name ks); auto). destruct (value_width _ _ _ Hv) as [w HW]. exists w. split; [exact HW|].
      pose proof (Hw k w Hk HW) as H0. pose proof (HC f k w Hf Hk (eq_sym Hid) HW) as Hcf. split; [exact (value_cval _ _ _ _ HW H0 Hv Hcf)|]. intros x Hx.
      rewrite <- (met_value _ _ _ _ _ HW H0 Hv Hcf Hx). split.
      + intros Hd. apply (Hd f w Hf); auto.
      + intros Hm f' w' Hf' Hid' HW'. rewrite (width_fun _ _ _ HW' HW). assert (f' = f) as ->; [|exact Hm].
        clear - C2 Hf Hf' Hid Hid'. assert (fm_id f' = fm_id f) as E by congruence. clear Hid Hid'. induction l as [|g l IH]; [destruct Hf|]. cbn in C2. inversion C2 as [|? ? Hn Hl]; subst.
        destruct Hf as [->|Hf], Hf' as [->|Hf']; [reflexivity|destruct Hn; rewrite <- E; now apply in_map|destruct Hn; rewrite E; now apply in_map|auto].
    - assert (k' = k) as -> by (apply (nodup_keys k_name ks); auto). destruct (wild_width _ _ Hv) as [w HW]. exists w. split; [exact HW|].
      pose proof (Hw k w Hk HW) as H0. assert (0 < 2 ^ w) as Hp by (apply Z.pow_pos_nonneg; lia). split; [apply (wild_cval _ _ _ 0 HW H0 Hv); lia|]. intros x Hx. split.
      + intros _. now apply (wild_cval _ _ _ x HW H0 Hv).
      + intros _ f w' Hf Hid. exfalso. exact (Ho f Hf (eq_sym Hid)).
  Qed.
  Lemma assigned_exists l k : consistent ks l -> In k ks -> exists v, Assigned ks l (k_name k) v.
  Proof.
    intros [C1 C2 C3] Hk. destruct (existsb (fun f => N.eqb (fm_id f) (k_id k)) l) eqn:E.
    - apply existsb_exists in E as (f & Hf & Hid). apply N.eqb_eq in Hid. destruct (C1 f Hf) as (k' & v & Hk' & Hid' & Hv). assert (k' = k) as -> by (apply (nodup_keys k_id ks); [assumption..|congruence]). exists v. eapply as_present; eauto.
    - assert (omitted k l) as Ho. { intros f Hf Hid. assert (existsb (fun f => N.eqb (fm_id f) (k_id k)) l = true) by (apply existsb_exists; exists f; split; [exact Hf|now apply N.eqb_eq]). congruence. }
      destruct (C3 k Hk Ho) as [v Hv]. exists v. now apply as_omitted.
  Qed.
  (** A packet made of one number for each key. *)
  Lemma choose (P : key_info -> Z -> Prop) : forall l, NoDup (map k_name l) -> (forall k, In k l -> exists x, P k x) -> exists pk : string -> Z, forall k, In k l -> P k (pk (k_name k)).
  Proof.
    induction l as [|k l IH]; intros HN H; [exists (fun _ => 0); intros ? []|]. cbn in HN. inversion HN as [|? ? Hn Hl]; subst.
    destruct (IH Hl) as [pk Hpk]; [intros; apply H; now right|]. destruct (H k (or_introl eq_refl)) as [x Hx]. exists (fun n => if String.eqb n (k_name k) then x else pk n).
    intros k' [<-|Hk']; [now rewrite String.eqb_refl|]. destruct (String.eqb_spec (k_name k') (k_name k)) as [E|_]; [|auto]. destruct Hn. rewrite <- E. now apply in_map.
  Qed.
  Definition upd (pk : string -> Z) (n : string) (x : Z) : string -> Z := fun m => if String.eqb m n then x else pk m.
  Lemma matches_demands l pk : matches_packet ks l pk <-> forall k, In k ks -> demands l k (pk (k_name k)).
  Proof. split; [intros H k Hk f w Hf Hid HW; eapply H; eauto|intros H f k w Hf Hk Hid HW; eapply H; eauto]. Qed.
  Lemma same_values l l' : canonical_entry ks l -> canonical_entry ks l' -> (forall pk, packet ks pk -> (matches_packet ks l pk <-> matches_packet ks l' pk)) ->
    forall k v v', In k ks -> Assigned ks l (k_name k) v -> Assigned ks l' (k_name k) v' -> v = v'.
  Proof.
    intros HC HC' HS k v v' Hk HA HA'.
    destruct (assigned_facts _ _ _ HC Hk HA) as (w & HW & Hcv & HM). destruct (assigned_facts _ _ _ HC' Hk HA') as (w' & HW' & Hcv' & HM'). assert (w' = w) as -> by (eapply width_fun; eauto).
    pose proof (Hw k w Hk HW) as H0. apply (cval_unique w (k_type k)); try assumption. intros x Hx. rewrite <- HM, <- HM' by exact Hx.
    destruct (choose (fun k x => demands l k x /\ forall w, width (k_type k) w -> 0 <= x < 2 ^ w) ks Hnames) as [pk Hpk].
    { intros j Hj. destruct (assigned_exists l j (proj1 HC) Hj) as [u Hu]. destruct (assigned_facts _ _ _ HC Hj Hu) as (wj & HWj & Hcj & HMj). destruct (cval_inhabited wj (k_type j) u (Hw j wj Hj HWj) Hcj) as (y & Hy & HyM).
      exists y. split; [now apply HMj|]. intros w1 Hw1. now rewrite (width_fun _ _ _ Hw1 HWj). }
    assert (packet ks pk) as HP by (intros j wj Hj HWj; now apply Hpk).
    assert (matches_packet ks l' pk) as Hl' by (apply HS; [exact HP|]; apply matches_demands; intros j Hj; now apply Hpk).
    rewrite matches_demands in Hl'.
    assert (packet ks (upd pk (k_name k) x)) as HPx.
    { intros j wj Hj HWj. unfold upd. destruct (String.eqb_spec (k_name j) (k_name k)) as [E|_]; [|now apply HP]. assert (j = k) as -> by (apply (nodup_keys k_name ks); assumption). now rewrite (width_fun _ _ _ HWj HW). }
    assert (forall m, (forall j, In j ks -> demands m j (pk (k_name j))) -> (matches_packet ks m (upd pk (k_name k) x) <-> demands m k x)) as Hone.
    { intros m Hm. rewrite matches_demands. split.
      - intros H. specialize (H k Hk). unfold upd in H. now rewrite String.eqb_refl in H.
      - intros H j Hj. unfold upd. destruct (String.eqb_spec (k_name j) (k_name k)) as [E|_]; [|now apply Hm]. assert (j = k) as -> by (apply (nodup_keys k_name ks); assumption). exact H. }
    rewrite <- (Hone l) by (intros j Hj; now apply Hpk). rewrite <- (Hone l') by exact Hl'. now apply HS.
  Qed.
  Lemma same_assigned l l' : canonical_entry ks l -> canonical_entry ks l' -> (forall pk, packet ks pk -> (matches_packet ks l pk <-> matches_packet ks l' pk)) ->
    forall n v, Assigned ks l n v -> Assigned ks l' n v.
  Proof.
    intros HC HC' HS n v HA. assert (exists k, In k ks /\ n = k_name k) as (k & Hk & ->) by (destruct HA; eauto).
    destruct (assigned_exists l' k (proj1 HC') Hk) as [v' HA']. rewrite (same_values l l' HC HC' HS k v v' Hk HA HA'). exact HA'.
  Qed.
End T.
