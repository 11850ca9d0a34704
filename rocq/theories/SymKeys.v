(** Solver symbols for keys and the entries read off solver models. *)
From Coq Require Import String Ascii List ZArith NArith Bool Lia.
From Verif Require Import Base Num Token Ast Quote Info TypeChecker Interpreter Z3 Symbolic LiteralFacts SpecLexer SpecGrammar SpecTyping TypeFacts SpecSemantics SpecSymbolic SemFacts SemFacts2 SymFacts SymFacts2 SymBytes.
Import ListNotations.
Open Scope string_scope.

Section Key.
Variable k : key_info.
Let name := c_str (k_name k).
Definition key_case (sk : symbolic_key) (a : list term) (w : Z) : Prop :=
  (k_type k = TExact w /\ sk = SymExact (ZConst name (SBV w)) /\ a = []) \/
  (k_type k = TTernary w /\ sk = SymTernary (ZConst name (SBV w)) (ZConst (c_str (k_name k ++ "_mask")) (SBV w)) /\
   a = [ZEq (ZBVAnd (ZConst (c_str (k_name k ++ "_mask")) (SBV w)) (ZConst name (SBV w))) (ZConst name (SBV w))]) \/
  (k_type k = TOptional w /\ sk = SymTernary (ZConst name (SBV w)) (ZConst (c_str (k_name k ++ "_mask")) (SBV w)) /\
   a = [ZEq (ZBVAnd (ZConst (c_str (k_name k ++ "_mask")) (SBV w)) (ZConst name (SBV w))) (ZConst name (SBV w));
        ZOr (ZEq (ZConst (c_str (k_name k ++ "_mask")) (SBV w)) (ZBVVal w 0)) (ZEq (ZConst (c_str (k_name k ++ "_mask")) (SBV w)) (ZBVVal w (-1)))]) \/
  (k_type k = TLpm w /\ sk = SymLpm (ZConst name (SBV w)) (ZConst (c_str (k_name k ++ "_prefix_length")) SInt) /\
   a = [ZAnd (ZAnd (ZICmp IGe (ZConst (c_str (k_name k ++ "_prefix_length")) SInt) (ZIntVal 0)) (ZICmp ILe (ZConst (c_str (k_name k ++ "_prefix_length")) SInt) (ZIntVal w)))
             (ZEq (ZShl (ZLshr (ZConst name (SBV w)) (ZInt2BV w (ZSub (ZIntVal w) (ZConst (c_str (k_name k ++ "_prefix_length")) SInt))))
                        (ZInt2BV w (ZSub (ZIntVal w) (ZConst (c_str (k_name k ++ "_prefix_length")) SInt)))) (ZConst name (SBV w)))]).
Lemma add_key_cases sk a : AddSymbolicKey k = Ok (sk, a) <-> exists w, (0 < w)%Z /\ key_case sk a w.
Proof.
  unfold key_case, name. split.
  - unfold AddSymbolicKey, TypeBitwidthOrStatus. destruct (k_type k) as [| | | |w|w|w|w|w|w|] eqn:Et; cbn [TypeBitwidth bind]; try discriminate; (destruct (Z.eqb_spec w 0); [discriminate|]); try discriminate;
      unfold z3_bv_const; destruct (Z.ltb_spec 0 w); cbn [bind]; try discriminate; intros HH; apply Ok_inj in HH; injection HH as <- <-; exists w; (split; [assumption|]); auto 10.
  - intros (w & Hw & [(Et & -> & ->)|[(Et & -> & ->)|[(Et & -> & ->)|(Et & -> & ->)]]]); unfold AddSymbolicKey, TypeBitwidthOrStatus, z3_bv_const, z3_int_const; rewrite Et; cbn [TypeBitwidth bind];
      (destruct (Z.eqb_spec w 0); [lia|]); (destruct (Z.ltb_spec 0 w); [|lia]); reflexivity.
Qed.
Lemma add_key_iff : (exists r, AddSymbolicKey k = Ok r) <-> representable k.
Proof.
  split.
  - intros ([sk a] & H). apply add_key_cases in H as (w & Hw & [(Et & _)|[(Et & _)|[(Et & _)|(Et & _)]]]); exists w; auto.
  - intros (w & Hw & [Et|[Et|[Et|Et]]]); eexists (_, _); apply add_key_cases; exists w; unfold key_case; (split; [exact Hw|]); auto 10.
Qed.
(** [add_key_total]: other keys are refused. *)
Lemma add_key_err : (forall w, width (k_type k) w -> (0 <= w)%Z) -> ~ representable k -> exists c s, AddSymbolicKey k = Err c s.
Proof.
  intros Hw Hr. unfold AddSymbolicKey, TypeBitwidthOrStatus. destruct (k_type k) as [| | | |w|w|w|w|w|w|] eqn:Et; cbn [TypeBitwidth bind]; eauto;
    (assert (0 <= w)%Z by (apply Hw; constructor)); destruct (Z.eqb_spec w 0); eauto; exfalso; apply Hr; exists w; (split; [lia|]); auto.
Qed.
Variables (sk : symbolic_key) (a : list term).
Hypothesis HA : AddSymbolicKey k = Ok (sk, a).
Lemma key_shaped : shaped (k_type k) (RKey sk).
Proof. apply add_key_cases in HA as (w & Hw & [(-> & -> & _)|[(-> & -> & _)|[(-> & -> & _)|(-> & -> & _)]]]); constructor; auto. Qed.
Lemma key_stands m v : well_sorted m -> pictures m k v -> stands m (k_type k) (RKey sk) v.
Proof.
  intros Hm Hp. assert (forall n w z, (0 < w)%Z -> m n (SBV w) = VV w z -> bv m w (ZConst n (SBV w)) z) as Hbv.
  { intros n w z Hw E. split; [reflexivity|]. split; [exact E|]. destruct (proj1 (Hm n) w Hw) as (z' & E' & Hz). rewrite E in E'. injection E' as ->. exact Hz. }
  apply add_key_cases in HA as (w & Hw & [(Et & -> & _)|[(Et & -> & _)|[(Et & -> & _)|(Et & -> & _)]]]); rewrite Et;
    inversion Hp as [w' z Et' E1|w' z x Et' E1 E2|w' z p Et' E1 E2]; subst; rewrite Et in Et'; try (destruct Et' as [Et'|Et']); try discriminate Et'; injection Et' as <-; constructor; auto.
Qed.
Lemma key_pictured m : well_sorted m -> exists v, pictures m k v.
Proof.
  intros Hm. apply add_key_cases in HA as (w & Hw & HC). destruct (proj1 (Hm name) w Hw) as (z & Ez & _), (proj1 (Hm (c_str (k_name k ++ "_mask"))) w Hw) as (x & Ex & _), (proj1 (proj2 (Hm (c_str (k_name k ++ "_prefix_length"))))) as (p & Ep).
  destruct HC as [(Et & _)|[(Et & _)|[(Et & _)|(Et & _)]]]; eexists; [eapply pi_exact|eapply pi_ternary|eapply pi_ternary|eapply pi_lpm]; eauto.
Qed.
Lemma pictures_fun m v v' : pictures m k v -> pictures m k v' -> v = v'.
Proof.
  intros H H'. destruct H as [w z Et E1|w z x Et E1 E2|w z p Et E1 E2]; inversion H' as [w' z' Et' E1'|w' z' x' Et' E1' E2'|w' z' p' Et' E1' E2']; subst;
    repeat match goal with HH : k_type k = _ \/ _ |- _ => destruct HH as [HH|HH] end; rewrite Et in Et'; try discriminate Et'; injection Et' as <-; congruence.
Qed.
End Key.

(** Arithmetic of masks and prefixes. *)
Lemma masked_land v m : masked v m <-> Z.land m v = v.
Proof.
  split.
  - intros H. apply Z.bits_inj. intros i. rewrite Z.land_spec. destruct (Z.testbit v i) eqn:E; [now rewrite (H i E)|apply andb_false_r].
  - intros H i Hi. rewrite <- H, Z.land_spec in Hi. now apply andb_true_iff in Hi.
Qed.
Lemma shift_multiple v n : (0 <= n)%Z -> (multiple_of_power v n <-> Z.shiftl (Z.shiftr v n) n = v).
Proof.
  intros Hn. rewrite Z.shiftl_mul_pow2, Z.shiftr_div_pow2 by exact Hn. assert (0 < 2 ^ n)%Z by (apply Z.pow_pos_nonneg; lia). split.
  - intros [q ->]. rewrite Z.div_mul by lia. reflexivity.
  - intros E. exists (v / 2 ^ n)%Z. now symmetry.
Qed.
Lemma width_pow w : (0 < w)%Z -> (w < 2 ^ w)%Z.
Proof. intros H. apply Z.pow_gt_lin_r; lia. Qed.
Lemma suffix_mod w p : (0 < w)%Z -> (0 <= p <= w)%Z -> ((w - p) mod 2 ^ w = w - p)%Z.
Proof. intros Hw Hp. pose proof (width_pow w Hw). apply Z.mod_small. lia. Qed.
Lemma lpm_term w z p : (0 < w)%Z -> (0 <= z < 2 ^ w)%Z -> (0 <= p <= w)%Z ->
  (Z.shiftl (Z.shiftr z ((w - p) mod 2 ^ w)) ((w - p) mod 2 ^ w) mod 2 ^ w = z <-> multiple_of_power z (w - p))%Z.
Proof.
  intros Hw Hz Hp. rewrite suffix_mod, shift_multiple by lia. rewrite Z.mod_small; [reflexivity|].
  rewrite Z.shiftl_mul_pow2, Z.shiftr_div_pow2 by lia. assert (0 < 2 ^ (w - p))%Z by (apply Z.pow_pos_nonneg; lia). pose proof (Z.mul_div_le z (2 ^ (w - p)) ltac:(lia)). pose proof (Z.div_pos z (2 ^ (w - p)) ltac:(lia) ltac:(lia)). nia.
Qed.
Lemma minus_one w : (0 < w)%Z -> (-1 mod 2 ^ w = 2 ^ w - 1)%Z.
Proof. intros Hw. symmetry. assert (1 < 2 ^ w)%Z by (apply Z.pow_gt_1; lia). apply (Z.mod_unique_pos (-1) (2 ^ w) (-1)); lia. Qed.
Lemma masked_ones w v : (0 < w)%Z -> (0 <= v < 2 ^ w)%Z -> masked v (2 ^ w - 1).
Proof. intros Hw Hv. apply masked_land. replace (2 ^ w - 1)%Z with (Z.ones w) by (rewrite Z.ones_equiv; lia). rewrite Z.land_comm, Z.land_ones by lia. apply Z.mod_small. exact Hv. Qed.

(** The values of canonical matches. *)
Inductive canonical_value : ty -> value -> Prop :=
| cn_exact w z : (0 <= z < 2 ^ w)%Z -> canonical_value (TExact w) (VExact z)
| cn_ternary w z x : (0 <= z < 2 ^ w)%Z -> (0 <= x < 2 ^ w)%Z -> masked z x -> canonical_value (TTernary w) (VTernary z x)
| cn_optional w z x : (0 <= z < 2 ^ w)%Z -> x = 0%Z /\ z = 0%Z \/ x = (2 ^ w - 1)%Z -> canonical_value (TOptional w) (VTernary z x)
| cn_lpm w z p : (0 <= z < 2 ^ w)%Z -> (0 <= p <= w)%Z -> multiple_of_power z (w - p) -> canonical_value (TLpm w) (VLpm z p).
Lemma bytes_for w z : (0 < w)%Z -> (0 <= z < 2 ^ w)%Z -> exists s, canonical_bytes w s /\ unsigned s = z.
Proof. intros Hw Hz. destruct (value_bytes w z Hw Hz) as (s & _ & H). eauto. Qed.
Lemma unsigned_nonneg s : (0 <= unsigned s)%Z.
Proof. apply N2Z.is_nonneg. Qed.
Lemma canonical_iff t v : (forall w, width t w -> (0 < w)%Z) -> ((exists f, canonical_match t f v) <-> canonical_value t v).
Proof.
  intros Hw. split.
  - intros [f H]. destruct H as [w s (_ & _ & H)|w s m (_ & _ & H) (_ & _ & H') Hn Hm|w|w s (_ & _ & H)|w|w s p (_ & _ & H) Hp Hm|w];
      (assert (0 < w)%Z as Hw' by (apply Hw; constructor)); pose proof (Z.pow_pos_nonneg 2 w ltac:(lia) ltac:(lia)); try pose proof (unsigned_nonneg s); try pose proof (unsigned_nonneg m); constructor; auto; try lia; try (intros i Hi; now rewrite Z.bits_0 in Hi). exists 0%Z. lia.
  - intros H. destruct H as [w z Hz|w z x Hz Hx Hm|w z x Hz Hx|w z p Hz Hp Hm]; (assert (0 < w)%Z as Hw' by (apply Hw; constructor)); destruct (bytes_for w z Hw' Hz) as (s & Hs & <-).
    + eexists. now constructor.
    + destruct (Z.eq_dec x 0) as [->|Hn].
      * assert (unsigned s = 0)%Z as ->. { apply Z.bits_inj_0. intros i. destruct (Z.testbit (unsigned s) i) eqn:E; [|reflexivity]. apply Hm in E. now rewrite Z.bits_0 in E. } eexists. constructor.
      * destruct (bytes_for w x Hw' Hx) as (s' & Hs' & <-). eexists. now constructor.
    + destruct Hx as [[-> ->]| ->]; eexists; now constructor.
    + destruct (Z.eq_dec p 0) as [->|Hn].
      * assert (unsigned s = 0)%Z as ->. { destruct Hm as [q E]. rewrite Z.sub_0_r in E. assert (0 < 2 ^ w)%Z by (apply Z.pow_pos_nonneg; lia). assert (q = 0)%Z by nia. lia. } eexists. constructor.
      * eexists. constructor; [assumption|lia|assumption].
Qed.

Lemma satisfies_nil m : satisfies m [].
Proof. intros t []. Qed.
Lemma satisfies_cons m t l : satisfies m (t :: l) <-> zeval m t = VB true /\ satisfies m l.
Proof. unfold satisfies. cbn. split; [intros H; split; intros; apply H; auto|intros [H1 H2] u [<-|Hu]; auto]. Qed.
Lemma satisfies_app m l l' : satisfies m (l ++ l') <-> satisfies m l /\ satisfies m l'.
Proof. unfold satisfies. setoid_rewrite in_app_iff. split; [intros H; split; intros; apply H; auto|intros [H1 H2] t [H|H]; auto]. Qed.
Lemma VB_iff (b c : bool) : VB b = VB c <-> b = c.
Proof. split; congruence. Qed.

Section Key.
Variable k : key_info.
Variables (sk : symbolic_key) (a : list term).
Hypothesis HA : AddSymbolicKey k = Ok (sk, a).
Lemma key_width : exists w, (0 < w)%Z /\ width (k_type k) w.
Proof. apply add_key_cases in HA as (w & Hw & [(-> & _)|[(-> & _)|[(-> & _)|(-> & _)]]]); exists w; (split; [exact Hw|constructor]). Qed.
Lemma width_fun t w w' : width t w -> width t w' -> w = w'.
Proof. intros [] H; inversion H; reflexivity. Qed.
Lemma key_widths w : width (k_type k) w -> (0 < w)%Z.
Proof. intros H. destruct key_width as (w' & Hw & H'). now rewrite (width_fun _ _ _ H H'). Qed.
Lemma key_canonical_value m v : well_sorted m -> pictures m k v -> (satisfies m a <-> canonical_value (k_type k) v).
Proof.
  intros Hm Hp. pose proof (key_stands k sk a HA m v Hm Hp) as Hst. apply add_key_cases in HA as (w & Hw & HC).
  assert (forall n w' z, m n (SBV w') = VV w' z -> w' = w -> (0 <= z < 2 ^ w)%Z) as Hr. { intros n w' z E ->. destruct (proj1 (Hm n) w Hw) as (z' & E' & Hz). rewrite E in E'. injection E' as ->. exact Hz. }
  destruct HC as [(Et & -> & ->)|[(Et & -> & ->)|[(Et & -> & ->)|(Et & -> & ->)]]]; rewrite Et in *; inversion Hst as [| | |? ? z B1|? ? ? z x B1 B2|? ? ? z x B1 B2|? ? ? z p B1 S2 E2]; subst; destruct B1 as (_ & E1 & R1).
  - split; [intros _; now constructor|intros _; apply satisfies_nil].
  - destruct B2 as (_ & E2 & R2). rewrite satisfies_cons. cbn [zeval] in *. rewrite E1, E2. cbn [as_width as_int zval_eqb]. rewrite Z.eqb_refl, VB_iff. cbn [andb]. rewrite Z.eqb_eq, <- masked_land.
    split; [intros [H _]; now constructor|]. intros H. inversion H; subst. split; [assumption|apply satisfies_nil].
  - destruct B2 as (_ & E2 & R2). rewrite !satisfies_cons. cbn [zeval] in *. rewrite E1, E2. cbn [as_width as_int as_bool zval_eqb]. rewrite Z.eqb_refl, !VB_iff. cbn [andb]. rewrite orb_true_iff, !Z.eqb_eq, <- masked_land. rewrite minus_one by exact Hw. rewrite Z.mod_0_l by (apply Z.pow_nonzero; lia).
    split.
    + intros (H1 & H2 & _). constructor; [exact R1|]. destruct H2 as [->| ->]; [left|now right]. split; [reflexivity|]. apply Z.bits_inj_0. intros i. destruct (Z.testbit z i) eqn:E; [|reflexivity]. apply H1 in E. now rewrite Z.bits_0 in E.
    + intros H. inversion H as [| |? ? ? _ HX|]; subst. split; [|split; [tauto|apply satisfies_nil]]. destruct HX as [[-> ->]| ->]; [intros i Hi; now rewrite Z.bits_0 in Hi|now apply masked_ones].
  - rewrite satisfies_cons. cbn [zeval] in *. rewrite E1, E2. cbn [as_width as_int as_bool zval_eqb icmp_holds]. rewrite Z.eqb_refl, VB_iff. cbn [andb]. rewrite !andb_true_iff, Z.eqb_eq, Z.geb_le, Z.leb_le.
    split.
    + intros ((Hp' & H) & _). constructor; [exact R1|lia|]. apply lpm_term; auto.
    + intros H. inversion H; subst. split; [split; [lia|now apply lpm_term]|apply satisfies_nil].
Qed.
Lemma key_canonical m : well_sorted m -> (satisfies m a <-> exists f v, canonical_match (k_type k) f v /\ pictures m k v).
Proof.
  intros Hm. destruct (key_pictured k sk a HA m Hm) as (v & Hv). rewrite (key_canonical_value m v Hm Hv). rewrite <- (canonical_iff _ v key_widths). split; [intros [f Hf]; eauto|].
  intros (f & v' & Hf & Hv'). rewrite (pictures_fun k m v v' Hv Hv'). eauto.
Qed.
Lemma key_concrete m : well_sorted (complete m) -> satisfies (complete m) a -> (forall w, width (k_type k) w -> (w <= 2147483647)%Z) ->
  exists f v, ConcretizeKey sk k m = Ok (option_map (mkFM (k_id k)) f) /\ canonical_match (k_type k) f v /\ pictures (complete m) k v.
Proof.
  intros Hm Hs Hmax. destruct (key_pictured k sk a HA _ Hm) as (v & Hv). apply (key_canonical_value _ v Hm Hv) in Hs as Hc. pose proof (key_stands k sk a HA _ v Hm Hv) as Hst.
  apply add_key_cases in HA as (w & Hw & HC).
  assert (forall t z, bv (complete m) w t z -> exists s, Z3BitvectorValueToP4RuntimeBytestring (eval_bv_string m t) w = Ok s /\ canonical_bytes w s /\ unsigned s = z) as Hb.
  { intros t z (_ & E & R). unfold eval_bv_string. rewrite E. now apply value_bytes. }
  unfold ConcretizeKey, TypeBitwidthOrStatus.
  destruct HC as [(Et & -> & _)|[(Et & -> & _)|[(Et & -> & _)|(Et & -> & _)]]]; rewrite Et in *; cbn [TypeBitwidth bind]; inversion Hst as [| | |? ? z B1|? ? ? z x B1 B2|? ? ? z x B1 B2|? ? ? z p B1 S2 E2]; subst; cbn [GetValue GetMask GetPrefixLength GetFieldAccess String.eqb Ascii.eqb Bool.eqb bind sort_of].
  - destruct (Hb _ _ B1) as (s & -> & Hs1 & <-). cbn [bind]. exists (Some (FMExact s)). eexists. split; [reflexivity|]. split; [now constructor|exact Hv].
  - destruct (Hb _ _ B1) as (s & Es & Hs1 & <-), (Hb _ _ B2) as (s' & Es' & Hs2 & <-). unfold z3_eq. cbn [sort_of]. rewrite (proj2 (sort_eqb_eq _ _) eq_refl). cbn [bind zeval]. destruct B2 as (_ & E2 & R2). cbn [zeval] in E2. rewrite E2. rewrite Z.mod_0_l by (apply Z.pow_nonzero; lia). cbn [zval_eqb as_bool]. rewrite Z.eqb_refl. cbn [andb].
    inversion Hc; subst. destruct (Z.eqb_spec (unsigned s') 0) as [E0|E0].
    + assert (unsigned s = 0)%Z as E1. { apply Z.bits_inj_0. intros i. destruct (Z.testbit (unsigned s) i) eqn:E; [|reflexivity]. match goal with H : masked _ _ |- _ => apply H in E end. now rewrite E0, Z.bits_0 in E. }
      rewrite E0, E1 in *. exists None. eexists. split; [reflexivity|]. split; [constructor|exact Hv].
    + rewrite Es. cbn [bind]. rewrite Es'. cbn [bind]. exists (Some (FMTernary s s')). eexists. split; [reflexivity|]. split; [now constructor|exact Hv].
  - destruct (Hb _ _ B1) as (s & Es & Hs1 & <-). unfold z3_eq. cbn [sort_of]. rewrite (proj2 (sort_eqb_eq _ _) eq_refl). cbn [bind zeval]. destruct B2 as (_ & E2 & R2). cbn [zeval] in E2. rewrite E2. rewrite Z.mod_0_l by (apply Z.pow_nonzero; lia). cbn [zval_eqb as_bool]. rewrite Z.eqb_refl. cbn [andb].
    inversion Hc as [| |? ? ? _ HX|]; subst. assert (1 < 2 ^ w)%Z by (apply Z.pow_gt_1; lia). destruct HX as [[-> Ez]| ->].
    + rewrite Z.eqb_refl. rewrite Ez in *. exists None. eexists. split; [reflexivity|]. split; [constructor|exact Hv].
    + destruct (Z.eqb_spec (2 ^ w - 1) 0); [lia|]. rewrite Es. cbn [bind]. exists (Some (FMOptional s)). eexists. split; [reflexivity|]. split; [now constructor|exact Hv].
  - destruct (Hb _ _ B1) as (s & Es & Hs1 & <-). cbn [zeval] in *. rewrite E2. inversion Hc as [| | |? ? ? _ Hp HX]; subst. assert (w <= 2147483647)%Z by (apply Hmax; constructor).
    cbn [get_numeral_int]. destruct (Z.leb_spec (-2147483648) p); [|lia]. destruct (Z.leb_spec p 2147483647); [|lia]. cbn [andb bind]. destruct (Z.eqb_spec p 0) as [->|Hp0].
    + assert (unsigned s = 0)%Z as E1. { destruct HX as [q E]. rewrite Z.sub_0_r in E. assert (0 < 2 ^ w)%Z by (apply Z.pow_pos_nonneg; lia). destruct B1 as (_ & _ & R1). assert (q = 0)%Z by nia. lia. }
      rewrite E1 in *. exists None. eexists. split; [reflexivity|]. split; [constructor|exact Hv].
    + rewrite Es. cbn [bind]. exists (Some (FMLpm s p)). eexists. split; [reflexivity|]. split; [constructor; [assumption|lia|assumption]|exact Hv].
Qed.
End Key.
