(** What constraints demand of packets. *)
From Coq Require Import String List ZArith NArith Bool Lia.
From Verif Require Import Base Num Token Ast AstConstructors Info Interpreter SpecLexer SpecGrammar SpecParser SpecTyping SpecSemantics SpecInfo SpecPackets SpecIdioms TypeChecker EvalFacts SemFacts EntryFacts TypeFacts LawFacts SemFacts2 PacketFacts.
Import ListNotations.
Open Scope Z_scope.

(** * Values and packets *)
Lemma pow_pos w : 0 <= w -> 0 < 2 ^ w.
Proof. intros. apply Z.pow_pos_nonneg; lia. Qed.
Lemma land_ones' x w : 0 <= w -> 0 <= x < 2 ^ w -> Z.land x (2 ^ w - 1) = x.
Proof. apply (land_ones_id []). intros k ? []. Qed.
(** The match for exactly [z]. *)
Inductive point (w z : Z) : ty -> value -> Prop :=
| pt_exact : point w z (TExact w) (VExact z)
| pt_ternary : point w z (TTernary w) (VTernary z (2 ^ w - 1))
| pt_optional : point w z (TOptional w) (VTernary z (2 ^ w - 1))
| pt_lpm : point w z (TLpm w) (VLpm z w)
| pt_range : point w z (TRange w) (VRange z z).
Lemma point_exists w z t : match_type w t -> exists u, point w z t u.
Proof. destruct 1; eexists; constructor. Qed.
Lemma point_cval w z t u : 0 <= w -> fits_width w z -> point w z t u -> cval w t u /\ forall x, fits_width w x -> (Matches w u x <-> x = z).
Proof.
  intros Hw Hz H. pose proof (pow_pos w Hw) as Hp. unfold fits_width in *. destruct H.
  - split; [now constructor|]. intros x _. apply matches_exact.
  - split; [constructor; try lia; now apply land_ones'|]. intros x Hx. rewrite matches_ternary, !land_ones' by lia. reflexivity.
  - split; [constructor; try lia; now apply land_ones'|]. intros x Hx. rewrite matches_ternary, !land_ones' by lia. reflexivity.
  - split; [constructor; try lia; rewrite Z.sub_diag; apply Z.mod_1_r|]. intros x Hx. rewrite matches_lpm, Z.sub_diag, !Z.shiftr_0_r. reflexivity.
  - split; [constructor; lia|]. intros x Hx. rewrite matches_range. lia.
Qed.
Lemma point_converts w z t u : 0 <= w -> point w (z mod 2 ^ w) t u -> Converts TInt t (VInt z) u.
Proof. intros Hw H. destruct H; (eapply cv_trans; [apply cv_int; exact Hw|]); now constructor. Qed.
Lemma match_width w t : match_type w t -> width t w.
Proof. destruct 1; constructor. Qed.
Lemma common_int w t : match_type w t -> common t TInt t.
Proof. intros H. apply lub_iff. destruct H; vm_compute; reflexivity. Qed.
Lemma xor_fits w v i : 0 <= i < w -> fits_width w v -> fits_width w (Z.lxor v (2 ^ i)).
Proof.
  unfold fits_width. intros Hi Hv. assert (0 < 2 ^ i) as Hp by (apply pow_pos; lia). assert (0 <= Z.lxor v (2 ^ i)) as H0 by (apply Z.lxor_nonneg; lia). split; [exact H0|].
  destruct (Z.eq_dec (Z.lxor v (2 ^ i)) 0) as [->|Hn]; [lia|]. apply Z.log2_lt_pow2; [lia|].
  assert (Z.log2 (Z.lxor v (2 ^ i)) <= Z.max (Z.log2 v) (Z.log2 (2 ^ i))) as Hl by (apply Z.log2_lxor; lia). rewrite Z.log2_pow2 in Hl by lia.
  assert (Z.log2 v < w) by (destruct (Z.eq_dec v 0) as [->|]; [cbn; lia|apply Z.log2_lt_pow2; lia]). lia.
Qed.
Lemma prefix_matters w v p z : 0 <= w -> 0 <= z -> cval w (TLpm w) (VLpm v p) ->
  (p <= z <-> forall x y, fits_width w x -> fits_width w y -> same_prefix w z x y -> (Matches w (VLpm v p) x <-> Matches w (VLpm v p) y)).
Proof.
  intros Hw Hz Hc. inversion Hc as [| | |? ? Hv Hp _|]; subst. split.
  - intros Hle x y Hx Hy Hs. rewrite !matches_lpm. replace (Z.shiftr y (w - p)) with (Z.shiftr x (w - p)); [reflexivity|].
    apply Z.bits_inj'. intros i Hi. rewrite !Z.shiftr_spec by exact Hi. destruct (Z_lt_le_dec (i + (w - p)) w) as [Hlt|Hge]; [apply Hs; lia|].
    unfold fits_width in *. now rewrite !(small_bits _ w) by lia.
  - intros H. destruct (Z_le_gt_dec p z) as [|Hgt]; [assumption|exfalso]. assert (fits_width w (Z.lxor v (2 ^ (w - p)))) as Hf by (apply xor_fits; [lia|exact Hv]).
    assert (Matches w (VLpm v p) (Z.lxor v (2 ^ (w - p)))) as M.
    { apply (H v); [exact Hv|exact Hf| |now constructor]. intros i Hi. rewrite Z.lxor_spec, Z.pow2_bits_false by lia. now rewrite xorb_false_r. }
    apply matches_lpm in M. assert (Z.testbit (Z.shiftr (Z.lxor v (2 ^ (w - p))) (w - p)) 0 = Z.testbit (Z.shiftr v (w - p)) 0) as E by now rewrite M.
    rewrite !Z.shiftr_spec, Z.lxor_spec, Z.pow2_bits_true in E by lia. destruct (Z.testbit v (0 + (w - p))); discriminate.
Qed.

(** * Trees *)
Section D.
  Variables (ks : list key_info) (l : list field_match) (pr : Z) (key : string -> option value).
  Hypothesis Hids : NoDup (map k_id ks).
  Hypothesis Hnames : NoDup (map k_name ks).
  Hypothesis Hw : forall k w, In k ks -> width (k_type k) w -> 0 <= w.
  Hypothesis HC : canonical_entry ks l.
  Hypothesis Hkey : forall n v, key n = Some v <-> Assigned ks l n v.
  Notation G := (key_scope ks).
  Notation r := (TableEnv key pr).
  Notation Mean := (Means kTableConstraint).
  Definition settled (e : expr) (P : Prop) : Prop := Typed G e TBool /\ ~ orders_exact G e /\ exists b, Den G r e (VBool b) /\ (b = true <-> P).
  Lemma key_facts s k e : names ks s k -> Mean s e -> usable (k_type k) -> exists v w m, e = EKey m (k_name k) /\ Typed G e (k_type k) /\ Den G r e v /\ width (k_type k) w /\ 0 <= w /\ cval w (k_type k) v /\
    (forall x, fits_width w x -> (content l k w x <-> Matches w v x)) /\ ~ orders_exact G e.
  Proof.
    intros (Hk & id & ids & -> & En) HM Hu. inversion HM as [| |m ? ?| | | | |]; subst. unfold variable in *. rewrite <- En in *.
    destruct (assigned_exists ks Hids l k (proj1 HC) Hk) as [v HA]. destruct (assigned_facts ks Hnames Hw l k v HC Hk HA) as (w & HW & Hcv & HD).
    exists v, w, m. split; [reflexivity|]. split. { eapply T_key; [reflexivity| |exact Hu]. exists k. split; [|reflexivity]. apply in_map_iff. now exists k. }
    split. { eapply sem_key; [reflexivity|]. now apply Hkey. } split; [exact HW|]. split; [now apply (Hw k)|]. split; [exact Hcv|]. split; [|intros Ho; inversion Ho].
    intros x Hx. rewrite <- (HD x Hx). unfold content, demands. split.
    - intros H f w' Hf Hid HW'. rewrite (width_fun _ _ _ HW' HW). now apply H.
    - intros H f Hf Hid. now apply (H f w Hf (eq_sym Hid)).
  Qed.
  Lemma literal_facts s z e : literal s z -> Mean s e -> Typed G e TInt /\ Den G r e (VInt z) /\ ~ orders_exact G e.
  Proof.
    intros H. revert e. induction H as [n|s z H IH]; intros e HM; inversion HM; subst.
    - split; [constructor|]. split; [now constructor|intros Ho; inversion Ho].
    - destruct (IH _ ltac:(eassumption)) as (Q1 & Q2 & Q3). split; [now constructor|]. split; [now constructor|]. intros Ho. inversion Ho; subst. contradiction.
  Qed.
  Lemma match_usable w t : match_type w t -> usable t.
  Proof. intros H. split; [destruct H; discriminate|]. intros n. destruct H; discriminate. Qed.
  Lemma scope_keys : NoDup (map fst (map (fun k => (k_name k, k)) ks)).
  Proof. rewrite map_map. exact Hnames. Qed.
  Lemma not_ordered m o a b ta tb t : Typed G a ta -> Typed G b tb -> common ta tb t -> ~ orders_exact G a -> ~ orders_exact G b -> (ordering o -> forall w, t <> TExact w) -> ~ orders_exact G (EBin m o a b).
  Proof.
    intros Ta Tb Hc Na Nb Hn Ho. pose proof (typed_fun _ _ _ (scope_witness _ scope_keys)) as HF. inversion Ho as [? ? ? ? ta' tb' w Hor Ta' Tb' Hc'| | |? ? ? ? H|? ? ? ? H|]; subst; [|contradiction|contradiction].
    rewrite (HF _ _ _ Ta' Ta), (HF _ _ _ Tb' Tb) in Hc'. exact (Hn Hor w (common_fun _ _ _ _ Hc Hc')).
  Qed.
  Lemma settled_eq m a b ta tb t u v u' v' : Typed G a ta -> Typed G b tb -> common ta tb t -> ~ orders_exact G a -> ~ orders_exact G b ->
    Den G r a u -> Den G r b v -> Converts ta t u u' -> Converts tb t v v' -> settled (EBin m OEQ a b) (u' = v').
  Proof.
    intros Ta Tb Hc Na Nb Da Db Ca Cb. split; [eapply T_eq; eauto; constructor|]. split; [eapply not_ordered; eauto; intros Ho; inversion Ho|].
    exists (value_eqb u' v'). pose proof (eq_iff OEQ u' v' c_eq) as E. cbn iota in E. split; [eapply sem_compare; eauto; left; constructor|].
    rewrite E. split; [intros H; now inversion H|intros ->; constructor].
  Qed.
  Lemma order_compares op o p ch R x y : binary op p ch o -> order_of op R -> (comparable o (VInt x) (VInt y) /\ exists b : bool, (b = true <-> Compares o (VInt x) (VInt y)) /\ (b = true <-> R x y)).
  Proof.
    intros Hb HR. destruct HR; inversion Hb; subst.
    - split; [left; constructor|]. exists (value_eqb (VInt x) (VInt y)). pose proof (eq_iff OEQ (VInt x) (VInt y) c_eq) as E. cbn iota in E. split; [exact E|]. rewrite E. split; [intros H; now inversion H|intros ->; constructor].
    - split; [left; constructor|]. exists (negb (value_eqb (VInt x) (VInt y))). pose proof (eq_iff ONE (VInt x) (VInt y) c_ne) as E. cbn iota in E. split; [exact E|]. rewrite E. split; [intros H; inversion H; congruence|intros H; constructor; congruence].
    - split; [right; split; [constructor|split; eexists; constructor]|]. exists (ordered OLT x y). pose proof (ordered_iff OLT x y c_lt) as E. split; [exact E|]. apply Z.ltb_lt.
    - split; [right; split; [constructor|split; eexists; constructor]|]. exists (ordered OLE x y). pose proof (ordered_iff OLE x y c_le) as E. split; [exact E|]. apply Z.leb_le.
    - split; [right; split; [constructor|split; eexists; constructor]|]. exists (ordered OGT x y). pose proof (ordered_iff OGT x y c_gt) as E. split; [exact E|]. rewrite E. split; [intros H; inversion H as [| | | |? ? ? ? N1 N2|]; subst; inversion N1; inversion N2; now subst|intros H; econstructor; [constructor|constructor|exact H]].
    - split; [right; split; [constructor|split; eexists; constructor]|]. exists (ordered OGE x y). pose proof (ordered_iff OGE x y c_ge) as E. split; [exact E|]. rewrite E. split; [intros H; inversion H as [| | | | |? ? ? ? N1 N2]; subst; inversion N1; inversion N2; now subst|intros H; econstructor; [constructor|constructor|exact H]].
  Qed.
  Lemma settled_ints m op o p ch R a b ta tb t u v x y : binary op p ch o -> order_of op R -> t = TInt \/ (exists w, t = TBit w) -> Typed G a ta -> Typed G b tb -> common ta tb t -> ~ orders_exact G a -> ~ orders_exact G b ->
    Den G r a u -> Den G r b v -> Converts ta t u (VInt x) -> Converts tb t v (VInt y) -> settled (EBin m o a b) (R x y).
  Proof.
    intros Hb HR Ht Ta Tb Hc Na Nb Da Db Ca Cb. destruct (order_compares op o p ch R x y Hb HR) as (Hcp & c & E1 & E2). split.
    { destruct HR; inversion Hb; subst; first [eapply T_eq; eauto; constructor|eapply T_ord; eauto; [constructor|destruct Ht as [->|[w ->]]; constructor]]. }
    split. { eapply not_ordered; eauto. intros _ w ->. destruct Ht as [E|[w' E]]; discriminate. }
    exists c. split; [|exact E2]. eapply sem_compare; eauto.
  Qed.
  Lemma common_bit w : common (TBit w) TInt (TBit w).
  Proof. apply lub_iff. reflexivity. Qed.
  Lemma common_ints : common TInt TInt TInt.
  Proof. apply lub_iff. reflexivity. Qed.
  Lemma common_same t w : match_type w t -> common t t t.
  Proof. intros _. split; [now left|]. split; [now left|]. auto. Qed.
  (** A field of a key compared with a literal. *)
  Lemma settled_field m op o p ch R a t t' v f z n e : binary op p ch o -> order_of op R -> Typed G a t -> ~ orders_exact G a -> Den G r a v -> has_field t f t' -> Field f v z ->
    literal n e -> forall mf b, Mean n b -> (t' = TInt \/ exists w, t' = TBit w /\ 0 <= w) -> settled (EBin m o (EField mf f a) b) (R z (match t' with TBit w => e mod 2 ^ w | _ => e end)).
  Proof.
    intros Hb HR Ta Na Da Hf Hz Hn mf b HM Ht. destruct (literal_facts n e b Hn HM) as (Tb & Db & Nb).
    eapply (settled_ints m op o p ch R _ _ t' TInt t'); [exact Hb|exact HR| | | | | | | | | |].
    - destruct Ht as [->|[w [-> _]]]; [now left|right; now exists w].
    - eapply T_field; eauto.
    - exact Tb.
    - destruct Ht as [->|[w [-> _]]]; [exact common_ints|exact (common_bit w)].
    - intros Ho. inversion Ho; subst. contradiction.
    - exact Nb.
    - eapply sem_field; eauto.
    - exact Db.
    - constructor.
    - destruct Ht as [->|[w [-> Hw0]]]; [constructor|now constructor].
  Qed.
  Lemma settled_iff e P Q : (P <-> Q) -> settled e P -> settled e Q.
  Proof. intros H (H1 & H2 & b & H3 & H4). split; [exact H1|]. split; [exact H2|]. exists b. split; [exact H3|]. now rewrite H4. Qed.
  Theorem demands_settled s P : Demands ks l pr s P -> forall e, Mean s e -> settled e P.
  Proof.
    induction 1 as [s k w n z HN HT HL|s s' k k' w HN HN' HT HE|s k w HN HT|s k w HN HT|s k w n z HN HT HL Hz|s k w n z HN HT HL Hz|s k w n z HN HT HL Hz|s k w n z op R HN HT HL Hz HR|n z op R HL HR|b|s P H IH|s s' P P' H IH H' IH'|s s' P P' H IH H' IH'|s s' P P' H IH H' IH'|s s' P P' H IH H' IH']; intros e HM.
    - inversion HM as [| | | | | |m ? p ch o ? ? a b Hb Ma Mb|]; subst. inversion Hb; subst. destruct (key_facts s k a HN Ma (match_usable _ _ HT)) as (v & w' & mk & _ & Ta & Da & HW & H0 & Hcv & HD & Na).
      assert (w' = w) as -> by (eapply width_fun; [exact HW|now apply match_width]). destruct (literal_facts n z b HL Mb) as (Tb & Db & Nb).
      destruct (point_exists w (z mod 2 ^ w) _ HT) as [u Hu]. pose proof (pow_pos w H0) as Hp. assert (fits_width w (z mod 2 ^ w)) as Hzf by (apply Z.mod_pos_bound; exact Hp).
      destruct (point_cval w _ _ u H0 Hzf Hu) as [Hcu Hmu]. eapply settled_iff; [|eapply (settled_eq m a b (k_type k) TInt (k_type k) v (VInt z) v u); eauto using common_int, point_converts; constructor].
      split.
      + intros -> x Hx. rewrite HD by exact Hx. now apply Hmu.
      + intros H. apply (cval_unique w (k_type k)); try assumption. intros x Hx. rewrite <- HD, H by exact Hx. symmetry. now apply Hmu.
    - inversion HM as [| | | | | |m ? p ch o ? ? a b Hb Ma Mb|]; subst. inversion Hb; subst. destruct (key_facts s k a HN Ma (match_usable _ _ HT)) as (v & w' & mk & _ & Ta & Da & HW & H0 & Hcv & HD & Na).
      rewrite <- HE in HT. destruct (key_facts s' k' b HN' Mb (match_usable _ _ HT)) as (v' & w1 & mk' & _ & Tb & Db & HW' & _ & Hcv' & HD' & Nb). rewrite HE in *.
      assert (w' = w) as -> by (eapply width_fun; [exact HW|now apply match_width]). assert (w1 = w) as -> by (eapply width_fun; [exact HW'|now apply match_width]).
      eapply settled_iff; [|eapply (settled_eq m a b (k_type k) (k_type k) (k_type k) v v' v v'); eauto using common_same; constructor].
      split.
      + intros -> x Hx. rewrite HD, HD' by exact Hx. reflexivity.
      + intros H. apply (cval_unique w (k_type k)); try assumption. intros x Hx. rewrite <- HD, <- HD' by exact Hx. now apply H.
    - inversion HM as [| | | | | |m ? p ch o ? ? a b Hb Ma Mb|]; subst. inversion Hb; subst. inversion Ma as [| | | | | | |mf ? a' ? Ma']; subst.
      assert (match_type w (k_type k)) as HT' by (destruct HT; constructor). destruct (key_facts s k a' HN Ma' (match_usable _ _ HT')) as (v & w' & mk & _ & Ta & Da & HW & H0 & Hcv & HD & Na).
      assert (w' = w) as -> by (eapply width_fun; [exact HW|now apply match_width]). pose proof (pow_pos w H0) as Hp.
      assert (exists v0 m0, v = VTernary v0 m0 /\ cval w (k_type k) (VTernary 0 0)) as (v0 & m0 & -> & Hc0) by (destruct HT; inversion Hcv; subst; eexists _, _; (split; [reflexivity|constructor; try lia; reflexivity])).
      eapply settled_iff; [|eapply (settled_field m EQ OEQ 5%nat false Z.eq a' (k_type k) (TBit w) (VTernary v0 m0) "mask" m0 (SNum 0) 0); eauto using oo_eq; [destruct HT; constructor|constructor|exact (li_num 0)]].
      cbn [Z.of_N]. rewrite Z.mod_0_l by lia. unfold Z.eq. split.
      + intros -> x Hx. apply HD; [exact Hx|]. apply matches_ternary. now rewrite !Z.land_0_r.
      + intros H. assert (VTernary v0 m0 = VTernary 0 0) as E; [|now injection E]. apply (cval_unique w (k_type k)); try assumption. intros x Hx. rewrite <- HD by exact Hx. split; [intros _; apply matches_ternary; now rewrite !Z.land_0_r|intros _; now apply H].
    - inversion HM as [| | | | | |m ? p ch o ? ? a b Hb Ma Mb|]; subst. inversion Hb; subst. inversion Ma as [| | | | | | |mf ? a' ? Ma']; subst.
      assert (match_type w (k_type k)) as HT' by (destruct HT; constructor). destruct (key_facts s k a' HN Ma' (match_usable _ _ HT')) as (v & w' & mk & _ & Ta & Da & HW & H0 & Hcv & HD & Na).
      assert (w' = w) as -> by (eapply width_fun; [exact HW|now apply match_width]). pose proof (pow_pos w H0) as Hp.
      assert (exists v0 m0, v = VTernary v0 m0 /\ fits_width w v0) as (v0 & m0 & -> & Hv0) by (destruct HT; inversion Hcv; subst; eexists _, _; (split; [reflexivity|assumption])).
      assert (forall z, point w z (k_type k) (VTernary z (2 ^ w - 1))) as HP by (intros z; destruct HT; constructor).
      eapply settled_iff; [|eapply (settled_field m EQ OEQ 5%nat false Z.eq a' (k_type k) (TBit w) (VTernary v0 m0) "mask" m0 (SNeg (SNum 1)) (- (1))); eauto using oo_eq; [destruct HT; constructor|constructor|exact (li_neg _ _ (li_num 1))]].
      assert (- (1) mod 2 ^ w = 2 ^ w - 1) as Em by (symmetry; apply (Z.mod_unique _ _ (-1)); lia). cbn [Z.opp] in Em |- *. rewrite Em. unfold Z.eq. split.
      + intros ->. exists v0. split; [exact Hv0|]. intros x Hx. rewrite HD by exact Hx. exact (proj2 (point_cval w v0 _ _ H0 Hv0 (HP v0)) x Hx).
      + intros (z & Hz & H). destruct (point_cval w z _ _ H0 Hz (HP z)) as [Hcz Hmz]. assert (VTernary v0 m0 = VTernary z (2 ^ w - 1)) as E; [|now injection E].
        apply (cval_unique w (k_type k)); try assumption. intros x Hx. rewrite <- HD, H by exact Hx. symmetry. now apply Hmz.
    - inversion HM as [| | | | | |m ? p ch o ? ? a b Hb Ma Mb|]; subst. inversion Hb; subst. inversion Ma as [| | | | | | |mf ? a' ? Ma']; subst.
      assert (match_type w (k_type k)) as HT' by (rewrite HT; constructor). destruct (key_facts s k a' HN Ma' (match_usable _ _ HT')) as (v & w' & mk & _ & Ta & Da & HW & H0 & Hcv & HD & Na).
      assert (w' = w) as -> by (eapply width_fun; [exact HW|now apply match_width]). rewrite HT in *. inversion Hcv as [| | |v0 p Hv0 Hp Hmod|]; subst.
      eapply settled_iff; [|eapply (settled_field m LE OLE 5%nat false Z.le a' (TLpm w) TInt (VLpm v0 p) "prefix_length" p n z); eauto using oo_le; constructor].
      rewrite (prefix_matters w v0 p z H0 Hz Hcv). split; intros H x y Hx Hy Hs; pose proof (H x y Hx Hy Hs) as E; rewrite ?HD in * by assumption; exact E.
    - inversion HM as [| | | | | |m ? p ch o ? ? a b Hb Ma Mb|]; subst. inversion Hb; subst. inversion Ma as [| | | | | | |mf ? a' ? Ma']; subst.
      assert (match_type w (k_type k)) as HT' by (rewrite HT; constructor). destruct (key_facts s k a' HN Ma' (match_usable _ _ HT')) as (v & w' & mk & _ & Ta & Da & HW & H0 & Hcv & HD & Na).
      assert (w' = w) as -> by (eapply width_fun; [exact HW|now apply match_width]). rewrite HT in *. inversion Hcv as [| | | |lo hi Hlo Hhi]; subst.
      eapply settled_iff; [|eapply (settled_field m GE OGE 5%nat false Z.ge a' (TRange w) (TBit w) (VRange lo hi) "low" lo n z); eauto using oo_ge; constructor].
      cbv beta iota. rewrite Z.mod_small by exact Hz. split.
      + intros Hge x Hx Hc. rewrite HD in Hc by exact Hx. apply matches_range in Hc. lia.
      + intros H. enough (z <= lo) by lia. apply H; [unfold fits_width; lia|]. apply HD; [unfold fits_width; lia|]. apply matches_range. lia.
    - inversion HM as [| | | | | |m ? p ch o ? ? a b Hb Ma Mb|]; subst. inversion Hb; subst. inversion Ma as [| | | | | | |mf ? a' ? Ma']; subst.
      assert (match_type w (k_type k)) as HT' by (rewrite HT; constructor). destruct (key_facts s k a' HN Ma' (match_usable _ _ HT')) as (v & w' & mk & _ & Ta & Da & HW & H0 & Hcv & HD & Na).
      assert (w' = w) as -> by (eapply width_fun; [exact HW|now apply match_width]). rewrite HT in *. inversion Hcv as [| | | |lo hi Hlo Hhi]; subst.
      eapply settled_iff; [|eapply (settled_field m LE OLE 5%nat false Z.le a' (TRange w) (TBit w) (VRange lo hi) "high" hi n z); eauto using oo_le; constructor].
      cbv beta iota. rewrite Z.mod_small by exact Hz. split.
      + intros Hge x Hx Hc. rewrite HD in Hc by exact Hx. apply matches_range in Hc. lia.
      + intros H. apply H; [unfold fits_width; lia|]. apply HD; [unfold fits_width; lia|]. apply matches_range. lia.
    - inversion HM as [| | | | | |m ? p ch o ? ? a b Hb Ma Mb|]; subst. inversion Ma as [| | | | | | |mf ? a' ? Ma']; subst.
      assert (match_type w (k_type k)) as HT' by (rewrite HT; constructor). destruct (key_facts s k a' HN Ma' (match_usable _ _ HT')) as (v & w' & mk & _ & Ta & Da & HW & H0 & Hcv & HD & Na).
      assert (w' = w) as -> by (eapply width_fun; [exact HW|now apply match_width]). rewrite HT in *. inversion Hcv as [v0 Hv0| | | |]; subst.
      eapply settled_iff; [|eapply (settled_field m op o p ch R a' (TExact w) (TBit w) (VExact v0) "value" v0 n z); eauto; constructor].
      cbv beta iota. rewrite Z.mod_small by exact Hz. split.
      + intros Hge x Hx Hc. rewrite HD in Hc by exact Hx. apply matches_exact in Hc. now subst.
      + intros H. apply H; [exact Hv0|]. apply HD; [exact Hv0|constructor].
    - inversion HM as [| | | | | |m ? p ch o ? ? a b Hb Ma Mb|]; subst. inversion Ma; subst. destruct (literal_facts n z b HL Mb) as (Tb & Db & Nb).
      eapply (settled_ints m op o p ch R _ _ TInt TInt TInt _ _ pr z Hb HR (or_introl eq_refl)); [apply T_attr|exact Tb|exact common_ints|intros Ho; inversion Ho|exact Nb|eapply sem_priority; reflexivity|exact Db|apply cv_same|apply cv_same].
    - inversion HM; subst. split; [constructor|]. split; [intros Ho; inversion Ho|]. exists b. split; [constructor|reflexivity].
    - inversion HM as [| | | |m ? a Ma| | |]; subst. destruct (IH _ Ma) as (T1 & O1 & b & D1 & E1). split; [now constructor|]. split; [intros Ho; inversion Ho; contradiction|]. exists (negb b). split; [now constructor|]. rewrite <- E1. destruct b; cbn; intuition discriminate.
    - inversion HM as [| | | | | |m ? p ch o ? ? a b Hb Ma Mb|]; subst. inversion Hb; subst. destruct (IH _ Ma) as (T1 & O1 & x & D1 & E1). destruct (IH' _ Mb) as (T2 & O2 & y & D2 & E2).
      split; [apply T_conn; [constructor|assumption..]|]. split; [intros Ho; inversion Ho as [? ? ? ? ? ? ? Hor| | | | |]; subst; [inversion Hor|contradiction..]|]. exists (truth OAND x y). split; [apply sem_both; [constructor|assumption..]|]. rewrite <- E1, <- E2. destruct x, y; cbn; intuition discriminate.
    - inversion HM as [| | | | | |m ? p ch o ? ? a b Hb Ma Mb|]; subst. inversion Hb; subst. destruct (IH _ Ma) as (T1 & O1 & x & D1 & E1). destruct (IH' _ Mb) as (T2 & O2 & y & D2 & E2).
      split; [apply T_conn; [constructor|assumption..]|]. split; [intros Ho; inversion Ho as [? ? ? ? ? ? ? Hor| | | | |]; subst; [inversion Hor|contradiction..]|]. exists (truth OAND x y). split; [apply sem_both; [constructor|assumption..]|]. rewrite <- E1, <- E2. destruct x, y; cbn; intuition discriminate.
    - inversion HM as [| | | | | |m ? p ch o ? ? a b Hb Ma Mb|]; subst. inversion Hb; subst. destruct (IH _ Ma) as (T1 & O1 & x & D1 & E1). destruct (IH' _ Mb) as (T2 & O2 & y & D2 & E2).
      split; [apply T_conn; [constructor|assumption..]|]. split; [intros Ho; inversion Ho as [? ? ? ? ? ? ? Hor| | | | |]; subst; [inversion Hor|contradiction..]|]. exists (truth OOR x y). split; [apply sem_both; [constructor|assumption..]|]. rewrite <- E1, <- E2. destruct x, y; cbn; intuition discriminate.
    - inversion HM as [| | | | | |m ? p ch o ? ? a b Hb Ma Mb|]; subst. inversion Hb; subst. destruct (IH _ Ma) as (T1 & O1 & x & D1 & E1). destruct (IH' _ Mb) as (T2 & O2 & y & D2 & E2).
      split; [apply T_conn; [constructor|assumption..]|]. split; [intros Ho; inversion Ho as [? ? ? ? ? ? ? Hor| | | | |]; subst; [inversion Hor|contradiction..]|]. exists (truth OIMPLIES x y). split; [apply sem_both; [constructor|assumption..]|]. rewrite <- E1, <- E2. destruct x, y; cbn; intuition discriminate.
  Qed.
End D.
