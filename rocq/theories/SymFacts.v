(** The solver terms of type-checked constraints have the meaning of the constraints. *)
From Coq Require Import String Ascii List ZArith NArith Bool Lia.
From Verif Require Import Base Num Token Ast Quote Info TypeChecker Interpreter Z3 Symbolic SpecLexer SpecGrammar SpecTyping TypeFacts NumFacts LiteralFacts SpecSemantics SpecSymbolic SemFacts SemFacts2.
Import ListNotations.
Open Scope string_scope.

Lemma sort_eqb_eq a b : sort_eqb a b = true <-> a = b.
Proof. destruct a, b; cbn; rewrite ?Z.eqb_eq; split; congruence. Qed.
Lemma zval_eqb_eq a b : zval_eqb a b = true <-> a = b.
Proof. destruct a, b; cbn; rewrite ?andb_true_iff, ?Z.eqb_eq, ?eqb_true_iff; split; try congruence; [intros [-> ->]; reflexivity|intros [= -> ->]; auto]. Qed.
Lemma z3_eq_ok a b t : z3_eq a b = Ok t <-> sort_of a = sort_of b /\ t = ZEq a b.
Proof. unfold z3_eq. rewrite <- sort_eqb_eq. destruct (sort_eqb _ _); split; try discriminate; [intros E; apply Ok_inj in E; auto|intros [_ ->]; reflexivity|intros [? _]; discriminate]. Qed.
Lemma z3_ne_ok a b t : z3_ne a b = Ok t <-> sort_of a = sort_of b /\ t = ZDistinct a b.
Proof. unfold z3_ne. rewrite <- sort_eqb_eq. destruct (sort_eqb _ _); split; try discriminate; [intros E; apply Ok_inj in E; auto|intros [_ ->]; reflexivity|intros [? _]; discriminate]. Qed.
Lemma is_sbool_eq t : is_sbool t = true <-> sort_of t = SBool.
Proof. apply sort_eqb_eq. Qed.
Lemma z3_and_ok a b t : z3_and a b = Ok t <-> sort_of a = SBool /\ sort_of b = SBool /\ t = ZAnd a b.
Proof. unfold z3_and. rewrite <- !is_sbool_eq. destruct (is_sbool a), (is_sbool b); cbn; split; try discriminate; [intros E; apply Ok_inj in E; auto|intros (_ & _ & ->); reflexivity|intros (? & ? & _); discriminate..]. Qed.
Lemma z3_or_ok a b t : z3_or a b = Ok t <-> sort_of a = SBool /\ sort_of b = SBool /\ t = ZOr a b.
Proof. unfold z3_or. rewrite <- !is_sbool_eq. destruct (is_sbool a), (is_sbool b); cbn; split; try discriminate; [intros E; apply Ok_inj in E; auto|intros (_ & _ & ->); reflexivity|intros (? & ? & _); discriminate..]. Qed.
Lemma z3_implies_ok a b t : z3_implies a b = Ok t <-> sort_of a = SBool /\ sort_of b = SBool /\ t = ZImplies a b.
Proof. unfold z3_implies. rewrite <- !is_sbool_eq. destruct (is_sbool a), (is_sbool b); cbn; split; try discriminate; [intros E; apply Ok_inj in E; auto|intros (_ & _ & ->); reflexivity|intros (? & ? & _); discriminate..]. Qed.
Lemma z3_not_ok a t : z3_not a = Ok t <-> sort_of a = SBool /\ t = ZNot a.
Proof. unfold z3_not. rewrite <- !is_sbool_eq. destruct (is_sbool a); cbn; split; try discriminate; [intros E; apply Ok_inj in E; auto|intros (_ & ->); reflexivity|intros (? & _); discriminate]. Qed.

(** [bv m w t z]: the term [t] is the [w]-bit number [z]. *)
Definition bv (m : assignment) (w : Z) (t : term) (z : Z) : Prop := sort_of t = SBV w /\ zeval m t = VV w z /\ (0 <= z < 2 ^ w)%Z.
Inductive stands (m : assignment) : ty -> sym_result -> value -> Prop :=
| st_bool t b : sort_of t = SBool -> zeval m t = VB b -> stands m TBool (RTerm t) (VBool b)
| st_int t z : sort_of t = SInt -> zeval m t = VI z -> stands m TInt (RTerm t) (VInt z)
| st_bit w t z : bv m w t z -> stands m (TBit w) (RTerm t) (VInt z)
| st_exact w t z : bv m w t z -> stands m (TExact w) (RKey (SymExact t)) (VExact z)
| st_ternary w t u z x : bv m w t z -> bv m w u x -> stands m (TTernary w) (RKey (SymTernary t u)) (VTernary z x)
| st_optional w t u z x : bv m w t z -> bv m w u x -> stands m (TOptional w) (RKey (SymTernary t u)) (VTernary z x)
| st_lpm w t u z p : bv m w t z -> sort_of u = SInt -> zeval m u = VI p -> stands m (TLpm w) (RKey (SymLpm t u)) (VLpm z p).

Lemma int2bv_bv m w a z t : z3_int2bv w a = Ok t -> zeval m a = VI z -> bv m w t (z mod 2 ^ w).
Proof.
  unfold z3_int2bv. destruct (Z.ltb_spec 0 w) as [Hw|]; [|discriminate]. destruct (sort_eqb _ _) eqn:E; [|discriminate]. intros H Hz. apply Ok_inj in H as <-.
  split; [reflexivity|]. cbn. rewrite Hz. split; [reflexivity|]. apply Z.mod_pos_bound. apply Z.pow_pos_nonneg; lia.
Qed.
Lemma ones_bv m w : (0 < w)%Z -> bv m w (ZBVVal w (-1)) (2 ^ w - 1).
Proof.
  intros Hw. assert (1 < 2 ^ w)%Z by (apply Z.pow_gt_1; lia). split; [reflexivity|]. cbn [zeval]. split; [|lia]. f_equal. symmetry. apply (Z.mod_unique_pos (-1) (2 ^ w) (-1)); lia.
Qed.
(** One cast. *)
Lemma cast_stands m a b t r u v : conv1 a b u v -> stands m a (RTerm t) u -> EvalTypeCast t b = Ok r -> stands m b r v.
Proof.
  intros Hc Hs He. destruct Hc as [w z Hw|w z|w z Hw|w z Hw|w z|w z]; inversion Hs; subst; unfold EvalTypeCast, TypeBitwidthOrStatus in He; cbn [TypeBitwidth annotate bind] in He.
  - apply bind_ok in He as (x & Hx & He). apply Ok_inj in He as <-. constructor. eapply int2bv_bv; eauto.
  - apply Ok_inj in He as <-. now constructor.
  - apply bind_ok in He as (x & Hx & He). apply Ok_inj in He as <-. unfold z3_bv_val in Hx. destruct (Z.ltb_spec 0 w); [|discriminate]. apply Ok_inj in Hx as <-. constructor; [assumption|now apply ones_bv].
  - apply bind_ok in He as (x & Hx & He). apply Ok_inj in He as <-. unfold z3_bv_val in Hx. destruct (Z.ltb_spec 0 w); [|discriminate]. apply Ok_inj in Hx as <-. constructor; [assumption|now apply ones_bv].
  - apply Ok_inj in He as <-. constructor; [assumption|reflexivity|reflexivity].
  - discriminate.
Qed.

Section Env.
  Variable senv : sym_env.
  Variable src : csource.
  Notation sym := (EvalSymbolically senv src).
  Lemma to_term_ok e r t : to_term src e r = Ok t <-> r = RTerm t.
  Proof. destruct r; cbn; split; intros H; try discriminate; [now apply quoted_not_ok in H|apply Ok_inj in H; congruence|congruence]. Qed.
  Lemma sym_cast1 mm e r : sym (ECast mm e) = Ok r <-> exists t, sym e = Ok (RTerm t) /\ EvalTypeCast t (m_type mm) = Ok r.
  Proof.
    cbn [EvalSymbolically]. rewrite bind_ok. split.
    - intros (x & Hx & H). apply bind_ok in H as (t & Ht & H). apply to_term_ok in Ht as ->. eauto.
    - intros (t & Ht & H). exists (RTerm t). split; [exact Ht|]. apply bind_ok. exists t. split; [reflexivity|exact H].
  Qed.
  (** The casts of the type checker. *)
  Lemma cast_cases e t : convertible (e_type e) t ->
    (e_type e = t /\ CastTransitivelyTo e t = e) \/
    (step (e_type e) t /\ exists mm, CastTransitivelyTo e t = ECast mm e /\ m_type mm = t) \/
    (exists w m1 m2, e_type e = TInt /\ step (TBit w) t /\ CastTransitivelyTo e t = ECast m2 (ECast m1 e) /\ m_type m1 = TBit w /\ m_type m2 = t).
  Proof.
    intros [<-|Hb].
    - left. split; [reflexivity|]. unfold CastTransitivelyTo. assert (StrictlyAbove (e_type e) (e_type e) = false) as H; [|rewrite !H; cbn [andb]; rewrite H; reflexivity].
      destruct (StrictlyAbove (e_type e) (e_type e)) eqn:E; [apply above_iff, below_irrefl in E as []|reflexivity].
    - right. apply above_iff in Hb as Ha. unfold CastTransitivelyTo. rewrite Ha. cbn [andb]. destruct (e_type e) eqn:Et.
      1-3,6-11: exfalso; clear Hb; destruct t; discriminate Ha.
      + cbn [type_case tycase_eqb]. set (w := match TypeBitwidth t with Some w => w | None => (-1)%Z end).
        assert (e_type (WrapWithCast e (TBit w)) = TBit w) as Et' by reflexivity. rewrite Et'. cbn [type_case tycase_eqb]. rewrite andb_true_r.
        destruct (StrictlyAbove t (TBit w)) eqn:Ea'.
        * right. exists w. do 2 eexists. split; [reflexivity|]. split; [|split; [reflexivity|split; reflexivity]]. clear -Ea'. clearbody w. destruct t; try discriminate; cbn in Ea'; try (apply Z.eqb_eq in Ea' as ->); repeat constructor.
        * assert (t = TBit w) as Ht. { clear -Ha Ea'. unfold w in *. destruct t; cbn in Ha, Ea'; try discriminate; rewrite ?Z.eqb_refl in Ea'; try discriminate; reflexivity. }
          left. split; [rewrite Ht; constructor|]. eexists. split; [reflexivity|]. now rewrite Ht.
      + cbn [type_case tycase_eqb]. rewrite Et, Ha. cbn [type_case tycase_eqb andb]. left. split; [|eexists; split; reflexivity].
        clear -Ha. destruct t; cbn in Ha; try discriminate; try (apply Z.eqb_eq in Ha as ->); repeat constructor.
  Qed.
  Lemma sym_cast m e t r : convertible (e_type e) t -> sym (CastTransitivelyTo e t) = Ok r ->
    exists r0, sym e = Ok r0 /\ forall u v, stands m (e_type e) r0 u -> Converts (e_type e) t u v -> stands m t r v.
  Proof.
    intros Hcv H. destruct (cast_cases e t Hcv) as [(Et & E)|[(Hs & mm & E & Em)|(w & m1 & m2 & Et & Hs & E & E1 & E2)]]; rewrite E in H.
    - exists r. split; [exact H|]. intros u v Hu Hc. rewrite Et in *. now rewrite (converts_fun _ _ _ _ _ Hc (cv_same _ _)).
    - apply sym_cast1 in H as (x & Hx & H). exists (RTerm x). split; [exact Hx|]. intros u v Hu Hc. rewrite Em in H.
      apply converts_inv in Hc as [(Ec & _)|[Hc|(n & y & Ec & H1 & H2)]].
      + exfalso. rewrite Ec in Hs. apply (below_irrefl t). now constructor.
      + eapply cast_stands; eauto.
      + exfalso. rewrite Ec in Hs. apply conv1_step in H2. inversion H2 as [|? ? M2]; subst; inversion Hs; subst; inversion M2; congruence.
    - apply sym_cast1 in H as (x2 & Hx2 & H). apply sym_cast1 in Hx2 as (x & Hx & Hc1). exists (RTerm x). split; [exact Hx|]. intros u v Hu Hc. rewrite E2 in H. rewrite E1 in Hc1. rewrite Et in *.
      apply converts_inv in Hc as [(Ec & _)|[Hc|(n & y & _ & H1 & H2)]].
      + subst t. inversion Hs as [|? ? M2]; subst; inversion M2; congruence.
      + exfalso. apply conv1_step in Hc. inversion Hc; subst; inversion Hs as [|? ? M2]; subst; inversion M2; congruence.
      + assert (n = w) as ->. { apply conv1_step in H2. inversion H2 as [|? ? M2]; subst. inversion Hs as [|? ? M1]; subst. inversion M1; subst; inversion M2; congruence. }
        eapply cast_stands; [exact H2| |exact H]. eapply cast_stands; [exact H1|exact Hu|exact Hc1].
  Qed.

  (** Comparisons. *)
  Lemma zveq a b : zval_eqb a b = false <-> a <> b.
  Proof. rewrite <- zval_eqb_eq, not_true_iff_false. reflexivity. Qed.
  Lemma bin_bit m w o a b x y r : equality o -> bv m w a x -> bv m w b y -> bin_terms a o b = Ok r ->
    sort_of r = SBool /\ zeval m r = VB (match o with OEQ => Z.eqb x y | _ => negb (Z.eqb x y) end).
  Proof. intros Ho (Sa & Za & _) (Sb & Zb & _) H. destruct Ho; cbn [bin_terms] in H; [apply z3_eq_ok in H as [_ ->]|apply z3_ne_ok in H as [_ ->]]; cbn; rewrite Za, Zb; cbn; rewrite Z.eqb_refl; auto. Qed.
  Lemma bin_int m o a b x y r : equality o -> zeval m a = VI x -> zeval m b = VI y -> bin_terms a o b = Ok r ->
    sort_of r = SBool /\ zeval m r = VB (match o with OEQ => Z.eqb x y | _ => negb (Z.eqb x y) end).
  Proof. intros Ho Za Zb H. destruct Ho; cbn [bin_terms] in H; [apply z3_eq_ok in H as [_ ->]|apply z3_ne_ok in H as [_ ->]]; cbn; rewrite Za, Zb; cbn; auto. Qed.
  Lemma bin_pair_ok o a b c d r : equality o -> bin_pair a b o c d = Ok r -> exists x y, bin_terms a o c = Ok x /\ bin_terms b o d = Ok y /\ (r = match o with ONE => ZOr x y | _ => ZAnd x y end).
  Proof.
    intros Ho H. unfold bin_pair in H. destruct Ho; cbn [eq_or_ne] in H; cbn [bind] in H; apply bind_ok in H as (x & Hx & H); apply bind_ok in H as (y & Hy & H);
      [apply z3_and_ok in H as (_ & _ & ->)|apply z3_or_ok in H as (_ & _ & ->)]; exists x, y; auto.
  Qed.
  Lemma bin_equality m t o ra rb u v r : equality o -> stands m t ra u -> stands m t rb v -> bin_results ra o rb = Ok r ->
    stands m TBool (RTerm r) (VBool (match o with OEQ => value_eqb u v | _ => negb (value_eqb u v) end)).
  Proof.
    intros Ho Ha Hb H. destruct Ha as [ta xa Sa Za|ta xa Sa Za|w ta xa Ba|w ta xa Ba|w ta ua xa ka Ba Ka|w ta ua xa ka Ba Ka|w ta ua xa ka Ba Sa Ka];
      inversion Hb as [tb xb Sb Zb|tb xb Sb Zb|? tb xb Bb|? tb xb Bb|? tb ub xb kb Bb Kb|? tb ub xb kb Bb Kb|? tb ub xb kb Bb Sb Kb]; subst; cbn [bin_results bin_keys] in H.
    - destruct Ho; cbn [bin_terms] in H; [apply z3_eq_ok in H as [_ ->]|apply z3_ne_ok in H as [_ ->]]; (constructor; [reflexivity|]); cbn; rewrite Za, Zb; reflexivity.
    - destruct (bin_int m _ _ _ _ _ _ Ho Za Zb H) as [S1 Z1]. constructor; [exact S1|]. rewrite Z1. destruct Ho; reflexivity.
    - destruct (bin_bit m _ _ _ _ _ _ _ Ho Ba Bb H) as [S1 Z1]. constructor; [exact S1|]. rewrite Z1. destruct Ho; reflexivity.
    - destruct (bin_bit m _ _ _ _ _ _ _ Ho Ba Bb H) as [S1 Z1]. constructor; [exact S1|]. rewrite Z1. destruct Ho; reflexivity.
    - apply bin_pair_ok in H as (p & q & Hp & Hq & ->); [|exact Ho]. destruct (bin_bit m _ _ _ _ _ _ _ Ho Ba Bb Hp) as [S1 Z1], (bin_bit m _ _ _ _ _ _ _ Ho Ka Kb Hq) as [S2 Z2].
      destruct Ho; (constructor; [reflexivity|]); cbn [zeval]; rewrite Z1, Z2; cbn; rewrite ?negb_andb; reflexivity.
    - apply bin_pair_ok in H as (p & q & Hp & Hq & ->); [|exact Ho]. destruct (bin_bit m _ _ _ _ _ _ _ Ho Ba Bb Hp) as [S1 Z1], (bin_bit m _ _ _ _ _ _ _ Ho Ka Kb Hq) as [S2 Z2].
      destruct Ho; (constructor; [reflexivity|]); cbn [zeval]; rewrite Z1, Z2; cbn; rewrite ?negb_andb; reflexivity.
    - apply bin_pair_ok in H as (p & q & Hp & Hq & ->); [|exact Ho]. destruct (bin_bit m _ _ _ _ _ _ _ Ho Ba Bb Hp) as [S1 Z1], (bin_int m _ _ _ _ _ _ Ho Ka Kb Hq) as [S2 Z2].
      destruct Ho; (constructor; [reflexivity|]); cbn [zeval]; rewrite Z1, Z2; cbn; rewrite ?negb_andb; reflexivity.
  Qed.
  Lemma signed_same w x y c : (0 <= x < 2 ^ w)%Z -> (0 <= y < 2 ^ w)%Z -> ~ (x < 2 ^ (w - 1) <= y \/ y < 2 ^ (w - 1) <= x)%Z ->
    icmp_holds c (signed w x) (signed w y) = icmp_holds c x y.
  Proof.
    intros Hx Hy H. unfold signed. destruct (Z.ltb_spec x (2 ^ (w - 1))), (Z.ltb_spec y (2 ^ (w - 1))); try lia; destruct c; cbn; rewrite ?Z.geb_leb, ?Z.gtb_ltb;
      repeat match goal with |- context [Z.leb ?a ?b] => destruct (Z.leb_spec a b) | |- context [Z.ltb ?a ?b] => destruct (Z.ltb_spec a b) end; lia.
  Qed.
  Definition cmp_of (o : binop) : icmp := match o with OLT => ILt | OLE => ILe | OGT => IGt | _ => IGe end.
  Lemma cmp_ordered o x y : ordering o -> icmp_holds (cmp_of o) x y = ordered o x y.
  Proof. intros []; reflexivity. Qed.
  Lemma bin_ordering m t o ra rb u v x y r : ordering o -> has_order t -> stands m t ra u -> stands m t rb v -> numeral u x -> numeral v y ->
    (forall w, width t w -> ~ (x < 2 ^ (w - 1) <= y \/ y < 2 ^ (w - 1) <= x)%Z) -> bin_results ra o rb = Ok r ->
    stands m TBool (RTerm r) (VBool (ordered o x y)).
  Proof.
    intros Ho Ht Ha Hb Hx Hy Hs H. assert (forall a b, bin_terms a o b = Ok r -> z3_cmp (cmp_of o) a b = Ok r) as Hc by (destruct Ho; intros a b E; exact E). rewrite <- (cmp_ordered o x y Ho).
    destruct Ht; inversion Ha as [|ta xa Sa Za|? ta xa Ba|? ta xa Ba| | |]; subst; inversion Hb as [|tb xb Sb Zb|? tb xb Bb|? tb xb Bb| | |]; subst; inversion Hx; inversion Hy; subst; cbn [bin_results bin_keys] in H; apply Hc in H; unfold z3_cmp in H.
    - rewrite Sa, Sb in H. apply Ok_inj in H as <-. constructor; [reflexivity|]. cbn. rewrite Za, Zb. reflexivity.
    - destruct Ba as (Sa & Za & Ra), Bb as (Sb & Zb & Rb). rewrite Sa, Sb, Z.eqb_refl in H. apply Ok_inj in H as <-. constructor; [reflexivity|]. cbn. rewrite Za, Zb. cbn. rewrite signed_same; [reflexivity|assumption..|]. apply Hs. constructor.
    - destruct Ba as (Sa & Za & Ra), Bb as (Sb & Zb & Rb). rewrite Sa, Sb, Z.eqb_refl in H. apply Ok_inj in H as <-. constructor; [reflexivity|]. cbn. rewrite Za, Zb. cbn. rewrite signed_same; [reflexivity|assumption..|]. apply Hs. constructor.
  Qed.

  (** Agreement with the meaning of constraints. *)
  Variable ti : table_info.
  Hypothesis HN : NoDup (map fst (ti_keys_by_name ti)).
  Let G := InTable (ti_keys_by_name ti).
  Lemma scope_ti : in_scope None (Some ti) G.
  Proof. now constructor. Qed.
  Lemma reorders_bool r e e' : reorders G r e -> InferTable e ti = Ok e' -> e_type e' = TBool.
  Proof.
    intros Hr Hi; destruct Hr; [apply (inv_bin _ _ _ scope_ti) in Hi as (? & ? & _ & _ & [(_ & _ & _ & ->)|(? & _ & _ & ->)])|apply (inv_not _ _ _ scope_ti) in Hi as (? & _ & _ & ->)
      |apply (inv_bin _ _ _ scope_ti) in Hi as (? & ? & _ & _ & [(_ & _ & _ & ->)|(? & _ & _ & ->)])..]; reflexivity.
  Qed.
  Lemma field_key e e' f t : InferTable e ti = Ok e' -> has_field (e_type e') f t -> exists m n, e = EKey m n /\ e_key e' = n.
  Proof.
    intros H Hf. destruct (infer_ok _ _ _ scope_ti _ _ H) as (HT & _). pose proof (inv_atom _ _ _ scope_ti _ _ H) as Ha.
    assert (exists m n, e = EKey m n) as (m & n & ->). { clear Ha. remember (e_type e') as te eqn:Ete. clear Ete. inversion HT; subst; try solve [inversion Hf]; [eauto|discriminate|]. exfalso. match goal with A : has_field _ _ te |- _ => inversion A; subst; inversion Hf end. }
    destruct Ha as [tt ->]. exists m, n. split; reflexivity.
  Qed.
  Variable m : assignment.
  Variable key : string -> option value.
  Variable p : Z.
  Hypothesis Hkeys : forall n sk v t, assoc_find String.eqb n (se_keys senv) = Some sk -> declared (ti_keys_by_name ti) n t -> key n = Some v -> stands m t (RKey sk) v.
  Hypothesis Hprio : forall t, assoc_find String.eqb "priority" (se_attrs senv) = Some t -> sort_of t = SInt /\ zeval m t = VI p.
  Let r := TableEnv key p.
  Lemma find_ok {V} (l : list (string * V)) n x : FindPtrOrStatus l n = Ok x <-> assoc_find String.eqb n l = Some x.
  Proof. unfold FindPtrOrStatus. destruct (assoc_find String.eqb n l); split; intros H; try discriminate; [apply Ok_inj in H; congruence|congruence]. Qed.
  Lemma stands_field t sk v f z tm t' : stands m t (RKey sk) v -> Field f v z -> has_field t f t' -> GetFieldAccess sk f = Ok tm -> stands m t' (RTerm tm) (VInt z).
  Proof.
    intros Hs Hf Hh Ha. inversion Hs; subst; inversion Hf; subst; cbn in Ha; apply Ok_inj in Ha as <-; inversion Hh; subst; constructor; assumption.
  Qed.
  Lemma sym_den e v : Den G r e v -> ~ reorders G r e -> forall e' res, InferTable e ti = Ok e' -> sym e' = Ok res -> stands m (e_type e') res v.
  Proof.
    intros Hd. remember r as rr eqn:Er.
    induction Hd as [mm b|mm s n Hs|key' p' mm n v Hk Hv|param mm n z Hk Hv|key' p' mm Hk|mm e b H IH|mm e z H IH|mm o a b x y Hc H IH Htr|mm o a b x y Hc H IH H2 IH2
      |mm o a b ta tb tt u v u' v' x Ta Tb Hco H1 IH1 H2 IH2 C1 C2 Hcp Hx|mm f e v z H IH Hf]; intros Hno e' res Hi Hsy; pose proof (inv_atom _ _ _ scope_ti _ _ Hi) as Ha; cbn beta iota in Ha; subst rr.
    - subst e'. cbn in Hsy. apply Ok_inj in Hsy as <-. constructor; reflexivity.
    - subst e'. cbn [EvalSymbolically] in Hsy. unfold z3_int_val in Hsy. rewrite (mpz_set_str_Reads 10 s n (proj1 Hs)) in Hsy. cbn in Hsy. apply Ok_inj in Hsy as <-. constructor; reflexivity.
    - destruct (infer_ok _ _ _ scope_ti _ _ Hi) as (HT & _). destruct Ha as [t ->]. cbn [EvalSymbolically] in Hsy. apply bind_ok in Hsy as (sk & Hf & Hsy). apply find_ok in Hf. apply Ok_inj in Hsy as <-.
      inversion HT as [| |keys ? ? t' HGk Hdl Hu| | | | | | | |]; subst. injection HGk as <-. injection Hk as <- <-. cbn [e_type emeta m_type]. eapply Hkeys; eauto.
    - discriminate Hk.
    - destruct Ha as [_ ->]. cbn [EvalSymbolically] in Hsy. apply bind_ok in Hsy as (t & Hf & Hsy). apply find_ok in Hf. apply Ok_inj in Hsy as <-. injection Hk as <- <-. apply Hprio in Hf as [S1 Z1]. now constructor.
    - apply (inv_not _ _ _ scope_ti) in Hi as (x & Ex & Et & ->). cbn [set_type EvalSymbolically] in Hsy. apply bind_ok in Hsy as (r0 & Hr0 & Hsy). apply bind_ok in Hsy as (t & Ht & Hsy). apply to_term_ok in Ht as ->.
      apply bind_ok in Hsy as (t' & Ht & Hsy). apply Ok_inj in Hsy as <-. apply z3_not_ok in Ht as [St ->].
      assert (stands m (e_type x) (RTerm t) (VBool b)) as Hst by (eapply IH; eauto; intros Hr; apply Hno; now constructor). rewrite Et in Hst. inversion Hst as [? ? S1 Z1| | | | | |]; subst.
      constructor; [reflexivity|]. cbn. now rewrite Z1.
    - apply (inv_neg _ _ _ scope_ti) in Hi as (x & Ex & Et & ->). cbn [set_type EvalSymbolically] in Hsy. apply bind_ok in Hsy as (r0 & Hr0 & Hsy). apply bind_ok in Hsy as (t & Ht & Hsy). apply to_term_ok in Ht as ->.
      apply bind_ok in Hsy as (t' & Ht & Hsy). apply Ok_inj in Hsy as <-.
      assert (stands m (e_type x) (RTerm t) (VInt z)) as Hst. { eapply IH; eauto. intros Hr. pose proof (reorders_bool _ _ _ Hr Ex). congruence. } rewrite Et in Hst. inversion Hst as [|? ? S1 Z1| | | | |]; subst.
      unfold z3_minus in Ht. rewrite S1 in Ht. apply Ok_inj in Ht as <-. constructor; [reflexivity|]. cbn. now rewrite Z1.
    - apply (inv_bin _ _ _ scope_ti) in Hi as (xa & xb & Ea & Eb & Hcase). destruct Hcase as [(_ & Ta & Tb & ->)|(t & Hco & Hop & ->)]; [|exfalso; destruct Hop as [Hop|[Hop _]]; destruct Hc; inversion Hop].
      cbn [set_type EvalSymbolically] in Hsy. apply bind_ok in Hsy as (ra & Hra & Hsy). apply bind_ok in Hsy as (rb & Hrb & Hsy). apply bind_ok in Hsy as (t & Ht & Hsy). apply Ok_inj in Hsy as <-.
      assert (stands m (e_type xa) ra (VBool x)) as Hst by (eapply IH; eauto; intros Hr; apply Hno; now apply ro_left). rewrite Ta in Hst. inversion Hst as [ta ? S1 Z1| | | | | |]; subst.
      destruct rb as [|tb]; [discriminate Ht|]. cbn [bin_results] in Ht. cbn [e_type emeta m_type].
      destruct Hc; cbn [bin_terms] in Ht; [apply z3_and_ok in Ht as (_ & Sb & ->)|apply z3_or_ok in Ht as (_ & Sb & ->)|apply z3_implies_ok in Ht as (_ & Sb & ->)];
        (constructor; [reflexivity|]); cbn [zeval]; rewrite Z1; cbn [Z3.as_bool]; f_equal; rewrite <- (Htr (Z3.as_bool (zeval m tb))); destruct x; reflexivity.
    - apply (inv_bin _ _ _ scope_ti) in Hi as (xa & xb & Ea & Eb & Hcase). destruct Hcase as [(_ & Ta & Tb & ->)|(t & Hco & Hop & ->)]; [|exfalso; destruct Hop as [Hop|[Hop _]]; destruct Hc; inversion Hop].
      cbn [set_type EvalSymbolically] in Hsy. apply bind_ok in Hsy as (ra & Hra & Hsy). apply bind_ok in Hsy as (rb & Hrb & Hsy). apply bind_ok in Hsy as (t & Ht & Hsy). apply Ok_inj in Hsy as <-.
      assert (stands m (e_type xa) ra (VBool x)) as Hst by (eapply IH; eauto; intros Hr; apply Hno; now apply ro_left). rewrite Ta in Hst. inversion Hst as [ta ? S1 Z1| | | | | |]; subst.
      assert (stands m (e_type xb) rb (VBool y)) as Hst2 by (eapply IH2; eauto; intros Hr; apply Hno; now apply ro_right). rewrite Tb in Hst2. inversion Hst2 as [tb ? S2 Z2| | | | | |]; subst.
      cbn [bin_results] in Ht. cbn [e_type emeta m_type].
      destruct Hc; cbn [bin_terms] in Ht; [apply z3_and_ok in Ht as (_ & Sb & ->)|apply z3_or_ok in Ht as (_ & Sb & ->)|apply z3_implies_ok in Ht as (_ & Sb & ->)];
        (constructor; [reflexivity|]); cbn [zeval]; rewrite Z1, Z2; cbn [Z3.as_bool]; f_equal; destruct x; reflexivity.
    - apply (inv_bin _ _ _ scope_ti) in Hi as (xa & xb & Ea & Eb & Hcase). destruct (infer_ok _ _ _ scope_ti _ _ Ea) as (T1 & _), (infer_ok _ _ _ scope_ti _ _ Eb) as (T2 & _).
      rewrite (typed_fun _ _ _ scope_ti _ _ _ Ta T1), (typed_fun _ _ _ scope_ti _ _ _ Tb T2) in *.
      destruct Hcase as [(Hc & _)|(t & Hco' & Hop & ->)].
      { exfalso. destruct Hcp as [Hcp|[Hcp _]]; destruct Hc; inversion Hcp. }
      rewrite (common_fun _ _ _ _ Hco' Hco) in *. pose proof Hco as (K1 & K2 & _).
      cbn [set_type EvalSymbolically] in Hsy. apply bind_ok in Hsy as (ra & Hra & Hsy). apply bind_ok in Hsy as (rb & Hrb & Hsy). apply bind_ok in Hsy as (tm & Ht & Hsy). apply Ok_inj in Hsy as <-. cbn [e_type emeta m_type].
      destruct (sym_cast m _ _ _ K1 Hra) as (ra0 & Hra0 & Ca), (sym_cast m _ _ _ K2 Hrb) as (rb0 & Hrb0 & Cb).
      assert (stands m (e_type xa) ra0 u) as Sa by (eapply IH1; eauto; intros Hr; apply Hno; now apply ro_left).
      assert (stands m (e_type xb) rb0 v) as Sb by (eapply IH2; eauto; intros Hr; apply Hno; now apply ro_right).
      specialize (Ca _ _ Sa C1). specialize (Cb _ _ Sb C2). destruct Hop as [Ho|[Ho Hh]].
      + assert (x = match o with OEQ => value_eqb u' v' | _ => negb (value_eqb u' v') end) as -> by (eapply bool_by_iff; [exact Hx|now apply eq_iff]). eapply bin_equality; eauto.
      + destruct Hcp as [Hcp|(_ & (k & Nk) & (l & Nl))]; [exfalso; destruct Ho; inversion Hcp|].
        assert (x = ordered o k l) as ->. { eapply bool_by_iff; [exact Hx|]. rewrite (ordered_iff o k l Ho). apply (compares_numeral o (VInt k) (VInt l) k l); auto; constructor. }
        apply (bin_ordering m tt o ra rb u' v' k l tm Ho Hh Ca Cb Nk Nl); [|exact Ht]. intros w Hw Hbad. apply Hno. exact (ro_here G r mm o a b (e_type xa) (e_type xb) tt w u v u' v' k l Ho T1 T2 Hco Hw H1 H2 C1 C2 Nk Nl Hbad).
    - apply (inv_field _ _ _ scope_ti) in Hi as (x & t & Ex & Et & ->). destruct (field_key _ _ _ _ Ex Et) as (mk & n & -> & En). cbn [set_type EvalSymbolically] in Hsy. rewrite En in Hsy.
      apply bind_ok in Hsy as (sk & Hfs & Hsy). apply bind_ok in Hsy as (tm & Htm & Hsy). apply Ok_inj in Hsy as <-. cbn [e_type emeta m_type].
      eapply stands_field; [|exact Hf|exact Et|exact Htm]. eapply IH; [intros Hr; inversion Hr|exact Ex|].
      pose proof (inv_atom _ _ _ scope_ti _ _ Ex) as Hx. cbn beta iota in Hx. destruct Hx as [t0 ->]. cbn [EvalSymbolically]. apply bind_ok. exists sk. split; [exact Hfs|reflexivity].
  Qed.
End Env.
