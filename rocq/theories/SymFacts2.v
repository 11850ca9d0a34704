(** Which constraints have a solver term. *)
From Coq Require Import String Ascii List ZArith NArith Bool Lia.
From Verif Require Import Base Num Token Ast Quote Info TypeChecker Interpreter Z3 Symbolic SpecLexer SpecGrammar SpecTyping TypeFacts NumFacts LiteralFacts SpecSemantics SpecSymbolic SemFacts SemFacts2 SymFacts.
Import ListNotations.
Open Scope string_scope.

Lemma common_either a b t : common a b t -> t = a \/ t = b.
Proof.
  intros H. apply lub_iff in H. unfold LeastUpperBound in H. destruct (ty_eqb a b), (StrictlyAbove a b), (StrictlyAbove b a); try discriminate; injection H as ->; auto.
Qed.
(** Results of the right sort. *)
Inductive shaped : ty -> sym_result -> Prop :=
| sh_bool t : sort_of t = SBool -> shaped TBool (RTerm t)
| sh_int t : sort_of t = SInt -> shaped TInt (RTerm t)
| sh_bit w t : (0 < w)%Z -> sort_of t = SBV w -> shaped (TBit w) (RTerm t)
| sh_exact w t : (0 < w)%Z -> sort_of t = SBV w -> shaped (TExact w) (RKey (SymExact t))
| sh_ternary w t u : (0 < w)%Z -> sort_of t = SBV w -> sort_of u = SBV w -> shaped (TTernary w) (RKey (SymTernary t u))
| sh_optional w t u : (0 < w)%Z -> sort_of t = SBV w -> sort_of u = SBV w -> shaped (TOptional w) (RKey (SymTernary t u))
| sh_lpm w t u : (0 < w)%Z -> sort_of t = SBV w -> sort_of u = SInt -> shaped (TLpm w) (RKey (SymLpm t u)).

Lemma eq_same o a b : equality o -> sort_of a = sort_of b -> exists t, bin_terms a o b = Ok t /\ sort_of t = SBool.
Proof. intros Ho E. apply sort_eqb_eq in E. destruct Ho; cbn [bin_terms]; unfold z3_eq, z3_ne; rewrite E; eexists; split; reflexivity. Qed.
Lemma pair_same o a b c d : equality o -> sort_of a = sort_of c -> sort_of b = sort_of d -> exists t, bin_pair a b o c d = Ok t /\ sort_of t = SBool.
Proof.
  intros Ho E1 E2. destruct (eq_same o a c Ho E1) as (x & Ex & Sx), (eq_same o b d Ho E2) as (y & Ey & Sy). unfold bin_pair. rewrite Ex, Ey.
  apply is_sbool_eq in Sx, Sy. destruct Ho; cbn; unfold z3_and, z3_or; rewrite Sx, Sy; eexists; split; reflexivity.
Qed.
Lemma bin_shaped o t ra rb : equality o \/ ordering o /\ has_order t -> shaped t ra -> shaped t rb -> exists tm, bin_results ra o rb = Ok tm /\ sort_of tm = SBool.
Proof.
  intros Ho Ha Hb. destruct Ha; inversion Hb; subst; cbn [bin_results bin_keys].
  - destruct Ho as [Ho|[_ Ho]]; [apply eq_same; congruence|inversion Ho].
  - destruct Ho as [Ho|[Ho _]]; [apply eq_same; congruence|]. destruct Ho; cbn [bin_terms]; unfold z3_cmp; repeat match goal with A : sort_of _ = _ |- _ => rewrite A; clear A end; eexists; split; reflexivity.
  - destruct Ho as [Ho|[Ho _]]; [apply eq_same; congruence|]. destruct Ho; cbn [bin_terms]; unfold z3_cmp; repeat match goal with A : sort_of _ = _ |- _ => rewrite A; clear A end; rewrite Z.eqb_refl; eexists; split; reflexivity.
  - destruct Ho as [Ho|[Ho _]]; [apply eq_same; congruence|]. destruct Ho; cbn [bin_terms]; unfold z3_cmp; repeat match goal with A : sort_of _ = _ |- _ => rewrite A; clear A end; rewrite Z.eqb_refl; eexists; split; reflexivity.
  - destruct Ho as [Ho|[_ Ho]]; [apply pair_same; congruence|inversion Ho].
  - destruct Ho as [Ho|[_ Ho]]; [apply pair_same; congruence|inversion Ho].
  - destruct Ho as [Ho|[_ Ho]]; [apply pair_same; congruence|inversion Ho].
Qed.
Lemma conn_shaped o ra rb : connective o -> shaped TBool ra -> shaped TBool rb -> exists tm, bin_results ra o rb = Ok tm /\ sort_of tm = SBool.
Proof.
  intros Ho Ha Hb. inversion Ha as [a Sa| | | | | |]; inversion Hb as [b Sb| | | | | |]; subst. apply is_sbool_eq in Sa, Sb. destruct Ho; cbn; unfold z3_and, z3_or, z3_implies; rewrite Sa, Sb; eexists; split; reflexivity.
Qed.
(** One cast. *)
Lemma cast_shaped a b t : step a b -> (forall w, width b w -> (0 < w)%Z) -> shaped a (RTerm t) ->
  (exists r, EvalTypeCast t b = Ok r /\ shaped b r) \/ ((exists w, b = TRange w) /\ exists c s, EvalTypeCast t b = Err c s).
Proof.
  intros Hs Hw Ha. destruct Hs as [w|w b Hm].
  - assert (0 < w)%Z as H by (apply Hw; constructor). inversion Ha; subst. left. unfold EvalTypeCast, TypeBitwidthOrStatus, z3_int2bv. cbn [TypeBitwidth annotate bind].
    destruct (Z.ltb_spec 0 w); [|lia]. match goal with A : sort_of t = SInt |- _ => rewrite A end. cbn. eexists. split; [reflexivity|]. now constructor.
  - assert (0 < w)%Z as H by (apply Hw; destruct Hm; constructor). inversion Ha; subst. unfold EvalTypeCast, TypeBitwidthOrStatus, z3_bv_val. destruct Hm; cbn [TypeBitwidth annotate bind]; destruct (Z.ltb_spec 0 w); try lia; cbn [bind].
    + left. eexists. split; [reflexivity|]. now constructor.
    + left. eexists. split; [reflexivity|]. now constructor.
    + left. eexists. split; [reflexivity|]. now constructor.
    + right. split; [eauto|]. do 2 eexists. reflexivity.
    + left. eexists. split; [reflexivity|]. now constructor.
Qed.

Section Env.
  Variable senv : sym_env.
  Variable src : csource.
  Notation sym := (EvalSymbolically senv src).
  Lemma cast_err mm e c s : sym e = Err c s -> sym (ECast mm e) = Err c s.
  Proof. intros H. cbn [EvalSymbolically]. now rewrite H. Qed.
  Lemma casts_err e t c s : convertible (e_type e) t -> sym e = Err c s -> sym (CastTransitivelyTo e t) = Err c s.
  Proof.
    intros Hc H. destruct (cast_cases e t Hc) as [(_ & ->)|[(_ & mm & -> & _)|(w & m1 & m2 & _ & _ & -> & _)]]; [exact H|now apply cast_err|now apply cast_err, cast_err].
  Qed.
  Lemma casts_ok e t r : convertible (e_type e) t -> (forall w, width t w -> (0 < w)%Z) -> sym e = Ok r -> shaped (e_type e) r ->
    (exists r', sym (CastTransitivelyTo e t) = Ok r' /\ shaped t r') \/ ((exists w, t = TRange w) /\ exists c s, sym (CastTransitivelyTo e t) = Err c s).
  Proof.
    intros Hc Hw H Hsh. destruct (cast_cases e t Hc) as [(Et & ->)|[(Hs & mm & -> & Em)|(w & m1 & m2 & Et & Hs & -> & E1 & E2)]].
    - left. rewrite <- Et. eauto.
    - assert (exists tm, r = RTerm tm) as [tm ->]. { clear -Hs Hsh. destruct Hsh; eauto; inversion Hs. }
      cbn [EvalSymbolically]. rewrite H. cbn [bind to_term]. rewrite Em. now apply cast_shaped with (a := e_type e).
    - rewrite Et in Hsh. inversion Hsh as [|tm Htm| | | | |]; subst. cbn [EvalSymbolically]. rewrite H. cbn [bind to_term]. rewrite E1.
      assert (0 < w)%Z as Hw'. { apply Hw. clear -Hs. inversion Hs as [|? ? Hm E3]; subst. destruct Hm; constructor. }
      destruct (cast_shaped TInt (TBit w) tm) as [(r' & -> & Hr')|((x & Ex) & _)]; [constructor|intros x Hx; inversion Hx; now subst|exact Hsh| |discriminate].
      inversion Hr'; subst. cbn [bind to_term]. eapply cast_shaped; eauto.
  Qed.

  Variable ti : table_info.
  Hypothesis HN : NoDup (map fst (ti_keys_by_name ti)).
  Let G := InTable (ti_keys_by_name ti).
  (** The width of a type is that of a mentioned key. *)
  Lemma width_from e t w : Typed G e t -> width t w -> exists n t', mentions e n /\ declared (ti_keys_by_name ti) n t' /\ width t' w.
  Proof.
    intros H. revert w. induction H as [m b|m s|keys m n t Hk Hd Hu|params m n t Hk Hd Hu|m|m e H IH|m e H IH|m o a b Hc H1 IH1 H2 IH2
      |m o a b ta tb t Hc H1 IH1 H2 IH2 Hco|m o a b ta tb t Hc H1 IH1 H2 IH2 Hco Ho|m f e t t' H IH Hf]; intros w Hw; try now inversion Hw.
    - injection Hk as <-. exists n, t. split; [constructor|auto].
    - destruct (IH w) as (n & t0 & H1 & H2 & H3); [inversion Hf; subst; inversion Hw; subst; constructor|]. exists n, t0. split; [now constructor|auto].
  Qed.
  (** Names without solver symbols. *)
  Definition missing (e : expr) : Prop :=
    (exists n, mentions e n /\ assoc_find String.eqb n (se_keys senv) = None) \/ (has_attribute e /\ assoc_find String.eqb "priority" (se_attrs senv) = None).
  Lemma missing_not m e : missing e -> missing (ENot m e).
  Proof. intros [(n & H & E)|[H E]]; [left; exists n|right]; (split; [now constructor|exact E]). Qed.
  Lemma missing_neg m e : missing e -> missing (ENeg m e).
  Proof. intros [(n & H & E)|[H E]]; [left; exists n|right]; (split; [now constructor|exact E]). Qed.
  Lemma missing_field m f e : missing e -> missing (EField m f e).
  Proof. intros [(n & H & E)|[H E]]; [left; exists n|right]; (split; [now constructor|exact E]). Qed.
  Lemma missing_left m o a b : missing a -> missing (EBin m o a b).
  Proof. intros [(n & H & E)|[H E]]; [left; exists n|right]; (split; [|exact E]); [now apply me_left|now apply ha_left]. Qed.
  Lemma missing_right m o a b : missing b -> missing (EBin m o a b).
  Proof. intros [(n & H & E)|[H E]]; [left; exists n|right]; (split; [|exact E]); [now apply me_right|now apply ha_right]. Qed.
  Hypothesis Hkeys : forall n sk t, assoc_find String.eqb n (se_keys senv) = Some sk -> declared (ti_keys_by_name ti) n t -> shaped t (RKey sk).
  Hypothesis Hprio : forall t, assoc_find String.eqb "priority" (se_attrs senv) = Some t -> sort_of t = SInt.
  Lemma sym_total e : literals e -> (forall n t w, mentions e n -> declared (ti_keys_by_name ti) n t -> width t w -> (0 < w)%Z) -> forall e', InferTable e ti = Ok e' ->
    (exists r, sym e' = Ok r /\ shaped (e_type e') r) \/ ((exists c s, sym e' = Err c s) /\ missing e).
  Proof.
    induction e as [m b|m s|m n|m n|m e IH|m e IH|m e IH|m o a IHa b IHb|m f e IH|m n|m]; intros Hl Hw e' Hi; pose proof (inv_atom _ _ _ (scope_ti _ HN) _ _ Hi) as Ha; cbn beta iota in Ha.
    - subst e'. left. eexists. split; [reflexivity|]. now constructor.
    - subst e'. destruct Hl as [n Hn]. left. cbn [EvalSymbolically]. unfold z3_int_val. rewrite (mpz_set_str_Reads 10 s n (proj1 Hn)). eexists. split; [reflexivity|]. now constructor.
    - destruct (infer_ok _ _ _ (scope_ti _ HN) _ _ Hi) as (HT & _). inversion HT as [| |keys ? ? t' HGk Hdl Hu| | | | | | | |]; subst. injection HGk as <-. destruct Ha as [t ->]. cbn [e_type emeta m_type] in *. cbn [EvalSymbolically]. unfold FindPtrOrStatus.
      destruct (assoc_find String.eqb n (se_keys senv)) as [sk|] eqn:Ef; cbn [bind].
      + left. eexists. split; [reflexivity|]. eapply Hkeys; eauto.
      + right. split; [do 2 eexists; reflexivity|]. left. exists n. split; [constructor|exact Ef].
    - destruct (infer_ok _ _ _ (scope_ti _ HN) _ _ Hi) as (HT & _). inversion HT; discriminate.
    - apply (inv_not _ _ _ (scope_ti _ HN)) in Hi as (x & Ex & Et & ->). destruct (IH Hl) with (e' := x) as [(r & Hr & Hsh)|((c & s & He) & Hm)]; [intros; eapply Hw; eauto; now constructor|exact Ex| |].
      + rewrite Et in Hsh. inversion Hsh as [t St| | | | | |]; subst. left. cbn [set_type EvalSymbolically]. rewrite Hr. cbn [bind to_term]. unfold z3_not. rewrite (proj2 (is_sbool_eq t) St). eexists. split; [reflexivity|]. now constructor.
      + right. split; [|now apply missing_not]. exists c, s. cbn [set_type EvalSymbolically]. now rewrite He.
    - apply (inv_neg _ _ _ (scope_ti _ HN)) in Hi as (x & Ex & Et & ->). destruct (IH Hl) with (e' := x) as [(r & Hr & Hsh)|((c & s & He) & Hm)]; [intros; eapply Hw; eauto; now constructor|exact Ex| |].
      + rewrite Et in Hsh. inversion Hsh as [|t St| | | | |]; subst. left. cbn [set_type EvalSymbolically]. rewrite Hr. cbn [bind to_term]. unfold z3_minus. rewrite St. eexists. split; [reflexivity|]. now constructor.
      + right. split; [|now apply missing_neg]. exists c, s. cbn [set_type EvalSymbolically]. now rewrite He.
    - contradiction.
    - destruct Hl as [Hl1 Hl2]. apply (inv_bin _ _ _ (scope_ti _ HN)) in Hi as (xa & xb & Ea & Eb & Hcase).
      assert (forall n t w, mentions a n -> declared (ti_keys_by_name ti) n t -> width t w -> (0 < w)%Z) as Hwa by (intros; eapply Hw; eauto; now apply me_left).
      assert (forall n t w, mentions b n -> declared (ti_keys_by_name ti) n t -> width t w -> (0 < w)%Z) as Hwb by (intros; eapply Hw; eauto; now apply me_right).
      specialize (IHa Hl1 Hwa _ Ea). specialize (IHb Hl2 Hwb _ Eb).
      destruct Hcase as [(Hc & Ta & Tb & ->)|(t & Hco & Hop & ->)]; cbn [set_type EvalSymbolically e_type emeta m_type].
      + destruct IHa as [(ra & -> & Sa)|((c & s & ->) & Hm)]; cbn [bind]; [|right; split; [eauto|now apply missing_left]].
        destruct IHb as [(rb & -> & Sb)|((c & s & ->) & Hm)]; cbn [bind]; [|right; split; [eauto|now apply missing_right]].
        rewrite Ta in Sa. rewrite Tb in Sb. destruct (conn_shaped o ra rb Hc Sa Sb) as (tm & -> & Stm). cbn [bind]. left. eexists. split; [reflexivity|]. now constructor.
      + destruct (infer_ok _ _ _ (scope_ti _ HN) _ _ Ea) as (T1 & _), (infer_ok _ _ _ (scope_ti _ HN) _ _ Eb) as (T2 & _). pose proof Hco as (K1 & K2 & _).
        assert (forall w, width t w -> (0 < w)%Z) as Hwt. { intros w Hwt. destruct (common_either _ _ _ Hco) as [->| ->]; [destruct (width_from _ _ _ T1 Hwt) as (n & t' & X1 & X2 & X3)|destruct (width_from _ _ _ T2 Hwt) as (n & t' & X1 & X2 & X3)]; eauto. }
        assert ((exists w, t = TRange w) -> missing (EBin m o a b)) as Hrange.
        { intros [w ->]. destruct (common_either _ _ _ Hco) as [E|E].
          - destruct IHa as [(ra & _ & Sa)|(_ & Hm)]; [rewrite <- E in Sa; inversion Sa|now apply missing_left].
          - destruct IHb as [(rb & _ & Sb)|(_ & Hm)]; [rewrite <- E in Sb; inversion Sb|now apply missing_right]. }
        destruct IHa as [(ra & Ha' & Sa)|((c & s & He) & Hm)]; [|rewrite (casts_err _ _ _ _ K1 He); right; split; [do 2 eexists; reflexivity|now apply missing_left]].
        destruct (casts_ok _ _ _ K1 Hwt Ha' Sa) as [(ra' & -> & Sa')|(Hr & c & s & ->)]; cbn [bind]; [|right; split; [eauto|auto]].
        destruct IHb as [(rb & Hb' & Sb)|((c & s & He) & Hm)]; [|rewrite (casts_err _ _ _ _ K2 He); right; split; [do 2 eexists; reflexivity|now apply missing_right]].
        destruct (casts_ok _ _ _ K2 Hwt Hb' Sb) as [(rb' & -> & Sb')|(Hr & c & s & ->)]; cbn [bind]; [|right; split; [eauto|auto]].
        destruct (bin_shaped o t ra' rb' Hop Sa' Sb') as (tm & -> & Stm). cbn [bind]. left. eexists. split; [reflexivity|]. now constructor.
    - apply (inv_field _ _ _ (scope_ti _ HN)) in Hi as (x & t & Ex & Et & ->). destruct (field_key _ HN _ _ _ _ Ex Et) as (mk & n & -> & En). cbn [set_type EvalSymbolically]. rewrite En.
      destruct (IH I) with (e' := x) as [(r & Hr & Hsh)|((c & s & He) & Hm)]; [intros; eapply Hw; eauto; now constructor|exact Ex| |].
      + pose proof (inv_atom _ _ _ (scope_ti _ HN) _ _ Ex) as Hx. cbn beta iota in Hx. destruct Hx as [t0 ->]. cbn [EvalSymbolically] in Hr. apply bind_ok in Hr as (sk & Hf & Hr). apply Ok_inj in Hr as <-. rewrite Hf. cbn [bind].
        left. inversion Hsh as [| | |? ? ? ? E|? ? ? ? ? ? E|? ? ? ? ? ? E|? ? ? ? ? ? E]; subst; rewrite <- E in Et; inversion Et; subst; cbn; eexists; (split; [reflexivity|constructor; assumption]).
      + pose proof (inv_atom _ _ _ (scope_ti _ HN) _ _ Ex) as Hx. cbn beta iota in Hx. destruct Hx as [t0 ->]. cbn [EvalSymbolically] in He. destruct (FindPtrOrStatus (se_keys senv) n) as [sk| |] eqn:Ef; cbn [bind] in He; try discriminate.
        right. split; [do 2 eexists; reflexivity|now apply missing_field].
    - destruct Ha as [-> ->]. cbn [EvalSymbolically]. unfold FindPtrOrStatus. destruct (assoc_find String.eqb "priority" (se_attrs senv)) as [t|] eqn:Ef; cbn [bind].
      + left. eexists. split; [reflexivity|]. constructor. eauto.
      + right. split; [do 2 eexists; reflexivity|]. right. split; [constructor|exact Ef].
    - contradiction.
  Qed.
  (** Mentioned names must have symbols. *)
  Lemma sym_mentions e : forall e' r n, InferTable e ti = Ok e' -> sym e' = Ok r -> mentions e n -> assoc_find String.eqb n (se_keys senv) <> None.
  Proof.
    induction e as [m b|m s|m n|m n|m e IH|m e IH|m e IH|m o a IHa b IHb|m f e IH|m n|m]; intros e' r k Hi Hr Hm; inversion Hm; subst; pose proof (inv_atom _ _ _ (scope_ti _ HN) _ _ Hi) as Ha; cbn beta iota in Ha.
    - destruct Ha as [t ->]. cbn [EvalSymbolically] in Hr. apply bind_ok in Hr as (sk & Hf & _). apply find_ok in Hf. congruence.
    - destruct (infer_ok _ _ _ (scope_ti _ HN) _ _ Hi) as (HT & _). inversion HT; discriminate.
    - apply (inv_not _ _ _ (scope_ti _ HN)) in Hi as (x & Ex & Et & ->). cbn [set_type EvalSymbolically] in Hr. apply bind_ok in Hr as (r0 & Hr0 & _). eauto.
    - apply (inv_neg _ _ _ (scope_ti _ HN)) in Hi as (x & Ex & Et & ->). cbn [set_type EvalSymbolically] in Hr. apply bind_ok in Hr as (r0 & Hr0 & _). eauto.
    - contradiction.
    - apply (inv_bin _ _ _ (scope_ti _ HN)) in Hi as (xa & xb & Ea & Eb & [(Hc & Ta & Tb & ->)|(t & Hco & Hop & ->)]); cbn [set_type EvalSymbolically] in Hr; apply bind_ok in Hr as (ra & Hra & Hr); [eauto|].
      destruct (sym_cast senv src (fun _ _ => VI 0) _ _ _ (proj1 Hco) Hra) as (r0 & Hr0 & _). eauto.
    - apply (inv_bin _ _ _ (scope_ti _ HN)) in Hi as (xa & xb & Ea & Eb & [(Hc & Ta & Tb & ->)|(t & Hco & Hop & ->)]); cbn [set_type EvalSymbolically] in Hr; apply bind_ok in Hr as (ra & Hra & Hr); apply bind_ok in Hr as (rb & Hrb & Hr); [eauto|].
      destruct (sym_cast senv src (fun _ _ => VI 0) _ _ _ (proj1 (proj2 Hco)) Hrb) as (r0 & Hr0 & _). eauto.
    - apply (inv_field _ _ _ (scope_ti _ HN)) in Hi as (x & t & Ex & Et & ->). destruct (field_key _ HN _ _ _ _ Ex Et) as (mk & n & -> & En). cbn [set_type EvalSymbolically] in Hr. rewrite En in Hr. apply bind_ok in Hr as (sk & Hf & _). apply find_ok in Hf.
      match goal with A : mentions (EKey _ _) _ |- _ => inversion A; subst end. congruence.
  Qed.
End Env.
