(** Facts for C112: what the encoder refuses. *)
From Coq Require Import String Ascii List ZArith NArith Bool Lia Sorted.
From Verif Require Import Base Num Token Ast Quote AstConstructors Info TypeChecker Parser ConstraintInfo Interpreter Z3 Symbolic SpecLexer SpecGrammar SpecTyping TypeFacts NumFacts LiteralFacts SpecSemantics SpecInfo SpecSymbolic SpecSolver SpecRefuse
  SemFacts SemFacts2 EntryFacts ExplainFacts InfoFacts2 InterpFacts InterpFacts2 SymFacts SymFacts2 SymKeys SymState SymMeaning SolverFacts.
Import ListNotations.
Open Scope string_scope.

Section Env.
  Variables (senv : sym_env) (src : csource).
  Notation sym := (EvalSymbolically senv src).
  Lemma range_cast tm w : EvalTypeCast tm (TRange w) = Err Unimplemented no_ranges.
  Proof. reflexivity. Qed.
  Lemma casts_range e w r : convertible (e_type e) (TRange w) -> (0 < w)%Z -> sym e = Ok r -> shaped (e_type e) r -> sym (CastTransitivelyTo e (TRange w)) = Err Unimplemented no_ranges.
  Proof.
    intros Hc Hw H Hsh. destruct (cast_cases e (TRange w) Hc) as [(Et & ->)|[(Hs & mm & -> & Em)|(w' & m1 & m2 & Et & Hs & -> & E1 & E2)]].
    - exfalso. rewrite Et in Hsh. inversion Hsh.
    - assert (exists tm, r = RTerm tm) as [tm ->]. { clear -Hs Hsh. destruct Hsh; eauto; inversion Hs. } cbn [EvalSymbolically]. rewrite H. cbn [bind to_term]. rewrite Em. apply range_cast.
    - rewrite Et in Hsh. inversion Hsh as [|tm Htm| | | | |]; subst. cbn [EvalSymbolically]. rewrite H. cbn [bind to_term]. rewrite E1.
      assert (w' = w) as ->. { clear -Hs. inversion Hs as [|? ? Hm E3]; subst. inversion Hm; subst; reflexivity. }
      destruct (cast_shaped TInt (TBit w) tm) as [(r' & -> & Hr')|((x & Ex) & _)]; [constructor|intros x Hx; inversion Hx; now subst|exact Hsh| |discriminate].
      inversion Hr'; subst. cbn [bind to_term]. rewrite E2. apply range_cast.
  Qed.
  Variable ti : table_info.
  Hypothesis HN : NoDup (map fst (ti_keys_by_name ti)).
  Let G := InTable (ti_keys_by_name ti).
  Variables (known : string -> Prop) (priority : Prop).
  Hypothesis Hknown : forall n, known n <-> assoc_find String.eqb n (se_keys senv) <> None.
  Hypothesis Hpriority : priority <-> assoc_find String.eqb "priority" (se_attrs senv) <> None.
  Hypothesis Hkeys : forall n sk t, assoc_find String.eqb n (se_keys senv) = Some sk -> declared (ti_keys_by_name ti) n t -> shaped t (RKey sk).
  Hypothesis Hprio : forall t, assoc_find String.eqb "priority" (se_attrs senv) = Some t -> sort_of t = SInt.
  Notation clear_of := (Clear known priority).
  Lemma clear_iff1 e e' : (forall n, mentions e' n -> mentions e n) -> (has_attribute e' -> has_attribute e) -> clear_of e -> clear_of e'.
  Proof. intros H1 H2 [H3 H4]. split; eauto. Qed.
  Lemma clear_bin m o a b : clear_of a -> clear_of b -> clear_of (EBin m o a b).
  Proof. intros [H1 H2] [H3 H4]. split; [intros n H; inversion H; subst; eauto|intros H; inversion H; subst; eauto]. Qed.
  Lemma sym_first e : literals e -> (forall n t w, mentions e n -> declared (ti_keys_by_name ti) n t -> width t w -> (0 < w)%Z) -> forall e', InferTable e ti = Ok e' ->
    (exists r, sym e' = Ok r /\ shaped (e_type e') r /\ clear_of e) \/ (exists c s, sym e' = Err c s /\ Unknown G known priority e c s).
  Proof.
    induction e as [m b|m s|m n|m n|m e IH|m e IH|m e IH|m o a IHa b IHb|m f e IH|m n|m]; intros Hl Hw e' Hi; pose proof (inv_atom _ _ _ (scope_ti _ HN) _ _ Hi) as Ha; cbn beta iota in Ha.
    - subst e'. left. eexists. split; [reflexivity|]. split; [now constructor|]. split; [intros n H; inversion H|intros H; inversion H].
    - subst e'. destruct Hl as [n Hn]. left. cbn [EvalSymbolically]. unfold z3_int_val. rewrite (mpz_set_str_Reads 10 s n (proj1 Hn)). eexists. split; [reflexivity|]. split; [now constructor|]. split; [intros x H; inversion H|intros H; inversion H].
    - destruct (infer_ok _ _ _ (scope_ti _ HN) _ _ Hi) as (HT & _). inversion HT as [| |keys ? ? t' HGk Hdl Hu| | | | | | | |]; subst. injection HGk as <-. destruct Ha as [t ->]. cbn [e_type emeta m_type] in *. cbn [EvalSymbolically]. unfold FindPtrOrStatus.
      destruct (assoc_find String.eqb n (se_keys senv)) as [sk|] eqn:Ef; cbn [bind].
      + left. eexists. split; [reflexivity|]. split; [eapply Hkeys; eauto|]. split; [|intros H; inversion H]. intros x Hx. inversion Hx; subst. apply Hknown. now rewrite Ef.
      + right. exists NotFound, (absent n). split; [reflexivity|]. apply un_key. intros H. now apply Hknown in H.
    - destruct (infer_ok _ _ _ (scope_ti _ HN) _ _ Hi) as (HT & _). inversion HT; discriminate.
    - apply (inv_not _ _ _ (scope_ti _ HN)) in Hi as (x & Ex & Et & ->). destruct (IH Hl) with (e' := x) as [(r & Hr & Hsh & Hc)|(c & s & He & Hm)]; [intros; eapply Hw; eauto; now constructor|exact Ex| |].
      + rewrite Et in Hsh. inversion Hsh as [t St| | | | | |]; subst. left. cbn [set_type EvalSymbolically]. rewrite Hr. cbn [bind to_term]. unfold z3_not. rewrite (proj2 (is_sbool_eq t) St). eexists. split; [reflexivity|]. split; [now constructor|].
        revert Hc. apply clear_iff1; [intros n H; now inversion H|intros H; now inversion H].
      + right. exists c, s. split; [cbn [set_type EvalSymbolically]; now rewrite He|now apply un_not].
    - apply (inv_neg _ _ _ (scope_ti _ HN)) in Hi as (x & Ex & Et & ->). destruct (IH Hl) with (e' := x) as [(r & Hr & Hsh & Hc)|(c & s & He & Hm)]; [intros; eapply Hw; eauto; now constructor|exact Ex| |].
      + rewrite Et in Hsh. inversion Hsh as [|t St| | | | |]; subst. left. cbn [set_type EvalSymbolically]. rewrite Hr. cbn [bind to_term]. unfold z3_minus. rewrite St. eexists. split; [reflexivity|]. split; [now constructor|].
        revert Hc. apply clear_iff1; [intros n H; now inversion H|intros H; now inversion H].
      + right. exists c, s. split; [cbn [set_type EvalSymbolically]; now rewrite He|now apply un_neg].
    - contradiction.
    - destruct Hl as [Hl1 Hl2]. apply (inv_bin _ _ _ (scope_ti _ HN)) in Hi as (xa & xb & Ea & Eb & Hcase).
      assert (forall n t w, mentions a n -> declared (ti_keys_by_name ti) n t -> width t w -> (0 < w)%Z) as Hwa by (intros; eapply Hw; eauto; now apply me_left).
      assert (forall n t w, mentions b n -> declared (ti_keys_by_name ti) n t -> width t w -> (0 < w)%Z) as Hwb by (intros; eapply Hw; eauto; now apply me_right).
      specialize (IHa Hl1 Hwa _ Ea). specialize (IHb Hl2 Hwb _ Eb).
      destruct (infer_ok _ _ _ (scope_ti _ HN) _ _ Ea) as (T1 & _), (infer_ok _ _ _ (scope_ti _ HN) _ _ Eb) as (T2 & _).
      destruct Hcase as [(Hc & Ta & Tb & ->)|(t & Hco & Hop & ->)]; cbn [set_type EvalSymbolically e_type emeta m_type].
      + assert (~ with_range G a b) as Hnr.
        { intros (ta & tb & w & H1 & H2 & H3). assert (ta = TBool) as -> by (rewrite <- Ta; exact (typed_fun _ _ _ (scope_ti _ HN) _ _ _ H1 T1)). assert (tb = TBool) as -> by (rewrite <- Tb; exact (typed_fun _ _ _ (scope_ti _ HN) _ _ _ H2 T2)).
          apply common_either in H3. destruct H3; discriminate. }
        destruct IHa as [(ra & -> & Sa & Ca)|(c & s & -> & Hm)]; cbn [bind]; [|right; exists c, s; split; [reflexivity|now apply un_left]].
        destruct IHb as [(rb & -> & Sb & Cb)|(c & s & -> & Hm)]; cbn [bind]; [|right; exists c, s; split; [reflexivity|now apply un_right]].
        rewrite Ta in Sa. rewrite Tb in Sb. destruct (conn_shaped o ra rb Hc Sa Sb) as (tm & -> & Stm). cbn [bind]. left. eexists. split; [reflexivity|]. split; [now constructor|now apply clear_bin].
      + pose proof Hco as (K1 & K2 & _).
        assert (forall w, width t w -> (0 < w)%Z) as Hwt. { intros w Hwt. destruct (common_either _ _ _ Hco) as [->| ->]; [destruct (width_from ti _ _ _ T1 Hwt) as (n & t' & X1 & X2 & X3)|destruct (width_from ti _ _ _ T2 Hwt) as (n & t' & X1 & X2 & X3)]; eauto. }
        destruct IHa as [(ra & Ha' & Sa & Ca)|(c & s & He & Hm)]; [|rewrite (casts_err _ _ _ _ _ _ K1 He); right; exists c, s; split; [reflexivity|now apply un_left]].
        assert ((exists w, t = TRange w) \/ forall w, t <> TRange w) as [[w ->]|Hnr] by (destruct t; eauto; right; discriminate).
        { right. exists Unimplemented, no_ranges. rewrite (casts_range _ _ _ K1 (Hwt w (wi_range w)) Ha' Sa). cbn [bind]. split; [reflexivity|]. apply un_range; [exact Ca|]. exists (e_type xa), (e_type xb), w. auto. }
        assert (~ with_range G a b) as Hnr'.
        { intros (ta & tb & w & H1 & H2 & H3). rewrite (typed_fun _ _ _ (scope_ti _ HN) _ _ _ H1 T1), (typed_fun _ _ _ (scope_ti _ HN) _ _ _ H2 T2) in H3. apply (Hnr w). exact (common_fun _ _ _ _ Hco H3). }
        destruct (casts_ok _ _ _ _ _ K1 Hwt Ha' Sa) as [(ra' & -> & Sa')|((w & E) & _)]; cbn [bind]; [|now destruct (Hnr w)].
        destruct IHb as [(rb & Hb' & Sb & Cb)|(c & s & He & Hm)]; [|rewrite (casts_err _ _ _ _ _ _ K2 He); right; exists c, s; split; [reflexivity|now apply un_right]].
        destruct (casts_ok _ _ _ _ _ K2 Hwt Hb' Sb) as [(rb' & -> & Sb')|((w & E) & _)]; cbn [bind]; [|now destruct (Hnr w)].
        destruct (bin_shaped o t ra' rb' Hop Sa' Sb') as (tm & -> & Stm). cbn [bind]. left. eexists. split; [reflexivity|]. split; [now constructor|now apply clear_bin].
    - apply (inv_field _ _ _ (scope_ti _ HN)) in Hi as (x & t & Ex & Et & ->). destruct (field_key _ HN _ _ _ _ Ex Et) as (mk & n & -> & En). cbn [set_type EvalSymbolically]. rewrite En.
      destruct (IH I) with (e' := x) as [(r & Hr & Hsh & Hc)|(c & s & He & Hm)]; [intros; eapply Hw; eauto; now constructor|exact Ex| |].
      + pose proof (inv_atom _ _ _ (scope_ti _ HN) _ _ Ex) as Hx. cbn beta iota in Hx. destruct Hx as [t0 ->]. cbn [EvalSymbolically] in Hr. apply bind_ok in Hr as (sk & Hf & Hr). apply Ok_inj in Hr as <-. rewrite Hf. cbn [bind].
        left. assert (clear_of (EField m f (EKey mk n))) as Hc' by (revert Hc; apply clear_iff1; [intros y H; now inversion H|intros H; now inversion H]).
        inversion Hsh as [| | |? ? ? ? E|? ? ? ? ? ? E|? ? ? ? ? ? E|? ? ? ? ? ? E]; subst; rewrite <- E in Et; inversion Et; subst; cbn; eexists; (split; [reflexivity|split; [constructor; assumption|exact Hc']]).
      + pose proof (inv_atom _ _ _ (scope_ti _ HN) _ _ Ex) as Hx. cbn beta iota in Hx. destruct Hx as [t0 ->]. cbn [EvalSymbolically] in He. destruct (FindPtrOrStatus (se_keys senv) n) as [sk| |] eqn:Ef; cbn [bind] in He; try discriminate. injection He as -> ->.
        right. exists c, s. split; [reflexivity|now apply un_field].
    - destruct Ha as [-> ->]. cbn [EvalSymbolically]. unfold FindPtrOrStatus. destruct (assoc_find String.eqb "priority" (se_attrs senv)) as [t|] eqn:Ef; cbn [bind].
      + left. eexists. split; [reflexivity|]. split; [constructor; eauto|]. split; [intros n H; inversion H|]. intros _. apply Hpriority. discriminate.
      + right. exists NotFound, (absent "priority"). split; [reflexivity|]. apply un_priority. intros H. now apply Hpriority in H.
    - contradiction.
  Qed.
  (** At most one of these. *)
  Lemma typed_range e w : Typed G e (TRange w) -> exists m n, e = EKey m n /\ declared (ti_keys_by_name ti) n (TRange w).
  Proof.
    intros H. inversion H as [| |keys m n t Hk Hd Hu|params m n t Hk Hd Hu| | | | | | |m f e0 t t' H0 Hf]; subst.
    - injection Hk as <-. eauto.
    - discriminate Hk.
    - inversion Hf.
  Qed.
  Lemma clear_no_range e w : clear_of e -> Typed G e (TRange w) -> False.
  Proof.
    intros [Hc _] H. destruct (typed_range e w H) as (m & n & -> & Hd). specialize (Hc n (me_key m n)). apply Hknown in Hc. destruct (assoc_find String.eqb n (se_keys senv)) as [sk|] eqn:E; [|contradiction]. pose proof (Hkeys _ _ _ E Hd) as Hs. inversion Hs.
  Qed.
  Lemma clear_unknown e c s : Unknown G known priority e c s -> clear_of e -> False.
  Proof.
    induction 1 as [m n Hn|m Hn|m f e c s H IH|m e c s H IH|m e c s H IH|m o a b c s H IH|m o a b Ha Hr|m o a b c s Ha Hr H IH]; intros [H1 H2].
    - apply Hn, H1. constructor.
    - apply Hn, H2. constructor.
    - apply IH. split; [intros n Hn; apply H1; now constructor|intros Hn; apply H2; now constructor].
    - apply IH. split; [intros n Hn; apply H1; now constructor|intros Hn; apply H2; now constructor].
    - apply IH. split; [intros n Hn; apply H1; now constructor|intros Hn; apply H2; now constructor].
    - apply IH. split; [intros n Hn; apply H1; now apply me_left|intros Hn; apply H2; now apply ha_left].
    - assert (clear_of b) as Hb by (split; [intros n Hn; apply H1; now apply me_right|intros Hn; apply H2; now apply ha_right]).
      destruct Hr as (ta & tb & w & Ta & Tb & Hco). destruct (common_either _ _ _ Hco) as [<-|<-]; [exact (clear_no_range _ _ Ha Ta)|exact (clear_no_range _ _ Hb Tb)].
    - apply IH. split; [intros n Hn; apply H1; now apply me_right|intros Hn; apply H2; now apply ha_right].
  Qed.
  Lemma unknown_fun e c s : Unknown G known priority e c s -> forall c' s', Unknown G known priority e c' s' -> c' = c /\ s' = s.
  Proof.
    induction 1 as [m n Hn|m Hn|m f e c s H IH|m e c s H IH|m e c s H IH|m o a b c s H IH|m o a b Ha Hr|m o a b c s Ha Hr H IH]; intros c' s' H'; inversion H' as [? ? N1|? N1|? ? ? ? ? N1|? ? ? ? N1|? ? ? ? N1|? ? ? ? ? ? N1|? ? ? ? N1 N2|? ? ? ? ? ? N1 N2 N3]; subst; auto.
    - destruct (clear_unknown _ _ _ H N1).
    - destruct (clear_unknown _ _ _ H N1).
    - destruct (clear_unknown _ _ _ N1 Ha).
    - contradiction.
    - destruct (clear_unknown _ _ _ N1 Ha).
    - contradiction.
  Qed.
End Env.
Lemma unknown_ext G G' known known' (priority priority' : Prop) : same_scope G G' -> (forall n, known n <-> known' n) -> (priority <-> priority') ->
  forall e c s, Unknown G known priority e c s -> Unknown G' known' priority' e c s.
Proof.
  intros HS Hk Hp. assert (forall a b, with_range G a b <-> with_range G' a b) as HR.
  { intros a b. split; intros (ta & tb & w & H1 & H2 & H3); exists ta, tb, w; (split; [|split; [|exact H3]]); eauto using typed_ext, same_scope_sym. }
  assert (forall e, Clear known priority e -> Clear known' priority' e) as HC. { intros e [H1 H2]. split; [intros n Hn; apply Hk; auto|intros Hn; apply Hp; auto]. }
  induction 1 as [m n Hn|m Hn|m f e c s H IH|m e c s H IH|m e c s H IH|m o a b c s H IH|m o a b Ha Hr|m o a b c s Ha Hr H IH].
  - apply un_key. now rewrite <- Hk.
  - apply un_priority. now rewrite <- Hp.
  - now apply un_field.
  - now apply un_not.
  - now apply un_neg.
  - now apply un_left.
  - apply un_range; [auto|now apply HR].
  - apply un_right; [auto|now rewrite <- HR|exact IH].
Qed.
