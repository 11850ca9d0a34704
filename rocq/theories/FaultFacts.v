(** Type errors (proofs for C66). *)
From Coq Require Import String Ascii List ZArith NArith Bool Lia.
From Verif Require Import Base Num Token Ast Lexer Quote AstConstructors Parser Info TypeChecker SpecLexer SpecGrammar SpecParser SpecQuote SpecTyping SpecFault SpecCrash
  TypeFacts CrashFacts ParserFacts4.
Import ListNotations.
Open Scope string_scope.

Lemma usable_dec t : usable t \/ ~ usable t.
Proof. destruct (illegal_type t) eqn:E; [right; intros H; apply illegal_usable in H; congruence|left; now apply illegal_usable]. Qed.
Lemma declared_dec l n : NoDup (map fst l) -> (exists t, declared l n t) \/ forall t, ~ declared l n t.
Proof.
  intros HN. destruct (assoc_find String.eqb n l) as [k|] eqn:E; [left; exists (k_type k), k; split; [now apply find_declared|reflexivity]|right].
  intros t (k & Hk & _). apply (find_declared _ _ _ HN) in Hk. congruence.
Qed.
Lemma binop_cases o : o <> UNKNOWN_OPERATOR -> connective o \/ equality o \/ ordering o.
Proof. destruct o; intros H; try congruence; first [left; constructor; fail|right; left; constructor; fail|right; right; constructor]. Qed.
Lemma D_operators pton ck n w e : D pton ck n w e -> operators_known e.
Proof.
  induction 1; cbn [operators_known]; auto; [destruct ck; exact I|..]; (split; [|tauto]); intros ->;
    match goal with H : binary _ _ _ _ |- _ => inversion H end.
Qed.
(** Binary operators of parsed constraints span their operands. *)
Lemma D_spans pton ck n w e : D pton ck n w e -> forall m o l r, sub (EBin m o l r) e -> m_start m = e_start l /\ m_end m = e_end r.
Proof.
  induction 1; intros m0 o0 l0 r0 Hs; eauto; try (inversion Hs; subst; eauto; fail).
  - destruct ck; inversion Hs.
Qed.

Section S.
  Variables (ai : option action_info) (ti : option table_info) (G : scope) (src : csource).
  Hypothesis HG : in_scope ai ti G.
  Hypothesis Hsrc : GetConstraintSource ai ti = Ok src.
  Lemma typed_infer e t : Typed G e t -> exists x, Infer ai ti e = Ok x /\ e_type x = t /\ e_start x = e_start e /\ e_end x = e_end e.
  Proof. intros H. destruct (infer_complete ai ti G HG e t H) as (x & Hx & Ht). destruct (infer_loc _ _ _ _ Hx). eauto. Qed.
  Lemma fault_infer e a b why : fault G e a b why -> Infer ai ti e = StaticTypeError src a b why.
  Proof.
    assert (forall A c l s x y t (f : A -> outcome expr), bind (@QuotedError A c l s x y t) f = @QuotedError expr c l s x y t) as Hb.
    { intros. unfold QuotedError. destruct (QuoteSubConstraint _ _ _); reflexivity. }
    assert (forall keys : list (string * key_info), NoDup (map fst keys) -> forall n, (forall t, ~ declared keys n t) -> assoc_find String.eqb n keys = None) as Hnone.
    { intros keys HN n Hn. destruct (assoc_find String.eqb n keys) as [k|] eqn:E; [|reflexivity]. destruct (Hn (k_type k)). exists k. split; [now apply find_declared|reflexivity]. }
    assert (forall keys : list (string * key_info), NoDup (map fst keys) -> forall n t, declared keys n t -> exists k, assoc_find String.eqb n keys = Some k /\ k_type k = t) as Hsome.
    { intros keys HN n t (k & Hk & E). exists k. split; [now apply find_declared|exact E]. }
    assert (forall t, ~ usable t -> illegal_type t = true) as Hill by (intros t Hu; destruct (illegal_type t) eqn:E; [reflexivity|now apply illegal_usable in E]).
    pose proof typed_infer as TI. unfold StaticTypeError.
    intros H; revert TI; destruct HG as [t0 HN|act HN]; injection Hsrc as <-; intros TI;
      (induction H as [keys m n Hk Hn|keys m n t Hk Hd Hu|ps m n Hk|ps m n Hk Hn|ps m n t Hk Hd Hu|keys m n Hk|m n Hn|m e|m
        |m e a b why H IH|m e a b why H IH|m f e a b why H IH|m o l r a b why H IH|m o l r t a b why HT H IH
        |m e t HT Hn|m e t HT Hn|m f e t HT Hn|m o l r t t' Ho HT HT' Hn|m o l r t Ho HT HT' Hn|m o l r t t' Ho HT HT' Hn|m o l r t t' c Ho HT HT' Hc Hn];
      try (injection Hk as <-); try discriminate Hk; cbn [Infer GetConstraintSource bind]).
    all: try (rewrite IH; rewrite Hb; reflexivity).
    all: try reflexivity.
    all: try (apply (Hnone _ HN) in Hn; unfold param_info in *; rewrite Hn; reflexivity).
    all: try (apply (Hsome _ HN) in Hd as (k & Ek & <-); unfold param_info in *; rewrite Ek; rewrite (Hill _ Hu); reflexivity).
    all: try (unfold GetAttributeInfo; apply String.eqb_neq in Hn; rewrite Hn; reflexivity).
    all: try (apply TI in HT as (x & Ex & Et & Es & Ee); rewrite Ex; cbn [bind]).
    all: try (rewrite IH; rewrite Hb; reflexivity).
    all: try (apply TI in HT' as (y & Ey & Et' & Es' & Ee'); rewrite Ey; cbn [bind]).
    all: try (rewrite Es, Ee, Et; destruct t; try reflexivity; congruence).
    all: try (rewrite Et; destruct (FieldTypeOfCompositeType t f) as [t1|] eqn:Ef; [apply field_iff in Ef; destruct (Hn _ Ef)|reflexivity]).
    all: try (rewrite Es, Ee, Et; destruct Ho; destruct t; try reflexivity; congruence).
    all: try (rewrite Et, Et'; cbn [is_bool_type negb]; rewrite Es', Ee'; destruct Ho; destruct t; try reflexivity; congruence).
    all: unfold Unify; rewrite Et, Et'; destruct (LeastUpperBound t t') as [c'|] eqn:El.
    all: try (apply lub_iff in El; exfalso; exact (Hn _ El)).
    all: try (rewrite Es, Ee'; unfold StaticTypeError; destruct Ho as [[]|[]]; rewrite Hb; reflexivity).
    all: try (apply lub_iff in Hc; congruence).
    all: apply lub_iff in Hc; rewrite Hc in El; injection El as <-; cbn [bind];
      assert (TypeHasOrdering c = false) as -> by (destruct (TypeHasOrdering c) eqn:Eo; [apply ordering_iff in Eo; contradiction|reflexivity]); destruct Ho; reflexivity.
  Qed.
  Lemma typed_or_fault e : operators_known e -> (exists t, Typed G e t) \/ exists a b why, fault G e a b why.
  Proof.
    induction e as [m b|m s|m n|m n|m e IH|m e IH|m e IH|m o l IHl r IHr|m f e IH|m n|m]; intros Hk; cbn [operators_known] in Hk.
    - left; eexists; constructor.
    - left; eexists; constructor.
    - destruct HG as [t HN|a HN]; [|right; eexists _, _, _; now apply ft_key_in_action with (ps := ai_params_by_name a)].
      destruct (declared_dec _ n HN) as [(ty & Hd)|Hd]; [|right; eexists _, _, _; now apply ft_key_unknown with (keys := ti_keys_by_name t)].
      destruct (usable_dec ty) as [Hu|Hu]; [left; exists ty; now apply T_key with (keys := ti_keys_by_name t)|right; eexists _, _, _; now apply ft_key_unusable with (keys := ti_keys_by_name t) (t := ty)].
    - destruct HG as [t HN|a HN]; [right; eexists _, _, _; now apply ft_param_in_table with (keys := ti_keys_by_name t)|].
      destruct (declared_dec _ n HN) as [(ty & Hd)|Hd]; [|right; eexists _, _, _; now apply ft_param_unknown with (ps := ai_params_by_name a)].
      destruct (usable_dec ty) as [Hu|Hu]; [left; exists ty; now apply T_param with (params := ai_params_by_name a)|right; eexists _, _, _; now apply ft_param_unusable with (ps := ai_params_by_name a) (t := ty)].
    - destruct (IH Hk) as [(t & Ht)|(a & b & why & Hf)]; [|right; exists a, b, why; now constructor].
      destruct (is_bool_type t) eqn:Eb; [apply bool_iff in Eb as ->; left; eexists; now constructor|right; eexists _, _, _; apply ft_not_bool with (t := t); [exact Ht|intros ->; discriminate]].
    - destruct (IH Hk) as [(t & Ht)|(a & b & why & Hf)]; [|right; exists a, b, why; now constructor].
      destruct (is_int_type t) eqn:Eb; [apply int_iff in Eb as ->; left; eexists; now constructor|right; eexists _, _, _; apply ft_neg_int with (t := t); [exact Ht|intros ->; discriminate]].
    - right; eexists _, _, _; constructor.
    - destruct Hk as (Ho & Hl & Hr). destruct (IHl Hl) as [(t & Ht)|(a & b & why & Hf)]; [|right; exists a, b, why; now constructor].
      destruct (IHr Hr) as [(t' & Ht')|(a & b & why & Hf)]; [|right; exists a, b, why; eapply ft_right; eauto].
      destruct (binop_cases o Ho) as [Hc|Hc].
      + destruct (is_bool_type t) eqn:Eb; [apply bool_iff in Eb as ->|right; eexists _, _, _; eapply ft_left_bool; eauto; intros ->; discriminate].
        destruct (is_bool_type t') eqn:Eb; [apply bool_iff in Eb as ->|right; eexists _, _, _; eapply ft_right_bool; eauto; intros ->; discriminate].
        left; eexists; now constructor.
      + destruct (LeastUpperBound t t') as [c|] eqn:El; [apply lub_iff in El|right; eexists _, _, _; eapply ft_no_common; eauto; intros c Hx; apply lub_iff in Hx; congruence].
        destruct Hc as [Hc|Hc]; [left; eexists; eapply T_eq; eauto|].
        destruct (TypeHasOrdering c) eqn:Eo; [left; eexists; eapply T_ord; eauto; now apply ordering_iff|right; eexists _, _, _; eapply ft_no_order; eauto; intros Hx; apply ordering_iff in Hx; congruence].
    - destruct (IH Hk) as [(t & Ht)|(a & b & why & Hf)]; [|right; exists a, b, why; now constructor].
      destruct (FieldTypeOfCompositeType t f) as [t'|] eqn:Ef; [left; exists t'; econstructor; [exact Ht|now apply field_iff]|right; eexists _, _, _; eapply ft_no_field; eauto; intros t' Hx; apply field_iff in Hx; congruence].
    - destruct (String.eqb_spec n "priority") as [->|Hn]; [left; eexists; constructor|right; eexists _, _, _; now constructor].
    - right; eexists _, _, _; constructor.
  Qed.
  Lemma fault_not_typed e a b why t : fault G e a b why -> Typed G e t -> False.
  Proof. intros Hf Ht. apply fault_infer in Hf. destruct (infer_complete ai ti G HG e t Ht) as (x & Hx & _). unfold StaticTypeError in Hf. rewrite Hf in Hx. now apply quoted_not_ok in Hx. Qed.
  Lemma fault_fun e a b why : fault G e a b why -> forall a' b' why', fault G e a' b' why' -> a = a' /\ b = b' /\ why = why'.
  Proof.
    assert (forall e t t', Typed G e t -> Typed G e t' -> t = t') as TF by (intros; eapply typed_fun; eauto).
    assert (forall keys n t t', G = InTable keys -> declared keys n t -> declared keys n t' -> t = t') as DF.
    { intros keys n t t' E. apply declared_fun. destruct HG; [injection E as <-; assumption|discriminate]. }
    assert (forall keys n t t', G = InAction keys -> declared keys n t -> declared keys n t' -> t = t') as DF'.
    { intros keys n t t' E. apply declared_fun. destruct HG; [discriminate|injection E as <-; assumption]. }
    pose proof fault_not_typed as FT. clear HG Hsrc.
    induction 1 as [keys m n Hk Hn|keys m n t Hk Hd Hu|ps m n Hk|ps m n Hk Hn|ps m n t Hk Hd Hu|keys m n Hk|m n Hn|m e|m
        |m e a b why H IH|m e a b why H IH|m f e a b why H IH|m o l r a b why H IH|m o l r t a b why HT H IH
        |m e t HT Hn|m e t HT Hn|m f e t HT Hn|m o l r t t' Ho HT HT' Hn|m o l r t Ho HT HT' Hn|m o l r t t' Ho HT HT' Hn|m o l r t t' c Ho HT HT' Hc Hn];
      intros a' b' why' Hf; inversion Hf; subst; auto; try congruence;
      try (exfalso; match goal with H : fault G ?x _ _ _, H' : Typed G ?x _ |- _ => exact (FT _ _ _ _ _ H H') end);
      repeat match goal with
      | E : InTable _ = InTable _ |- _ => injection E as E; subst
      | E : InAction _ = InAction _ |- _ => injection E as E; subst
      end;
      try (exfalso; match goal with H : forall t, ~ declared _ _ t, H' : declared _ _ _ |- _ => exact (H _ H') end);
      repeat match goal with
      | H : Typed G ?e ?x, H' : Typed G ?e ?y |- _ => lazymatch x with y => fail | _ => pose proof (TF _ _ _ H H'); subst; try congruence end
      | H : declared ?l ?n ?x, H' : declared ?l ?n ?y |- _ => lazymatch x with y => fail | _ => first [pose proof (DF _ _ _ _ eq_refl H H')|pose proof (DF' _ _ _ _ eq_refl H H')]; subst; try congruence end
      | H : common ?x ?y ?c, H' : common ?x ?y ?d |- _ => lazymatch c with d => fail | _ => pose proof (common_fun _ _ _ _ H H'); subst; try congruence end
      end; auto; try congruence;
      try (exfalso; match goal with H : forall c, ~ common _ _ c, H' : common _ _ _ |- _ => exact (H _ H') end);
      try (match goal with H : connective ?o, H' : equality ?o \/ ordering ?o |- _ => destruct H; destruct H' as [H'|H']; inversion H' end);
      try (match goal with H : connective ?o, H' : ordering ?o |- _ => destruct H; inversion H' end).
  Qed.
  Lemma fault_spot e a b why : fault G e a b why -> spot e a b.
  Proof.
    induction 1; try (match goal with |- spot ?e (m_start ?m) (m_end ?m) => exact (sp_sub e e (sub_refl e)) end);
      try (match goal with IH : spot _ _ _ |- _ => eapply spot_mono; [|exact IH]; intros; now constructor end);
      try (match goal with |- spot ?x (e_start ?e) (e_end ?e) => apply sp_sub with (s := e); constructor; constructor end).
    - eapply sp_operands. apply sub_refl.
  Qed.
End S.
