(** Facts about the type checker. *)
From Coq Require Import String Ascii List ZArith NArith Bool Lia.
From Verif Require Import Base Num Token Ast Quote Info TypeChecker SpecTyping.
Import ListNotations.
Open Scope string_scope.

Lemma ty_eqb_eq a b : ty_eqb a b = true <-> a = b.
Proof. destruct a, b; cbn; try rewrite String.eqb_eq; try rewrite Z.eqb_eq; split; congruence. Qed.
Lemma ty_eqb_refl a : ty_eqb a a = true.
Proof. now apply ty_eqb_eq. Qed.
Lemma above_iff a b : StrictlyAbove a b = true <-> below b a.
Proof.
  split.
  - intros H. destruct a; cbn in H; try discriminate; destruct b; try discriminate; try apply Z.eqb_eq in H as ->;
      try (apply below_step; constructor; constructor).
    all: eapply below_trans; [apply below_step, step_int|apply below_step, step_bit; constructor].
  - assert (forall x y z, StrictlyAbove y x = true -> StrictlyAbove z y = true -> StrictlyAbove z x = true) as Htr.
    { intros x y z H1 H2. destruct z; cbn in *; try discriminate; destruct y; cbn in *; try discriminate; destruct x; try discriminate; auto. }
    induction 1 as [a b [w|w t H]|x y z H1 IH1 H2 IH2]; [reflexivity|destruct H; cbn; apply Z.eqb_refl|eauto].
Qed.
Lemma below_irrefl a : ~ below a a.
Proof. intros H. apply above_iff in H. destruct a; discriminate. Qed.
Lemma below_tr a b c : below a b -> below b c -> below a c.
Proof. apply below_trans. Qed.
Lemma common_fun a b c d : common a b c -> common a b d -> c = d.
Proof.
  intros (H1 & H2 & H3) (K1 & K2 & K3). specialize (H3 d K1 K2). specialize (K3 c H1 H2).
  destruct H3 as [->|H3]; [reflexivity|]. destruct K3 as [->|K3]; [reflexivity|]. destruct (below_irrefl c). eauto using below_tr.
Qed.
Lemma lub_common a b c : LeastUpperBound a b = Some c -> common a b c.
Proof.
  unfold LeastUpperBound. destruct (ty_eqb a b) eqn:E1; [intros [= <-]; apply ty_eqb_eq in E1 as <-; repeat split; auto; now left|].
  destruct (StrictlyAbove a b) eqn:E2; [intros [= <-]; apply above_iff in E2; split; [now left|split; [now right|auto]]|].
  destruct (StrictlyAbove b a) eqn:E3; [intros [= <-]; apply above_iff in E3; split; [now right|split; [now left|auto]]|discriminate].
Qed.
Lemma lub_none a b d : LeastUpperBound a b = None -> convertible a d -> convertible b d -> False.
Proof.
  unfold LeastUpperBound. destruct (ty_eqb a b) eqn:E1; [discriminate|]. destruct (StrictlyAbove a b) eqn:E2; [discriminate|].
  destruct (StrictlyAbove b a) eqn:E3; [discriminate|]. intros _ [->|H1] [->|H2].
  - rewrite ty_eqb_refl in E1. discriminate.
  - apply above_iff in H2. congruence.
  - apply above_iff in H1. congruence.
  - apply above_iff in H1, H2. destruct d; cbn in H1, H2; try discriminate; destruct a; try discriminate; destruct b; try discriminate; cbn in E1, E2, E3; try discriminate;
      try (apply Z.eqb_eq in H1); try (apply Z.eqb_eq in H2); subst; rewrite Z.eqb_refl in E1; discriminate.
Qed.
Lemma lub_iff a b c : LeastUpperBound a b = Some c <-> common a b c.
Proof.
  split; [apply lub_common|]. intros H. destruct (LeastUpperBound a b) as [d|] eqn:E.
  - f_equal. eapply common_fun; [apply lub_common; exact E|exact H].
  - destruct H as (H1 & H2 & _). destruct (lub_none _ _ _ E H1 H2).
Qed.

Lemma find_declared (l : list (string * key_info)) n k : NoDup (map fst l) -> (assoc_find String.eqb n l = Some k <-> In (n, k) l).
Proof.
  induction l as [|[n' k'] l IH]; intros H; cbn; [split; [discriminate|tauto]|]. inversion H as [|? ? Hn Hl]; subst.
  destruct (String.eqb_spec n n') as [->|Hne].
  - split; [intros [= ->]; now left|]. intros [[= ->]|Hin]; [reflexivity|]. destruct Hn. now apply (in_map fst) in Hin.
  - rewrite (IH Hl). split; [now right|]. intros [[= ]|Hin]; [congruence|exact Hin].
Qed.
Lemma declared_fun l n t t' : NoDup (map fst l) -> declared l n t -> declared l n t' -> t = t'.
Proof.
  intros H (k & Hk & <-) (k' & Hk' & <-). apply (find_declared _ _ _ H) in Hk, Hk'. congruence.
Qed.
Lemma field_iff t f t' : FieldTypeOfCompositeType t f = Some t' <-> has_field t f t'.
Proof.
  unfold FieldTypeOfCompositeType. split.
  - intros H. destruct t; cbn in H; try discriminate;
    repeat match type of H with context [String.eqb f ?s] => destruct (String.eqb_spec f s) as [->|?]; cbn in H end; try discriminate; apply (f_equal (fun o => match o with Some x => x | None => t' end)) in H; subst; constructor.
  - destruct 1; reflexivity.
Qed.
Lemma illegal_usable t : illegal_type t = false <-> usable t.
Proof. unfold usable. destruct t; cbn; split; try discriminate; try (intros _; split; [discriminate|intros; discriminate]); intros [H1 H2]; congruence. Qed.
Lemma ordering_iff t : TypeHasOrdering t = true <-> has_order t.
Proof. destruct t; cbn; split; try discriminate; try constructor; intros H; inversion H; reflexivity. Qed.
Lemma bool_iff t : is_bool_type t = true <-> t = TBool.
Proof. destruct t; cbn; split; congruence. Qed.
Lemma int_iff t : is_int_type t = true <-> t = TInt.
Proof. destruct t; cbn; split; congruence. Qed.

Lemma type_set t e : e_type (set_type t e) = t.
Proof. destruct e; reflexivity. Qed.
Lemma start_set t e : e_start (set_type t e) = e_start e.
Proof. destruct e; reflexivity. Qed.
Lemma end_set t e : e_end (set_type t e) = e_end e.
Proof. destruct e; reflexivity. Qed.
Lemma bare_set t e : bare (set_type t e) = bare e.
Proof. destruct e; reflexivity. Qed.
Lemma quoted_not_ok {A} c l src s e x (a : A) : QuotedError c l src s e x <> Ok a.
Proof. unfold QuotedError. destruct (QuoteSubConstraint src s e); discriminate. Qed.

(** Casts. *)
Lemma cast_spec G e t : Annotated G e -> convertible (e_type e) t ->
  Annotated G (CastTransitivelyTo e t) /\ e_type (CastTransitivelyTo e t) = t /\ bare (CastTransitivelyTo e t) = bare e /\
  e_start (CastTransitivelyTo e t) = e_start e /\ e_end (CastTransitivelyTo e t) = e_end e.
Proof.
  intros He [E|Hb].
  - subst t. unfold CastTransitivelyTo. assert (StrictlyAbove (e_type e) (e_type e) = false) as H.
    { destruct (StrictlyAbove (e_type e) (e_type e)) eqn:E; [|reflexivity]. apply above_iff, below_irrefl in E. destruct E. }
    rewrite H. cbn [andb]. rewrite H. cbn [andb]. auto.
  - apply above_iff in Hb as Ha. unfold CastTransitivelyTo. rewrite Ha. cbn [andb].
    remember (e_type e) as te eqn:Et. destruct t; cbn in Ha; try discriminate; destruct te; try discriminate; cbn [type_case tycase_eqb TypeBitwidth].
    all: try (apply Z.eqb_eq in Ha; subst).
    all: unfold WrapWithCast; cbn [e_type emeta m_type e_start e_end m_start m_end StrictlyAbove type_case tycase_eqb andb];
      rewrite <- ?Et; cbn [StrictlyAbove type_case tycase_eqb andb]; rewrite ?Z.eqb_refl; cbn [andb].
    all: (split; [|split; [reflexivity|split; [reflexivity|split; reflexivity]]]).
    all: repeat (apply A_cast; [|cbn; rewrite <- ?Et; try (constructor; constructor); try constructor|reflexivity|reflexivity]); exact He.
Qed.

Section S.
  Variable ai : option action_info.
  Variable ti : option table_info.
  Variable G : scope.
  Hypothesis HG : in_scope ai ti G.
  Lemma scope_table keys : G = InTable keys -> NoDup (map fst keys).
  Proof. destruct HG as [t HN|a HN]; intros H; injection H as <- || discriminate H; exact HN. Qed.
  Lemma scope_action keys : G = InAction keys -> NoDup (map fst keys).
  Proof. destruct HG as [t HN|a HN]; intros H; injection H as <- || discriminate H; exact HN. Qed.
  Lemma typed_fun e t t' : Typed G e t -> Typed G e t' -> t = t'.
  Proof.
    intros H. revert t'. induction H as [m b|m s|keys m n t Hk Hd Hu|params m n t Hk Hd Hu|m|m e H IH|m e H IH|m o a b Hc H1 IH1 H2 IH2
      |m o a b ta tb t Hc H1 IH1 H2 IH2 Hco|m o a b ta tb t Hc H1 IH1 H2 IH2 Hco Ho|m f e t t' H IH Hf]; intros u Hu'; inversion Hu'; try (subst; reflexivity).
    - eapply declared_fun; [|exact Hd|]; [eapply scope_table; eauto|]. congruence.
    - eapply declared_fun; [|exact Hd|]; [eapply scope_action; eauto|]. congruence.
    - match goal with H : Typed G e ?x |- _ => apply IH in H; subst end. apply field_iff in Hf. match goal with H : has_field _ _ _ |- _ => apply field_iff in H end. congruence.
  Qed.
  Lemma infer_ok e : forall e', Infer ai ti e = Ok e' -> Typed G e (e_type e') /\ Annotated G e' /\ bare e' = bare e /\ e_start e' = e_start e /\ e_end e' = e_end e.
  Proof.
    assert (exists src, GetConstraintSource ai ti = Ok src) as [src Hsrc] by (inversion HG; cbn; eauto).
    assert (forall e, Infer ai ti e = let* src := GetConstraintSource ai ti in Infer ai ti e) as _ by (intros; rewrite Hsrc; reflexivity).
    induction e as [m b|m s|m n|m n|m e IH|m e IH|m e IH|m o l IHl r IHr|m f e IH|m n|m]; intros e' H; cbn [Infer] in H; rewrite Hsrc in H; cbn [bind] in H.
    1: inversion HG; subst; cbn in H; injection H as <-; cbn; repeat split; constructor; reflexivity.
    1: inversion HG; subst; cbn in H; injection H as <-; cbn; repeat split; constructor; reflexivity.
    - inversion HG as [t HN|a HN]; subst; [|now apply quoted_not_ok in H].
      destruct (assoc_find String.eqb n (ti_keys_by_name t)) as [k|] eqn:Ek; [|now apply quoted_not_ok in H].
      destruct (illegal_type (k_type k)) eqn:Ei; [now apply quoted_not_ok in H|]. injection H as <-. apply (find_declared _ _ _ HN) in Ek. apply illegal_usable in Ei.
      cbn [set_type e_type emeta m_type]. assert (declared (ti_keys_by_name t) n (k_type k)) as Hd by (exists k; auto).
      split; [|split; [|auto]]; econstructor; eauto.
    - inversion HG as [t HN|a HN]; subst; [now apply quoted_not_ok in H|].
      destruct (assoc_find String.eqb n (ai_params_by_name a)) as [k|] eqn:Ek; [|now apply quoted_not_ok in H].
      destruct (illegal_type (k_type k)) eqn:Ei; [now apply quoted_not_ok in H|]. injection H as <-. apply (find_declared _ _ _ HN) in Ek. apply illegal_usable in Ei.
      cbn [set_type e_type emeta m_type]. assert (declared (ai_params_by_name a) n (k_type k)) as Hd by (exists k; auto).
      split; [|split; [|auto]]; econstructor; eauto.
    - assert (exists x, Infer ai ti e = Ok x /\ e_type x = TBool /\ e' = set_type TBool (ENot m x)) as (x & Ex & Et & ->).
      { destruct HG; (destruct (Infer _ _ e) as [x| |]; cbn [bind] in H; try discriminate; destruct (is_bool_type (e_type x)) eqn:Eb; [|now apply quoted_not_ok in H];
        injection H as <-; apply bool_iff in Eb; eauto). }
      destruct (IH _ Ex) as (H1 & H2 & H3 & _). rewrite Et in H1. cbn. split; [now constructor|]. split; [now constructor|]. rewrite H3. auto.
    - assert (exists x, Infer ai ti e = Ok x /\ e_type x = TInt /\ e' = set_type TInt (ENeg m x)) as (x & Ex & Et & ->).
      { destruct HG; (destruct (Infer _ _ e) as [x| |]; cbn [bind] in H; try discriminate; destruct (is_int_type (e_type x)) eqn:Eb; [|now apply quoted_not_ok in H];
        injection H as <-; apply int_iff in Eb; eauto). }
      destruct (IH _ Ex) as (H1 & H2 & H3 & _). rewrite Et in H1. cbn. split; [now constructor|]. split; [now constructor|]. rewrite H3. auto.
    - inversion HG; subst; now apply quoted_not_ok in H.
    - assert (exists x y, Infer ai ti l = Ok x /\ Infer ai ti r = Ok y /\
        ((connective o /\ e_type x = TBool /\ e_type y = TBool /\ e' = set_type TBool (EBin m o x y)) \/
         exists t, LeastUpperBound (e_type x) (e_type y) = Some t /\ (equality o \/ ordering o /\ TypeHasOrdering t = true) /\
           e' = set_type TBool (EBin m o (CastTransitivelyTo x t) (CastTransitivelyTo y t)))) as (x & y & Ex & Ey & Hcase).
      { destruct HG; (destruct (Infer _ _ l) as [x| |]; cbn [bind] in H; try discriminate; destruct (Infer _ _ r) as [y| |]; cbn [bind] in H; try discriminate;
        exists x, y; (split; [reflexivity|split; [reflexivity|]]); clear IHl IHr; destruct o; try discriminate H);
        lazymatch goal with
        | |- connective ?o /\ _ \/ _ =>
            lazymatch o with
            | OAND => idtac | OOR => idtac | OIMPLIES => idtac
            | _ => right; unfold Unify in H; destruct (LeastUpperBound (e_type x) (e_type y)) as [t'|]; cbn [bind] in H; [|unfold StaticTypeError, QuotedError in H; destruct (QuoteSubConstraint _ _ _) in H; discriminate H]; exists t'; (split; [reflexivity|]);
              try (destruct (TypeHasOrdering t') eqn:Eo; cbn [negb] in H; [|now apply quoted_not_ok in H]); injection H as <-; (split; [|reflexivity]);
              first [left; constructor; fail|right; split; [constructor|reflexivity]]
            end
        end;
        left; (destruct (is_bool_type (e_type x)) eqn:Eb; cbn [negb] in H; [|now apply quoted_not_ok in H]); (destruct (is_bool_type (e_type y)) eqn:Eb'; cbn [negb] in H; [|now apply quoted_not_ok in H]);
        injection H as <-; apply bool_iff in Eb, Eb'; (split; [constructor|split; [exact Eb|split; [exact Eb'|reflexivity]]]). }
      destruct (IHl _ Ex) as (T1 & A1 & B1 & S1 & E1), (IHr _ Ey) as (T2 & A2 & B2 & S2 & E2).
      destruct Hcase as [(Hc & Tx & Ty & ->)|(t & Hl & Hc & ->)].
      + rewrite Tx in T1. rewrite Ty in T2. cbn. rewrite B1, B2. split; [now constructor|]. split; [now constructor|]. auto.
      + apply lub_iff in Hl as Hco. pose proof Hco as (C1 & C2 & _). destruct (cast_spec G x t A1 C1) as (X1 & X2 & X3 & X4 & X5). destruct (cast_spec G y t A2 C2) as (Y1 & Y2 & Y3 & Y4 & Y5).
        cbn. rewrite X3, Y3, B1, B2. destruct Hc as [Hc|[Hc Ho]]; [|apply ordering_iff in Ho].
        * split; [eapply T_eq; eauto|]. split; [|auto]. apply A_eq; auto. congruence.
        * split; [eapply T_ord; eauto|]. split; [|auto]. apply A_ord; auto; congruence.
    - assert (exists x t, Infer ai ti e = Ok x /\ FieldTypeOfCompositeType (e_type x) f = Some t /\ e' = set_type t (EField m f x)) as (x & t & Ex & Et & ->).
      { destruct HG; (destruct (Infer _ _ e) as [x| |]; cbn [bind] in H; try discriminate; destruct (FieldTypeOfCompositeType (e_type x) f) as [t'|] eqn:Ef; [|now apply quoted_not_ok in H]; injection H as <-; eauto). }
      destruct (IH _ Ex) as (H1 & H2 & H3 & _). apply field_iff in Et. cbn. split; [econstructor; eauto|]. split; [now constructor|]. rewrite H3. auto.
    - assert (exists t, GetAttributeInfo n = Some t /\ e' = set_type t (EAttr m n)) as (t & Et & ->).
      { destruct HG; (destruct (GetAttributeInfo n) as [t'|]; [|now apply quoted_not_ok in H]; destruct (illegal_type t'); [now apply quoted_not_ok in H|]; injection H as <-; eauto). }
      unfold GetAttributeInfo in Et. destruct (String.eqb_spec n "priority") as [->|]; [|discriminate]. injection Et as <-. cbn. split; [constructor|]. split; [now constructor|]. auto.
    - inversion HG; subst; now apply quoted_not_ok in H.
  Qed.
  Lemma infer_complete e t : Typed G e t -> exists e', Infer ai ti e = Ok e' /\ e_type e' = t.
  Proof.
    assert (exists src, GetConstraintSource ai ti = Ok src) as [src Hsrc] by (inversion HG; cbn; eauto).
    induction 1 as [m b|m s|keys m n t Hk Hd Hu|params m n t Hk Hd Hu|m|m e H IH|m e H IH|m o a b Hc H1 IH1 H2 IH2
      |m o a b ta tb t Hc H1 IH1 H2 IH2 Hco|m o a b ta tb t Hc H1 IH1 H2 IH2 Hco Ho|m f e t t' H IH Hf].
    - destruct HG; cbn; eauto.
    - destruct HG; cbn; eauto.
    - destruct HG as [t0 HN|a0 HN]; [|discriminate]. injection Hk as <-. destruct Hd as (k & Hk & <-). apply (find_declared _ _ _ HN) in Hk. apply illegal_usable in Hu.
      cbn. rewrite Hk, Hu. eauto.
    - destruct HG as [t0 HN|a0 HN]; [discriminate|]. injection Hk as <-. destruct Hd as (k & Hk & <-). apply (find_declared _ _ _ HN) in Hk. apply illegal_usable in Hu.
      cbn. unfold param_info in *. rewrite Hk, Hu. eauto.
    - destruct HG; cbn; eauto.
    - destruct IH as (x & Ex & Et). destruct HG; cbn [Infer GetConstraintSource bind]; rewrite Ex; cbn [bind]; rewrite Et; cbn; eauto.
    - destruct IH as (x & Ex & Et). destruct HG; cbn [Infer GetConstraintSource bind]; rewrite Ex; cbn [bind]; rewrite Et; cbn; eauto.
    - destruct IH1 as (x & Ex & Et), IH2 as (y & Ey & Et'). destruct HG; cbn [Infer GetConstraintSource bind]; rewrite Ex, Ey; cbn [bind]; rewrite Et, Et'; destruct Hc; cbn; eauto.
    - destruct IH1 as (x & Ex & Et), IH2 as (y & Ey & Et'). apply lub_iff in Hco. destruct HG; cbn [Infer GetConstraintSource bind]; rewrite Ex, Ey; cbn [bind]; unfold Unify; rewrite Et, Et', Hco; destruct Hc; cbn; eauto.
    - destruct IH1 as (x & Ex & Et), IH2 as (y & Ey & Et'). apply lub_iff in Hco. apply ordering_iff in Ho. destruct HG; cbn [Infer GetConstraintSource bind]; rewrite Ex, Ey; cbn [bind]; unfold Unify; rewrite Et, Et', Hco; destruct Hc; cbn [bind]; rewrite Ho; cbn; eauto.
    - destruct IH as (x & Ex & Et). apply field_iff in Hf. destruct HG; cbn [Infer GetConstraintSource bind]; rewrite Ex; cbn [bind]; rewrite Et, Hf; cbn; eauto.
  Qed.
  Lemma typed_no_cast e t : Typed G e t -> has_cast e -> False.
  Proof. induction 1; intros Hc; inversion Hc; subst; auto. Qed.
End S.
