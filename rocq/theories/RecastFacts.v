(** Readings of a constraint under two declarations whose types and values correspond. *)
From Coq Require Import String Ascii List ZArith NArith Bool Lia.
From Verif Require Import Base Num Token Ast Info TypeChecker Interpreter SpecLexer SpecGrammar SpecTyping SpecSemantics SpecInfo SpecSymbolic SpecSolver SpecReading SpecResize TypeFacts SemFacts.
Import ListNotations.
Open Scope string_scope.

Lemma int_int : common TInt TInt TInt.
Proof. split; [now left|]. split; [now left|]. intros d H _. exact H. Qed.

Section Sim.
  (** [K]: types that correspond; [R]: values of such types that correspond; [small]: integers that
      may be converted. *)
  Variable K : ty -> ty -> Prop.
  Variable R : ty -> ty -> value -> value -> Prop.
  Variable small : Z -> Prop.
  Record simulation : Prop := {
    s_bool : K TBool TBool;
    s_int : K TInt TInt;
    s_vbool : forall v v', R TBool TBool v v' <-> v = v';
    s_vint : forall v v', R TInt TInt v v' <-> v = v';
    s_field : forall t t' f s s', K t t' -> has_field t f s -> has_field t' f s' -> K s s';
    s_vfield : forall t t' f s s' v v' z, K t t' -> R t t' v v' -> has_field t f s -> has_field t' f s' -> Field f v z ->
      exists z', Field f v' z' /\ R s s' (VInt z) (VInt z');
    s_common : forall ta ta' tb tb' t t', K ta ta' -> K tb tb' -> common ta tb t -> common ta' tb' t' -> K t t';
    s_convert : forall ta ta' t t' u w u', K ta ta' -> K t t' -> R ta ta' u w -> Converts ta t u u' -> convertible ta' t' ->
      (ta = TInt -> t <> TInt -> forall z, u = VInt z -> small z) -> exists w', Converts ta' t' w w' /\ R t t' u' w';
    s_compare : forall t t' o u u' v v' x, K t t' -> R t t' u u' -> R t t' v v' -> (ordering o -> has_order t') ->
      unordered_exact t o u v x -> unordered_exact t' o u' v' x }.
  Hypothesis HS : simulation.

  (** Names correspond. *)
  Inductive linked : scope -> env -> scope -> env -> Prop :=
  | li_table keys keys' key key' p :
      (forall n t t', declared keys n t -> usable t -> declared keys' n t' -> usable t' -> K t t' /\
         forall v, key n = Some v -> exists v', key' n = Some v' /\ R t t' v v') ->
      linked (InTable keys) (TableEnv key p) (InTable keys') (TableEnv key' p)
  | li_action ps ps' param param' :
      (forall n t t', declared ps n t -> usable t -> declared ps' n t' -> usable t' -> K t t' /\
         forall z, param n = Some z -> exists z', param' n = Some z' /\ R t t' (VInt z) (VInt z')) ->
      linked (InAction ps) (ActionEnv param) (InAction ps') (ActionEnv param').

  Lemma typed_K G G' r r' e : linked G r G' r' -> forall t t', Typed G e t -> Typed G' e t' -> K t t'.
  Proof.
    intros HL. induction e; intros t t' H H'; inversion H; subst; inversion H'; subst; try (exact (s_bool HS)); try (exact (s_int HS)).
    - inversion HL; subst. match goal with Hn : forall n t t', _ |- _ => eapply Hn; eassumption end.
    - inversion HL; subst. match goal with Hn : forall n t t', _ |- _ => eapply Hn; eassumption end.
    - eapply (s_field HS); [|eassumption..]. eauto.
  Qed.

  (** The integers that [e] compares with anything else are small. *)
  Definition within (G : scope) (r : env) (e : expr) : Prop :=
    forall a b t z, compared a b e -> Typed G a TInt -> Typed G b t -> t <> TInt -> Meant unordered_exact G r a (VInt z) -> small z.

  Lemma meant_R G G' r r' e v : linked G r G' r' -> Meant unordered_exact G r e v -> within G r e -> forall t t', Typed G e t -> Typed G' e t' ->
    exists v', Meant unordered_exact G' r' e v' /\ R t t' v v'.
  Proof.
    intros HL. induction 1 as [m b|m s n Hd|key p m n v Er Hk|param m n z Er Hk|key p m Er|m e b H IH|m e z H IH|m o a b x y Hc H IH Ht|m o a b x y Hc H1 IH1 H2 IH2
      |m o a b ta tb tc u v u' v' x Hcmp Ta Tb Hco H1 IH1 H2 IH2 C1 C2 Hx|m f e v z H IH Hf]; intros Hw t t' T T'.
    - inversion T; subst. inversion T'; subst. exists (VBool b). split; [constructor|now apply (s_vbool HS)].
    - inversion T; subst. inversion T'; subst. exists (VInt (Z.of_N n)). split; [now constructor|now apply (s_vint HS)].
    - inversion T; subst. inversion T'; subst. inversion HL as [k k' ky key' p0 Hn E1 E2 E3 E4|]; subst.
      destruct (Hn n t t') as [_ HR]; try eassumption. destruct (HR v Hk) as (v' & Hv' & Hr). exists v'. split; [econstructor; [reflexivity|exact Hv']|exact Hr].
    - inversion T; subst. inversion T'; subst. inversion HL as [|k k' ky key' Hn E1 E2 E3 E4]; subst.
      destruct (Hn n t t') as [_ HR]; try eassumption. destruct (HR z Hk) as (z' & Hv' & Hr). exists (VInt z'). split; [econstructor; [reflexivity|exact Hv']|exact Hr].
    - inversion T; subst. inversion T'; subst. inversion HL; subst. exists (VInt p). split; [|now apply (s_vint HS)].
      econstructor. reflexivity.
    - inversion T; subst. inversion T'; subst. destruct (IH (fun a b t z Ho => Hw a b t z (cd_not _ _ _ _ Ho)) TBool TBool) as (v' & Hv' & Hr); try assumption.
      apply (s_vbool HS) in Hr as <-. exists (VBool (negb b)). split; [now constructor|now apply (s_vbool HS)].
    - inversion T; subst. inversion T'; subst. destruct (IH (fun a b t z Ho => Hw a b t z (cd_neg _ _ _ _ Ho)) TInt TInt) as (v' & Hv' & Hr); try assumption.
      apply (s_vint HS) in Hr as <-. exists (VInt (- z)). split; [now constructor|now apply (s_vint HS)].
    - assert (t = TBool /\ Typed G a TBool) as [-> Ta] by (inversion T; subst; auto; inversion Hc; subst; match goal with X : equality _ |- _ => inversion X | X : ordering _ |- _ => inversion X end).
      assert (t' = TBool /\ Typed G' a TBool) as [-> Ta'] by (inversion T'; subst; auto; inversion Hc; subst; match goal with X : equality _ |- _ => inversion X | X : ordering _ |- _ => inversion X end).
      destruct (IH (fun a b t z Ho => Hw a b t z (cd_in_left _ _ _ _ _ _ Ho)) TBool TBool Ta Ta') as (v' & Hv' & Hr). apply (s_vbool HS) in Hr as <-.
      exists (VBool y). split; [eapply mn_left; eassumption|now apply (s_vbool HS)].
    - assert (t = TBool /\ Typed G a TBool /\ Typed G b TBool) as (-> & Ta & Tb) by (inversion T; subst; auto; inversion Hc; subst; match goal with X : equality _ |- _ => inversion X | X : ordering _ |- _ => inversion X end).
      assert (t' = TBool /\ Typed G' a TBool /\ Typed G' b TBool) as (-> & Ta' & Tb') by (inversion T'; subst; auto; inversion Hc; subst; match goal with X : equality _ |- _ => inversion X | X : ordering _ |- _ => inversion X end).
      destruct (IH1 (fun a b t z Ho => Hw a b t z (cd_in_left _ _ _ _ _ _ Ho)) TBool TBool Ta Ta') as (v' & Hv' & Hr). apply (s_vbool HS) in Hr as <-.
      destruct (IH2 (fun a b t z Ho => Hw a b t z (cd_in_right _ _ _ _ _ _ Ho)) TBool TBool Tb Tb') as (v' & Hv2 & Hr). apply (s_vbool HS) in Hr as <-.
      exists (VBool (truth o x y)). split; [now apply mn_both|now apply (s_vbool HS)].
    - assert (t = TBool) as -> by (inversion T; reflexivity).
      assert (exists ta' tb' tc', t' = TBool /\ Typed G' a ta' /\ Typed G' b tb' /\ common ta' tb' tc' /\ (ordering o -> has_order tc')) as (ta' & tb' & tc' & -> & Ta' & Tb' & Hco' & Ho).
      { inversion T'; subst.
        - exfalso. match goal with Y : connective _ |- _ => destruct Y; inversion Hcmp; match goal with Z : equality _ |- _ => inversion Z | Z : ordering _ |- _ => inversion Z | _ => idtac end end.
        - exists ta0, tb0, t. split; [reflexivity|]. do 3 (split; [assumption|]). intros X. match goal with Y : equality _ |- _ => inversion Y; subst; inversion X end.
        - exists ta0, tb0, t. split; [reflexivity|]. do 3 (split; [assumption|]). auto. }
      destruct (IH1 (fun a b t z Ho => Hw a b t z (cd_in_left _ _ _ _ _ _ Ho)) ta ta' Ta Ta') as (y & Hy & Ry).
      destruct (IH2 (fun a b t z Ho => Hw a b t z (cd_in_right _ _ _ _ _ _ Ho)) tb tb' Tb Tb') as (y2 & Hy2 & Ry2).
      pose proof (typed_K _ _ _ _ a HL ta ta' Ta Ta') as Ka. pose proof (typed_K _ _ _ _ b HL tb tb' Tb Tb') as Kb. pose proof (s_common HS _ _ _ _ _ _ Ka Kb Hco Hco') as Kc.
      destruct (s_convert HS ta ta' tc tc' u y u' Ka Kc Ry C1 (proj1 Hco')) as (w1 & W1 & R1). { intros -> Hn z ->. refine (Hw a b tb z (cd_left _ _ _ _ Hcmp) Ta Tb _ H1). intros ->. apply Hn. exact (common_fun _ _ _ _ Hco int_int). }
      destruct (s_convert HS tb tb' tc tc' v y2 v' Kb Kc Ry2 C2 (proj1 (proj2 Hco'))) as (w2 & W2 & R2). { intros -> Hn z ->. refine (Hw b a ta z (cd_right _ _ _ _ Hcmp) Tb Ta _ H2). intros ->. apply Hn. exact (common_fun _ _ _ _ Hco int_int). }
      exists (VBool x). split; [|now apply (s_vbool HS)]. eapply mn_compare; try eassumption. eapply (s_compare HS); eassumption.
    - inversion T; subst. inversion T'; subst.
      match goal with A : Typed G e ?s, B : Typed G' e ?s' |- _ => destruct (IH (fun a b t z Ho => Hw a b t z (cd_field _ _ _ _ _ Ho)) s s' A B) as (v' & Hv' & Hr); pose proof (typed_K _ _ _ _ e HL s s' A B) as HK end.
      edestruct (s_vfield HS) as (z' & Hz' & Hr'); try eassumption. exists (VInt z'). split; [econstructor; eassumption|exact Hr'].
  Qed.
End Sim.
