(** The correspondence between kinds of matches of the same width. *)
From Coq Require Import String Ascii List ZArith NArith Bool Lia.
From Verif Require Import Base Num Token Ast Info TypeChecker Interpreter SpecLexer SpecGrammar SpecTyping SpecSemantics SpecInfo SpecSymbolic SpecSolver SpecReading TypeFacts SemFacts RecastFacts.
Import ListNotations.
Open Scope string_scope.

Inductive change (w : Z) : ty -> ty -> Prop :=
| ch_et : change w (TExact w) (TTernary w)
| ch_eo : change w (TExact w) (TOptional w)
| ch_el : change w (TExact w) (TLpm w)
| ch_er : change w (TExact w) (TRange w)
| ch_ot : change w (TOptional w) (TTernary w)
| ch_lt : change w (TLpm w) (TTernary w).
Inductive becomes (w : Z) : ty -> ty -> value -> value -> Prop :=
| be_et z : becomes w (TExact w) (TTernary w) (VExact z) (VTernary z (2 ^ w - 1))
| be_eo z : becomes w (TExact w) (TOptional w) (VExact z) (VTernary z (2 ^ w - 1))
| be_el z : becomes w (TExact w) (TLpm w) (VExact z) (VLpm z w)
| be_er z : becomes w (TExact w) (TRange w) (VExact z) (VRange z z)
| be_ot z m : becomes w (TOptional w) (TTernary w) (VTernary z m) (VTernary z m)
| be_lt z p : (0 <= p <= w)%Z -> becomes w (TLpm w) (TTernary w) (VLpm z p) (VTernary z (2 ^ w - 2 ^ (w - p))).
Definition changed (t t' : ty) : Prop := exists w, (0 <= w)%Z /\ (change w t t' \/ change w t' t).
Definition kin (t t' : ty) : Prop := t' = t \/ changed t t'.
Definition alike_values (t t' : ty) (v v' : value) : Prop :=
  t' = t /\ v' = v \/ exists w, (0 <= w)%Z /\ (becomes w t t' v v' \/ becomes w t' t v' v).

Lemma changed_sym t t' : changed t t' -> changed t' t.
Proof. intros (w & Hw & H). exists w. tauto. Qed.
Lemma kin_sym t t' : kin t t' -> kin t' t.
Proof. intros [->|H]; [now left|right; now apply changed_sym]. Qed.
Lemma alike_sym t t' v v' : alike_values t t' v v' -> alike_values t' t v' v.
Proof. intros [[-> ->]|(w & Hw & H)]; [now left|right; exists w; tauto]. Qed.
Lemma changed_match t t' : changed t t' -> exists w, (0 <= w)%Z /\ match_type w t /\ match_type w t' /\ t <> t'.
Proof. intros (w & Hw & [H|H]); destruct H; exists w; (split; [exact Hw|]); (split; [constructor|]); (split; [constructor|discriminate]). Qed.
Lemma top w a t : match_type w a -> convertible a t -> t = a.
Proof. intros Hm [E|B]; [auto|]. apply above_iff in B. destruct Hm, t; discriminate B. Qed.
Lemma becomes_changed t t' v v' w : becomes w t t' v v' -> change w t t'.
Proof. destruct 1; constructor. Qed.
Lemma same_alike t v v' : alike_values t t v v' <-> v = v'.
Proof.
  split; [|intros <-; now left]. intros [[_ ->]|(w & _ & [H|H])]; [reflexivity| |]; apply becomes_changed in H; inversion H.
Qed.
Lemma changed_alike t t' v v' : changed t t' -> alike_values t t' v v' -> exists w, (0 <= w)%Z /\ (becomes w t t' v v' \/ becomes w t' t v' v).
Proof. intros Hc [[-> _]|H]; [apply changed_match in Hc as (w & _ & _ & _ & Hn); congruence|exact H]. Qed.
Lemma prefix_inj w p q : (0 <= p <= w)%Z -> (0 <= q <= w)%Z -> (2 ^ w - 2 ^ (w - p) = 2 ^ w - 2 ^ (w - q))%Z -> p = q.
Proof. intros Hp Hq H. assert (2 ^ (w - p) = 2 ^ (w - q))%Z as E by lia. apply Z.pow_inj_r in E; lia. Qed.
Lemma becomes_inj w w' t t' u u' v v' : becomes w t t' u u' -> becomes w' t t' v v' -> (u = v <-> u' = v').
Proof.
  intros H H'. destruct H; inversion H'; subst; (split; intros E; [|injection E]); try (injection E as ->); intros; subst; try reflexivity; try congruence.
  f_equal. eapply prefix_inj; eauto.
Qed.
Lemma alike_inj t t' u u' v v' : alike_values t t' u u' -> alike_values t t' v v' -> (u = v <-> u' = v').
Proof.
  intros [[-> ->]|(w & _ & H)] H2; [apply same_alike in H2 as <-; tauto|].
  assert (t <> t') as Hn by (destruct H as [H|H]; apply becomes_changed in H; intros <-; inversion H).
  destruct H2 as [[-> _]|(w' & _ & H2)]; [congruence|].
  assert (forall w w' t t' , change w t t' -> change w' t' t -> False) as Hx by (intros ? ? ? ? X Y; destruct X; inversion Y).
  destruct H as [H|H], H2 as [H2|H2].
  - exact (becomes_inj _ _ _ _ _ _ _ _ H H2).
  - exfalso. eapply Hx; eapply becomes_changed; eassumption.
  - exfalso. eapply Hx; eapply becomes_changed; eassumption.
  - pose proof (becomes_inj _ _ _ _ _ _ _ _ H H2). tauto.
Qed.
Lemma point_change w t t' z u : (0 <= w)%Z -> change w t t' \/ change w t' t -> conv1 (TBit w) t (VInt z) u ->
  exists u', conv1 (TBit w) t' (VInt z) u' /\ alike_values t t' u u'.
Proof.
  intros Hw H Hc. assert (2 ^ w - 1 = 2 ^ w - 2 ^ (w - w))%Z as E by (rewrite Z.sub_diag; reflexivity).
  destruct H as [H|H]; destruct H; inversion Hc; subst; eexists; (split; [constructor; assumption|]); right; exists w; (split; [exact Hw|]);
    first [left; constructor; fail|right; constructor; fail|rewrite E; left; constructor; lia|rewrite E; right; constructor; lia].
Qed.
Lemma alike_field t t' f s s' v v' z : changed t t' -> alike_values t t' v v' -> has_field t f s -> has_field t' f s' -> Field f v z ->
  s' = s /\ Field f v' z.
Proof.
  intros Hc HR Hf Hf' Hv. apply (changed_alike _ _ _ _ Hc) in HR as (w & _ & [H|H]); destruct H; inversion Hf; subst; inversion Hf'; subst; inversion Hv; subst; (split; [reflexivity|constructor]).
Qed.
Lemma field_same t t' f s s' : changed t t' -> has_field t f s -> has_field t' f s' -> s' = s.
Proof. intros (w & _ & [H|H]) Hf Hf'; destruct H; inversion Hf; subst; inversion Hf'; subst; reflexivity. Qed.

Lemma kinds_simulate : simulation kin alike_values (fun _ => True).
Proof.
  constructor.
  - now left.
  - now left.
  - intros; apply same_alike.
  - intros; apply same_alike.
  - intros t t' f s s' [->|Hc] Hf Hf'; left; [apply field_iff in Hf, Hf'; congruence|exact (field_same _ _ _ _ _ Hc Hf Hf')].
  - intros t t' f s s' v v' z [->|Hc] HR Hf Hf' Hv.
    + apply same_alike in HR as <-. assert (s' = s) as -> by (apply field_iff in Hf, Hf'; congruence). exists z. split; [exact Hv|now apply same_alike].
    + destruct (alike_field _ _ _ _ _ _ _ _ Hc HR Hf Hf' Hv) as [-> Hv']. exists z. split; [exact Hv'|now apply same_alike].
  - intros ta ta' tb tb' t t' Ka Kb (C1 & C2 & C3) (C1' & C2' & C3'). destruct Ka as [->|Ha].
    + destruct Kb as [->|Hb].
      * left. exact (common_fun ta tb t' t (conj C1' (conj C2' C3')) (conj C1 (conj C2 C3))).
      * destruct (changed_match _ _ Hb) as (w & _ & M & M' & _). rewrite (top _ _ _ M C2), (top _ _ _ M' C2'). now right.
    + destruct (changed_match _ _ Ha) as (w & _ & M & M' & _). rewrite (top _ _ _ M C1), (top _ _ _ M' C1'). now right.
  - intros ta ta' t t' u x u' Ka Kt HR HC Hcv _. destruct Ka as [->|Ha].
    + apply same_alike in HR as <-. destruct Kt as [->|Ht]; [exists u'; split; [exact HC|now apply same_alike]|].
      destruct (changed_match _ _ Ht) as (w & Hw & M & M' & Hn). pose proof Ht as (w0 & Hw0 & Hch).
      assert (w0 = w) as -> by (destruct Hch as [H|H]; destruct H; inversion M; reflexivity).
      apply converts_inv in HC as [(-> & <-)|[HC|(n & v & -> & HC1 & HC2)]].
      * exfalso. apply Hn. symmetry. exact (top _ _ _ M Hcv).
      * assert (exists z, ta = TBit w /\ u = VInt z) as (z & -> & ->) by (inversion HC; subst; inversion M; subst; eauto).
        destruct (point_change w t t' z u' Hw Hch HC) as (y & Hy & HR). exists y. split; [now apply conv1_converts|exact HR].
      * assert (n = w) as -> by (inversion HC2; subst; inversion M; subst; reflexivity). inversion HC1; subst.
        destruct (point_change w t t' _ u' Hw Hch HC2) as (y & Hy & HR). exists y. split; [|exact HR].
        eapply cv_trans; apply conv1_converts; eassumption.
    + destruct (changed_match _ _ Ha) as (w & _ & M & M' & _). pose proof (converts_convertible _ _ _ _ HC) as Hc1.
      pose proof (top _ _ _ M Hc1) as ->. pose proof (top _ _ _ M' Hcv) as ->. exists x. split; [constructor|].
      apply converts_inv in HC as [(_ & <-)|[HC|(n & v & -> & _)]]; [exact HR| |inversion M].
      exfalso. apply conv1_step in HC. apply (below_irrefl ta). now constructor.
  - intros t t' o u u' v v' x [->|Hc] Ru Rv Ho HX; [apply same_alike in Ru as <-, Rv as <-; exact HX|].
    destruct HX as [[Hcmp HX] Hno]. pose proof (alike_inj _ _ _ _ _ _ Ru Rv) as Hi.
    assert (equality o) as He.
    { destruct Hcmp as [He|(Ho' & (n1 & N1) & _)]; [exact He|]. exfalso.
      apply (changed_alike _ _ _ _ Hc) in Ru as (w & Hw & [H|H]); destruct H; try (inversion N1; fail);
        try (apply Hno; split; [exact Ho'|]; eexists; reflexivity). }
    split; [split; [now left|]|intros [X _]; destruct He; inversion X].
    rewrite HX. destruct He; split; intros H; inversion H; subst.
    + assert (u' = v') as -> by tauto. constructor.
    + assert (u = v) as -> by tauto. constructor.
    + constructor. tauto.
    + constructor. tauto.
Qed.
