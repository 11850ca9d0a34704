(** The correspondence between numbers of different widths. *)
From Coq Require Import String Ascii List ZArith NArith Bool Lia.
From Verif Require Import Base Num Token Ast Info TypeChecker Interpreter SpecLexer SpecGrammar SpecTyping SpecSemantics SpecInfo SpecSymbolic SpecSolver SpecReading SpecResize TypeFacts SemFacts RecastFacts.
Import ListNotations.
Open Scope string_scope.

Section Width.
  Variable N : Z.
  Hypothesis HN : (0 <= N)%Z.
  Inductive scaled (w w' : Z) : ty -> ty -> Prop :=
  | sc_bit : scaled w w' (TBit w) (TBit w')
  | sc_exact : scaled w w' (TExact w) (TExact w')
  | sc_range : scaled w w' (TRange w) (TRange w').
  Definition akin (t t' : ty) : Prop := t' = t \/ exists w w', (N <= w)%Z /\ (N <= w')%Z /\ scaled w w' t t'.
  Definition equal_values (t t' : ty) (v v' : value) : Prop := v = v'.
  Definition below_N (z : Z) : Prop := (0 <= z < 2 ^ N)%Z.

  Lemma akin_sym t t' : akin t t' -> akin t' t.
  Proof. intros [->|(w & w' & H & H' & Hs)]; [now left|]. right. exists w', w. split; [exact H'|]. split; [exact H|]. destruct Hs; constructor. Qed.
  Lemma akin_bool t : akin TBool t -> t = TBool.
  Proof. intros [E|(w & w' & _ & _ & H)]; [exact E|inversion H]. Qed.
  Lemma akin_int t : akin TInt t -> t = TInt.
  Proof. intros [E|(w & w' & _ & _ & H)]; [exact E|inversion H]. Qed.
  Lemma small_mod z w w' : below_N z -> (N <= w)%Z -> (N <= w')%Z -> (z mod 2 ^ w = z mod 2 ^ w')%Z.
  Proof.
    intros [H1 H2] Hw Hw'. assert (2 ^ N <= 2 ^ w)%Z by (apply Z.pow_le_mono_r; lia). assert (2 ^ N <= 2 ^ w')%Z by (apply Z.pow_le_mono_r; lia). rewrite !Z.mod_small by lia. reflexivity.
  Qed.
  Lemma convertible_iff a b : convertible a b <-> a = b \/ StrictlyAbove b a = true.
  Proof. unfold convertible. rewrite above_iff. reflexivity. Qed.
  Lemma mod_akin z w t' : (0 <= w)%Z -> akin (TBit w) t' -> (t' <> TBit w -> below_N z) -> exists w', t' = TBit w' /\ (0 <= w')%Z /\ (z mod 2 ^ w' = z mod 2 ^ w)%Z.
  Proof.
    intros Hw [->|(a & b & Ha & Hb & Hs)] Hz; [now exists w|]. inversion Hs; subst. exists b. split; [reflexivity|]. split; [lia|]. destruct (Z.eq_dec b w) as [->|Hn]; [reflexivity|].
    symmetry. apply small_mod; [|assumption..]. apply Hz. congruence.
  Qed.

  Lemma widths_simulate : simulation akin equal_values below_N.
  Proof.
    constructor; unfold equal_values.
    - now left.
    - now left.
    - intros; reflexivity.
    - intros; reflexivity.
    - intros t t' f s s' [->|(w & w' & Hw & Hw' & Hs)] Hf Hf'; [left; apply field_iff in Hf, Hf'; congruence|]. destruct Hs; inversion Hf; subst; inversion Hf'; subst; right; exists w, w'; (split; [exact Hw|]); (split; [exact Hw'|constructor]).
    - intros t t' f s s' v v' z _ <- _ _ Hv. exists z. split; [exact Hv|reflexivity].
    - intros ta ta' tb tb' t t' Ka Kb C C'.
      assert (forall a a' b s s', akin a a' -> common a b s -> common a' b s' -> akin s s') as One.
      { intros a a' b s s' [->|(w & w' & Hw & Hw' & Hs)] D D'; [left; exact (common_fun _ _ _ _ D' D)|]. apply lub_iff in D, D'. unfold LeastUpperBound in D, D'.
        destruct Hs; destruct b; cbn in D, D';
          repeat match type of D with context [Z.eqb ?x ?y] => destruct (Z.eqb_spec x y); subst end;
          repeat match type of D' with context [Z.eqb ?x ?y] => destruct (Z.eqb_spec x y); subst end; try discriminate D; try discriminate D';
          injection D as <-; injection D' as <-; try (now left); right; exists w, w'; (split; [assumption|]); (split; [assumption|constructor]). }
      destruct Ka as [->|(w & w' & Hw & Hw' & Hs)]; [|destruct Kb as [->|(w1 & w1' & Hw1 & Hw1' & Hs1)]].
      + assert (common tb ta t) as X by (destruct C as (? & ? & ?); split; [assumption|split; [assumption|auto]]). assert (common tb' ta t') as X' by (destruct C' as (? & ? & ?); split; [assumption|split; [assumption|auto]]).
        exact (One tb tb' ta t t' Kb X X').
      + refine (One ta ta' tb t t' _ C C'). right. exists w, w'. auto.
      + apply lub_iff in C, C'. unfold LeastUpperBound in C, C'. destruct Hs, Hs1; cbn in C, C';
          repeat match type of C with context [Z.eqb ?x ?y] => destruct (Z.eqb_spec x y); subst end;
          repeat match type of C' with context [Z.eqb ?x ?y] => destruct (Z.eqb_spec x y); subst end; try discriminate C; try discriminate C';
          injection C as <-; injection C' as <-; right; eexists; eexists; (split; [|split; [|constructor]]); assumption.
    - intros ta ta' t t' u x u' Ka Kt <- HC Hcv Hz. apply converts_convertible in HC as Hc0. apply converts_inv in HC as [(<- & <-)|[HC|(n & v & -> & HC1 & HC2)]].
      + exists u. split; [|reflexivity]. replace t' with ta'; [constructor|]. apply convertible_iff in Hcv as [E|E]; [exact E|].
        destruct Ka as [->|(w & w' & Hw & Hw' & Hs)]; destruct Kt as [->|(w1 & w1' & Hw1 & Hw1' & Hs1)]; [reflexivity|exfalso..].
        * destruct Hs1; discriminate E.
        * destruct Hs; discriminate E.
        * destruct Hs; inversion Hs1; subst; discriminate E.
      + apply convertible_iff in Hcv. inversion HC; subst; clear HC.
        * rewrite (akin_int _ Ka) in *. destruct (mod_akin z w t' H Kt) as (w' & -> & Hw' & E). { intros _. apply Hz; [reflexivity|discriminate|reflexivity]. }
          eexists. split; [now apply cv_int|]. now rewrite E.
        * destruct Kt as [->|(a & b & Ha & Hb & Hs)]; [|inversion Hs; subst]; (destruct Ka as [->|(a' & b' & Ha' & Hb' & Hs')]; [|inversion Hs'; subst]); destruct Hcv as [E|E]; try discriminate E; cbn in E; apply Z.eqb_eq in E; subst; eexists; (split; [apply cv_exact|reflexivity]).
        * destruct Kt as [->|(a & b & Ha & Hb & Hs)]; [|inversion Hs]. destruct Ka as [->|(a' & b' & Ha' & Hb' & Hs')]; [eexists; split; [now apply cv_ternary|reflexivity]|]. inversion Hs'; subst. destruct Hcv as [E|E]; [discriminate E|]. cbn in E. apply Z.eqb_eq in E. subst. eexists; split; [now apply cv_ternary|reflexivity].
        * destruct Kt as [->|(a & b & Ha & Hb & Hs)]; [|inversion Hs]. destruct Ka as [->|(a' & b' & Ha' & Hb' & Hs')]; [eexists; split; [now apply cv_optional|reflexivity]|]. inversion Hs'; subst. destruct Hcv as [E|E]; [discriminate E|]. cbn in E. apply Z.eqb_eq in E. subst. eexists; split; [now apply cv_optional|reflexivity].
        * destruct Kt as [->|(a & b & Ha & Hb & Hs)]; [|inversion Hs]. destruct Ka as [->|(a' & b' & Ha' & Hb' & Hs')]; [eexists; split; [now apply cv_lpm|reflexivity]|]. inversion Hs'; subst. destruct Hcv as [E|E]; [discriminate E|]. cbn in E. apply Z.eqb_eq in E. subst. eexists; split; [now apply cv_lpm|reflexivity].
        * destruct Kt as [->|(a & b & Ha & Hb & Hs)]; [|inversion Hs; subst]; (destruct Ka as [->|(a' & b' & Ha' & Hb' & Hs')]; [|inversion Hs'; subst]); destruct Hcv as [E|E]; try discriminate E; cbn in E; apply Z.eqb_eq in E; subst; eexists; (split; [apply cv_range|reflexivity]).
      + rewrite (akin_int _ Ka) in *. inversion HC1; subst. assert (t <> TInt) as Ht by (inversion HC2; discriminate). specialize (Hz eq_refl Ht z eq_refl).
        inversion HC2; subst; (destruct Kt as [->|(a & b & Ha & Hb & Hs)]; [|inversion Hs; subst]).
        all: try (eexists; split; [eapply cv_trans; [apply (cv_int n); assumption|constructor; assumption]|reflexivity]).
        all: try (rewrite (small_mod z n b Hz) by assumption; eexists; split; [eapply cv_trans; [apply (cv_int b); lia|constructor]|reflexivity]).
    - intros t t' o u u' v v' x Kt <- <- Ho [HX Hno]. split; [exact HX|]. intros [Ho' (w & ->)]. apply Hno. split; [exact Ho'|]. apply akin_sym in Kt. destruct Kt as [->|(a & b & _ & _ & Hs)]; [eauto|inversion Hs; eauto].
  Qed.
End Width.
