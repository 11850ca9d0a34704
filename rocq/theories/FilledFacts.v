(** Constraints with known values put in mean the same. *)
From Coq Require Import String Ascii List ZArith NArith Bool Lia.
From Verif Require Import Base Num Token Ast Quote Info TypeChecker Interpreter SpecLexer SpecGrammar SpecTyping SpecSemantics SpecInfo SpecMisc SpecLaws SpecReading SpecFilled
  TypeFacts NumFacts LiteralFacts EvalFacts SemFacts LawFacts ReadingFacts SymFacts2.
From Verif Require PropertiesSession.
Import ListNotations.
Open Scope string_scope.

Lemma common_flip a b c : common a b c -> common b a c.
Proof. intros (H1 & H2 & H3). split; [exact H2|]. split; [exact H1|]. auto. Qed.
Lemma common_with_int ta tb t w : ta = TBit w \/ ta = TExact w -> common ta tb t -> exists t', common TInt tb t' /\ (has_order t -> has_order t').
Proof.
  intros Ha H. apply lub_iff in H. destruct tb; destruct Ha as [->| ->]; unfold LeastUpperBound in H; cbn in H; try discriminate H.
  all: try (match type of H with context [Z.eqb ?a ?b] => destruct (Z.eqb_spec a b); cbn in H; [subst|discriminate H] end).
  all: eexists; split; [apply lub_iff; reflexivity|].
  all: try (intros _; constructor).
  all: injection H as <-; intros Ho; exact Ho.
Qed.

(** Comparing the same numbers as values of another type. *)
Lemma same_numbers w t o a b x : (forall w', t <> TExact w') -> unordered_exact (TExact w) o (VExact a) (VExact b) x -> unordered_exact t o (VInt a) (VInt b) x.
Proof.
  intros Ht [[Hc Hx] Hn]. split; [|intros [_ [w' E]]; exact (Ht w' E)].
  assert (equality o) as Ho. { destruct Hc as [Hc|[Hc _]]; [exact Hc|]. exfalso. apply Hn. split; [exact Hc|]. now exists w. }
  split; [now left|]. rewrite Hx. clear - Ho. destruct Ho; split; intros H; inversion H as [|? ? Hne| | | |]; subst; try constructor; intros E; apply Hne; congruence.
Qed.
Lemma other_type t t' o u v x : (forall w', t' <> TExact w') -> unordered_exact t o u v x -> unordered_exact t' o u v x.
Proof. intros Ht [H _]. split; [exact H|]. intros [_ [w' E]]. exact (Ht w' E). Qed.

Lemma refit ta tb t w z u u' v v' : ta = TBit w /\ u = VInt z \/ ta = TExact w /\ u = VExact z -> (0 <= z < 2 ^ w)%Z -> common ta tb t -> Converts ta t u u' -> Converts tb t v v' ->
  (tb = TInt -> exists y, v = VInt y /\ (0 <= y < 2 ^ w)%Z) ->
  exists t' u2 v2, common TInt tb t' /\ Converts TInt t' (VInt z) u2 /\ Converts tb t' v v2 /\
    (forall o x, unordered_exact t o u' v' x -> unordered_exact t' o u2 v2 x) /\ (forall o x, unordered_exact t o v' u' x -> unordered_exact t' o v2 u2 x).
Proof.
  intros Ha Hz Hco Cu Cv Hb. assert (0 <= w)%Z as Hw. { destruct (Z.le_gt_cases 0 w) as [H|H]; [exact H|]. rewrite Z.pow_neg_r in Hz by exact H. clear - Hz. lia. }
  assert (z mod 2 ^ w = z)%Z as Ez by (apply Z.mod_small; exact Hz). pose proof (cv_int w z Hw) as Ci. rewrite Ez in Ci.
  pose proof Hco as Hl. apply lub_iff in Hl.
  assert (tb = TInt \/ tb = TBit w \/ tb = TExact w \/ (ta = TBit w /\ t = tb /\ tb <> TInt)) as [->|[->|[->|(-> & -> & Hni)]]].
  { destruct tb; destruct Ha as [[-> _]|[-> _]]; unfold LeastUpperBound in Hl; cbn in Hl; try discriminate Hl; auto;
      (match type of Hl with context [Z.eqb ?a ?b] => destruct (Z.eqb_spec a b); cbn in Hl; [subst|discriminate Hl] end); injection Hl as <-; auto; right; right; right; (split; [reflexivity|split; [reflexivity|discriminate]]). }
  - destruct (Hb eq_refl) as (y & -> & Hy). assert (y mod 2 ^ w = y)%Z as Ey by (apply Z.mod_small; exact Hy). pose proof (cv_int w y Hw) as Cj. rewrite Ey in Cj.
    exists TInt, (VInt z), (VInt y). split; [apply lub_iff; reflexivity|]. split; [apply cv_same|]. split; [apply cv_same|].
    destruct Ha as [[-> ->]|[-> ->]]; unfold LeastUpperBound in Hl; cbn in Hl; injection Hl as <-; rewrite <- (converts_fun _ _ _ _ _ (cv_same _ _) Cu).
    + rewrite <- (converts_fun _ _ _ _ _ Cj Cv). split; intros o x; apply other_type; discriminate.
    + rewrite <- (converts_fun _ _ _ _ _ (cv_trans _ _ _ _ _ _ Cj (cv_exact _ _)) Cv). split; intros o x; apply same_numbers; discriminate.
  - destruct Ha as [[-> ->]|[-> ->]]; unfold LeastUpperBound in Hl; cbn in Hl; rewrite Z.eqb_refl in Hl; cbn in Hl; injection Hl as <-; exists (TBit w).
    + exists (VInt z), v. split; [apply lub_iff; reflexivity|]. split; [exact Ci|]. split; [apply cv_same|]. rewrite <- (converts_fun _ _ _ _ _ (cv_same _ _) Cu), <- (converts_fun _ _ _ _ _ (cv_same _ _) Cv). auto.
    + apply converts_inv in Cv as [[E _]|[Cv|(n & y & E & _)]]; [discriminate E| |discriminate E]. inversion Cv as [|? y| | | |]; subst.
      exists (VInt z), (VInt y). split; [apply lub_iff; reflexivity|]. split; [exact Ci|]. split; [apply cv_same|]. rewrite <- (converts_fun _ _ _ _ _ (cv_same _ _) Cu). split; intros o x; apply same_numbers; discriminate.
  - assert (t = TExact w) as -> by (destruct Ha as [[-> _]|[-> _]]; unfold LeastUpperBound in Hl; cbn in Hl; rewrite Z.eqb_refl in Hl; cbn in Hl; now injection Hl).
    exists (TExact w), (VExact z), v. split; [apply lub_iff; reflexivity|]. split; [exact (cv_trans _ _ _ _ _ _ Ci (cv_exact _ _))|]. split; [apply cv_same|]. rewrite <- (converts_fun _ _ _ _ _ (cv_same _ _) Cv).
    assert (u' = VExact z) as ->; [|auto]. destruct Ha as [[-> ->]|[-> ->]]; [exact (converts_fun _ _ _ _ _ Cu (cv_exact _ _))|exact (converts_fun _ _ _ _ _ Cu (cv_same _ _))].
  - destruct Ha as [[_ ->]|[E _]]; [|discriminate E]. exists tb, u', v'. split.
    + destruct (common_with_int _ _ _ w (or_introl eq_refl) Hco) as (t' & Ht' & _). destruct (common_either _ _ _ Ht') as [->| ->]; [|exact Ht'].
      exfalso. apply lub_iff in Ht'. destruct tb; cbn in Ht'; try discriminate Ht'. exact (Hni eq_refl).
    + split; [exact (cv_trans _ _ _ _ _ _ Ci Cu)|]. split; [exact Cv|]. auto.
Qed.

Section S.
  Variables (ai : option action_info) (ti : option table_info) (G : scope).
  Hypothesis HG : in_scope ai ti G.
  Variables (cmp : ty -> binop -> value -> value -> bool -> Prop) (ok : binop -> Prop) (r : env).
  Hypothesis Hcmp : forall t o u v x y, cmp t o u v x -> cmp t o u v y -> x = y.
  Hypothesis Hok : forall t o u v x, ok o -> (cmp t o u v x <-> unordered_exact t o u v x).
  Let M := Meant cmp G r.
  Let unique := meant_fun ai ti G HG cmp Hcmp r.
  Let one_type := typed_fun ai ti G HG.

  Lemma numeral_typed z b : Numeral z b -> Typed G b TInt.
  Proof. destruct 1; repeat constructor. Qed.
  Lemma numeral_meant z b : Numeral z b -> M b (VInt z).
  Proof. destruct 1; [now constructor|]. apply mn_neg. now constructor. Qed.
  Lemma fixed_parts w a z ta u : Fixed cmp G r w a z -> Typed G a ta -> (ta = TBit w \/ ta = TExact w) /\ (0 <= z < 2 ^ w)%Z /\ (M a u -> ta = TBit w /\ u = VInt z \/ ta = TExact w /\ u = VExact z).
  Proof.
    intros [HT HM Hz|HT HM Hz] Ha; rewrite (one_type _ _ _ Ha HT); (split; [auto|]); (split; [exact Hz|]); intros Hu; rewrite (unique _ _ _ Hu HM); auto.
  Qed.
  Lemma within_value w b tb v : within cmp G r w b -> Typed G b tb -> M b v -> tb = TInt -> exists y, v = VInt y /\ (0 <= y < 2 ^ w)%Z.
  Proof. intros H Hb Hv ->. destruct (H Hb) as (y & Hy & Hr). exists y. split; [exact (unique _ _ _ Hv Hy)|exact Hr]. Qed.
  Lemma comparison_not o : comparison o -> connective o -> False.
  Proof. intros [? H|? H] H'; destruct H; inversion H'. Qed.

  Lemma filled_typed e f : Filled cmp ok G r e f -> forall t, Typed G e t -> Typed G f t.
  Proof.
    induction 1 as [a b H|a b c _ IH1 _ IH2|m a x HT HM|a z b HT HM Hn|m m' o a b c w z Ho Hc HF Hn Hf|m m' o a b c w z Ho Hc HF Hn Hf|m m' a b _ IH|m m' a b _ IH|m m' o a b c d _ IH1 _ IH2]; intros t Ht.
    - exact (typed_alike _ _ _ _ H Ht).
    - auto.
    - rewrite (one_type _ _ _ Ht HT). constructor.
    - rewrite (one_type _ _ _ Ht HT). exact (numeral_typed _ _ Hn).
    - inversion Ht as [| | | | | | |? ? ? ? Hcn|? ? ? ? ta tb tc Hop Ta Tb Hco|? ? ? ? ta tb tc Hop Ta Tb Hco Hor|]; subst; [destruct (comparison_not _ Hc Hcn)|..]; destruct (fixed_parts _ _ _ _ (VBool true) HF Ta) as (Hta & _);
        destruct (common_with_int _ _ _ _ Hta Hco) as (t' & Ht' & Hord); [exact (T_eq _ _ _ _ _ _ _ _ Hop (numeral_typed _ _ Hn) Tb Ht')|exact (T_ord _ _ _ _ _ _ _ _ Hop (numeral_typed _ _ Hn) Tb Ht' (Hord Hor))].
    - inversion Ht as [| | | | | | |? ? ? ? Hcn|? ? ? ? ta tb tc Hop Ta Tb Hco|? ? ? ? ta tb tc Hop Ta Tb Hco Hor|]; subst; [destruct (comparison_not _ Hc Hcn)|..]; destruct (fixed_parts _ _ _ _ (VBool true) HF Tb) as (Hta & _);
        destruct (common_with_int _ _ _ _ Hta (common_flip _ _ _ Hco)) as (t' & Ht' & Hord); apply common_flip in Ht'; [exact (T_eq _ _ _ _ _ _ _ _ Hop Ta (numeral_typed _ _ Hn) Ht')|exact (T_ord _ _ _ _ _ _ _ _ Hop Ta (numeral_typed _ _ Hn) Ht' (Hord Hor))].
    - inversion Ht; subst. constructor. auto.
    - inversion Ht; subst. constructor. auto.
    - inversion Ht; subst; [apply T_conn|eapply T_eq|eapply T_ord]; eauto.
  Qed.
  Lemma filled_meant e f : Filled cmp ok G r e f -> forall v, M e v -> M f v.
  Proof.
    induction 1 as [a b H|a b c _ IH1 _ IH2|m a x HT HM|a z b HT HM Hn|m m' o a b c w z Ho Hc HF Hn Hf|m m' o a b c w z Ho Hc HF Hn Hf|m m' a b _ IH|m m' a b _ IH|m m' o a b c d HF1 IH1 HF2 IH2]; intros v Hv.
    - exact (PropertiesSession.meant_alike _ _ _ _ _ _ H Hv).
    - auto.
    - rewrite (unique _ _ _ Hv HM). constructor.
    - rewrite (unique _ _ _ Hv HM). exact (numeral_meant _ _ Hn).
    - inversion Hv as [| | | | | | |? ? ? ? ? ? Hcn|? ? ? ? ? ? Hcn|? ? ? ? ta tb t u v1 u' v1' x Hop Ta Tb Hco H1 H2 C1 C2 Hx|]; subst; try (destruct (comparison_not _ Hc Hcn)).
      destruct (fixed_parts _ _ _ _ u HF Ta) as (_ & Hz & Hu). destruct (refit _ _ _ _ _ _ _ _ _ (Hu H1) Hz Hco C1 C2 (within_value _ _ _ _ Hf Tb H2)) as (t' & u2 & v2 & Hco' & D1 & D2 & Hd & _).
      eapply mn_compare; [exact Hc|exact (numeral_typed _ _ Hn)|exact Tb|exact Hco'|exact (numeral_meant _ _ Hn)|exact H2|exact D1|exact D2|]. apply (Hok _ _ _ _ _ Ho). apply Hd. apply (Hok _ _ _ _ _ Ho). exact Hx.
    - inversion Hv as [| | | | | | |? ? ? ? ? ? Hcn|? ? ? ? ? ? Hcn|? ? ? ? ta tb t u v1 u' v1' x Hop Ta Tb Hco H1 H2 C1 C2 Hx|]; subst; try (destruct (comparison_not _ Hc Hcn)).
      destruct (fixed_parts _ _ _ _ v1 HF Tb) as (_ & Hz & Hu). destruct (refit _ _ _ _ _ _ _ _ _ (Hu H2) Hz (common_flip _ _ _ Hco) C2 C1 (within_value _ _ _ _ Hf Ta H1)) as (t' & u2 & v2 & Hco' & D1 & D2 & _ & Hd).
      eapply mn_compare; [exact Hc|exact Ta|exact (numeral_typed _ _ Hn)|exact (common_flip _ _ _ Hco')|exact H1|exact (numeral_meant _ _ Hn)|exact D2|exact D1|]. apply (Hok _ _ _ _ _ Ho). apply Hd. apply (Hok _ _ _ _ _ Ho). exact Hx.
    - inversion Hv; subst. constructor. apply IH. assumption.
    - inversion Hv; subst. constructor. apply IH. assumption.
    - inversion Hv as [| | | | | | |? ? ? ? x y Hcn H1 Ht|? ? ? ? x y Hcn H1 H2|? ? ? ? ta tb t u v1 u' v1' x Hop Ta Tb Hco H1 H2 C1 C2 Hx|]; subst.
      + eapply mn_left; [exact Hcn|exact (IH1 _ H1)|exact Ht].
      + eapply mn_both; [exact Hcn|exact (IH1 _ H1)|exact (IH2 _ H2)].
      + eapply mn_compare; [exact Hop|exact (filled_typed _ _ HF1 _ Ta)|exact (filled_typed _ _ HF2 _ Tb)|exact Hco|exact (IH1 _ H1)|exact (IH2 _ H2)|exact C1|exact C2|exact Hx].
  Qed.
End S.
