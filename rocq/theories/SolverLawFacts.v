(** Facts behind C80: the laws of rewriting hold for the solver's reading, too. *)
From Coq Require Import String Ascii List ZArith NArith Bool Lia.
From Verif Require Import Base Num Token Ast Lexer Quote AstConstructors Parser Info TypeChecker ConstraintInfo Interpreter Z3 Symbolic SpecLexer SpecGrammar SpecParser SpecTyping SpecSemantics SpecInfo SpecMisc SpecLaws SpecSymbolic SpecSolver SpecReading
  StrFacts NumFacts LiteralFacts TypeFacts EvalFacts SemFacts SemFacts2 LawFacts ReadingFacts ReadingFacts2.
Import ListNotations.
Open Scope string_scope.

(** * Comparisons *)
(** Values of a type that fit its width. *)
Inductive ranged : ty -> value -> Prop :=
| ra_bool b : ranged TBool (VBool b)
| ra_int z : ranged TInt (VInt z)
| ra_bit w z : (0 <= z < 2 ^ w)%Z -> ranged (TBit w) (VInt z)
| ra_exact w z : (0 <= z < 2 ^ w)%Z -> ranged (TExact w) (VExact z)
| ra_ternary w z m : (0 <= z < 2 ^ w)%Z -> (0 <= m < 2 ^ w)%Z -> ranged (TTernary w) (VTernary z m)
| ra_optional w z m : (0 <= z < 2 ^ w)%Z -> (0 <= m < 2 ^ w)%Z -> ranged (TOptional w) (VTernary z m)
| ra_lpm w z p : (0 <= z < 2 ^ w)%Z -> ranged (TLpm w) (VLpm z p)
| ra_range w l h : (0 <= l < 2 ^ w)%Z -> (0 <= h < 2 ^ w)%Z -> ranged (TRange w) (VRange l h).
Lemma ranged_typed t v : ranged t v -> of_type t v.
Proof. intros H; destruct H; constructor. Qed.
Lemma mod_fits w z : (0 <= w)%Z -> (0 <= z mod 2 ^ w < 2 ^ w)%Z.
Proof. intros H. apply Z.mod_pos_bound. apply Z.pow_pos_nonneg; lia. Qed.
Lemma ones_fits w : (0 <= w)%Z -> (0 <= 2 ^ w - 1 < 2 ^ w)%Z.
Proof. intros H. assert (0 < 2 ^ w)%Z by (apply Z.pow_pos_nonneg; lia). lia. Qed.
Lemma converts_ranged a t u v : Converts a t u v -> ranged a u -> ranged t v.
Proof.
  induction 1; intros Hr; auto; inversion Hr; subst; constructor; auto using mod_fits, ones_fits.
Qed.
Lemma signed_inj w x y : (0 <= x < 2 ^ w)%Z -> (0 <= y < 2 ^ w)%Z ->
  (if x <? 2 ^ (w - 1) then x else x - 2 ^ w)%Z = (if y <? 2 ^ (w - 1) then y else y - 2 ^ w)%Z -> x = y.
Proof. intros Hx Hy. destruct (x <? 2 ^ (w - 1))%Z eqn:E1, (y <? 2 ^ (w - 1))%Z eqn:E2; lia. Qed.
Lemma ordered_numeral t v : has_order t -> ranged t v -> exists z, numeral (twos_complement t v) z.
Proof. intros Ho Hr. destruct Ho; inversion Hr; subst; eexists; cbn [twos_complement]; constructor. Qed.
Lemma ordered_inj t u v p q : has_order t -> ranged t u -> ranged t v -> numeral (twos_complement t u) p -> numeral (twos_complement t v) q -> (u = v <-> p = q).
Proof.
  intros Ho Hu Hv Hp Hq. split; [intros ->; exact (numeral_unique _ _ _ Hp Hq)|]. intros ->.
  destruct Ho; inversion Hu; subst; inversion Hv; subst; cbn [twos_complement] in Hp, Hq; inversion Hp; subst; inversion Hq; subst; try reflexivity; f_equal; eapply signed_inj; eauto.
Qed.
Lemma signed_eq t u v x : signed_order t OEQ u v x <-> (x = true <-> u = v).
Proof.
  split.
  - intros [[_ [_ H]]|[H _]]; [|inversion H]. rewrite H. split; [intros C; now inversion C|intros ->; constructor].
  - intros H. left. split; [constructor|]. split; [left; constructor|]. rewrite H. split; [intros ->; constructor|intros C; now inversion C].
Qed.
Lemma signed_ne t u v x : signed_order t ONE u v x <-> (x = true <-> u <> v).
Proof.
  split.
  - intros [[_ [_ H]]|[H _]]; [|inversion H]. rewrite H. split; [intros C; now inversion C|intros; now constructor].
  - intros H. left. split; [constructor|]. split; [left; constructor|]. rewrite H. split; [intros; now constructor|intros C; now inversion C].
Qed.
Definition rel (o : binop) (p q : Z) : Prop := match o with OLT => p < q | OLE => p <= q | OGT => p > q | _ => p >= q end%Z.
Lemma signed_ord t o u v x p q : ordering o -> numeral (twos_complement t u) p -> numeral (twos_complement t v) q -> (signed_order t o u v x <-> (x = true <-> rel o p q)).
Proof.
  intros Ho Hp Hq.
  assert (Compares o (twos_complement t u) (twos_complement t v) <-> rel o p q) as HC.
  { destruct Ho; cbn [rel]; (split; [intros C; inversion C as [| |? ? p' q' Hp' Hq' L|? ? p' q' Hp' Hq' L|? ? p' q' Hp' Hq' L|? ? p' q' Hp' Hq' L]; subst; now rewrite (numeral_unique _ _ _ Hp Hp'), (numeral_unique _ _ _ Hq Hq')|intros L; econstructor; eauto]). }
  split.
  - intros [[H _]|[_ [_ H]]]; [destruct Ho; inversion H|]. now rewrite H.
  - intros H. right. split; [exact Ho|]. split; [right; split; [exact Ho|split; eauto]|]. now rewrite H.
Qed.
Lemma rel_dec o p q : {rel o p q} + {~ rel o p q}.
Proof. destruct o; cbn [rel]; unfold Z.gt, Z.ge, Z.lt, Z.le; destruct (p ?= q)%Z; (left; congruence) || (right; congruence). Qed.
Lemma signed_total t o u v : comparison o -> (ordering o -> has_order t) -> ranged t u -> ranged t v -> exists x, signed_order t o u v x.
Proof.
  intros Hc Hh Hu Hv. destruct Hc as [o He|o Ho].
  - destruct (value_dec u v) as [E|E]; destruct He.
    + exists true. apply signed_eq. tauto.
    + exists false. apply signed_ne. split; [discriminate|contradiction].
    + exists false. apply signed_eq. split; [discriminate|contradiction].
    + exists true. apply signed_ne. tauto.
  - destruct (ordered_numeral _ _ (Hh Ho) Hu) as [p Hp], (ordered_numeral _ _ (Hh Ho) Hv) as [q Hq].
    destruct (rel_dec o p q) as [H|H]; [exists true|exists false]; apply (signed_ord t o u v _ p q Ho Hp Hq); (split; [auto; discriminate|auto; contradiction]).
Qed.

(** * Readings *)
(** Every usable key has a value that fits its width, and no width is negative. *)
Inductive fits : scope -> env -> Prop :=
| fi_table keys key p :
    (forall n t, declared keys n t -> SpecTyping.usable t -> exists v, key n = Some v /\ ranged t v) ->
    (forall n t w, declared keys n t -> width t w -> (0 <= w)%Z) ->
    fits (InTable keys) (TableEnv key p).
Lemma fits_ok G r : fits G r -> env_ok G r.
Proof. intros [keys key p H1 H2]. constructor; [|exact H2]. intros n t Hd Hu. destruct (H1 n t Hd Hu) as (v & Hv & Hr). exists v. split; [exact Hv|exact (ranged_typed _ _ Hr)]. Qed.

Section Laws.
  Variable keys : list (string * key_info).
  Hypothesis HN : NoDup (map fst keys).
  Let G := InTable keys.
  Variable r : env.
  Hypothesis HR : fits G r.
  Let HG : in_scope None (Some (mkTable 0 "" None default_csource [] keys)) G := is_table (mkTable 0 "" None default_csource [] keys) HN.
  Notation M := (Meant signed_order G r).
  Lemma solver_reading_total e t : Typed G e t -> literals e -> exists v, M e v /\ ranged t v.
  Proof.
    intros Ht. pose proof (fits_ok _ _ HR) as Hr. induction Ht as [m b|m s|keys' m n t Hk Hd Hu|params m n t Hk Hd Hu|m|m e H IH|m e H IH|m o a b Hc H1 IH1 H2 IH2
      |m o a b ta tb t Hc H1 IH1 H2 IH2 Hco|m o a b ta tb t Hc H1 IH1 H2 IH2 Hco Ho|m f e t t' H IH Hf]; intros Hl.
    - eexists. split; constructor.
    - destruct Hl as [n Hn]. eexists. split; constructor. exact Hn.
    - inversion HR as [k0 key p H1 H2 E1 E2]. unfold G in Hk. injection Hk as <-. destruct (H1 _ _ Hd Hu) as (w & Hw & Hty).
      exists w. split; [eapply mn_key; [first [reflexivity|symmetry; exact E2]|exact Hw]|exact Hty].
    - discriminate Hk.
    - inversion HR as [k0 key p H1 H2 E1 E2]. eexists. split; [eapply mn_priority; reflexivity|constructor].
    - destruct IH as (v & Hv & Hty); [exact Hl|]. inversion Hty; subst. eexists. split; constructor. exact Hv.
    - destruct IH as (v & Hv & Hty); [exact Hl|]. inversion Hty; subst. eexists. split; constructor. exact Hv.
    - destruct Hl as [Hl1 Hl2]. destruct IH1 as (v & Hv & Hty); [exact Hl1|]. destruct IH2 as (v' & Hv' & Hty'); [exact Hl2|].
      inversion Hty; subst. inversion Hty'; subst. eexists. split; [eapply mn_both; eassumption|constructor].
    - destruct Hl as [Hl1 Hl2]. destruct IH1 as (v & Hv & Hty); [exact Hl1|]. destruct IH2 as (v' & Hv' & Hty'); [exact Hl2|].
      pose proof Hco as (C1 & C2 & _). assert (forall w, width t w -> (0 <= w)%Z) as Hw by (intros w Hw; exact (common_width _ _ _ HG r a b ta tb t w Hr H1 H2 Hco Hw)).
      destruct (converts_total ta t v (ranged_typed _ _ Hty) C1 Hw) as [u Hcu]. destruct (converts_total tb t v' (ranged_typed _ _ Hty') C2 Hw) as [u' Hcu'].
      destruct (signed_total t o u u' (cm_eq _ Hc)) as [x Hx]; [intros Ho; destruct Hc; inversion Ho|exact (converts_ranged _ _ _ _ Hcu Hty)|exact (converts_ranged _ _ _ _ Hcu' Hty')|].
      exists (VBool x). split; [|constructor]. eapply mn_compare; eauto. now apply cm_eq.
    - destruct Hl as [Hl1 Hl2]. destruct IH1 as (v & Hv & Hty); [exact Hl1|]. destruct IH2 as (v' & Hv' & Hty'); [exact Hl2|].
      pose proof Hco as (C1 & C2 & _). assert (forall w, width t w -> (0 <= w)%Z) as Hw by (intros w Hw; exact (common_width _ _ _ HG r a b ta tb t w Hr H1 H2 Hco Hw)).
      destruct (converts_total ta t v (ranged_typed _ _ Hty) C1 Hw) as [u Hcu]. destruct (converts_total tb t v' (ranged_typed _ _ Hty') C2 Hw) as [u' Hcu'].
      destruct (signed_total t o u u' (cm_ord _ Hc)) as [x Hx]; [auto|exact (converts_ranged _ _ _ _ Hcu Hty)|exact (converts_ranged _ _ _ _ Hcu' Hty')|].
      exists (VBool x). split; [|constructor]. eapply mn_compare; eauto. now apply cm_ord.
    - destruct IH as (v & Hv & Hty); [exact Hl|]. destruct Hf; inversion Hty; subst; eexists; (split; [econstructor; [exact Hv|constructor]|constructor; assumption]).
  Qed.
  Lemma reading_unique e v v' : M e v -> M e v' -> v = v'.
  Proof. apply (meant_fun _ _ _ HG _ signed_fun). Qed.
  Lemma reading_bool a : Typed G a TBool -> literals a -> exists x, M a (VBool x).
  Proof. intros Ht Hl. destruct (solver_reading_total a TBool Ht Hl) as (v & Hv & Hty). inversion Hty; subst. eauto. Qed.
  Lemma reading_ranged e t v : Typed G e t -> literals e -> M e v -> ranged t v.
  Proof. intros Ht Hl Hv. destruct (solver_reading_total e t Ht Hl) as (v' & Hv' & Hr). now rewrite (reading_unique _ _ _ Hv Hv'). Qed.
  (** What a comparison consists of. *)
  Lemma compare_inv m o a b x : comparison o -> literals a -> literals b -> M (EBin m o a b) (VBool x) ->
    exists ta tb t u v u' v', Typed G a ta /\ Typed G b tb /\ common ta tb t /\ M a u /\ M b v /\ Converts ta t u u' /\ Converts tb t v v' /\ ranged t u' /\ ranged t v' /\ signed_order t o u' v' x.
  Proof.
    intros Ho La Lb H. inversion H as [| | | | | | |? ? ? ? ? ? Hc|? ? ? ? ? ? Hc|? ? ? ? ta tb t u v u' v' ? _ Ta Tb Hco H1 H2 C1 C2 Hx|]; subst; try (destruct (conn_not_comparison o); assumption).
    exists ta, tb, t, u, v, u', v'. repeat (split; [assumption|]). split; [exact (converts_ranged _ _ _ _ C1 (reading_ranged _ _ _ Ta La H1))|]. split; [exact (converts_ranged _ _ _ _ C2 (reading_ranged _ _ _ Tb Lb H2))|exact Hx].
  Qed.
  Lemma order_of_type m o a b t ta tb : ordering o -> Typed G (EBin m o a b) TBool -> Typed G a ta -> Typed G b tb -> common ta tb t -> has_order t.
  Proof.
    intros Ho HT Ta Tb Hco. inversion HT as [| | | | | | |? ? ? ? Hc|? ? ? ? ? ? ? He|? ? ? ? ta' tb' t' _ Ta' Tb' Hco' Hh|]; subst; [destruct Ho; inversion Hc|destruct Ho; inversion He|].
    rewrite (typed_fun _ _ _ HG _ _ _ Ta Ta'), (typed_fun _ _ _ HG _ _ _ Tb Tb') in Hco. now rewrite (common_fun _ _ _ _ Hco Hco').
  Qed.
  Definition bval (v : value) : bool := match v with VBool b => b | _ => true end.
  Lemma same_bool e x y : M e (VBool x) -> M e (VBool y) -> x = y.
  Proof. intros H1 H2. pose proof (reading_unique _ _ _ H1 H2) as E. now injection E. Qed.
  Ltac subterms :=
    repeat match goal with
    | H : Typed _ (ENot _ _) TBool |- _ => apply inv_not_b in H
    | H : Typed _ (EBin _ OAND _ _) TBool |- _ => apply inv_conn_b in H as [? ?]; [|constructor]
    | H : Typed _ (EBin _ OOR _ _) TBool |- _ => apply inv_conn_b in H as [? ?]; [|constructor]
    | H : Typed _ (EBin _ OIMPLIES _ _) TBool |- _ => apply inv_conn_b in H as [? ?]; [|constructor]
    | H : _ /\ _ |- _ => destruct H
    end.
  Ltac atoms :=
    repeat match goal with
    | H : Typed _ ?a TBool, L : literals ?a |- _ =>
        lazymatch goal with
        | K : Meant _ _ _ a _ |- _ => fail
        | _ => let x := fresh "x" in destruct (reading_bool a H L) as [x ?]
        end
    end.
  Ltac solve_reading := first [apply mn_both; [constructor|solve_reading|solve_reading]|apply mn_not; solve_reading|apply mn_bool|eassumption].
  Lemma solver_law a b : Law a b -> Typed G a TBool -> Typed G b TBool -> literals a -> literals b -> exists x, M a (VBool x) /\ M b (VBool x).
  Proof.
    intros HL Ta Tb La Lb. destruct (reading_bool _ Ta La) as [x Hx]. destruct (reading_bool _ Tb Lb) as [y Hy].
    enough (x = y) as -> by eauto.
    destruct HL; cbn [literals] in La, Lb.
    1-20: subterms; atoms;
      match goal with Hx : M ?l (VBool ?x), Hy : M ?k (VBool ?y) |- ?x = ?y =>
        let D1 := fresh in let D2 := fresh in
        eassert (M l (VBool _)) as D1 by solve_reading; eassert (M k (VBool _)) as D2 by solve_reading;
        let E1 := fresh in let E2 := fresh in pose proof (reading_unique _ _ _ Hx D1) as E1; pose proof (reading_unique _ _ _ Hy D2) as E2; apply (f_equal bval) in E1, E2; cbn [bval] in E1, E2; rewrite E1; try rewrite E2; clear E1 E2
      end;
      repeat match goal with b : bool |- _ => destruct b end; reflexivity.
    all: match type of Ta with Typed _ (EBin _ ?o ?p ?q) _ =>
      assert (comparison o) as Hcm by (first [apply cm_eq; constructor|apply cm_ord; constructor]);
      assert (literals p /\ literals q) as [Lp Lq] by tauto end;
      destruct (compare_inv _ _ _ _ _ Hcm Lp Lq Hx) as (ta & tb & t & u & v & u' & v' & T1 & T2 & Hco & M1 & M2 & C1 & C2 & R1 & R2 & S).
    - apply signed_ne in S. assert (signed_order t OEQ u' v' (negb x)) as S' by (apply signed_eq; destruct (value_dec u' v') as [E|E], x; cbn; intuition congruence).
      assert (M (ENot n (EBin n' OEQ a b)) (VBool (negb (negb x)))) as H by (apply mn_not; eapply mn_compare; eauto; apply cm_eq; constructor). rewrite negb_involutive in H. exact (same_bool _ _ _ H Hy).
    - apply signed_eq in S. assert (M (EBin n OEQ b a) (VBool x)) as H by (eapply mn_compare; [apply cm_eq; constructor|exact T2|exact T1|apply common_sym; exact Hco|exact M2|exact M1|exact C2|exact C1|]; apply signed_eq; rewrite S; split; congruence). exact (same_bool _ _ _ H Hy).
    - apply signed_eq in S. assert (x = true) as ->. { apply S. pose proof (reading_unique _ _ _ M1 M2) as ->. pose proof (typed_fun _ _ _ HG _ _ _ T1 T2) as ->. exact (converts_fun _ _ _ _ _ C1 C2). } now inversion Hy.
    - assert (has_order t) as Hh by (refine (order_of_type _ _ _ _ _ _ _ _ Ta T1 T2 Hco); constructor). destruct (ordered_numeral _ _ Hh R1) as [p Hp], (ordered_numeral _ _ Hh R2) as [q Hq].
      apply (signed_ord t OGT u' v' x p q c_gt Hp Hq) in S. assert (M (EBin n OLT b a) (VBool x)) as H.
      { eapply mn_compare; [apply cm_ord; constructor|exact T2|exact T1|apply common_sym; exact Hco|exact M2|exact M1|exact C2|exact C1|]. apply (signed_ord t OLT v' u' x q p c_lt Hq Hp). rewrite S. cbn [rel]. clear. lia. }
      exact (same_bool _ _ _ H Hy).
    - assert (has_order t) as Hh by (refine (order_of_type _ _ _ _ _ _ _ _ Ta T1 T2 Hco); constructor). destruct (ordered_numeral _ _ Hh R1) as [p Hp], (ordered_numeral _ _ Hh R2) as [q Hq].
      apply (signed_ord t OGE u' v' x p q c_ge Hp Hq) in S. assert (M (EBin n OLE b a) (VBool x)) as H.
      { eapply mn_compare; [apply cm_ord; constructor|exact T2|exact T1|apply common_sym; exact Hco|exact M2|exact M1|exact C2|exact C1|]. apply (signed_ord t OLE v' u' x q p c_le Hq Hp). rewrite S. cbn [rel]. clear. lia. }
      exact (same_bool _ _ _ H Hy).
    - assert (has_order t) as Hh by (refine (order_of_type _ _ _ _ _ _ _ _ Ta T1 T2 Hco); constructor). destruct (ordered_numeral _ _ Hh R1) as [p Hp], (ordered_numeral _ _ Hh R2) as [q Hq].
      apply (signed_ord t OGE u' v' x p q c_ge Hp Hq) in S. assert (M (ENot n (EBin n' OLT a b)) (VBool (negb (negb x)))) as H.
      { apply mn_not. eapply mn_compare; [apply cm_ord; constructor|exact T1|exact T2|exact Hco|exact M1|exact M2|exact C1|exact C2|]. apply (signed_ord t OLT u' v' (negb x) p q c_lt Hp Hq). cbn [rel] in *. clear - S. destruct x; cbn [negb]; [split; [discriminate|]; destruct S as [S _]; specialize (S eq_refl); lia|]. split; [|auto]. intros _. destruct (Z.lt_ge_cases p q); [assumption|]. exfalso. assert (false = true) by (apply S; lia). discriminate. }
      rewrite negb_involutive in H. exact (same_bool _ _ _ H Hy).
    - assert (has_order t) as Hh by (refine (order_of_type _ _ _ _ _ _ _ _ Ta T1 T2 Hco); constructor). destruct (ordered_numeral _ _ Hh R1) as [p Hp], (ordered_numeral _ _ Hh R2) as [q Hq].
      apply (signed_ord t OLE u' v' x p q c_le Hp Hq) in S.
      assert (M (EBin n1 OLT a b) (VBool (Z.ltb p q))) as H1 by (eapply mn_compare; [apply cm_ord; constructor|exact T1|exact T2|exact Hco|exact M1|exact M2|exact C1|exact C2|]; apply (signed_ord t OLT u' v' _ p q c_lt Hp Hq); cbn [rel]; apply Z.ltb_lt).
      assert (M (EBin n2 OEQ a b) (VBool (Z.eqb p q))) as H2 by (eapply mn_compare; [apply cm_eq; constructor|exact T1|exact T2|exact Hco|exact M1|exact M2|exact C1|exact C2|]; apply signed_eq; rewrite Z.eqb_eq; symmetry; exact (ordered_inj t u' v' p q Hh R1 R2 Hp Hq)).
      pose proof (mn_both _ _ _ n OOR _ _ _ _ c_or H1 H2) as H. cbn [truth] in H. assert (x = (p <? q) || (p =? q))%Z as ->. { apply eq_true_iff_eq. rewrite S, orb_true_iff, Z.ltb_lt, Z.eqb_eq. cbn [rel]. clear. lia. }
      exact (same_bool _ _ _ H Hy).
  Qed.
End Laws.
