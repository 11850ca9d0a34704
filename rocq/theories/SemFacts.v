(** The evaluator on type-checked constraints computes their meaning. *)
From Coq Require Import String Ascii List ZArith NArith Bool Lia.
From Verif Require Import Base Num Token Ast Quote Info TypeChecker Interpreter SpecLexer SpecGrammar SpecTyping TypeFacts NumFacts LiteralFacts SpecSemantics EvalFacts.
Import ListNotations.
Open Scope string_scope.

(** * Conversions *)
Inductive conv1 : ty -> ty -> value -> value -> Prop :=
| c1_int w z : (0 <= w)%Z -> conv1 TInt (TBit w) (VInt z) (VInt (z mod 2 ^ w))
| c1_exact w z : conv1 (TBit w) (TExact w) (VInt z) (VExact z)
| c1_ternary w z : (0 <= w)%Z -> conv1 (TBit w) (TTernary w) (VInt z) (VTernary z (2 ^ w - 1))
| c1_optional w z : (0 <= w)%Z -> conv1 (TBit w) (TOptional w) (VInt z) (VTernary z (2 ^ w - 1))
| c1_lpm w z : conv1 (TBit w) (TLpm w) (VInt z) (VLpm z w)
| c1_range w z : conv1 (TBit w) (TRange w) (VInt z) (VRange z z).
Lemma conv1_converts a b u v : conv1 a b u v -> Converts a b u v.
Proof. destruct 1; now constructor. Qed.
Lemma converts_inv a c u w : Converts a c u w ->
  (a = c /\ u = w) \/ conv1 a c u w \/ exists n v, a = TInt /\ conv1 TInt (TBit n) u v /\ conv1 (TBit n) c v w.
Proof.
  induction 1 as [| | | | | | |a b c u v w H1 IH1 H2 IH2]; auto; try (right; left; now constructor).
  destruct IH1 as [(<- & <-)|[IH1|(n & x & -> & Hx & Hy)]]; [exact IH2| |].
  - destruct IH2 as [(<- & <-)|[IH2|(n & x & -> & Hx & Hy)]]; [auto| |inversion IH1].
    inversion IH1; subst; [|inversion IH2..]. right. right. eauto.
  - destruct IH2 as [(<- & <-)|[IH2|(n' & x' & -> & Hx' & Hy')]]; [right; right; eauto|exfalso..]; inversion Hy; subst; inversion IH2.
Qed.
Lemma conv1_step a b u v : conv1 a b u v -> step a b.
Proof. destruct 1; repeat constructor. Qed.
Lemma converts_convertible a b u v : Converts a b u v -> convertible a b.
Proof.
  intros H. apply converts_inv in H as [[-> _]|[H|(n & x & -> & H1 & H2)]]; [now left|right; constructor; now apply conv1_step in H|].
  right. eapply below_trans; constructor; eapply conv1_step; eassumption.
Qed.
Lemma conv1_fun a b u v v' : conv1 a b u v -> conv1 a b u v' -> v = v'.
Proof. destruct 1; inversion 1; subst; reflexivity. Qed.
Lemma converts_fun a b u v v' : Converts a b u v -> Converts a b u v' -> v = v'.
Proof.
  intros H H'. apply converts_inv in H, H'.
  destruct H as [[<- <-]|[H|(n & x & -> & H1 & H2)]], H' as [[E <-]|[H'|(n' & x' & E & H1' & H2')]]; try subst; try reflexivity.
  - inversion H'.
  - inversion H2'.
  - inversion H.
  - eapply conv1_fun; eassumption.
  - inversion H; subst; inversion H2'.
  - inversion H2.
  - inversion H'; subst; inversion H2.
  - inversion H2; subst; inversion H2'; subst; inversion H1; subst; inversion H1'; subst; reflexivity.
Qed.
Lemma dyn_iff t v : DynamicTypeOk t v = true <-> of_type t v.
Proof. split; [destruct t, v; try discriminate; constructor|destruct 1; reflexivity]. Qed.
Lemma conv1_typed a b u v : conv1 a b u v -> of_type b v.
Proof. destruct 1; constructor. Qed.
Lemma converts_typed a b u v : of_type a u -> Converts a b u v -> of_type b v.
Proof. intros Hu H. apply converts_inv in H as [[-> <-]|[H|(n & x & -> & H1 & H2)]]; [exact Hu|eapply conv1_typed; eassumption..]. Qed.
Lemma rem_mod z w : (0 <= w)%Z -> (if Z.ltb (Z.rem z (2 ^ w)) 0 then Z.rem z (2 ^ w) + 2 ^ w else Z.rem z (2 ^ w))%Z = (z mod 2 ^ w)%Z.
Proof.
  intros Hw. assert (0 < 2 ^ w)%Z as Hd by (apply Z.pow_pos_nonneg; lia). generalize dependent (2 ^ w)%Z. intros d Hd.
  pose proof (Z.quot_rem' z d) as E. pose proof (Z.rem_bound_abs z d ltac:(lia)) as B.
  destruct (Z.ltb_spec (Z.rem z d) 0); [apply (Z.mod_unique_pos z d (Z.quot z d - 1)); lia|apply (Z.mod_unique_pos z d (Z.quot z d)); lia].
Qed.

Section Ctx.
  Variable ctx : eval_context.
  Notation src := (ec_src ctx).
  Lemma dyn_ok e v w : DynamicTypeCheck src e v = Ok w <-> of_type (e_type e) v /\ v = w.
  Proof.
    unfold DynamicTypeCheck. destruct (DynamicTypeOk (e_type e) v) eqn:E.
    - apply dyn_iff in E. split; [intros H; apply Ok_inj in H; auto|intros [_ ->]; reflexivity].
    - split; [intros H; now apply quoted_not_ok in H|intros [H _]; apply dyn_iff in H; congruence].
  Qed.
  Lemma bind_ok {A B} (o : outcome A) (f : A -> outcome B) b : bind o f = Ok b <-> exists a, o = Ok a /\ f a = Ok b.
  Proof. destruct o; cbn; split; [eauto|intros (a' & H & H'); apply Ok_inj in H as <-; exact H'|discriminate|intros (a' & H & _); discriminate|discriminate|intros (a' & H & _); discriminate]. Qed.
  Lemma annotate_ok {A} (o : outcome A) s a : annotate o s = Ok a <-> o = Ok a.
  Proof. destruct o; cbn; split; congruence. Qed.
  Lemma as_bool_ok e v b : as_bool ctx e v = Ok b <-> v = VBool b.
  Proof. destruct v; cbn; split; intros H; try discriminate H; try (now apply quoted_not_ok in H); congruence. Qed.
  Lemma as_int_ok e v z : as_int ctx e v = Ok z <-> v = VInt z.
  Proof. destruct v; cbn; split; intros H; try discriminate H; try (now apply quoted_not_ok in H); congruence. Qed.
  Lemma ev_bool_ok e b : ev_bool ctx e = Ok b <-> ev ctx e = Ok (VBool b).
  Proof. unfold ev_bool. rewrite bind_ok. split; [intros (v & H & H'); apply as_bool_ok in H'; congruence|intros H; exists (VBool b); auto]. Qed.
  Lemma ev_int_ok e z : ev_int ctx e = Ok z <-> ev ctx e = Ok (VInt z).
  Proof. unfold ev_int. rewrite bind_ok. split; [intros (v & H & H'); apply as_int_ok in H'; congruence|intros H; exists (VInt z); auto]. Qed.
  Lemma ev_typed e v : ev ctx e = Ok v -> of_type (e_type e) v.
  Proof. destruct e; cbn [ev]; rewrite bind_ok; intros (u & _ & H); apply dyn_ok in H as [H ->]; exact H. Qed.

  (** A cast node performs one conversion. *)
  Lemma ev_cast1 m e v : step (e_type e) (m_type m) -> (ev ctx (ECast m e) = Ok v <-> exists u, ev ctx e = Ok u /\ conv1 (e_type e) (m_type m) u v).
  Proof.
    intros Hs. cbn [ev]. rewrite bind_ok. split.
    - intros (x & Hx & Hd). apply bind_ok in Hx as (u & Hu & Hc). exists u. split; [exact Hu|]. apply dyn_ok in Hd as [_ <-].
      apply ev_typed in Hu. destruct Hs as [w|w t Hm].
      + inversion Hu; subst. cbn [CastTo] in Hc. unfold shl1 in Hc. destruct (Z.ltb_spec w 0); [discriminate|]. cbn [bind] in Hc. rewrite rem_mod in Hc by lia.
        apply Ok_inj in Hc as <-. now constructor.
      + inversion Hu; subst. inversion Hm as [Ht|Ht|Ht|Ht|Ht]; rewrite <- Ht in Hc; cbn [CastTo] in Hc; unfold shl1 in Hc; try (destruct (Z.ltb_spec w 0); [discriminate|]); cbn [bind] in Hc; apply Ok_inj in Hc as <-; now constructor.
    - intros (u & Hu & Hc). exists v. split.
      + apply bind_ok. exists u. split; [exact Hu|]. destruct Hc; cbn [CastTo]; unfold shl1; try (destruct (Z.ltb_spec w 0); [lia|]); cbn [bind]; rewrite ?rem_mod by lia; reflexivity.
      + apply dyn_ok. split; [|reflexivity]. cbn [e_type emeta]. exact (conv1_typed _ _ _ _ Hc).
  Qed.
  Lemma ev_cast e t v : convertible (e_type e) t ->
    (ev ctx (CastTransitivelyTo e t) = Ok v <-> exists u, ev ctx e = Ok u /\ Converts (e_type e) t u v).
  Proof.
    intros [<-|Hb].
    - assert (CastTransitivelyTo e (e_type e) = e) as ->.
      { unfold CastTransitivelyTo. assert (StrictlyAbove (e_type e) (e_type e) = false) as H; [|rewrite !H; cbn [andb]; rewrite H; reflexivity].
        destruct (StrictlyAbove (e_type e) (e_type e)) eqn:E; [apply above_iff, below_irrefl in E as []|reflexivity]. }
      split; [intros H; exists v; split; [exact H|constructor]|]. intros (u & Hu & Hc). pose proof (converts_fun _ _ _ _ _ Hc (cv_same _ _)). congruence.
    - apply above_iff in Hb as Ha. unfold CastTransitivelyTo. rewrite Ha. cbn [andb]. destruct (e_type e) eqn:Et.
      1-3,6-11: exfalso; clear Hb; destruct t; discriminate Ha.
      + cbn [type_case tycase_eqb]. set (w := match TypeBitwidth t with Some w => w | None => (-1)%Z end).
        assert (e_type (WrapWithCast e (TBit w)) = TBit w) as Et' by reflexivity. rewrite Et'. cbn [type_case tycase_eqb]. rewrite andb_true_r.
        destruct (StrictlyAbove t (TBit w)) eqn:Ea'.
        * unfold WrapWithCast at 1. rewrite ev_cast1; cbn [m_type]. 2: { rewrite Et'. clear -Ea'. clearbody w. destruct t; try discriminate; cbn in Ea'; try (apply Z.eqb_eq in Ea' as ->); repeat constructor. }
          rewrite Et'. unfold WrapWithCast. split.
          -- intros (x & Hx & Hc). apply ev_cast1 in Hx; [|rewrite Et; constructor]. destruct Hx as (u & Hu & Hc'). exists u. split; [exact Hu|]. rewrite Et in Hc'. cbn [m_type] in Hc'.
             eapply cv_trans; apply conv1_converts; eassumption.
          -- intros (u & Hu & Hc). apply converts_inv in Hc as [[<- _]|[Hc|(n & x & _ & H1 & H2)]]; [discriminate Ha|exfalso; inversion Hc; subst; discriminate Ea'|].
             exists x. assert (n = w) as -> by (unfold w; inversion H2; subst; reflexivity). split; [|exact H2]. apply ev_cast1; cbn [m_type]; rewrite Et; [constructor|eauto].
        * assert (t = TBit w) as Ht. { clear -Ha Ea'. unfold w in *. destruct t; cbn in Ha, Ea'; try discriminate; rewrite ?Z.eqb_refl in Ea'; try discriminate; reflexivity. }
          rewrite Ht. unfold WrapWithCast. rewrite ev_cast1; cbn [m_type]; rewrite Et; [|constructor]. split; intros (u & Hu & Hc); exists u; (split; [exact Hu|]); [now apply conv1_converts|].
          apply converts_inv in Hc as [[E _]|[Hc|(n & x & _ & H1 & H2)]]; [discriminate|exact Hc|inversion H2].
      + cbn [type_case tycase_eqb]. rewrite Et, Ha. cbn [type_case tycase_eqb andb].
        unfold WrapWithCast. rewrite ev_cast1; cbn [m_type]; rewrite Et. 2: { clear -Ha. destruct t; cbn in Ha; try discriminate; try (apply Z.eqb_eq in Ha as ->); repeat constructor. }
        split; intros (u & Hu & Hc); exists u; (split; [exact Hu|]); [now apply conv1_converts|].
        apply converts_inv in Hc as [[E _]|[Hc|(n & x & E & H1 & H2)]]; [exfalso; subst; discriminate Ha|exact Hc|discriminate].
  Qed.
End Ctx.
