(** Readings of constraints: uniqueness, and which reading the checker and the solver follow. *)
From Coq Require Import String Ascii List ZArith NArith Bool Lia.
From Verif Require Import Base Num Token Ast Quote AstConstructors Info TypeChecker Parser Interpreter Z3 Symbolic SpecLexer SpecGrammar SpecTyping TypeFacts NumFacts LiteralFacts SpecSemantics SpecSymbolic SpecReading EvalFacts SemFacts SemFacts2 SymFacts SymFacts2.
Import ListNotations.
Open Scope string_scope.

Lemma conn_not_comparison o : connective o -> comparison o -> False.
Proof. intros Hc H. inversion H as [? H'|? H']; subst; destruct Hc; inversion H'. Qed.
Lemma comparable_comparison o u v : comparable o u v -> comparison o.
Proof. intros [H|[H _]]; [now apply cm_eq|now apply cm_ord]. Qed.
Lemma documented_fun t o u v x y : documented t o u v x -> documented t o u v y -> x = y.
Proof. intros [_ H] [_ H']. eapply bool_by_iff; eassumption. Qed.
Lemma unordered_fun t o u v x y : unordered_exact t o u v x -> unordered_exact t o u v y -> x = y.
Proof. intros [H _] [H' _]. eapply documented_fun; eassumption. Qed.
Lemma signed_fun t o u v x y : signed_order t o u v x -> signed_order t o u v y -> x = y.
Proof. intros [[H1 H2]|[H1 H2]] [[H3 H4]|[H3 H4]]; try (eapply documented_fun; eassumption); exfalso; destruct H1; inversion H3. Qed.

(** Readings of the same constraint with related comparisons. *)
Lemma meant_mono (c c' : ty -> binop -> value -> value -> bool -> Prop) G r e v : (forall t o u v x, c t o u v x -> c' t o u v x) -> Meant c G r e v -> Meant c' G r e v.
Proof. intros Hc H. induction H; solve [econstructor; eauto]. Qed.
Lemma meant_den G r e v : Meant documented G r e v <-> Den G r e v.
Proof.
  split; intros H.
  - induction H; try solve [econstructor; eauto]. match goal with H : documented _ _ _ _ _ |- _ => destruct H as [] end. eapply sem_compare; eauto.
  - induction H; try solve [econstructor; eauto]. eapply mn_compare; eauto using comparable_comparison. split; assumption.
Qed.
Lemma unordered_den G r e v : Meant unordered_exact G r e v -> Den G r e v.
Proof. intros H. apply meant_den. eapply meant_mono; [|exact H]. intros t o u w x [H' _]. exact H'. Qed.

(** Values of names have their types. *)
Definition env_fits (G : scope) (r : env) : Prop :=
  (forall m n t v, Typed G (EKey m n) t -> Den G r (EKey m n) v -> of_type t v) /\
  (forall m n t v, Typed G (EParam m n) t -> Den G r (EParam m n) v -> of_type t v).
Section S.
  Variables (ai : option action_info) (ti : option table_info) (G : scope).
  Hypothesis HG : in_scope ai ti G.
  Section Fun.
  Variable cmp : ty -> binop -> value -> value -> bool -> Prop.
  Hypothesis Hcmp : forall t o u v x y, cmp t o u v x -> cmp t o u v y -> x = y.
  Lemma meant_fun r e v v' : Meant cmp G r e v -> Meant cmp G r e v' -> v = v'.
  Proof.
    intros H. revert v'. induction H as [m b|m s n Hs|key p m n v Hr Hk|param m n z Hr Hk|key p m Hr|m e b H IH|m e z H IH|m o a b x y Hc H IH Ht|m o a b x y Hc H IH H2 IH2
      |m o a b ta tb t u v u' v' x Ho Ta Tb Hco H1 IH1 H2 IH2 C1 C2 Hx|m f e v z H IH Hf]; intros w Hw.
    - now inversion Hw.
    - inversion Hw as [|? ? n' Hs'| | | | | | | | |]; subst. destruct Hs as [Hs _], Hs' as [Hs' _]. now rewrite (Reads_fun _ _ _ _ Hs Hs').
    - inversion Hw; congruence.
    - inversion Hw; congruence.
    - inversion Hw; congruence.
    - inversion Hw as [| | | | |? ? b' Hb| | | | |]; subst. apply IH in Hb. congruence.
    - inversion Hw as [| | | | | |? ? z' Hb| | | |]; subst. apply IH in Hb. congruence.
    - inversion Hw as [| | | | | | |? ? ? ? x' y' Hc' H' Ht'|? ? ? ? x' y' Hc' H' H2'|? ? ? ? ? ? ? ? ? ? ? ? Ho'|]; subst.
      + apply IH in H' as [= <-]. now rewrite <- (Ht true), <- (Ht' true).
      + apply IH in H' as [= <-]. now rewrite Ht.
      + destruct (conn_not_comparison o); assumption.
    - inversion Hw as [| | | | | | |? ? ? ? x' y' Hc' H' Ht'|? ? ? ? x' y' Hc' H' H2'|? ? ? ? ? ? ? ? ? ? ? ? Ho'|]; subst.
      + apply IH in H' as [= <-]. now rewrite Ht'.
      + apply IH in H' as [= <-]. apply IH2 in H2' as [= <-]. reflexivity.
      + destruct (conn_not_comparison o); assumption.
    - inversion Hw as [| | | | | | |? ? ? ? x' y' Hc' H' Ht'|? ? ? ? x' y' Hc' H' H2'|? ? ? ? ta' tb' t' w1 w2 w1' w2' x' Ho' Ta' Tb' Hco' H1' H2' C1' C2' Hx'|]; subst.
      + destruct (conn_not_comparison o); assumption.
      + destruct (conn_not_comparison o); assumption.
      + apply IH1 in H1' as <-. apply IH2 in H2' as <-. rewrite (typed_fun _ _ _ HG _ _ _ Ta' Ta), (typed_fun _ _ _ HG _ _ _ Tb' Tb) in *.
        rewrite (common_fun _ _ _ _ Hco' Hco) in *. rewrite (converts_fun _ _ _ _ _ C1' C1), (converts_fun _ _ _ _ _ C2' C2) in *. f_equal. eauto.
    - inversion Hw as [| | | | | | | | | |? ? ? v' z' H' Hf']; subst. apply IH in H' as <-. f_equal. destruct Hf; inversion Hf'; reflexivity.
  Qed.
  End Fun.

  (** The checker follows [unordered_exact]. *)
  Lemma ev_reads ctx e : forall e' v, Infer ai ti e = Ok e' -> literals e -> ev ctx e' = Ok v -> Meant unordered_exact G (env_of ctx) e v.
  Proof.
    induction e as [m b|m s|m n|m n|m e IH|m e IH|m e IH|m o l IHl r IHr|m f e IH|m n|m]; intros e' v Hi Hl He; pose proof (inv_atom _ _ _ HG _ _ Hi) as Ha; cbn beta iota in Ha.
    - subst e'. cbn [ev] in He. apply bind_ok in He as (u & Hu & He). apply dyn_ok in He as [_ <-]. apply Ok_inj in Hu as <-. constructor.
    - subst e'. cbn [ev] in He. apply bind_ok in He as (u & Hu & He). apply dyn_ok in He as [_ <-]. destruct Hl as [n Hn].
      rewrite (mpz_set_str_Reads 10 s n (proj1 Hn)) in Hu. apply Ok_inj in Hu as <-. now constructor.
    - destruct Ha as [t ->]. cbn [ev] in He. apply bind_ok in He as (u & Hu & He). apply dyn_ok in He as [_ <-]. unfold env_of.
      destruct (ec_ctx ctx) as [nm p ks|]; [|now apply quoted_not_ok in Hu]. destruct (assoc_find String.eqb n ks) as [x|] eqn:E; [|now apply quoted_not_ok in Hu].
      apply Ok_inj in Hu as <-. eapply mn_key; [reflexivity|exact E].
    - destruct Ha as [t ->]. cbn [ev] in He. apply bind_ok in He as (u & Hu & He). apply dyn_ok in He as [_ <-]. unfold env_of.
      destruct (ec_ctx ctx) as [|id nm ps]; [now apply quoted_not_ok in Hu|]. destruct (assoc_find String.eqb n ps) as [x|] eqn:E; [|now apply quoted_not_ok in Hu].
      apply Ok_inj in Hu as <-. eapply mn_param; [reflexivity|exact E].
    - apply (inv_not _ _ _ HG) in Hi as (x & Ex & Et & ->). cbn [set_type ev] in He. apply bind_ok in He as (u & Hu & He). apply dyn_ok in He as [_ <-].
      apply bind_ok in Hu as (u' & Hu' & Hu). apply bind_ok in Hu as (b & Hb & Hu). apply as_bool_ok in Hb as ->. apply Ok_inj in Hu as <-. constructor. eapply IH; eauto.
    - apply (inv_neg _ _ _ HG) in Hi as (x & Ex & Et & ->). cbn [set_type ev] in He. apply bind_ok in He as (u & Hu & He). apply dyn_ok in He as [_ <-].
      apply bind_ok in Hu as (u' & Hu' & Hu). apply bind_ok in Hu as (b & Hb & Hu). apply as_int_ok in Hb as ->. apply Ok_inj in Hu as <-. constructor. eapply IH; eauto.
    - destruct Ha.
    - destruct Hl as [Hl1 Hl2]. pose proof Hi as Hi0. apply (inv_bin _ _ _ HG) in Hi as (x & y & Ex & Ey & Hcase). destruct (infer_ok _ _ _ HG _ _ Ex) as (T1 & WT1 & _), (infer_ok _ _ _ HG _ _ Ey) as (T2 & WT2 & _).
      destruct Hcase as [(Hc & Tx & Ty & ->)|(t & Hco & Hop & ->)]; cbn [set_type ev] in He; apply bind_ok in He as (u & Hu & He); apply dyn_ok in He as [_ <-].
      + assert (exists bl, ev ctx x = Ok (VBool bl) /\ ((exists w, u = VBool w /\ forall y', truth o bl y' = w) \/ exists br, ev ctx y = Ok (VBool br) /\ u = VBool (truth o bl br))) as (bl & Hbl & Hor).
        { destruct Hc; apply bind_ok in Hu as (bl & Hbl & Hu); change (ev_bool ctx x = Ok bl) in Hbl; apply ev_bool_ok in Hbl; exists bl; (split; [exact Hbl|]).
          all: destruct bl.
          all: try (apply Ok_inj in Hu as <-; left; eexists; (split; [reflexivity|]); reflexivity).
          all: right; apply bind_ok in Hu as (br & Hbr & Hu); change (ev_bool ctx y = Ok br) in Hbr; apply ev_bool_ok in Hbr; apply Ok_inj in Hu as <-; exists br; (split; [exact Hbr|reflexivity]). }
        destruct Hor as [(w & -> & Hw)|(br & Hbr & ->)].
        * eapply mn_left; [exact Hc|eapply IHl; eassumption|exact Hw].
        * eapply mn_both; [exact Hc|eapply IHl; eassumption|eapply IHr; eassumption].
      + pose proof Hco as (C1 & C2 & _).
        assert (exists va vb, ev ctx (CastTransitivelyTo x t) = Ok va /\ ev ctx (CastTransitivelyTo y t) = Ok vb /\ comparison o /\ exists c, u = VBool c /\ unordered_exact t o va vb c) as (va & vb & Hva & Hvb & Hcmp & c & -> & Hcc).
        { destruct Hop as [Ho|[Ho Hh]].
          - assert (exists vl vr, ev ctx (CastTransitivelyTo x t) = Ok vl /\ ev ctx (CastTransitivelyTo y t) = Ok vr /\ u = VBool (match o with OEQ => value_eqb vl vr | _ => negb (value_eqb vl vr) end)) as (vl & vr & H1 & H2 & ->).
            { destruct Ho; apply bind_ok in Hu as (vl & Hvl & Hu); apply bind_ok in Hu as (vr & Hvr & Hu); apply Ok_inj in Hu as <-; eauto. }
            exists vl, vr. split; [exact H1|]. split; [exact H2|]. split; [now apply cm_eq|]. eexists. split; [reflexivity|]. split; [split; [now left|now apply eq_iff]|]. intros [H' _]. destruct Ho; inversion H'.
          - assert (exists zl zr, ev ctx (CastTransitivelyTo x t) = Ok (VInt zl) /\ ev ctx (CastTransitivelyTo y t) = Ok (VInt zr) /\ u = VBool (ordered o zl zr)) as (zl & zr & H1 & H2 & ->).
            { destruct Ho; apply bind_ok in Hu as (vl & Hvl & Hu); apply bind_ok in Hu as (vr & Hvr & Hu); apply Ok_inj in Hu as <-; apply annotate_ok in Hvl, Hvr; apply ev_int_ok in Hvl, Hvr; eauto. }
            exists (VInt zl), (VInt zr). split; [exact H1|]. split; [exact H2|]. split; [now apply cm_ord|]. eexists. split; [reflexivity|]. split; [split; [right; split; [exact Ho|split; eexists; constructor]|now apply ordered_iff]|].
            intros (_ & w & ->). apply ev_typed in H1. destruct (cast_spec G x (TExact w) ltac:(eapply infer_ok; eauto) C1) as (_ & X2 & _). rewrite X2 in H1. inversion H1. }
        apply ev_cast in Hva as (wa & Hwa & Ca); [|exact C1]. apply ev_cast in Hvb as (wb & Hwb & Cb); [|exact C2].
        eapply mn_compare; [exact Hcmp|exact T1|exact T2|exact Hco|eapply IHl; eassumption|eapply IHr; eassumption|exact Ca|exact Cb|exact Hcc].
    - apply (inv_field _ _ _ HG) in Hi as (x & t & Ex & Et & ->). cbn [set_type ev] in He. apply bind_ok in He as (u & Hu & He). apply dyn_ok in He as [_ <-].
      apply bind_ok in Hu as (u' & Hu' & Hu). destruct (EvalFieldAccess f u') as [w|] eqn:Ef; [|now apply quoted_not_ok in Hu]. apply Ok_inj in Hu as <-. apply field_ok in Ef as (z & Hf & ->).
      econstructor; [eapply IH; eassumption|exact Hf].
    - destruct Ha as [-> ->]. cbn [ev] in He. apply bind_ok in He as (u & Hu & He). apply dyn_ok in He as [_ <-]. unfold env_of.
      destruct (ec_ctx ctx) as [nm p ks|]; [|now apply quoted_not_ok in Hu]. cbn in Hu. apply Ok_inj in Hu as <-. econstructor. reflexivity.
    - destruct Ha.
  Qed.
  Lemma ev_read ctx e v : env_fits G (env_of ctx) -> Meant unordered_exact G (env_of ctx) e v -> forall e', Infer ai ti e = Ok e' -> ev ctx e' = Ok v.
  Proof.
    intros Hr Hd. remember (env_of ctx) as r eqn:Er.
    induction Hd as [m b|m s n Hs|key p m n v Hk Hv|param m n z Hk Hv|key p m Hk|m e b H IH|m e z H IH|m o a b x y Hc H IH Htr|m o a b x y Hc H IH H2 IH2
      |m o a b ta tb tt u v u' v' x Hcp Ta Tb Hco H1 IH1 H2 IH2 C1 C2 Hx|m f e v z H IH Hf]; intros e' Hi; pose proof (inv_atom _ _ _ HG _ _ Hi) as Ha; cbn beta iota in Ha.
    - subst e'. reflexivity.
    - subst e'. cbn [ev]. rewrite (mpz_set_str_Reads 10 s n (proj1 Hs)). reflexivity.
    - destruct (infer_ok _ _ _ HG _ _ Hi) as (HT & _). assert (of_type (e_type e') v) as Hty by (eapply (proj1 Hr); [exact HT|econstructor; eassumption]).
      destruct Ha as [t ->]. unfold env_of in Er. cbn [ev]. destruct (ec_ctx ctx) as [nm pp ks|]; [|congruence]. rewrite Hk in Er. injection Er as -> ->. rewrite Hv. cbn [bind]. now apply dyn_ok.
    - destruct (infer_ok _ _ _ HG _ _ Hi) as (HT & _). assert (of_type (e_type e') (VInt z)) as Hty by (eapply (proj2 Hr); [exact HT|econstructor; eassumption]).
      destruct Ha as [t ->]. unfold env_of in Er. cbn [ev]. destruct (ec_ctx ctx) as [nm pp ks|id nm ps]; [congruence|]. rewrite Hk in Er. injection Er as ->. rewrite Hv. cbn [bind]. now apply dyn_ok.
    - destruct Ha as [_ ->]. unfold env_of in Er. cbn [ev]. destruct (ec_ctx ctx) as [nm pp ks|id nm ps]; [|congruence]. rewrite Hk in Er. injection Er as -> ->. reflexivity.
    - apply (inv_not _ _ _ HG) in Hi as (x & Ex & Et & ->). cbn [set_type ev]. rewrite IH with (e' := x); [reflexivity|exact Ex].
    - apply (inv_neg _ _ _ HG) in Hi as (x & Ex & Et & ->). cbn [set_type ev]. rewrite IH with (e' := x); [reflexivity|exact Ex].
    - apply (inv_bin _ _ _ HG) in Hi as (xa & xb & Ea & Eb & Hcase). assert (ev ctx xa = Ok (VBool x)) as Hva by (apply IH; exact Ea).
      destruct Hcase as [(_ & _ & _ & ->)|(t & Hco & Hop & ->)].
      + cbn [set_type ev]. rewrite Hva. destruct Hc, x; cbn; try (rewrite <- (Htr true); reflexivity); exfalso; pose proof (Htr true) as E1; pose proof (Htr false) as E2; cbn in E1, E2; congruence.
      + exfalso. destruct Hop as [Hop|[Hop _]]; destruct Hc; inversion Hop.
    - apply (inv_bin _ _ _ HG) in Hi as (xa & xb & Ea & Eb & Hcase). assert (ev ctx xa = Ok (VBool x)) as Hva by (apply IH; exact Ea).
      assert (ev ctx xb = Ok (VBool y)) as Hvb by (apply IH2; exact Eb).
      destruct Hcase as [(_ & _ & _ & ->)|(t & Hco & Hop & ->)].
      + cbn [set_type ev]. rewrite Hva, Hvb. destruct Hc, x, y; reflexivity.
      + exfalso. destruct Hop as [Hop|[Hop _]]; destruct Hc; inversion Hop.
    - apply (inv_bin _ _ _ HG) in Hi as (xa & xb & Ea & Eb & Hcase). assert (ev ctx xa = Ok u) as Hva by (apply IH1; exact Ea).
      assert (ev ctx xb = Ok v) as Hvb by (apply IH2; exact Eb).
      destruct (infer_ok _ _ _ HG _ _ Ea) as (T1 & _), (infer_ok _ _ _ HG _ _ Eb) as (T2 & _).
      rewrite (typed_fun _ _ _ HG _ _ _ Ta T1), (typed_fun _ _ _ HG _ _ _ Tb T2) in *.
      destruct Hcase as [(Hc & _)|(t & Hco' & Hop & ->)]; [destruct (conn_not_comparison o Hc Hcp)|].
      rewrite (common_fun _ _ _ _ Hco' Hco) in *. pose proof Hco as (K1 & K2 & _). destruct Hx as [[_ Hx] Hne].
      assert (ev ctx (CastTransitivelyTo xa tt) = Ok u') as Hca by (apply ev_cast; eauto). assert (ev ctx (CastTransitivelyTo xb tt) = Ok v') as Hcb by (apply ev_cast; eauto).
      cbn [set_type ev]. destruct Hop as [Ho|[Ho Hh]].
      + assert (x = match o with OEQ => value_eqb u' v' | _ => negb (value_eqb u' v') end) as -> by (eapply bool_by_iff; [exact Hx|now apply eq_iff]).
        destruct Ho; rewrite Hca; cbn [bind]; rewrite Hcb; reflexivity.
      + assert (exists p q, u' = VInt p /\ v' = VInt q) as (p & q & -> & ->).
        { apply ev_typed in Hca, Hcb. destruct (cast_spec G xa tt ltac:(eapply infer_ok; eauto) K1) as (_ & X2 & _). destruct (cast_spec G xb tt ltac:(eapply infer_ok; eauto) K2) as (_ & Y2 & _).
          rewrite X2 in Hca. rewrite Y2 in Hcb. destruct Hh; [inversion Hca; inversion Hcb; eauto|inversion Hca; inversion Hcb; eauto|].
          exfalso. apply Hne. eauto. }
        assert (x = ordered o p q) as -> by (eapply bool_by_iff; [exact Hx|now apply ordered_iff]).
        destruct Ho; rewrite Hca; cbn [bind as_int annotate]; rewrite Hcb; reflexivity.
    - pose proof Hi as Hi0. apply (inv_field _ _ _ HG) in Hi as (x & t & Ex & Et & ->). assert (ev ctx x = Ok v) as Hvx by (apply IH; exact Ex).
      pose proof (ev_typed _ _ _ Hvx) as Hty. cbn [set_type ev]. rewrite Hvx. cbn [bind]. assert (EvalFieldAccess f v = inl (VInt z)) as -> by (apply field_ok; eauto). cbn [bind].
      apply dyn_ok. split; [|reflexivity]. cbn [e_type emeta m_type]. destruct Hf; inversion Hty as [E|E|? ? E|? ? E|? ? ? E|? ? ? E|? ? ? E|? ? ? E]; rewrite <- E in Et; inversion Et; constructor.
  Qed.
End S.

(** The solver follows [signed_order]. *)
Lemma stands_typed m t r v : stands m t r v -> of_type t v.
Proof. intros []; constructor. Qed.
Lemma stands_width m t r v w : stands m t r v -> width t w -> (0 <= w)%Z.
Proof.
  assert (forall w t z, bv m w t z -> (0 <= w)%Z) as H. { clear. intros w t z (_ & _ & H). destruct (Z.le_gt_cases 0 w) as [|Hn]; [assumption|]. rewrite Z.pow_neg_r in H by lia. lia. }
  intros Hs Hw. destruct Hs; inversion Hw; subst; eauto.
Qed.
Lemma bin_signed m t o ra rb u v r : ordering o -> has_order t -> stands m t ra u -> stands m t rb v -> bin_results ra o rb = Ok r ->
  exists x, stands m TBool (RTerm r) (VBool x) /\ signed_order t o u v x.
Proof.
  intros Ho Ht Ha Hb H. assert (forall a b, bin_terms a o b = Ok r -> z3_cmp (cmp_of o) a b = Ok r) as Hc by (destruct Ho; intros a b E; exact E).
  destruct Ht; inversion Ha as [|ta xa Sa Za|? ta xa Ba|? ta xa Ba| | |]; subst; inversion Hb as [|tb xb Sb Zb|? tb xb Bb|? tb xb Bb| | |]; subst; cbn [bin_results bin_keys] in H; apply Hc in H; unfold z3_cmp in H.
  - rewrite Sa, Sb in H. apply Ok_inj in H as <-. exists (ordered o xa xb). split; [constructor; [reflexivity|]; cbn; rewrite Za, Zb, <- (cmp_ordered o) by exact Ho; reflexivity|].
    right. split; [exact Ho|]. cbn. split; [right; split; [exact Ho|split; eexists; constructor]|]. now apply ordered_iff.
  - destruct Ba as (Sa & Za & Ra), Bb as (Sb & Zb & Rb). rewrite Sa, Sb, Z.eqb_refl in H. apply Ok_inj in H as <-. exists (ordered o (signed w xa) (signed w xb)).
    split; [constructor; [reflexivity|]; cbn; rewrite Za, Zb, <- (cmp_ordered o) by exact Ho; reflexivity|].
    right. split; [exact Ho|]. cbn. split; [right; split; [exact Ho|split; eexists; constructor]|]. now apply ordered_iff.
  - destruct Ba as (Sa & Za & Ra), Bb as (Sb & Zb & Rb). rewrite Sa, Sb, Z.eqb_refl in H. apply Ok_inj in H as <-. exists (ordered o (signed w xa) (signed w xb)).
    split; [constructor; [reflexivity|]; cbn; rewrite Za, Zb, <- (cmp_ordered o) by exact Ho; reflexivity|].
    right. split; [exact Ho|]. cbn. split; [right; split; [exact Ho|split; eexists; constructor]|]. rewrite (ordered_iff o) by exact Ho. apply (compares_numeral o _ _ (signed w xa) (signed w xb)); auto; constructor.
Qed.
Section Solver.
  Variable senv : sym_env.
  Variable src : csource.
  Notation sym := (EvalSymbolically senv src).
  Variable ti : table_info.
  Hypothesis HN : NoDup (map fst (ti_keys_by_name ti)).
  Let G := InTable (ti_keys_by_name ti).
  Variable m : assignment.
  Variable key : string -> option value.
  Variable p : Z.
  Hypothesis Hkeys : forall n sk t, assoc_find String.eqb n (se_keys senv) = Some sk -> declared (ti_keys_by_name ti) n t -> exists v, key n = Some v /\ stands m t (RKey sk) v.
  Hypothesis Hprio : forall t, assoc_find String.eqb "priority" (se_attrs senv) = Some t -> sort_of t = SInt /\ zeval m t = VI p.
  Let r := TableEnv key p.
  Lemma sym_meant e : forall e' res, InferTable e ti = Ok e' -> literals e -> sym e' = Ok res -> exists v, Meant signed_order G r e v /\ stands m (e_type e') res v.
  Proof.
    pose proof (scope_ti ti HN) as HG. change (InTable (ti_keys_by_name ti)) with G in HG.
    induction e as [mm b|mm s|mm n|mm n|mm e IH|mm e IH|mm e IH|mm o a IHa b IHb|mm f e IH|mm n|mm]; intros e' res Hi Hl Hsy; pose proof (inv_atom _ _ _ HG _ _ Hi) as Ha; cbn beta iota in Ha.
    - subst e'. cbn in Hsy. apply Ok_inj in Hsy as <-. exists (VBool b). split; constructor; reflexivity.
    - subst e'. destruct Hl as [n Hs]. cbn [EvalSymbolically] in Hsy. unfold z3_int_val in Hsy. rewrite (mpz_set_str_Reads 10 s n (proj1 Hs)) in Hsy. cbn in Hsy. apply Ok_inj in Hsy as <-.
      exists (VInt (Z.of_N n)). split; [now constructor|constructor; reflexivity].
    - destruct (infer_ok _ _ _ HG _ _ Hi) as (HT & _). destruct Ha as [t ->]. cbn [EvalSymbolically] in Hsy. apply bind_ok in Hsy as (sk & Hf & Hsy). apply find_ok in Hf. apply Ok_inj in Hsy as <-.
      inversion HT as [| |keys ? ? t' HGk Hdl Hu| | | | | | | |]; subst. injection HGk as <-. destruct (Hkeys n sk _ Hf Hdl) as (v & Hv & Hs). exists v. split; [econstructor; [reflexivity|exact Hv]|exact Hs].
    - destruct (infer_ok _ _ _ HG _ _ Hi) as (HT & _). inversion HT; discriminate.
    - apply (inv_not _ _ _ HG) in Hi as (x & Ex & Et & ->). cbn [set_type EvalSymbolically] in Hsy. apply bind_ok in Hsy as (r0 & Hr0 & Hsy). apply bind_ok in Hsy as (t & Ht & Hsy). apply to_term_ok in Ht as ->.
      apply bind_ok in Hsy as (t' & Ht & Hsy). apply Ok_inj in Hsy as <-. apply z3_not_ok in Ht as [St ->].
      destruct (IH x _ Ex Hl Hr0) as (v & Hv & Hst). rewrite Et in Hst. inversion Hst as [? b S1 Z1| | | | | |]; subst. exists (VBool (negb b)). split; [now constructor|]. constructor; [reflexivity|]. cbn. now rewrite Z1.
    - apply (inv_neg _ _ _ HG) in Hi as (x & Ex & Et & ->). cbn [set_type EvalSymbolically] in Hsy. apply bind_ok in Hsy as (r0 & Hr0 & Hsy). apply bind_ok in Hsy as (t & Ht & Hsy). apply to_term_ok in Ht as ->.
      apply bind_ok in Hsy as (t' & Ht & Hsy). apply Ok_inj in Hsy as <-.
      destruct (IH x _ Ex Hl Hr0) as (v & Hv & Hst). rewrite Et in Hst. inversion Hst as [|? z S1 Z1| | | | |]; subst.
      unfold z3_minus in Ht. rewrite S1 in Ht. apply Ok_inj in Ht as <-. exists (VInt (- z)). split; [now constructor|]. constructor; [reflexivity|]. cbn. now rewrite Z1.
    - destruct Ha.
    - destruct Hl as [Hl1 Hl2]. apply (inv_bin _ _ _ HG) in Hi as (xa & xb & Ea & Eb & Hcase). destruct (infer_ok _ _ _ HG _ _ Ea) as (T1 & _), (infer_ok _ _ _ HG _ _ Eb) as (T2 & _).
      destruct Hcase as [(Hc & Ta & Tb & ->)|(t & Hco & Hop & ->)]; cbn [set_type EvalSymbolically] in Hsy; apply bind_ok in Hsy as (ra & Hra & Hsy); apply bind_ok in Hsy as (rb & Hrb & Hsy); apply bind_ok in Hsy as (tm & Ht & Hsy); apply Ok_inj in Hsy as <-; cbn [e_type emeta m_type].
      + destruct (IHa xa _ Ea Hl1 Hra) as (va & Hva & Sa), (IHb xb _ Eb Hl2 Hrb) as (vb & Hvb & Sb). rewrite Ta in Sa. rewrite Tb in Sb. inversion Sa as [ta x S1 Z1| | | | | |]; subst. inversion Sb as [tb y S2 Z2| | | | | |]; subst.
        exists (VBool (truth o x y)). split; [now apply mn_both|]. cbn [bin_results] in Ht.
        destruct Hc; cbn [bin_terms] in Ht; [apply z3_and_ok in Ht as (_ & _ & ->)|apply z3_or_ok in Ht as (_ & _ & ->)|apply z3_implies_ok in Ht as (_ & _ & ->)];
          (constructor; [reflexivity|]); cbn [zeval]; rewrite Z1, Z2; cbn [Z3.as_bool]; f_equal; destruct x; reflexivity.
      + pose proof Hco as (K1 & K2 & _). destruct (sym_cast senv src m _ _ _ K1 Hra) as (ra0 & Hra0 & Ca), (sym_cast senv src m _ _ _ K2 Hrb) as (rb0 & Hrb0 & Cb).
        destruct (IHa xa _ Ea Hl1 Hra0) as (va & Hva & Sa), (IHb xb _ Eb Hl2 Hrb0) as (vb & Hvb & Sb).
        assert (forall w, width t w -> (0 <= w)%Z) as Hw. { intros w Hw. destruct (common_either _ _ _ Hco) as [E|E]; rewrite E in Hw; [exact (stands_width _ _ _ _ _ Sa Hw)|exact (stands_width _ _ _ _ _ Sb Hw)]. }
        destruct (converts_total _ t va (stands_typed _ _ _ _ Sa) K1 Hw) as [ua Hua]. destruct (converts_total _ t vb (stands_typed _ _ _ _ Sb) K2 Hw) as [ub Hub].
        specialize (Ca _ _ Sa Hua). specialize (Cb _ _ Sb Hub). destruct Hop as [Ho|[Ho Hh]].
        * exists (VBool (match o with OEQ => value_eqb ua ub | _ => negb (value_eqb ua ub) end)). split; [|eapply bin_equality; eauto].
          eapply mn_compare; try eassumption; [now apply cm_eq|]. left. split; [exact Ho|]. split; [now left|now apply eq_iff].
        * destruct (bin_signed m t o ra rb ua ub tm Ho Hh Ca Cb Ht) as (x & Hx & Hsx). exists (VBool x). split; [|exact Hx]. eapply mn_compare; try eassumption. now apply cm_ord.
    - apply (inv_field _ _ _ HG) in Hi as (x & t & Ex & Et & ->). destruct (field_key ti HN _ _ _ _ Ex Et) as (mk & n & -> & En). cbn [set_type EvalSymbolically] in Hsy. rewrite En in Hsy.
      apply bind_ok in Hsy as (sk & Hfs & Hsy). apply bind_ok in Hsy as (tm & Htm & Hsy). apply Ok_inj in Hsy as <-. cbn [e_type emeta m_type].
      destruct (IH x (RKey sk) Ex Hl) as (v & Hv & Sv).
      { pose proof (inv_atom _ _ _ HG _ _ Ex) as Hx. cbn beta iota in Hx. destruct Hx as [t0 ->]. cbn [EvalSymbolically]. apply bind_ok. exists sk. split; [exact Hfs|reflexivity]. }
      assert (exists z, Field f v z) as (z & Hz) by (inversion Sv; subst; match goal with E : _ = e_type x |- _ => rewrite <- E in Et end; inversion Et; subst; eexists; constructor).
      exists (VInt z). split; [econstructor; eassumption|]. eapply stands_field; eauto.
    - destruct Ha as [-> ->]. cbn [EvalSymbolically] in Hsy. apply bind_ok in Hsy as (t & Hf & Hsy). apply find_ok in Hf. apply Ok_inj in Hsy as <-. apply Hprio in Hf as [S1 Z1].
      exists (VInt p). split; [econstructor; reflexivity|now constructor].
    - destruct Ha.
  Qed.
End Solver.

(** The solver's reading is the documented one unless comparisons are reordered. *)
Lemma signed_same o h w x y : ordering o -> (h = 2 ^ (w - 1))%Z -> ~ (x < h <= y \/ y < h <= x)%Z ->
  let signed z := (if z <? h then z else z - 2 ^ w)%Z in (ordered o (signed x) (signed y) = ordered o x y).
Proof.
  intros Ho _ Hn signed. unfold signed. destruct (Z.ltb_spec x h), (Z.ltb_spec y h); try (exfalso; lia); [reflexivity|].
  destruct Ho; cbn; rewrite ?Z.gtb_ltb, ?Z.geb_leb; rewrite ?(Z.sub_cancel_r); try (destruct (Z.ltb_spec x y), (Z.ltb_spec (x - 2 ^ w) (y - 2 ^ w)); try reflexivity; exfalso; lia);
    try (destruct (Z.leb_spec x y), (Z.leb_spec (x - 2 ^ w) (y - 2 ^ w)); try reflexivity; exfalso; lia);
    try (destruct (Z.ltb_spec y x), (Z.ltb_spec (y - 2 ^ w) (x - 2 ^ w)); try reflexivity; exfalso; lia);
    try (destruct (Z.leb_spec y x), (Z.leb_spec (y - 2 ^ w) (x - 2 ^ w)); try reflexivity; exfalso; lia).
Qed.
Lemma not_bool_unordered G r e v : Den G r e v -> (forall b, v <> VBool b) -> ~ reorders G r e.
Proof. intros H Hn Hr. destruct Hr; inversion H; subst; eapply Hn; reflexivity. Qed.
Lemma den_meant ai ti G r : in_scope ai ti G -> env_ok G r -> forall e v, Den G r e v -> ~ reorders G r e -> Meant signed_order G r e v.
Proof.
  intros HG HE e v H. induction H as [m b|m s n Hs|key p m n v Hk Hv|param m n z Hk Hv|key p m Hk|m e b H IH|m e z H IH|m o a b x y Hc H IH Htr|m o a b x y Hc H IH H2 IH2
      |m o a b ta tb tt u v u' v' x Ta Tb Hco H1 IH1 H2 IH2 C1 C2 Hcp Hx|m f e v z H IH Hf]; intros Hr; try solve [econstructor; eauto].
  - constructor. apply IH. intros H'. apply Hr. now constructor.
  - constructor. apply IH. apply (not_bool_unordered _ _ _ _ H). discriminate.
  - eapply mn_left; [exact Hc| |exact Htr]. apply IH. intros H'. apply Hr. now apply ro_left.
  - apply mn_both; [exact Hc| |]; [apply IH|apply IH2]; intros H'; apply Hr; [now apply ro_left|now apply ro_right].
  - eapply mn_compare; [eapply comparable_comparison; exact Hcp|exact Ta|exact Tb|exact Hco|apply IH1; intros H'; apply Hr; now apply ro_left|apply IH2; intros H'; apply Hr; now apply ro_right|exact C1|exact C2|].
    assert (of_type tt u') as Tu by (eapply converts_typed; [|exact C1]; eapply den_typed; eauto). assert (of_type tt v') as Tv by (eapply converts_typed; [|exact C2]; eapply den_typed; eauto).
    destruct Hcp as [Ho|(Ho & (xu & Nu) & (xv & Nv))]; [left; split; [exact Ho|split; [now left|exact Hx]]|]. right. split; [exact Ho|].
    assert (forall w, width tt w -> ~ (xu < 2 ^ (w - 1) <= xv \/ xv < 2 ^ (w - 1) <= xu)%Z) as Hn. { intros w Hw Hc. apply Hr. eapply (ro_here G r m o a b ta tb tt w u v u' v' xu xv); eauto. }
    assert (x = true <-> ordered o xu xv = true) as Hx'. { rewrite Hx. rewrite (ordered_iff o) by exact Ho. apply (compares_numeral o _ _ xu xv); auto; constructor. }
    assert (forall a b za zb, numeral a za -> numeral b zb -> ordered o za zb = ordered o xu xv -> documented tt o a b x) as HD.
    { intros a' b' za zb Na Nb E. split; [right; split; [exact Ho|eauto]|]. rewrite Hx', <- E, (ordered_iff o) by exact Ho. apply (compares_numeral o _ _ za zb); auto; constructor. }
    inversion Nu; subst; inversion Nv; subst; inversion Tu; subst; inversion Tv; subst; cbn [twos_complement].
    + eapply HD; [constructor|constructor|reflexivity].
    + eapply HD; [constructor|constructor|]. apply signed_same; auto. apply Hn. constructor.
    + eapply HD; [constructor|constructor|]. apply signed_same; auto. apply Hn. constructor.
  - econstructor; [|exact Hf]. apply IH. apply (not_bool_unordered _ _ _ _ H). intros b ->. inversion Hf.
Qed.
