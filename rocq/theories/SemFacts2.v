(** The evaluator on type-checked constraints computes their meaning. *)
From Coq Require Import String Ascii List ZArith NArith Bool Lia.
From Verif Require Import Base Num Token Ast Quote Info TypeChecker Interpreter SpecLexer SpecGrammar SpecTyping TypeFacts NumFacts LiteralFacts SpecSemantics EvalFacts SemFacts.
Import ListNotations.
Open Scope string_scope.

Definition env_of (ctx : eval_context) : env :=
  match ec_ctx ctx with
  | CtxTable _ p ks => TableEnv (fun n => assoc_find String.eqb n ks) p
  | CtxAction _ _ ps => ActionEnv (fun n => assoc_find String.eqb n ps)
  end.
Lemma value_eqb_eq a b : value_eqb a b = true <-> a = b.
Proof.
  destruct a, b; cbn; rewrite ?andb_true_iff, ?Z.eqb_eq, ?eqb_true_iff; split; try congruence; try (intros [H1 H2]; congruence); intros [= <- <-]; auto.
Qed.
Lemma field_ok f v u : EvalFieldAccess f v = inl u <-> exists z, Field f v z /\ u = VInt z.
Proof.
  split.
  - destruct v; cbn; try discriminate; repeat match goal with |- context [String.eqb f ?s] => destruct (String.eqb_spec f s) as [->|] end; try discriminate;
      intros [= <-]; eexists; (split; [constructor|reflexivity]).
  - intros (z & H & ->). destruct H; reflexivity.
Qed.
Lemma ordered_iff o x y : ordering o -> (ordered o x y = true <-> Compares o (VInt x) (VInt y)).
Proof.
  intros Ho. destruct Ho; cbn; rewrite ?Z.ltb_lt, ?Z.leb_le, ?Z.gtb_lt, ?Z.geb_le; split; intros H.
  all: try (econstructor; [constructor|constructor|lia]).
  all: inversion H as [| |? ? ? ? H1 H2 H3|? ? ? ? H1 H2 H3|? ? ? ? H1 H2 H3|? ? ? ? H1 H2 H3]; subst; inversion H1; inversion H2; subst; lia.
Qed.
Lemma numeral_fun u x y : numeral u x -> numeral u y -> x = y.
Proof. destruct 1; now inversion 1. Qed.
Lemma compares_numeral o u v x y u' v' : ordering o -> numeral u x -> numeral v y -> numeral u' x -> numeral v' y -> (Compares o u v <-> Compares o u' v').
Proof.
  intros Ho Hu Hv Hu' Hv'. split; intros HC; inversion HC as [? E|? ? ? E|? ? p q N1 N2 N3 E|? ? p q N1 N2 N3 E|? ? p q N1 N2 N3 E|? ? p q N1 N2 N3 E]; rewrite <- E in Ho; try (now inversion Ho);
    (econstructor; [eassumption|eassumption|]).
  all: repeat match goal with A : numeral ?u ?x, B : numeral ?u ?y |- _ => rewrite (numeral_fun _ _ _ A B) in *; clear A end; try assumption.
Qed.
Lemma eq_iff o u v : equality o -> ((match o with OEQ => value_eqb u v | _ => negb (value_eqb u v) end) = true <-> Compares o u v).
Proof.
  intros []; rewrite ?negb_true_iff, <- ?not_true_iff_false, value_eqb_eq; split.
  - intros ->. constructor.
  - inversion 1; auto.
  - constructor; auto.
  - inversion 1; auto.
Qed.
Lemma bool_by_iff (x y : bool) (P : Prop) : (x = true <-> P) -> (y = true <-> P) -> x = y.
Proof. destruct x, y; intuition congruence. Qed.
Lemma truth_both o x : connective o -> (exists y, forall y', truth o x y' = y) \/ forall y, truth o x y = y.
Proof. intros []; destruct x; cbn; eauto. Qed.

(** Inversion of successful type checks. *)
Section S.
  Variable ai : option action_info.
  Variable ti : option table_info.
  Variable G : scope.
  Hypothesis HG : in_scope ai ti G.
  Lemma inv_atom e e' : Infer ai ti e = Ok e' ->
    match e with
    | EBool m b => e' = EBool (mkMeta (m_start m) (m_end m) TBool) b
    | EInt m s => e' = EInt (mkMeta (m_start m) (m_end m) TInt) s
    | EKey m n => exists t, e' = EKey (mkMeta (m_start m) (m_end m) t) n
    | EParam m n => exists t, e' = EParam (mkMeta (m_start m) (m_end m) t) n
    | EAttr m n => n = "priority" /\ e' = EAttr (mkMeta (m_start m) (m_end m) TInt) n
    | ECast _ _ | ENotSet _ => False
    | _ => True
    end.
  Proof.
    assert (exists src, GetConstraintSource ai ti = Ok src) as [src Hsrc] by (inversion HG; cbn; eauto).
    destruct e as [m b|m s|m n|m n|m e|m e|m e|m o l r|m f e|m n|m]; intros H; cbn [Infer] in H; rewrite Hsrc in H; cbn [bind] in H; try exact I.
    - inversion HG; subst; cbn in H; now injection H as <-.
    - inversion HG; subst; cbn in H; now injection H as <-.
    - inversion HG as [t HN|a HN]; subst; [|now apply quoted_not_ok in H].
      destruct (assoc_find String.eqb n (ti_keys_by_name t)) as [k|] eqn:Ek; [|now apply quoted_not_ok in H].
      destruct (illegal_type (k_type k)) eqn:Ei; [now apply quoted_not_ok in H|]. injection H as <-. cbn. eauto.
    - inversion HG as [t HN|a HN]; subst; [now apply quoted_not_ok in H|].
      destruct (assoc_find String.eqb n (ai_params_by_name a)) as [k|] eqn:Ek; [|now apply quoted_not_ok in H].
      destruct (illegal_type (k_type k)) eqn:Ei; [now apply quoted_not_ok in H|]. injection H as <-. cbn. eauto.
    - inversion HG; subst; now apply quoted_not_ok in H.
    - assert (exists t, GetAttributeInfo n = Some t /\ e' = set_type t (EAttr m n)) as (t & Et & ->).
      { destruct HG; (destruct (GetAttributeInfo n) as [t'|]; [|now apply quoted_not_ok in H]; destruct (illegal_type t'); [now apply quoted_not_ok in H|]; injection H as <-; eauto). }
      unfold GetAttributeInfo in Et. destruct (String.eqb_spec n "priority") as [->|]; [|discriminate]. injection Et as <-. cbn. auto.
    - inversion HG; subst; now apply quoted_not_ok in H.
  Qed.
  Lemma inv_not m e e' : Infer ai ti (ENot m e) = Ok e' -> exists x, Infer ai ti e = Ok x /\ e_type x = TBool /\ e' = set_type TBool (ENot m x).
  Proof.
    intros H. cbn [Infer] in H. destruct HG; cbn [GetConstraintSource bind] in H;
      (destruct (Infer _ _ e) as [x| |]; cbn [bind] in H; try discriminate; destruct (is_bool_type (e_type x)) eqn:Eb; [|now apply quoted_not_ok in H];
        injection H as <-; apply bool_iff in Eb; eauto).
  Qed.
  Lemma inv_neg m e e' : Infer ai ti (ENeg m e) = Ok e' -> exists x, Infer ai ti e = Ok x /\ e_type x = TInt /\ e' = set_type TInt (ENeg m x).
  Proof.
    intros H. cbn [Infer] in H. destruct HG; cbn [GetConstraintSource bind] in H;
      (destruct (Infer _ _ e) as [x| |]; cbn [bind] in H; try discriminate; destruct (is_int_type (e_type x)) eqn:Eb; [|now apply quoted_not_ok in H];
        injection H as <-; apply int_iff in Eb; eauto).
  Qed.
  Lemma inv_field m f e e' : Infer ai ti (EField m f e) = Ok e' ->
    exists x t, Infer ai ti e = Ok x /\ has_field (e_type x) f t /\ e' = set_type t (EField m f x).
  Proof.
    intros H. cbn [Infer] in H. destruct HG; cbn [GetConstraintSource bind] in H;
      (destruct (Infer _ _ e) as [x| |]; cbn [bind] in H; try discriminate; destruct (FieldTypeOfCompositeType (e_type x) f) as [t'|] eqn:Ef; [|now apply quoted_not_ok in H]; injection H as <-; apply field_iff in Ef; eauto).
  Qed.
  Lemma inv_bin m o l r e' : Infer ai ti (EBin m o l r) = Ok e' -> exists x y, Infer ai ti l = Ok x /\ Infer ai ti r = Ok y /\
        ((connective o /\ e_type x = TBool /\ e_type y = TBool /\ e' = set_type TBool (EBin m o x y)) \/
         exists t, common (e_type x) (e_type y) t /\ (equality o \/ ordering o /\ has_order t) /\
           e' = set_type TBool (EBin m o (CastTransitivelyTo x t) (CastTransitivelyTo y t))).
  Proof.
    intros H. cbn [Infer] in H. destruct HG; cbn [GetConstraintSource bind] in H;
    (destruct (Infer _ _ l) as [x| |]; cbn [bind] in H; try discriminate; destruct (Infer _ _ r) as [y| |]; cbn [bind] in H; try discriminate;
        exists x, y; (split; [reflexivity|split; [reflexivity|]]); destruct o; try discriminate H);
        lazymatch goal with
        | |- connective ?o /\ _ \/ _ =>
            lazymatch o with
            | OAND => idtac | OOR => idtac | OIMPLIES => idtac
            | _ => right; unfold Unify in H; destruct (LeastUpperBound (e_type x) (e_type y)) as [t'|] eqn:El; cbn [bind] in H; [|unfold StaticTypeError, QuotedError in H; destruct (QuoteSubConstraint _ _ _) in H; discriminate H]; exists t'; (split; [now apply lub_iff|]);
              try (destruct (TypeHasOrdering t') eqn:Eo; cbn [negb] in H; [apply ordering_iff in Eo|now apply quoted_not_ok in H]); injection H as <-; (split; [|reflexivity]);
              first [left; constructor; fail|right; split; [constructor|exact Eo]]
            end
        end;
        left; (destruct (is_bool_type (e_type x)) eqn:Eb; cbn [negb] in H; [|now apply quoted_not_ok in H]); (destruct (is_bool_type (e_type y)) eqn:Eb'; cbn [negb] in H; [|now apply quoted_not_ok in H]);
        injection H as <-; apply bool_iff in Eb, Eb'; (split; [constructor|split; [exact Eb|split; [exact Eb'|reflexivity]]]).
  Qed.

  (** Meanings are unique. *)
  Lemma den_fun r e v v' : Den G r e v -> Den G r e v' -> v = v'.
  Proof.
    intros H. revert v'. induction H as [m b|m s n Hs|key p m n v Hr Hk|param m n z Hr Hk|key p m Hr|m e b H IH|m e z H IH|m o a b x y Hc H IH Ht|m o a b x y Hc H IH H2 IH2
      |m o a b ta tb t u v u' v' x Ta Tb Hco H1 IH1 H2 IH2 C1 C2 Hcp Hx|m f e v z H IH Hf]; intros w Hw.
    - now inversion Hw.
    - inversion Hw as [|? ? n' Hs'| | | | | | | | |]; subst. destruct Hs as [Hs _], Hs' as [Hs' _]. now rewrite (Reads_fun _ _ _ _ Hs Hs').
    - inversion Hw; congruence.
    - inversion Hw; congruence.
    - inversion Hw; congruence.
    - inversion Hw as [| | | | |? ? b' Hb| | | | |]; subst. apply IH in Hb. congruence.
    - inversion Hw as [| | | | | |? ? z' Hb| | | |]; subst. apply IH in Hb. congruence.
    - inversion Hw as [| | | | | | |? ? ? ? x' y' Hc' H' Ht'|? ? ? ? x' y' Hc' H' H2'|? ? ? ? ? ? ? ? ? ? ? ? T1 T2 C H1 H2 C1 C2 Hcp|]; subst.
      + apply IH in H' as [= <-]. now rewrite <- (Ht true), <- (Ht' true).
      + apply IH in H' as [= <-]. now rewrite Ht.
      + exfalso. destruct Hcp as [Hcp|[Hcp _]]; destruct Hc; inversion Hcp.
    - inversion Hw as [| | | | | | |? ? ? ? x' y' Hc' H' Ht'|? ? ? ? x' y' Hc' H' H2'|? ? ? ? ? ? ? ? ? ? ? ? T1 T2 C H1 H2' C1 C2 Hcp|]; subst.
      + apply IH in H' as [= <-]. now rewrite Ht'.
      + apply IH in H' as [= <-]. apply IH2 in H2' as [= <-]. reflexivity.
      + exfalso. destruct Hcp as [Hcp|[Hcp _]]; destruct Hc; inversion Hcp.
    - inversion Hw as [| | | | | | |? ? ? ? x' y' Hc' H' Ht'|? ? ? ? x' y' Hc' H' H2'|? ? ? ? ta' tb' t' w1 w2 w1' w2' x' Ta' Tb' Hco' H1' H2' C1' C2' Hcp' Hx'|]; subst.
      + exfalso. destruct Hcp as [Hcp|[Hcp _]]; destruct Hc'; inversion Hcp.
      + exfalso. destruct Hcp as [Hcp|[Hcp _]]; destruct Hc'; inversion Hcp.
      + apply IH1 in H1' as <-. apply IH2 in H2' as <-. rewrite (typed_fun _ _ _ HG _ _ _ Ta' Ta), (typed_fun _ _ _ HG _ _ _ Tb' Tb) in *.
        rewrite (common_fun _ _ _ _ Hco' Hco) in *. rewrite (converts_fun _ _ _ _ _ C1' C1), (converts_fun _ _ _ _ _ C2' C2) in *. f_equal. eapply bool_by_iff; eassumption.
    - inversion Hw as [| | | | | | | | | |? ? ? v' z' H' Hf']; subst. apply IH in H' as <-. f_equal. destruct Hf; inversion Hf'; reflexivity.
  Qed.

  (** The evaluator is sound. *)
  Lemma ev_sound ctx e : forall e' v, Infer ai ti e = Ok e' -> literals e -> ev ctx e' = Ok v -> Den G (env_of ctx) e v.
  Proof.
    induction e as [m b|m s|m n|m n|m e IH|m e IH|m e IH|m o l IHl r IHr|m f e IH|m n|m]; intros e' v Hi Hl He; pose proof (inv_atom _ _ Hi) as Ha; cbn beta iota in Ha.
    - subst e'. cbn [ev] in He. apply bind_ok in He as (u & Hu & He). apply dyn_ok in He as [_ <-]. apply Ok_inj in Hu as <-. constructor.
    - subst e'. cbn [ev] in He. apply bind_ok in He as (u & Hu & He). apply dyn_ok in He as [_ <-]. destruct Hl as [n Hn].
      rewrite (mpz_set_str_Reads 10 s n (proj1 Hn)) in Hu. apply Ok_inj in Hu as <-. now constructor.
    - destruct Ha as [t ->]. cbn [ev] in He. apply bind_ok in He as (u & Hu & He). apply dyn_ok in He as [_ <-]. unfold env_of.
      destruct (ec_ctx ctx) as [nm p ks|]; [|now apply quoted_not_ok in Hu]. destruct (assoc_find String.eqb n ks) as [x|] eqn:E; [|now apply quoted_not_ok in Hu].
      apply Ok_inj in Hu as <-. eapply sem_key; [reflexivity|exact E].
    - destruct Ha as [t ->]. cbn [ev] in He. apply bind_ok in He as (u & Hu & He). apply dyn_ok in He as [_ <-]. unfold env_of.
      destruct (ec_ctx ctx) as [|id nm ps]; [now apply quoted_not_ok in Hu|]. destruct (assoc_find String.eqb n ps) as [x|] eqn:E; [|now apply quoted_not_ok in Hu].
      apply Ok_inj in Hu as <-. eapply sem_param; [reflexivity|exact E].
    - apply inv_not in Hi as (x & Ex & Et & ->). cbn [set_type ev] in He. apply bind_ok in He as (u & Hu & He). apply dyn_ok in He as [_ <-].
      apply bind_ok in Hu as (u' & Hu' & Hu). apply bind_ok in Hu as (b & Hb & Hu). apply as_bool_ok in Hb as ->. apply Ok_inj in Hu as <-. constructor. eapply IH; eauto.
    - apply inv_neg in Hi as (x & Ex & Et & ->). cbn [set_type ev] in He. apply bind_ok in He as (u & Hu & He). apply dyn_ok in He as [_ <-].
      apply bind_ok in Hu as (u' & Hu' & Hu). apply bind_ok in Hu as (b & Hb & Hu). apply as_int_ok in Hb as ->. apply Ok_inj in Hu as <-. constructor. eapply IH; eauto.
    - destruct Ha.
    - destruct Hl as [Hl1 Hl2]. pose proof Hi as Hi0. apply inv_bin in Hi as (x & y & Ex & Ey & Hcase). destruct (infer_ok _ _ _ HG _ _ Ex) as (T1 & _), (infer_ok _ _ _ HG _ _ Ey) as (T2 & _).
      destruct Hcase as [(Hc & Tx & Ty & ->)|(t & Hco & Hop & ->)]; cbn [set_type ev] in He; apply bind_ok in He as (u & Hu & He); apply dyn_ok in He as [_ <-].
      + assert (exists bl, ev ctx x = Ok (VBool bl) /\ ((exists w, u = VBool w /\ forall y', truth o bl y' = w) \/ exists br, ev ctx y = Ok (VBool br) /\ u = VBool (truth o bl br))) as (bl & Hbl & Hor).
        { destruct Hc; apply bind_ok in Hu as (bl & Hbl & Hu); change (ev_bool ctx x = Ok bl) in Hbl; apply ev_bool_ok in Hbl; exists bl; (split; [exact Hbl|]).
          all: destruct bl.
          all: try (apply Ok_inj in Hu as <-; left; eexists; (split; [reflexivity|]); reflexivity).
          all: right; apply bind_ok in Hu as (br & Hbr & Hu); change (ev_bool ctx y = Ok br) in Hbr; apply ev_bool_ok in Hbr; apply Ok_inj in Hu as <-; exists br; (split; [exact Hbr|reflexivity]). }
        destruct Hor as [(w & -> & Hw)|(br & Hbr & ->)].
        * eapply sem_left; [exact Hc|eapply IHl; eassumption|exact Hw].
        * eapply sem_both; [exact Hc|eapply IHl; eassumption|eapply IHr; eassumption].
      + pose proof Hco as (C1 & C2 & _).
        assert (exists va vb, ev ctx (CastTransitivelyTo x t) = Ok va /\ ev ctx (CastTransitivelyTo y t) = Ok vb /\ comparable o va vb /\ exists c, u = VBool c /\ (c = true <-> Compares o va vb)) as (va & vb & Hva & Hvb & Hcmp & c & -> & Hcc).
        { destruct Hop as [Ho|[Ho Hh]].
          - assert (exists vl vr, ev ctx (CastTransitivelyTo x t) = Ok vl /\ ev ctx (CastTransitivelyTo y t) = Ok vr /\ u = VBool (match o with OEQ => value_eqb vl vr | _ => negb (value_eqb vl vr) end)) as (vl & vr & H1 & H2 & ->).
            { destruct Ho; apply bind_ok in Hu as (vl & Hvl & Hu); apply bind_ok in Hu as (vr & Hvr & Hu); apply Ok_inj in Hu as <-; eauto. }
            exists vl, vr. split; [exact H1|]. split; [exact H2|]. split; [now left|]. eexists. split; [reflexivity|]. now apply eq_iff.
          - assert (exists zl zr, ev ctx (CastTransitivelyTo x t) = Ok (VInt zl) /\ ev ctx (CastTransitivelyTo y t) = Ok (VInt zr) /\ u = VBool (ordered o zl zr)) as (zl & zr & H1 & H2 & ->).
            { destruct Ho; apply bind_ok in Hu as (vl & Hvl & Hu); apply bind_ok in Hu as (vr & Hvr & Hu); apply Ok_inj in Hu as <-; apply annotate_ok in Hvl, Hvr; apply ev_int_ok in Hvl, Hvr; eauto. }
            exists (VInt zl), (VInt zr). split; [exact H1|]. split; [exact H2|]. split; [right; split; [exact Ho|split; eexists; constructor]|]. eexists. split; [reflexivity|]. now apply ordered_iff. }
        apply ev_cast in Hva as (wa & Hwa & Ca); [|exact C1]. apply ev_cast in Hvb as (wb & Hwb & Cb); [|exact C2].
        eapply sem_compare; [exact T1|exact T2|exact Hco|eapply IHl; eassumption|eapply IHr; eassumption|exact Ca|exact Cb|exact Hcmp|exact Hcc].
    - apply inv_field in Hi as (x & t & Ex & Et & ->). cbn [set_type ev] in He. apply bind_ok in He as (u & Hu & He). apply dyn_ok in He as [_ <-].
      apply bind_ok in Hu as (u' & Hu' & Hu). destruct (EvalFieldAccess f u') as [w|] eqn:Ef; [|now apply quoted_not_ok in Hu]. apply Ok_inj in Hu as <-. apply field_ok in Ef as (z & Hf & ->).
      econstructor; [eapply IH; eassumption|exact Hf].
    - destruct Ha as [-> ->]. cbn [ev] in He. apply bind_ok in He as (u & Hu & He). apply dyn_ok in He as [_ <-]. unfold env_of.
      destruct (ec_ctx ctx) as [nm p ks|]; [|now apply quoted_not_ok in Hu]. cbn in Hu. apply Ok_inj in Hu as <-. econstructor. reflexivity.
    - destruct Ha.
  Qed.

  (** The meaning of a typed constraint has its type. *)
  Lemma den_typed r e t v : env_ok G r -> Typed G e t -> Den G r e v -> of_type t v.
  Proof.
    intros Hr Ht Hd. revert t Ht. induction Hd as [m b|m s n Hs|key p m n v Hk Hv|param m n z Hk Hv|key p m Hk|m e b H IH|m e z H IH|m o a b x y Hc H IH Htr|m o a b x y Hc H IH H2 IH2
      |m o a b ta tb tt u v u' v' x Ta Tb Hco H1 IH1 H2 IH2 C1 C2 Hcp Hx|m f e v z H IH Hf]; intros t Ht.
    - inversion Ht; constructor.
    - inversion Ht; constructor.
    - inversion Ht as [| |keys ? ? t' HGk Hdl Hu| | | | | | | |]; subst. inversion Hr as [? ? ? H1 H2|]; subst. destruct (H1 _ _ Hdl Hu) as (w & Hw & Hty).
      match goal with H : InTable _ = InTable _ |- _ => injection H as <- | _ => idtac end. congruence.
    - inversion Ht as [| | |keys ? ? t' HGk Hdl Hu| | | | | | |]; subst. inversion Hr as [|? ? H1 H2]; subst. destruct (H1 _ _ Hdl Hu) as (w & Hw & Hty). congruence.
    - inversion Ht; constructor.
    - inversion Ht; constructor.
    - inversion Ht; constructor.
    - inversion Ht; constructor.
    - inversion Ht; constructor.
    - inversion Ht; constructor.
    - inversion Ht as [| | | | | | | | | |? ? ? t0 t0' Ht0 Hf0]; subst. apply IH in Ht0. destruct Hf; inversion Ht0; subst; inversion Hf0; subst; constructor.
  Qed.
  Lemma converts_total a t u : of_type a u -> convertible a t -> (forall w, width t w -> (0 <= w)%Z) -> exists v, Converts a t u v.
  Proof.
    intros Hu [<-|Hb] Hw; [eexists; constructor|]. apply above_iff in Hb.
    destruct Hu; try (destruct t; discriminate Hb).
    - destruct t; try discriminate Hb; (assert (0 <= w)%Z by (apply Hw; constructor)); eexists; try (apply cv_int; assumption); eapply cv_trans; try (apply cv_int; eassumption); constructor; assumption.
    - destruct t; try discriminate Hb; cbn in Hb; apply Z.eqb_eq in Hb as ->; (assert (0 <= w)%Z by (apply Hw; constructor)); eexists; constructor; assumption.
  Qed.
  Lemma typed_width r e t w : env_ok G r -> Typed G e t -> width t w -> (0 <= w)%Z.
  Proof.
    intros Hr Ht. revert w. induction Ht as [m b|m s|keys m n t Hk Hd Hu|params m n t Hk Hd Hu|m|m e H IH|m e H IH|m o a b Hc H1 IH1 H2 IH2
      |m o a b ta tb t Hc H1 IH1 H2 IH2 Hco|m o a b ta tb t Hc H1 IH1 H2 IH2 Hco Ho|m f e t t' H IH Hf]; intros w Hw; try now inversion Hw.
    - inversion Hr; subst; [|discriminate]. match goal with H : InTable _ = InTable _ |- _ => injection H as -> end. eauto.
    - inversion Hr; subst; [discriminate|]. match goal with H : InAction _ = InAction _ |- _ => injection H as -> end. eauto.
    - apply IH. inversion Hf; subst; inversion Hw; subst; constructor.
  Qed.
  Lemma common_width r a b ta tb t w : env_ok G r -> Typed G a ta -> Typed G b tb -> common ta tb t -> width t w -> (0 <= w)%Z.
  Proof.
    intros Hr Ha Hb Hco Hw. apply lub_iff in Hco. unfold LeastUpperBound in Hco.
    destruct (ty_eqb ta tb), (StrictlyAbove ta tb), (StrictlyAbove tb ta); try discriminate; injection Hco as ->; eauto using typed_width.
  Qed.
  (** Every typed constraint has a meaning. *)
  Lemma den_total r e t : env_ok G r -> Typed G e t -> literals e -> (has_attribute e -> exists keys, G = InTable keys) -> exists v, Den G r e v /\ of_type t v.
  Proof.
    intros Hr Ht. induction Ht as [m b|m s|keys m n t Hk Hd Hu|params m n t Hk Hd Hu|m|m e H IH|m e H IH|m o a b Hc H1 IH1 H2 IH2
      |m o a b ta tb t Hc H1 IH1 H2 IH2 Hco|m o a b ta tb t Hc H1 IH1 H2 IH2 Hco Ho|m f e t t' H IH Hf]; intros Hl Hat.
    - eexists. split; constructor.
    - destruct Hl as [n Hn]. eexists. split; constructor. exact Hn.
    - inversion Hr as [? ? ? H1 H2|]; subst; [|discriminate]. match goal with H : InTable _ = InTable _ |- _ => injection H as -> end. destruct (H1 _ _ Hd Hu) as (w & Hw & Hty).
      exists w. split; [econstructor; [reflexivity|exact Hw]|exact Hty].
    - inversion Hr as [|? ? H1 H2]; subst; [discriminate|]. match goal with H : InAction _ = InAction _ |- _ => injection H as -> end. destruct (H1 _ _ Hd Hu) as (w & Hw & Hty).
      eexists. split; [econstructor; [reflexivity|exact Hw]|exact Hty].
    - destruct Hat as [keys Hk]; [constructor|]. inversion Hr; subst; [|discriminate]. eexists. split; [econstructor; reflexivity|constructor].
    - destruct IH as (v & Hv & Hty); [exact Hl|intros; apply Hat; now constructor|]. inversion Hty; subst. eexists. split; constructor. exact Hv.
    - destruct IH as (v & Hv & Hty); [exact Hl|intros; apply Hat; now constructor|]. inversion Hty; subst. eexists. split; constructor. exact Hv.
    - destruct Hl as [Hl1 Hl2]. destruct IH1 as (v & Hv & Hty); [exact Hl1|intros; apply Hat; now apply ha_left|]. destruct IH2 as (v' & Hv' & Hty'); [exact Hl2|intros; apply Hat; now apply ha_right|].
      inversion Hty; subst. inversion Hty'; subst. eexists. split; [eapply sem_both; eassumption|constructor].
    - destruct Hl as [Hl1 Hl2]. destruct IH1 as (v & Hv & Hty); [exact Hl1|intros; apply Hat; now apply ha_left|]. destruct IH2 as (v' & Hv' & Hty'); [exact Hl2|intros; apply Hat; now apply ha_right|].
      pose proof Hco as (C1 & C2 & _). assert (forall w, width t w -> (0 <= w)%Z) as Hw by (intros w Hw; exact (common_width r a b ta tb t w Hr H1 H2 Hco Hw)). destruct (converts_total ta t v Hty C1 Hw) as [u Hcu]. destruct (converts_total tb t v' Hty' C2 Hw) as [u' Hcu'].
      exists (VBool (match o with OEQ => value_eqb u u' | _ => negb (value_eqb u u') end)). split; [|constructor]. eapply sem_compare; try eassumption; [now left|now apply eq_iff].
    - destruct Hl as [Hl1 Hl2]. destruct IH1 as (v & Hv & Hty); [exact Hl1|intros; apply Hat; now apply ha_left|]. destruct IH2 as (v' & Hv' & Hty'); [exact Hl2|intros; apply Hat; now apply ha_right|].
      pose proof Hco as (C1 & C2 & _). assert (forall w, width t w -> (0 <= w)%Z) as Hw by (intros w Hw; exact (common_width r a b ta tb t w Hr H1 H2 Hco Hw)). destruct (converts_total ta t v Hty C1 Hw) as [u Hcu]. destruct (converts_total tb t v' Hty' C2 Hw) as [u' Hcu'].
      pose proof (converts_typed _ _ _ _ Hty Hcu) as Tu. pose proof (converts_typed _ _ _ _ Hty' Hcu') as Tu'.
      assert (exists x y, numeral u x /\ numeral u' y) as (x & y & Hx & Hy) by (destruct Ho; inversion Tu; inversion Tu'; subst; eexists; eexists; split; constructor).
      exists (VBool (ordered o x y)). split; [|constructor]. eapply sem_compare; try eassumption; [right; eauto|].
      rewrite (ordered_iff o x y Hc). apply (compares_numeral o (VInt x) (VInt y) x y); auto; constructor.
    - destruct IH as (v & Hv & Hty); [exact Hl|intros; apply Hat; now constructor|]. destruct Hf; inversion Hty; subst; eexists; (split; [econstructor; [exact Hv|constructor]|constructor]).
  Qed.
  (** The evaluator is complete except for ordered comparisons of exact values. *)
  Lemma ev_complete ctx e v : env_ok G (env_of ctx) -> Den G (env_of ctx) e v -> ~ orders_exact G e -> forall e', Infer ai ti e = Ok e' -> ev ctx e' = Ok v.
  Proof.
    intros Hr Hd. remember (env_of ctx) as r eqn:Er. 
    induction Hd as [m b|m s n Hs|key p m n v Hk Hv|param m n z Hk Hv|key p m Hk|m e b H IH|m e z H IH|m o a b x y Hc H IH Htr|m o a b x y Hc H IH H2 IH2
      |m o a b ta tb tt u v u' v' x Ta Tb Hco H1 IH1 H2 IH2 C1 C2 Hcp Hx|m f e v z H IH Hf]; intros Hno e' Hi; pose proof (inv_atom _ _ Hi) as Ha; cbn beta iota in Ha.
    - subst e'. reflexivity.
    - subst e'. cbn [ev]. rewrite (mpz_set_str_Reads 10 s n (proj1 Hs)). reflexivity.
    - destruct (infer_ok _ _ _ HG _ _ Hi) as (HT & _). assert (of_type (e_type e') v) as Hty by (eapply den_typed; [exact Hr|exact HT|econstructor; eassumption]).
      destruct Ha as [t ->]. unfold env_of in Er. cbn [ev]. destruct (ec_ctx ctx) as [nm pp ks|]; [|congruence]. rewrite Hk in Er. injection Er as -> ->. rewrite Hv. cbn [bind]. now apply dyn_ok.
    - destruct (infer_ok _ _ _ HG _ _ Hi) as (HT & _). assert (of_type (e_type e') (VInt z)) as Hty by (eapply den_typed; [exact Hr|exact HT|econstructor; eassumption]).
      destruct Ha as [t ->]. unfold env_of in Er. cbn [ev]. destruct (ec_ctx ctx) as [nm pp ks|id nm ps]; [congruence|]. rewrite Hk in Er. injection Er as ->. rewrite Hv. cbn [bind]. now apply dyn_ok.
    - destruct Ha as [_ ->]. unfold env_of in Er. cbn [ev]. destruct (ec_ctx ctx) as [nm pp ks|id nm ps]; [|congruence]. rewrite Hk in Er. injection Er as -> ->. reflexivity.
    - apply inv_not in Hi as (x & Ex & Et & ->). cbn [set_type ev]. rewrite IH with (e' := x); [reflexivity|intros Hoe; apply Hno; now constructor|exact Ex].
    - apply inv_neg in Hi as (x & Ex & Et & ->). cbn [set_type ev]. rewrite IH with (e' := x); [reflexivity|intros Hoe; apply Hno; now constructor|exact Ex].
    - apply inv_bin in Hi as (xa & xb & Ea & Eb & Hcase). assert (ev ctx xa = Ok (VBool x)) as Hva by (apply IH; [intros Hoe; apply Hno; now apply oe_left|exact Ea]).
      destruct Hcase as [(_ & _ & _ & ->)|(t & Hco & Hop & ->)].
      + cbn [set_type ev]. rewrite Hva. destruct Hc, x; cbn; try (rewrite <- (Htr true); reflexivity); exfalso; pose proof (Htr true) as E1; pose proof (Htr false) as E2; cbn in E1, E2; congruence.
      + exfalso. destruct Hop as [Hop|[Hop _]]; destruct Hc; inversion Hop.
    - apply inv_bin in Hi as (xa & xb & Ea & Eb & Hcase). assert (ev ctx xa = Ok (VBool x)) as Hva by (apply IH; [intros Hoe; apply Hno; now apply oe_left|exact Ea]).
      assert (ev ctx xb = Ok (VBool y)) as Hvb by (apply IH2; [intros Hoe; apply Hno; now apply oe_right|exact Eb]).
      destruct Hcase as [(_ & _ & _ & ->)|(t & Hco & Hop & ->)].
      + cbn [set_type ev]. rewrite Hva, Hvb. destruct Hc, x, y; reflexivity.
      + exfalso. destruct Hop as [Hop|[Hop _]]; destruct Hc; inversion Hop.
    - apply inv_bin in Hi as (xa & xb & Ea & Eb & Hcase). assert (ev ctx xa = Ok u) as Hva by (apply IH1; [intros Hoe; apply Hno; now apply oe_left|exact Ea]).
      assert (ev ctx xb = Ok v) as Hvb by (apply IH2; [intros Hoe; apply Hno; now apply oe_right|exact Eb]).
      destruct (infer_ok _ _ _ HG _ _ Ea) as (T1 & _), (infer_ok _ _ _ HG _ _ Eb) as (T2 & _).
      rewrite (typed_fun _ _ _ HG _ _ _ Ta T1), (typed_fun _ _ _ HG _ _ _ Tb T2) in *.
      destruct Hcase as [(Hc & _)|(t & Hco' & Hop & ->)].
      { exfalso. destruct Hcp as [Hcp|[Hcp _]]; destruct Hc; inversion Hcp. }
      rewrite (common_fun _ _ _ _ Hco' Hco) in *. pose proof Hco as (K1 & K2 & _).
      assert (ev ctx (CastTransitivelyTo xa tt) = Ok u') as Hca by (apply ev_cast; eauto). assert (ev ctx (CastTransitivelyTo xb tt) = Ok v') as Hcb by (apply ev_cast; eauto).
      cbn [set_type ev]. destruct Hop as [Ho|[Ho Hh]].
      + assert (x = match o with OEQ => value_eqb u' v' | _ => negb (value_eqb u' v') end) as -> by (eapply bool_by_iff; [exact Hx|now apply eq_iff]).
        destruct Ho; rewrite Hca; cbn [bind]; rewrite Hcb; reflexivity.
      + assert (exists p q, u' = VInt p /\ v' = VInt q) as (p & q & -> & ->).
        { apply ev_typed in Hca, Hcb. destruct (cast_spec G xa tt ltac:(eapply infer_ok; eauto) K1) as (_ & X2 & _). destruct (cast_spec G xb tt ltac:(eapply infer_ok; eauto) K2) as (_ & Y2 & _).
          rewrite X2 in Hca. rewrite Y2 in Hcb. destruct Hh; [inversion Hca; inversion Hcb; eauto|inversion Hca; inversion Hcb; eauto|].
          exfalso. apply Hno. eapply oe_here; eauto. }
        assert (x = ordered o p q) as -> by (eapply bool_by_iff; [exact Hx|now apply ordered_iff]).
        destruct Ho; rewrite Hca; cbn [bind as_int annotate]; rewrite Hcb; reflexivity.
    - pose proof Hi as Hi0. apply inv_field in Hi as (x & t & Ex & Et & ->). assert (ev ctx x = Ok v) as Hvx by (apply IH; [intros Hoe; apply Hno; now constructor|exact Ex]).
      pose proof (ev_typed _ _ _ Hvx) as Hty. cbn [set_type ev]. rewrite Hvx. cbn [bind]. assert (EvalFieldAccess f v = inl (VInt z)) as -> by (apply field_ok; eauto). cbn [bind].
      apply dyn_ok. split; [|reflexivity]. cbn [e_type emeta m_type]. destruct Hf; inversion Hty as [E|E|? ? E|? ? E|? ? ? E|? ? ? E|? ? ? E|? ? ? E]; rewrite <- E in Et; inversion Et; constructor.
  Qed.
End S.
