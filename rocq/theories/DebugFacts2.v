(** The debug build of the parser, the type checker and the interpreter. *)
From Coq Require Import String Ascii List ZArith NArith Bool Lia.
From Verif Require Import Base Num Token Ast Lexer Quote AstConstructors Parser Info TypeChecker Interpreter DebugBuild.
Import ListNotations.
Open Scope string_scope.

Lemma dbind_some {A B} (o : outcome A) (f : A -> debug (outcome B)) g :
  (forall a, o = Ok a -> f a = Some (g a)) -> dbind (Some o) f = Some (bind o g).
Proof. intros H. destruct o as [a|c m|w]; cbn; [now apply H|reflexivity..]. Qed.

(** * Parser *)
Section Stream.
  Variable pton : inet_pton6.
  Variable ck : constraint_kind.
  Variable src : csource.
  Variable eof : loc.
  Lemma dparse_eq fuel :
    (forall ts ctx, dparse_above pton ck src eof fuel ts ctx = Some (parse_above pton ck src eof fuel ts ctx)) /\
    (forall ast ts ctx, dextend pton ck src eof fuel ast ts ctx = Some (extend pton ck src eof fuel ast ts ctx)).
  Proof.
    induction fuel as [|fuel [IH1 IH2]]; [split; reflexivity|]. split.
    - intros ts ctx. cbn [dparse_above parse_above].
      match goal with |- dbind ?d _ = Some (bind ?o _) => assert (d = Some o) as E end.
      { destruct (t_kind (Peek eof ts)); try reflexivity.
        all: try (rewrite IH1).
        all: try match goal with |- (if ?b then _ else _) = _ => destruct b end.
        all: repeat (first [reflexivity | apply dbind_some; intros ?x _; try match goal with y : (_ * _)%type |- _ => destruct y end]). }
      rewrite E. apply dbind_some. intros [a l] _. apply IH2.
    - intros ast ts ctx. cbn [dextend extend].
      assert (forall k (x : debug (outcome (expr * list token))) y,
        TokenAssociativity k <> ARIGHT -> x = Some y ->
        (if (Nat.eqb ctx (TokenPrecedence k) && match TokenAssociativity k with ANONE => true | _ => false end)%bool
         then true else (Nat.ltb (TokenPrecedence k) ctx || (Nat.eqb ctx (TokenPrecedence k) && match TokenAssociativity k with ALEFT => true | _ => false end))%bool) = false ->
        dcheck (Nat.ltb ctx (TokenPrecedence k) || (Nat.eqb ctx (TokenPrecedence k) && match TokenAssociativity k with ARIGHT => true | _ => false end))%bool x = Some y) as Hd.
      { intros k x y Hk -> H. destruct (Nat.eqb_spec ctx (TokenPrecedence k)) as [E|E]; cbn [andb] in H.
        - destruct (TokenAssociativity k); cbn [orb] in H; try congruence. rewrite orb_true_r in H. discriminate.
        - rewrite orb_false_r in H. apply Nat.ltb_ge in H. destruct (Nat.ltb_spec ctx (TokenPrecedence k)); [reflexivity|lia]. }
      remember (t_kind (Peek eof ts)) as k eqn:Hk.
      destruct k; try reflexivity;
        match goal with |- context [TokenPrecedence ?k] => specialize (Hd k); set (kk := k) in * end;
        (destruct (Nat.eqb ctx (TokenPrecedence kk) && match TokenAssociativity kk with ANONE => true | _ => false end)%bool eqn:E1; [reflexivity|]);
        (destruct (Nat.ltb (TokenPrecedence kk) ctx || (Nat.eqb ctx (TokenPrecedence kk) && match TokenAssociativity kk with ALEFT => true | _ => false end))%bool eqn:E2; [reflexivity|]);
        apply Hd; try discriminate; try reflexivity; unfold kk; cbn [kind_eqb andb].
      all: try match goal with |- (if ?b then _ else _) = _ => destruct b; [reflexivity|] end.
      all: try (apply dbind_some; intros [a l] _; apply dbind_some; intros; apply IH2).
      all: rewrite IH1; apply dbind_some; intros [a l] _; apply dbind_some; intros; apply IH2.
  Qed.
End Stream.
Lemma dParseTokens_eq pton ck ts src : dParseTokens pton ck ts src = Some (ParseTokens pton ck ts src).
Proof.
  unfold dParseTokens, ParseTokens. rewrite (proj1 (dparse_eq pton ck src _ _)). apply dbind_some. intros [a l] _.
  apply dbind_some. intros [b l'] _. reflexivity.
Qed.

(** * Type checker *)
Definition good_type (t : ty) : Prop := TypeBitwidth t <> Some (-1)%Z.
Fixpoint good_casts (e : expr) : Prop :=
  match e with
  | ECast m a => (exists w, TypeBitwidth (m_type m) = Some w /\ w <> (-1)%Z) /\ good_casts a
  | ENot _ a | ENeg _ a | EField _ _ a => good_casts a
  | EBin _ _ l r => good_casts l /\ good_casts r
  | _ => True
  end.
Definition good_names (ai : option action_info) (ti : option table_info) : Prop :=
  (forall t n k, ti = Some t -> assoc_find String.eqb n (ti_keys_by_name t) = Some k -> good_type (k_type k)) /\
  (forall a n k, ai = Some a -> assoc_find String.eqb n (ai_params_by_name a) = Some k -> good_type (k_type k)).
Lemma above_width t u : StrictlyAbove t u = true -> exists w, TypeBitwidth t = Some w.
Proof. destruct t; try discriminate; cbn; eauto. Qed.
Lemma above_type t u : StrictlyAbove t u = true -> u = TInt \/ exists w, u = TBit w /\ TypeBitwidth t = Some w /\ type_case t <> CBit.
Proof.
  destruct t, u; try discriminate; cbn; auto; intros H; apply Z.eqb_eq in H; subst; right; eexists; repeat split; discriminate.
Qed.
Lemma ty_eqb_refl t : ty_eqb t t = true.
Proof. destruct t; cbn; rewrite ?Z.eqb_refl, ?String.eqb_refl; reflexivity. Qed.
Lemma ty_eqb_eq t u : ty_eqb t u = true -> t = u.
Proof. destruct t, u; cbn; try discriminate; intros H; try reflexivity; try (apply Z.eqb_eq in H; now subst). apply String.eqb_eq in H. now subst. Qed.
Lemma above_irrefl t : StrictlyAbove t t = false.
Proof. destruct t; reflexivity. Qed.
Lemma dcast_eq e t : (e_type e = t \/ StrictlyAbove t (e_type e) = true) -> good_type t ->
  dCastTransitivelyTo e t = Some (CastTransitivelyTo e t).
Proof.
  intros H Hg. unfold dCastTransitivelyTo, CastTransitivelyTo. destruct H as [<-|H].
  - rewrite above_irrefl. cbn [andb dlet]. rewrite above_irrefl. cbn [andb]. rewrite ty_eqb_refl. reflexivity.
  - rewrite H. cbn [andb]. destruct (above_width _ _ H) as [w Hw].
    destruct (above_type _ _ H) as [E|(w' & E & Hw' & Hc)]; rewrite E; cbn [type_case tycase_eqb].
    + unfold bitwidth_or_minus1. rewrite Hw. destruct (Z.eqb_spec w (-1)) as [->|]; [now elim Hg|]. cbn [negb dcheck dlet].
      cbn [WrapWithCast e_type m_type]. destruct t; try discriminate H; cbn in Hw; injection Hw as ->; cbn; rewrite ?Z.eqb_refl; cbn; rewrite ?Z.eqb_refl; reflexivity.
    + cbn [dlet]. rewrite H, E. cbn [type_case tycase_eqb andb WrapWithCast e_type m_type]. cbn. rewrite ty_eqb_refl. reflexivity.
Qed.
Lemma lub_cases l r t : LeastUpperBound l r = Some t ->
  (l = t \/ StrictlyAbove t l = true) /\ (r = t \/ StrictlyAbove t r = true) /\ (t = l \/ t = r).
Proof.
  unfold LeastUpperBound. destruct (ty_eqb l r) eqn:E1; [intros [= <-]; apply ty_eqb_eq in E1; subst; auto|].
  destruct (StrictlyAbove l r) eqn:E2; [intros [= <-]; auto|]. destruct (StrictlyAbove r l) eqn:E3; [intros [= <-]; auto|discriminate].
Qed.
Lemma cast_good e t : good_type t -> (e_type e = t \/ StrictlyAbove t (e_type e) = true) -> good_casts e -> good_casts (CastTransitivelyTo e t).
Proof.
  intros Hg H He. unfold CastTransitivelyTo. destruct H as [<-|H].
  - rewrite above_irrefl. cbn [andb]. rewrite above_irrefl. exact He.
  - rewrite H. cbn [andb]. destruct (above_width _ _ H) as [w Hw]. rewrite Hw.
    assert (w <> (-1)%Z) as Hne by (intros ->; now elim Hg).
    destruct (tycase_eqb (type_case (e_type e)) CInt).
    + destruct (StrictlyAbove t (e_type (WrapWithCast e (TBit w))) && _)%bool; cbn; rewrite ?Hw; repeat split; eauto.
    + destruct (StrictlyAbove t (e_type e) && _)%bool; cbn; rewrite ?Hw; repeat split; eauto.
Qed.
Lemma good_field t f u : good_type t -> FieldTypeOfCompositeType t f = Some u -> good_type u.
Proof.
  unfold FieldTypeOfCompositeType. intros Hg H. destruct (assoc_find _ _ _) as [c|] eqn:E; [|discriminate].
  injection H as <-. unfold good_type in *.
  assert (TypeBitwidth t = None -> type_case t <> CExact /\ type_case t <> CTernary /\ type_case t <> CLpm /\ type_case t <> CRange /\ type_case t <> COptional) as Hn
    by (destruct t; cbn; try discriminate; intros _; repeat split; discriminate).
  destruct (TypeBitwidth t) as [w|].
  - destruct c; cbn; intros H; try discriminate; injection H as ->; now elim Hg.
  - specialize (Hn eq_refl) as (H1 & H2 & H3 & H4 & H5). cbn in E. destruct (type_case t); try congruence; discriminate E.
Qed.
Ltac inv_bind H := match type of H with bind ?o _ = Ok _ => let E := fresh "E" in destruct o as [?x|? ?|?] eqn:E; [|discriminate H..]; cbn [bind] in H end.
Lemma quoted_not_ok {A} c l src s e t (x : A) : QuotedError c l src s e t <> Ok x.
Proof. unfold QuotedError. destruct (QuoteSubConstraint src s e); discriminate. Qed.
Lemma infer_good ai ti : good_names ai ti -> forall e e', Infer ai ti e = Ok e' -> good_type (e_type e') /\ good_casts e'.
Proof.
  intros [Hk Hp].
  assert (forall t e, e_type (set_type t e) = t) as Hst by (intros t e; destruct e; reflexivity).
  assert (forall t e, good_casts e -> match e with ECast _ _ => False | _ => True end -> good_casts (set_type t e)) as Hsc by (intros t e; destruct e; cbn; tauto).
  induction e as [m b|m s|m s|m s|m a IH|m a IH|m a IH|m op l IHl r IHr|m f a IH|m s|m]; intros e' H; cbn [Infer] in H; inv_bind H;
    (destruct ai as [ai|], ti as [ti|]; try discriminate H).
  all: try (elim (quoted_not_ok _ _ _ _ _ _ _ H)).
  all: try (injection H as <-; cbn; split; [unfold good_type; cbn; discriminate|exact I]).
  - destruct (assoc_find _ _ _) as [k|] eqn:Ek; [|elim (quoted_not_ok _ _ _ _ _ _ _ H)].
    destruct (illegal_type (k_type k)); [elim (quoted_not_ok _ _ _ _ _ _ _ H)|]. injection H as <-. split; [cbn; eapply Hk; eauto|exact I].
  - destruct (assoc_find _ _ _) as [k|] eqn:Ek; [|elim (quoted_not_ok _ _ _ _ _ _ _ H)].
    destruct (illegal_type (k_type k)); [elim (quoted_not_ok _ _ _ _ _ _ _ H)|]. injection H as <-. split; [cbn; eapply Hp; eauto|exact I].
  - inv_bind H. destruct (is_bool_type _); [|elim (quoted_not_ok _ _ _ _ _ _ _ H)]. injection H as <-. cbn. split; [discriminate|]. now apply IH.
  - inv_bind H. destruct (is_bool_type _); [|elim (quoted_not_ok _ _ _ _ _ _ _ H)]. injection H as <-. cbn. split; [discriminate|]. now apply IH.
  - inv_bind H. destruct (is_int_type _); [|elim (quoted_not_ok _ _ _ _ _ _ _ H)]. injection H as <-. cbn. split; [discriminate|]. now apply IH.
  - inv_bind H. destruct (is_int_type _); [|elim (quoted_not_ok _ _ _ _ _ _ _ H)]. injection H as <-. cbn. split; [discriminate|]. now apply IH.
  - inv_bind H. inv_bind H. specialize (IHl _ eq_refl) as [Gl1 Gl2]. specialize (IHr _ eq_refl) as [Gr1 Gr2].
    assert (forall t y z, Unify x0 x1 x = Ok (t, y, z) -> good_casts y /\ good_casts z) as Hu.
    { intros t y z. unfold Unify. destruct (LeastUpperBound _ _) as [u|] eqn:El; [|intros HH; elim (quoted_not_ok _ _ _ _ _ _ _ HH)].
      apply lub_cases in El as (H1 & H2 & H3). intros [= <- <- <-]. assert (good_type u) by (destruct H3 as [->| ->]; assumption).
      split; apply cast_good; assumption. }
    destruct op; try discriminate H.
    all: try (destruct (negb (is_bool_type (e_type x0))); [elim (quoted_not_ok _ _ _ _ _ _ _ H)|];
      destruct (negb (is_bool_type (e_type x1))); [elim (quoted_not_ok _ _ _ _ _ _ _ H)|]; injection H as <-; cbn; split; [discriminate|auto]).
    all: inv_bind H; destruct x2 as [[t y] z]; specialize (Hu _ _ _ eq_refl) as [Hy Hz];
      cbv beta iota in H; try match type of H with (if ?b then _ else _) = _ => destruct b; [elim (quoted_not_ok _ _ _ _ _ _ _ H)|] end; injection H as <-; cbn; split; [discriminate|auto].
  - inv_bind H. inv_bind H. specialize (IHl _ eq_refl) as [Gl1 Gl2]. specialize (IHr _ eq_refl) as [Gr1 Gr2].
    assert (forall t y z, Unify x0 x1 x = Ok (t, y, z) -> good_casts y /\ good_casts z) as Hu.
    { intros t y z. unfold Unify. destruct (LeastUpperBound _ _) as [u|] eqn:El; [|intros HH; elim (quoted_not_ok _ _ _ _ _ _ _ HH)].
      apply lub_cases in El as (H1 & H2 & H3). intros [= <- <- <-]. assert (good_type u) by (destruct H3 as [->| ->]; assumption).
      split; apply cast_good; assumption. }
    destruct op; try discriminate H.
    all: try (destruct (negb (is_bool_type (e_type x0))); [elim (quoted_not_ok _ _ _ _ _ _ _ H)|];
      destruct (negb (is_bool_type (e_type x1))); [elim (quoted_not_ok _ _ _ _ _ _ _ H)|]; injection H as <-; cbn; split; [discriminate|auto]).
    all: inv_bind H; destruct x2 as [[t y] z]; specialize (Hu _ _ _ eq_refl) as [Hy Hz];
      cbv beta iota in H; try match type of H with (if ?b then _ else _) = _ => destruct b; [elim (quoted_not_ok _ _ _ _ _ _ _ H)|] end; injection H as <-; cbn; split; [discriminate|auto].
  - inv_bind H. specialize (IH _ eq_refl) as [G1 G2]. destruct (FieldTypeOfCompositeType _ _) as [t|] eqn:Ef; [|elim (quoted_not_ok _ _ _ _ _ _ _ H)].
    injection H as <-. cbn. split; [eapply good_field; eauto|exact G2].
  - inv_bind H. specialize (IH _ eq_refl) as [G1 G2]. destruct (FieldTypeOfCompositeType _ _) as [t|] eqn:Ef; [|elim (quoted_not_ok _ _ _ _ _ _ _ H)].
    injection H as <-. cbn. split; [eapply good_field; eauto|exact G2].
  - destruct (GetAttributeInfo s) as [t|] eqn:Ea; [|elim (quoted_not_ok _ _ _ _ _ _ _ H)]. destruct (illegal_type t); [elim (quoted_not_ok _ _ _ _ _ _ _ H)|].
    injection H as <-. cbn. split; [|exact I]. unfold GetAttributeInfo in Ea. cbn in Ea. destruct (String.eqb _ _); [|discriminate]. injection Ea as <-. discriminate.
  - destruct (GetAttributeInfo s) as [t|] eqn:Ea; [|elim (quoted_not_ok _ _ _ _ _ _ _ H)]. destruct (illegal_type t); [elim (quoted_not_ok _ _ _ _ _ _ _ H)|].
    injection H as <-. cbn. split; [|exact I]. unfold GetAttributeInfo in Ea. cbn in Ea. destruct (String.eqb _ _); [|discriminate]. injection Ea as <-. discriminate.
Qed.
Lemma dUnify_eq l r src : good_type (e_type l) -> good_type (e_type r) -> dUnify l r src = Some (Unify l r src).
Proof.
  intros Hl Hr. unfold dUnify, Unify. destruct (LeastUpperBound _ _) as [t|] eqn:E; [|reflexivity].
  apply lub_cases in E as (H1 & H2 & H3). assert (good_type t) by (destruct H3 as [->| ->]; assumption).
  rewrite (dcast_eq l t), (dcast_eq r t) by assumption. reflexivity.
Qed.
Lemma dInfer_eq ai ti : good_names ai ti -> forall e, dInfer ai ti e = Some (Infer ai ti e).
Proof.
  intros Hg.
  induction e as [m b|m s|m s|m s|m a IH|m a IH|m a IH|m op l IHl r IHr|m f a IH|m s|m]; cbn [dInfer Infer]; apply dbind_some; intros src Hsrc;
    (destruct ai as [ai|], ti as [ti|]; try reflexivity).
  all: try (cbn [Infer]; rewrite Hsrc; reflexivity).
  all: try (rewrite IH; apply dbind_some; intros; reflexivity).
  all: rewrite IHl; apply dbind_some; intros l' Hl'; rewrite IHr; apply dbind_some; intros r' Hr';
    destruct (infer_good _ _ Hg _ _ Hl') as [Gl _]; destruct (infer_good _ _ Hg _ _ Hr') as [Gr _].
  all: destruct op; try reflexivity; rewrite (dUnify_eq _ _ _ Gl Gr); apply dbind_some; intros [[t y] z] _; reflexivity.
Qed.

(** * Interpreter *)
Lemma dCastTo_eq src t e v w : TypeBitwidth t = Some w -> w <> (-1)%Z -> dCastTo src t e v = Some (CastTo src t e v).
Proof.
  intros Hw Hne. unfold dCastTo, bitwidth_or_minus1. rewrite Hw. destruct (Z.eqb_spec w (-1)); [congruence|]. destruct v; reflexivity.
Qed.
Section Eval.
  Variable ctx : eval_context.
  Lemma drbind_some {A B} (r : res A) (f : A -> eval_cache -> debug (res B)) g :
    (forall a c, f a c = Some (g a c)) -> drbind (Some r) f = Some (rbind r g).
  Proof. intros H. destruct r as [[a|k m|w] c]; cbn; [apply H|reflexivity..]. Qed.
  Lemma dbool_eq (ev : expr -> path -> eval_cache -> debug (res value)) ev' e p c : ev e p c = Some (ev' e p c) -> deval_to_bool ctx ev e p c = Some (eval_to_bool ctx ev' e p c).
  Proof.
    intros H. unfold deval_to_bool, eval_to_bool. destruct (match c with Some m => assoc_find path_eqb p m | None => None end); [reflexivity|].
    rewrite H. apply drbind_some. reflexivity.
  Qed.
  Lemma dint_eq (ev : expr -> path -> eval_cache -> debug (res value)) ev' e p c : ev e p c = Some (ev' e p c) -> deval_to_int ctx ev e p c = Some (eval_to_int ctx ev' e p c).
  Proof. intros H. unfold deval_to_int, eval_to_int. rewrite H. apply drbind_some. reflexivity. Qed.
  Lemma dEval_eq : forall e, good_casts e -> forall p c, dEval ctx e p c = Some (Eval ctx e p c).
  Proof.
    induction e as [m b|m s|m s|m s|m a IH|m a IH|m a IH|m op l IHl r IHr|m f a IH|m s|m]; intros Hg p c; try reflexivity; cbn [dEval Eval]; cbn [good_casts] in Hg.
    - match goal with |- drbind ?d _ = Some (rbind ?o _) => assert (d = Some o) as -> end; [|apply drbind_some; reflexivity].
      rewrite (dbool_eq _ (Eval ctx)) by auto. apply drbind_some. reflexivity.
    - match goal with |- drbind ?d _ = Some (rbind ?o _) => assert (d = Some o) as -> end; [|apply drbind_some; reflexivity].
      rewrite (dint_eq _ (Eval ctx)) by auto. apply drbind_some. reflexivity.
    - match goal with |- drbind ?d _ = Some (rbind ?o _) => assert (d = Some o) as -> end; [|apply drbind_some; reflexivity].
      destruct Hg as [(w & Hw & Hne) Hg]. rewrite IH by exact Hg. apply drbind_some. intros v c'. rewrite (dCastTo_eq _ _ _ _ w) by assumption. reflexivity.
    - destruct Hg as [Hgl Hgr].
      match goal with |- drbind ?d _ = Some (rbind ?o _) => assert (d = Some o) as -> end; [|apply drbind_some; reflexivity].
      assert (forall c, deval_to_int_annotated ctx (dEval ctx) l (false :: p) c = Some (eval_to_int_annotated ctx (Eval ctx) l (false :: p) c)) as Hl.
      { intros c'. unfold deval_to_int_annotated, eval_to_int_annotated. rewrite (dint_eq _ (Eval ctx)) by auto. cbn [dlet]. destruct (eval_to_int _ _ _ _ _). reflexivity. }
      assert (forall c, deval_to_int_annotated ctx (dEval ctx) r (true :: p) c = Some (eval_to_int_annotated ctx (Eval ctx) r (true :: p) c)) as Hr.
      { intros c'. unfold deval_to_int_annotated, eval_to_int_annotated. rewrite (dint_eq _ (Eval ctx)) by auto. cbn [dlet]. destruct (eval_to_int _ _ _ _ _). reflexivity. }
      assert (forall c, drbind (deval_to_bool ctx (dEval ctx) r (true :: p) c) (fun br c => Some (Ok (VBool br), c)) = Some (rbind (eval_to_bool ctx (Eval ctx) r (true :: p) c) (fun br c => (Ok (VBool br), c)))) as Hright.
      { intros c'. rewrite (dbool_eq _ (Eval ctx)) by auto. apply drbind_some. reflexivity. }
      destruct op; try reflexivity.
      all: try (rewrite (dbool_eq _ (Eval ctx)) by auto; apply drbind_some; intros [|] c'; [try reflexivity; apply Hright|try reflexivity; apply Hright]).
      all: try (rewrite Hl; apply drbind_some; intros z c'; rewrite Hr; apply drbind_some; reflexivity).
      all: rewrite IHl by exact Hgl; apply drbind_some; intros v c'; rewrite IHr by exact Hgr; apply drbind_some; reflexivity.
    - match goal with |- drbind ?d _ = Some (rbind ?o _) => assert (d = Some o) as -> end; [|apply drbind_some; reflexivity].
      rewrite IH by exact Hg. apply drbind_some. intros v c'. destruct (EvalFieldAccess f v); reflexivity.
  Qed.
  Lemma dEvalToBool_eq e p c : good_casts e -> dEvalToBool ctx e p c = Some (EvalToBool ctx e p c).
  Proof. intros H. apply dbool_eq, dEval_eq, H. Qed.
  Lemma debind_some {A B} (r : eres A) (f : A -> eval_cache -> option size_cache -> debug (eres B)) g :
    (forall a c s, r = (Ok a, c, s) -> f a c s = Some (g a c s)) -> debind (Some r) f = Some (ebind r g).
  Proof. intros H. destruct r as [[[a|k m|w] c] s]; cbn; [now apply H|reflexivity..]. Qed.
  Lemma dlift_some {A} (r : res A) s : dlift_eval (Some r) s = Some (lift_eval r s).
  Proof. destruct r. reflexivity. Qed.
  Lemma dMinimal_eq : forall e, good_casts e -> forall p c s, dMinimal ctx e p c s = Some (MinimalSubexpression ctx e p c s).
  Proof.
    induction e as [m b|m s|m s|m s|m a IH|m a IH|m a IH|m op l IHl r IHr|m f a IH|m s|m]; intros Hg p c sz; try reflexivity; cbn [good_casts] in Hg.
    - cbn [dMinimal MinimalSubexpression]. apply IH, Hg.
    - destruct Hg as [Hgl Hgr]. destruct op; try reflexivity; cbn [dMinimal MinimalSubexpression].
      all: rewrite (dEvalToBool_eq l) by exact Hgl; rewrite dlift_some; apply debind_some; intros bl c1 s1 _;
        rewrite (dEvalToBool_eq r) by exact Hgr; rewrite dlift_some; apply debind_some; intros br c2 s2 _; destruct bl, br; cbn [negb]; try reflexivity; auto.
      all: rewrite IHl by exact Hgl; apply debind_some; intros x c3 s3 _; rewrite IHr by exact Hgr; apply debind_some; intros y c4 s4 _;
        apply debind_some; intros n c5 s5 _; apply debind_some; reflexivity.
  Qed.
  Lemma minimal_good : forall e, good_casts e -> forall p c s x q c' s', MinimalSubexpression ctx e p c s = (Ok (x, q), c', s') -> good_casts x.
  Proof.
    assert (forall A B (r : eres A) (f : A -> eval_cache -> option size_cache -> eres B) b c s, ebind r f = (Ok b, c, s) -> exists a c1 s1, r = (Ok a, c1, s1) /\ f a c1 s1 = (Ok b, c, s)) as Hb.
    { intros A B [[[a|k m|w] c0] s0] f b c s; cbn; [eauto|discriminate..]. }
    induction e as [m b|m s|m s|m s|m a IH|m a IH|m a IH|m op l IHl r IHr|m f a IH|m s|m]; intros Hg p c sz x q c' s' H; cbn [MinimalSubexpression] in H; cbn [good_casts] in Hg; try discriminate H.
    - injection H as <- <- _ _. exact I.
    - eapply IH; eauto.
    - destruct Hg as [Hgl Hgr]. destruct op; try discriminate H.
      all: try (injection H as <- <- _ _; cbn; auto; fail).
      all: apply Hb in H as (bl & c1 & s1 & _ & H); apply Hb in H as (br & c2 & s2 & _ & H); destruct bl, br; cbn [negb] in H;
        try (injection H as <- <- _ _; cbn; auto; fail); eauto.
      all: apply Hb in H as ([x1 q1] & c3 & s3 & H1 & H); apply Hb in H as ([x2 q2] & c4 & s4 & H2 & H); apply Hb in H as (n0 & c5 & s5 & _ & H); apply Hb in H as (n1 & c6 & s6 & _ & H);
        destruct (Z.leb n0 n1); injection H as <- <- _ _; eauto.
  Qed.
  Lemma dcheck_constraint_eq e : good_casts e -> dcheck_constraint ctx e = Some (check_constraint ctx e).
  Proof.
    intros Hg. unfold dcheck_constraint, check_constraint. rewrite dEvalToBool_eq by exact Hg. cbn [dlet].
    destruct (EvalToBool ctx e [] (Some [])) as [o c]. apply dbind_some. intros [|] _; [reflexivity|].
    unfold dExplain, ExplainConstraintViolation. rewrite dMinimal_eq by exact Hg. cbn [dlet].
    destruct (MinimalSubexpression ctx e [] c (Some [])) as [[o2 c2] s2] eqn:E. apply dbind_some. intros [x q] ->.
    apply minimal_good in E; [|exact Hg]. rewrite dEvalToBool_eq by exact E. cbn [dlet]. apply dbind_some. intros tv _. apply dbind_some. reflexivity.
  Qed.
End Eval.
