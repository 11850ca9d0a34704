(** Exchanging sources, continued: type checker, evaluator, explainer and solver. *)
From Coq Require Import String Ascii List ZArith NArith Bool Lia.
From Verif Require Import Base Num Token Ast Regex Lexer AstConstructors Parser Quote Info TypeChecker ConstraintInfo Interpreter Z3 Symbolic SpecNames NameFacts.
Import ListNotations.
Open Scope string_scope.

Section Exchange.
  Variable f : source -> source.
  Hypothesis Hf : exchange f.
  Variable d : Z.
  Variable P : Prop.
  Hypothesis Hd : d = 0%Z \/ P.
  Notation xe := (xe f d).
  Notation xc := (xc f d).
  Notation xx := (xx f d).

  (** * Type checker *)
  Lemma x_wrap e t : WrapWithCast (xe e) t = xe (WrapWithCast e t).
  Proof. unfold WrapWithCast. rewrite x_start, x_end. reflexivity. Qed.
  Lemma x_cast e t : CastTransitivelyTo (xe e) t = xe (CastTransitivelyTo e t).
  Proof.
    unfold CastTransitivelyTo. rewrite x_type. cbv zeta. assert (forall (b : bool) u, (if b then WrapWithCast (xe e) u else xe e) = xe (if b then WrapWithCast e u else e)) as -> by (intros [|] u; [apply x_wrap|reflexivity]).
    rewrite x_type. destruct (_ && _)%bool; [apply x_wrap|reflexivity].
  Qed.
  Lemma x_unify c l r : near P (fun a b => b = (fst (fst a), xe (snd (fst a)), xe (snd a))) (Unify l r c) (Unify (xe l) (xe r) (xc c)).
  Proof. unfold Unify. rewrite !x_type, x_start, x_end. destruct (LeastUpperBound _ _); [|now apply x_static]. rewrite !x_cast. reflexivity. Qed.
  Lemma x_infer ai ai' ti ti' c :
    GetConstraintSource ai ti = Ok c -> GetConstraintSource ai' ti' = Ok (xc c) -> option_map ai_params_by_name ai = option_map ai_params_by_name ai' -> option_map ti_keys_by_name ti = option_map ti_keys_by_name ti' ->
    forall e, near P xx (Infer ai ti e) (Infer ai' ti' (xe e)).
  Proof.
    intros Hs Hs' Ha Ht. assert (forall A B (R : A -> B -> Prop) e t, near P R (StaticTypeError c (e_start e) (e_end e) t) (StaticTypeError (xc c) (e_start (xe e)) (e_end (xe e)) t)) as HS by (intros; rewrite x_start, x_end; now apply x_static).
    induction e as [m b|m s|m n|m n|m a IH|m a IH|m a IH|m o l IHl r IHr|m g a IH|m n|m]; cbn [Infer NameFacts.xe]; rewrite Hs, Hs'; cbn [bind];
      destruct ai as [ai|], ai' as [ai'|]; try discriminate Ha; destruct ti as [ti|], ti' as [ti'|]; try discriminate Ht; try reflexivity; cbn [option_map] in Ha, Ht;
      try (apply (HS _ _ _ (EKey m n))); try (apply (HS _ _ _ (EParam m n))); try (apply (HS _ _ _ (ECast m a))); try (apply (HS _ _ _ (ENotSet m)));
      try (injection Ha as Ha); try (injection Ht as Ht).
    - rewrite <- Ht. destruct (assoc_find _ _ _) as [k|]; [|apply (HS _ _ _ (EKey m n))]. destruct (illegal_type _); [apply (HS _ _ _ (EKey m n))|reflexivity].
    - assert (assoc_find String.eqb n (ai_params_by_name ai') = assoc_find String.eqb n (ai_params_by_name ai)) as -> by (now rewrite Ha). destruct (assoc_find _ _ _) as [k|]; [|apply (HS _ _ _ (EParam m n))]. destruct (illegal_type _); [apply (HS _ _ _ (EParam m n))|reflexivity].
    - apply (sim_bind xx); [exact IH|]. intros x ? ->. rewrite x_type. destruct (is_bool_type _); [reflexivity|apply HS].
    - apply (sim_bind xx); [exact IH|]. intros x ? ->. rewrite x_type. destruct (is_bool_type _); [reflexivity|apply HS].
    - apply (sim_bind xx); [exact IH|]. intros x ? ->. rewrite x_type. destruct (is_int_type _); [reflexivity|apply HS].
    - apply (sim_bind xx); [exact IH|]. intros x ? ->. rewrite x_type. destruct (is_int_type _); [reflexivity|apply HS].
    - apply (sim_bind xx); [exact IHl|]. intros x ? ->. apply (sim_bind xx); [exact IHr|]. intros y ? ->. rewrite !x_type.
      destruct o; try reflexivity; try (destruct (negb _); [apply HS|]; destruct (negb _); [apply HS|reflexivity]);
        (apply (sim_bind (fun a b => b = (fst (fst a), xe (snd (fst a)), xe (snd a)))); [apply x_unify|]; intros [[u x'] y'] ? ->; cbn [fst snd]; first [reflexivity|destruct (negb _); [apply (HS _ _ _ (EBin m _ l r))|reflexivity]]).
    - apply (sim_bind xx); [exact IHl|]. intros x ? ->. apply (sim_bind xx); [exact IHr|]. intros y ? ->. rewrite !x_type.
      destruct o; try reflexivity; try (destruct (negb _); [apply HS|]; destruct (negb _); [apply HS|reflexivity]);
        (apply (sim_bind (fun a b => b = (fst (fst a), xe (snd (fst a)), xe (snd a)))); [apply x_unify|]; intros [[u x'] y'] ? ->; cbn [fst snd]; first [reflexivity|destruct (negb _); [apply (HS _ _ _ (EBin m _ l r))|reflexivity]]).
    - apply (sim_bind xx); [exact IH|]. intros x ? ->. rewrite x_type. destruct (FieldTypeOfCompositeType _ _); [reflexivity|apply (HS _ _ _ (EField m g a))].
    - apply (sim_bind xx); [exact IH|]. intros x ? ->. rewrite x_type. destruct (FieldTypeOfCompositeType _ _); [reflexivity|apply (HS _ _ _ (EField m g a))].
    - destruct (GetAttributeInfo n); [|apply (HS _ _ _ (EAttr m n))]. destruct (illegal_type _); [|reflexivity]. now apply x_quoted.
    - destruct (GetAttributeInfo n); [|apply (HS _ _ _ (EAttr m n))]. destruct (illegal_type _); [|reflexivity]. now apply x_quoted.
  Qed.

  (** * Evaluator and explainer *)
  Definition sr {A B} (R : A -> B -> Prop) (r : res A) (r' : res B) : Prop := similar R (fst r) (fst r') /\ snd r = snd r' \/ P /\ (fst r = Crash LengthError \/ fst r' = Crash LengthError).
  Lemma sr_bind {A A' B B'} (R : A -> A' -> Prop) (S : B -> B' -> Prop) r r' g g' : sr R r r' -> (forall a a' c, R a a' -> sr S (g a c) (g' a' c)) -> sr S (rbind r g) (rbind r' g').
  Proof.
    intros [[H1 H2]|[H1 H2]] H3.
    - destruct r as [[a| |] c], r' as [[a'| |] c']; cbn [fst snd similar rbind] in *; subst; try contradiction; try (left; cbn; auto; fail). now apply H3.
    - right. split; [exact H1|]. destruct r as [o c], r' as [o' c']. cbn [fst] in H2. destruct H2 as [-> | ->]; [left|right]; reflexivity.
  Qed.
  Lemma sr_near {A B} (R : A -> B -> Prop) o o' c : near P R o o' -> sr R (o, c) (o', c).
  Proof. rewrite near_iff. intros [H|H]; [left; split; [exact H|reflexivity]|right; exact H]. Qed.
  Lemma near_sr {A B} (R : A -> B -> Prop) r r' : sr R r r' -> near P R (fst r) (fst r').
  Proof. rewrite near_iff. unfold sr. tauto. Qed.
  Lemma sr_refl {A} (r : res A) : sr eq r r.
  Proof. destruct r. apply sr_near, sim_eq. Qed.
  (** The same values under another name. *)
  Definition same_values (x y : ctx_value) : Prop :=
    match x, y with
    | CtxTable _ p k, CtxTable _ p' k' => p = p' /\ k = k'
    | CtxAction _ _ k, CtxAction _ _ k' => k = k'
    | _, _ => False
    end.
  Section Evaluation.
    Variables ctx ctx' : eval_context.
    Hypothesis Hs : ec_src ctx' = xc (ec_src ctx).
    Hypothesis Hc : same_values (ec_ctx ctx) (ec_ctx ctx').
    Lemma x_fail {A} (R : A -> A -> Prop) e t t' c : sr R (RuntimeTypeError (ec_src ctx) e t, c) (RuntimeTypeError (ec_src ctx') (xe e) t', c).
    Proof. apply sr_near. rewrite Hs. now apply x_runtime. Qed.
    Lemma x_to_bool e : (forall p c, sr eq (Eval ctx e p c) (Eval ctx' (xe e) p c)) -> forall p c, sr eq (eval_to_bool ctx (Eval ctx) e p c) (eval_to_bool ctx' (Eval ctx') (xe e) p c).
    Proof. intros H p c. unfold eval_to_bool. destruct (match c with Some m => _ | None => _ end); [apply sr_refl|]. apply (sr_bind eq); [apply H|]. intros v ? c0 <-. destruct v; try apply x_fail. apply sr_refl. Qed.
    Lemma x_to_int e : (forall p c, sr eq (Eval ctx e p c) (Eval ctx' (xe e) p c)) -> forall p c, sr eq (eval_to_int ctx (Eval ctx) e p c) (eval_to_int ctx' (Eval ctx') (xe e) p c).
    Proof. intros H p c. unfold eval_to_int. apply (sr_bind eq); [apply H|]. intros v ? c0 <-. destruct v; try apply x_fail. apply sr_refl. Qed.
    Lemma x_to_int_annotated e : (forall p c, sr eq (Eval ctx e p c) (Eval ctx' (xe e) p c)) -> forall p c, sr eq (eval_to_int_annotated ctx (Eval ctx) e p c) (eval_to_int_annotated ctx' (Eval ctx') (xe e) p c).
    Proof. intros H p c. unfold eval_to_int_annotated. pose proof (x_to_int e H p c) as [[H1 H2]|[H1 H2]]; destruct (eval_to_int ctx _ _ _ _) as [o1 c1], (eval_to_int ctx' _ _ _ _) as [o2 c2]; cbn [fst snd] in *; [left; split; [destruct o1, o2; cbn in *; auto|exact H2]|right; split; [exact H1|destruct H2 as [-> | ->]; [left|right]; reflexivity]]. Qed.
    Lemma x_cast_to t e v : near P eq (CastTo (ec_src ctx) t e v) (CastTo (ec_src ctx') t (xe e) v).
    Proof. unfold CastTo. rewrite Hs. destruct v; try (now apply x_runtime). destruct t; try (now apply x_runtime); apply sim_eq. Qed.
    Lemma x_eval e : forall p c, sr eq (Eval ctx e p c) (Eval ctx' (xe e) p c).
    Proof.
      assert (forall e r r', sr eq r r' -> sr eq (rbind r (fun v c => (DynamicTypeCheck (ec_src ctx) e v, c))) (rbind r' (fun v c => (DynamicTypeCheck (ec_src ctx') (xe e) v, c)))) as HD.
      { intros e0 r r' H. apply (sr_bind eq); [exact H|]. intros v ? c <-. apply sr_near. unfold DynamicTypeCheck. rewrite x_type, Hs. destruct (DynamicTypeOk _ _); [reflexivity|now apply x_runtime]. }
      induction e as [m b|m s|m n|m n|m a IH|m a IH|m a IH|m o l IHl r IHr|m g a IH|m n|m]; intros p c.
      - apply (HD (EBool m b)). apply sr_refl.
      - apply (HD (EInt m s)). apply sr_refl.
      - apply (HD (EKey m n)). destruct (ec_ctx ctx) as [a1 a2 a3|a1 a2 a3], (ec_ctx ctx') as [b1 b2 b3|b1 b2 b3]; try contradiction Hc; [|apply (x_fail eq (EKey m n))]. destruct Hc as [_ <-]. destruct (assoc_find _ _ _); [apply sr_refl|apply (x_fail eq (EKey m n))].
      - apply (HD (EParam m n)). destruct (ec_ctx ctx) as [a1 a2 a3|a1 a2 a3], (ec_ctx ctx') as [b1 b2 b3|b1 b2 b3]; try contradiction Hc; [apply (x_fail eq (EParam m n))|]. cbn [same_values] in Hc. subst b3. destruct (assoc_find _ _ _); [apply sr_refl|apply (x_fail eq (EParam m n))].
      - apply (HD (ENot m a)). apply (sr_bind eq); [now apply x_to_bool|]. intros v ? c0 <-. apply sr_refl.
      - apply (HD (ENeg m a)). apply (sr_bind eq); [now apply x_to_int|]. intros v ? c0 <-. apply sr_refl.
      - apply (HD (ECast m a)). apply (sr_bind eq); [apply IH|]. intros v ? c0 <-. apply sr_near, x_cast_to.
      - apply (HD (EBin m o l r)). destruct o; try apply sr_refl;
          try (apply (sr_bind eq); [apply IHl|]; intros v ? c0 <-; apply (sr_bind eq); [apply IHr|]; intros w ? c1 <-; apply sr_refl);
          try (apply (sr_bind eq); [now apply x_to_int_annotated|]; intros v ? c0 <-; apply (sr_bind eq); [now apply x_to_int_annotated|]; intros w ? c1 <-; apply sr_refl);
          (apply (sr_bind eq); [now apply x_to_bool|]; intros v ? c0 <-; cbv zeta; destruct v; try apply sr_refl; (apply (sr_bind eq); [now apply x_to_bool|]; intros w ? c1 <-; apply sr_refl)).
      - apply (HD (EField m g a)). apply (sr_bind eq); [apply IH|]. intros v ? c0 <-. destruct (EvalFieldAccess g v); [apply sr_refl|apply (x_fail eq (EField m g a))].
      - apply (HD (EAttr m n)). destruct (ec_ctx ctx) as [a1 a2 a3|a1 a2 a3], (ec_ctx ctx') as [b1 b2 b3|b1 b2 b3]; try contradiction Hc; [|apply (x_fail eq (EAttr m n))]. destruct Hc as [<- _]. destruct (String.eqb _ _); [apply sr_refl|apply (x_fail eq (EAttr m n))].
      - apply (HD (ENotSet m)). apply sr_refl.
    Qed.
    Lemma x_bool e p c : sr eq (EvalToBool ctx e p c) (EvalToBool ctx' (xe e) p c).
    Proof. apply x_to_bool. apply x_eval. Qed.
    Lemma x_size e : forall p c, Size (xe e) p c = Size e p c.
    Proof.
      induction e; intros p c; cbn [Size NameFacts.xe]; try reflexivity; destruct (match c with Some _ => _ | None => _ end); try reflexivity.
      - rewrite IHe. reflexivity.
      - rewrite IHe1. destruct (Size e1 _ _) as [[na| |] c1]; try reflexivity. rewrite IHe2. reflexivity.
    Qed.
    Definition er {A B} (R : A -> B -> Prop) (r : eres A) (r' : eres B) : Prop := similar R (fst (fst r)) (fst (fst r')) /\ snd (fst r) = snd (fst r') /\ snd r = snd r' \/ P /\ (fst (fst r) = Crash LengthError \/ fst (fst r') = Crash LengthError).
    Lemma er_bind {A A' B B'} (R : A -> A' -> Prop) (S : B -> B' -> Prop) r r' g g' : er R r r' -> (forall a a' c s, R a a' -> er S (g a c s) (g' a' c s)) -> er S (ebind r g) (ebind r' g').
    Proof.
      intros [(H1 & H2 & H3)|[H1 H2]] H4.
      - destruct r as [[[a| |] c] s], r' as [[[a'| |] c'] s']; cbn [fst snd similar ebind] in *; subst; try contradiction; try (left; cbn; auto; fail). now apply H4.
      - right. split; [exact H1|]. destruct r as [[o c] s], r' as [[o' c'] s']. cbn [fst] in H2. destruct H2 as [-> | ->]; [left|right]; reflexivity.
    Qed.
    Lemma er_eval {A B} (R : A -> B -> Prop) r r' s : sr R r r' -> er R (lift_eval r s) (lift_eval r' s).
    Proof. destruct r, r'. intros [[H1 H2]|H]; [left|right; exact H]. split; [exact H1|]. split; [exact H2|reflexivity]. Qed.
    Lemma er_refl {A} (r : eres A) : er eq r r.
    Proof. left. split; [destruct (fst (fst r)); reflexivity|split; reflexivity]. Qed.
    Definition xs (a b : expr * path) : Prop := b = (xe (fst a), snd a).
    Lemma er_ok e p c s : er xs (Ok (e, p), c, s) (Ok (xe e, p), c, s).
    Proof. left. split; [reflexivity|split; reflexivity]. Qed.
    Lemma x_minimal e : forall p c s, er xs (MinimalSubexpression ctx e p c s) (MinimalSubexpression ctx' (xe e) p c s).
    Proof.
      induction e as [m b|m z|m n|m n|m a IH|m a IH|m a IH|m o l IHl r IHr|m g a IH|m n|m]; intros p c s; try (left; split; [reflexivity|split; reflexivity]).
      - apply IH.
      - destruct o; try (left; split; [reflexivity|split; reflexivity]); cbn [MinimalSubexpression NameFacts.xe];
          (apply (er_bind eq); [apply er_eval, x_bool|]; intros bl ? c1 s1 <-; apply (er_bind eq); [apply er_eval, x_bool|]; intros br ? c2 s2 <-; cbv zeta;
           destruct bl, br; cbn [negb]; try (apply (er_ok (EBin m _ l r))); try apply IHl; try apply IHr;
           (apply (er_bind xs); [apply IHl|]; intros [x px] ? c3 s3 ->; apply (er_bind xs); [apply IHr|]; intros [y py] ? c4 s4 ->; cbn [fst snd];
            rewrite x_size; apply (er_bind eq); [apply er_refl|]; intros n0 ? c5 s5 <-; rewrite x_size; apply (er_bind eq); [apply er_refl|]; intros n1 ? c6 s6 <-; destruct (Z.leb _ _); apply er_ok)).
    Qed.
    Lemma x_check e : near P same_verdict (check_constraint ctx e) (check_constraint ctx' (xe e)).
    Proof.
      assert (forall A B (R : A -> B -> Prop) o o', P /\ (o = Crash LengthError \/ o' = Crash LengthError) -> near P R o o') as HL by (intros; apply near_iff; tauto).
      unfold check_constraint. pose proof (x_bool e [] (Some [])) as H. destruct (EvalToBool ctx e _ _) as [o c], (EvalToBool ctx' (xe e) _ _) as [o' c']. destruct H as [[H1 H2]|[H1 H2]]; cbn [fst snd] in *; [|apply HL; split; [exact H1|destruct H2 as [-> | ->]; [left|right]; reflexivity]]. subst c'.
      apply (sim_bind eq); [apply near_iff; now left|]. intros ok ? <-. destruct ok; [apply sim_refl; intros; unfold same_verdict; tauto|]. unfold ExplainConstraintViolation.
      pose proof (x_minimal e [] c (Some [])) as M. destruct (MinimalSubexpression ctx e _ _ _) as [[u cu] su], (MinimalSubexpression ctx' (xe e) _ _ _) as [[v cv] sv]. destruct M as [(M1 & M2 & M3)|[M1 M2]]; cbn [fst snd] in *; [|apply HL; split; [exact M1|destruct M2 as [-> | ->]; [left|right]; reflexivity]]. subst cv sv.
      apply (sim_bind xs); [apply near_iff; now left|]. intros [x p] ? ->. cbn [fst snd]. apply (sim_bind eq); [exact (near_sr _ _ _ (x_bool x p cu))|]. intros b ? <-. apply (sim_bind (fun _ _ => True)); [rewrite Hs, x_start, x_end; now apply x_sub|]. intros r r' _.
      cbn [near]. unfold same_verdict, violation_text. destruct (ec_ctx ctx), (ec_ctx ctx'); split; discriminate.
    Qed.
  End Evaluation.

  (** * Solver *)
  Lemma x_to_term c e r : near P eq (to_term c e r) (to_term (xc c) (xe e) r).
  Proof. destruct r; [now apply x_runtime|reflexivity]. Qed.
  Lemma x_symbolic env c e : near P eq (EvalSymbolically env c e) (EvalSymbolically env (xc c) (xe e)).
  Proof.
    induction e as [m b|m s|m n|m n|m a IH|m a IH|m a IH|m o l IHl r IHr|m g a IH|m n|m]; cbn [EvalSymbolically NameFacts.xe]; try apply sim_eq.
    - apply (sim_bind eq); [exact IH|]. intros x ? <-. apply (sim_bind eq); [apply x_to_term|]. intros t ? <-. apply sim_eq.
    - apply (sim_bind eq); [exact IH|]. intros x ? <-. apply (sim_bind eq); [apply x_to_term|]. intros t ? <-. apply sim_eq.
    - apply (sim_bind eq); [exact IH|]. intros x ? <-. apply (sim_bind eq); [apply x_to_term|]. intros t ? <-. apply sim_eq.
    - apply (sim_bind eq); [exact IHl|]. intros x ? <-. apply (sim_bind eq); [exact IHr|]. intros y ? <-. apply sim_eq.
    - rewrite x_key. apply sim_eq.
  Qed.
  Lemma x_evaluate env c e : near P eq (EvaluateConstraintSymbolically env c e) (EvaluateConstraintSymbolically env (xc c) (xe e)).
  Proof. unfold EvaluateConstraintSymbolically. rewrite x_type. destruct (negb _); [reflexivity|]. apply (sim_bind eq); [apply x_symbolic|]. intros r ? <-. apply x_to_term. Qed.
End Exchange.
