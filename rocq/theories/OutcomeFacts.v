(** Outcomes of single constraints. *)
From Coq Require Import String Ascii List ZArith NArith Bool Lia Sorted.
From Verif Require Import Base Num Token Ast Lexer Quote AstConstructors Parser Info TypeChecker ConstraintInfo Interpreter SpecLexer SpecGrammar SpecParser SpecTyping SpecSemantics SpecInfo SpecExplain SpecCrash SpecReading SpecOutcome
  StrFacts NumFacts LiteralFacts ParserFacts4 TypeFacts EvalFacts SemFacts SemFacts2 EntryFacts EntryFacts2 ExplainFacts ExplainFacts2 VerdictFacts InfoFacts InfoFacts2 InterpFacts InterpFacts2 ReadingFacts ReadingFacts2 CrashFacts.
Import ListNotations.
Open Scope string_scope.

(** * Failures of evaluation *)
Lemma bind_err {A B} (o : outcome A) (f : A -> outcome B) c m : bind o f = Err c m -> o = Err c m \/ exists a, o = Ok a /\ f a = Err c m.
Proof. destruct o; cbn; [eauto|intros H; left; congruence|discriminate]. Qed.
Lemma annotate_err {A} (o : outcome A) s c m : annotate o s = Err c m -> exists m', o = Err c m'.
Proof. destruct o as [a|k t|w]; cbn; [discriminate| |discriminate]. intros [= <- _]. eauto. Qed.
Lemma quoted_err {A} l src a b t c m : @QuotedError A Internal l src a b t = Err c m -> c = Internal.
Proof. unfold QuotedError. destruct (QuoteSubConstraint src a b); congruence. Qed.
Lemma run_err {A} src e t c m : @RuntimeTypeError A src e t = Err c m -> c = Internal.
Proof. apply quoted_err. Qed.
Section E.
  Variable ctx : eval_context.
  Lemma as_bool_err e v c m : as_bool ctx e v = Err c m -> c = Internal.
  Proof. destruct v; cbn; try discriminate; apply run_err. Qed.
  Lemma as_int_err e v c m : as_int ctx e v = Err c m -> c = Internal.
  Proof. destruct v; cbn; try discriminate; apply run_err. Qed.
  Lemma cast_err src t e v c m : CastTo src t e v = Err c m -> c = Internal.
  Proof. unfold CastTo, shl1. destruct v; try apply run_err. destruct t; try apply run_err; try discriminate; destruct (Z.ltb _ 0); discriminate. Qed.
  Lemma ev_err G e : Annotated G e -> forall c m, ev ctx e = Err c m -> c = Internal.
  Proof.
    induction 1 as [m b Ht|m s Ht|keys' m n Hk Hd Hu|params m n Hk Hd Hu|m Ht|m e Ht H IH He|m e Ht H IH He|m e H IH Hs H1 H2|m o a b Ht Ho Ha IHa Hb IHb Hta Htb
    |m o a b Ht Ho Ha IHa Hb IHb Hta|m o a b Ht Ho Ha IHa Hb IHb Hta Hor|m f e H IH Hf]; intros c mm E; cbn [ev] in E; apply bind_err in E as [E|(v & _ & E)];
      try (unfold DynamicTypeCheck in E; destruct (DynamicTypeOk _ v); [discriminate|now apply run_err in E]).
    - discriminate.
    - destruct (mpz_set_str s 10); congruence.
    - destruct (ec_ctx ctx) as [nm pr ks|]; [|now apply run_err in E]. destruct (assoc_find String.eqb n ks); [discriminate|now apply run_err in E].
    - destruct (ec_ctx ctx) as [nm pr ks|id nm ps]; [now apply run_err in E|]. destruct (assoc_find String.eqb n ps); [discriminate|now apply run_err in E].
    - destruct (ec_ctx ctx) as [nm pr ks|id nm ps]; [|now apply run_err in E]. discriminate.
    - apply bind_err in E as [E|(v & _ & E)]; [eauto|]. apply bind_err in E as [E|(v' & _ & E)]; [now apply as_bool_err in E|discriminate].
    - apply bind_err in E as [E|(v & _ & E)]; [eauto|]. apply bind_err in E as [E|(v' & _ & E)]; [now apply as_int_err in E|discriminate].
    - apply bind_err in E as [E|(v & _ & E)]; [eauto|]. now apply cast_err in E.
    - assert (forall x, (forall c m, ev ctx x = Err c m -> c = Internal) -> (let* v := ev ctx x in as_bool ctx x v) = Err c mm -> c = Internal) as Hx.
      { intros x IHx Ex. apply bind_err in Ex as [Ex|(v & _ & Ex)]; [eauto|now apply as_bool_err in Ex]. }
      destruct Ho; (apply bind_err in E as [E|(bl & _ & E)]; [now apply (Hx a IHa) in E|]); destruct bl; try discriminate; (apply bind_err in E as [E|(br & _ & E)]; [now apply (Hx b IHb) in E|discriminate]).
    - destruct Ho; (apply bind_err in E as [E|(vl & _ & E)]; [eauto|]); (apply bind_err in E as [E|(vr & _ & E)]; [eauto|discriminate]).
    - assert (forall x, (forall c m, ev ctx x = Err c m -> c = Internal) -> annotate (let* v := ev ctx x in as_int ctx x v) " in ordered comparison" = Err c mm -> c = Internal) as Hx.
      { intros x IHx Ex. apply annotate_err in Ex as [m' Ex]. apply bind_err in Ex as [Ex|(v & _ & Ex)]; [eauto|now apply as_int_err in Ex]. }
      destruct Ho; (apply bind_err in E as [E|(bl & _ & E)]; [now apply (Hx a IHa) in E|]); (apply bind_err in E as [E|(br & _ & E)]; [now apply (Hx b IHb) in E|discriminate]).
    - apply bind_err in E as [E|(v & _ & E)]; [eauto|]. destruct (EvalFieldAccess f v); [discriminate|now apply run_err in E].
  Qed.
  Lemma ev_bool_err G e c m : Annotated G e -> ev_bool ctx e = Err c m -> c = Internal.
  Proof. intros Ha E. unfold ev_bool in E. apply bind_err in E as [E|(v & _ & E)]; [eapply ev_err; eauto|now apply as_bool_err in E]. Qed.
End E.
Lemma size_err e c m : size e = Err c m -> c = InvalidArgument.
Proof.
  revert c m. induction e; cbn [size]; intros c mm E; try discriminate; try congruence.
  - apply bind_err in E as [E|(? & _ & E)]; [eauto|discriminate].
  - apply bind_err in E as [E|(? & _ & E)]; [eauto|]. apply bind_err in E as [E|(? & _ & E)]; [eauto|discriminate].
Qed.

(** * Explanations, as a function of the truth values *)
Section X.
  Variable holds : expr -> bool -> Prop.
  Hypothesis Hfun : forall e x y, holds e x -> holds e y -> x = y.
  Lemma conn_cmp o : connective o -> comparison o -> False.
  Proof. apply conn_not_comparison. Qed.
  Lemma explained_fun e s : Explained holds e s -> forall s', Explained holds e s' -> s = s'.
  Proof.
    induction 1 as [m b|m o a b Hc|m e s H IH|m o a b x y Hc Ha Hb Nl Nr|m o a b x y s Hc Ha Hb Dl Nr H IH|m o a b x y s Hc Ha Hb Nl Dr H IH
      |m o a b x y s t i j Hc Ha Hb Dl Dr H IH H2 IH2 Hi Hj Hle|m o a b x y s t i j Hc Ha Hb Dl Dr H IH H2 IH2 Hi Hj Hlt]; intros s' H'; inversion H'; subst;
      try reflexivity; try (exfalso; eapply conn_cmp; eassumption); auto;
      repeat match goal with A : holds ?e ?u, B : holds ?e ?v |- _ => lazymatch u with v => fail | _ => pose proof (Hfun _ _ _ A B); subst end end; try contradiction; auto;
      repeat match goal with IH : forall s', Explained holds ?e s' -> ?s = s', A : Explained holds ?e ?t |- _ => pose proof (IH _ A); subst; clear A end;
      repeat match goal with A : Nodes ?e ?u, B : Nodes ?e ?v |- _ => lazymatch u with v => fail | _ => pose proof (Nodes_fun _ _ _ A B); subst end end; try lia; auto.
  Qed.
  Lemma explained_not e s : Explained holds e s -> forall c, ~ Unexplained holds e c.
  Proof.
    induction 1 as [m b|m o a b Hc|m e s H IH|m o a b x y Hc Ha Hb Nl Nr|m o a b x y s Hc Ha Hb Dl Nr H IH|m o a b x y s Hc Ha Hb Nl Dr H IH
      |m o a b x y s t i j Hc Ha Hb Dl Dr H IH H2 IH2 Hi Hj Hle|m o a b x y s t i j Hc Ha Hb Dl Dr H IH H2 IH2 Hi Hj Hlt]; intros c0 H'; inversion H'; subst;
      try (eapply conn_cmp; eassumption); try (eapply IH; eassumption); try (eapply IH2; eassumption);
      repeat match goal with A : holds ?e ?u, B : holds ?e ?v |- _ => lazymatch u with v => fail | _ => pose proof (Hfun _ _ _ A B); subst end end; try contradiction;
      try (match goal with A : forall y, ~ holds ?b y, B : holds ?b _ |- _ => exact (A _ B) end); try (eapply IH; eassumption); try (eapply IH2; eassumption).
    - match goal with A : ~ (exists i j, _) |- _ => apply A end. match goal with A : Explained _ a ?u, B : Explained _ b ?v |- exists i j, Nodes ?w i /\ Nodes ?z j => idtac end.
      repeat match goal with A : Explained holds ?e ?u, B : Explained holds ?e ?v |- _ => lazymatch u with v => fail | _ => pose proof (explained_fun _ _ A _ B); subst; clear B end end. eauto.
    - match goal with A : ~ (exists i j, _) |- _ => apply A end.
      repeat match goal with A : Explained holds ?e ?u, B : Explained holds ?e ?v |- _ => lazymatch u with v => fail | _ => pose proof (explained_fun _ _ A _ B); subst; clear B end end. eauto.
  Qed.
  Lemma unexplained_fun e c : Unexplained holds e c -> forall c', Unexplained holds e c' -> c = c'.
  Proof.
    induction 1 as [m e c H IH|m o a b x Hc Ha Hn|m o a b x y c Hc Ha Hb Dl H IH|m o a b x y c Hc Ha Hb Nl Dr H IH|m o a b x y s c Hc Ha Hb Dl Dr H H2 IH2|m o a b x y s t Hc Ha Hb Dl Dr H H2 Hs];
      intros c0 H'; inversion H'; subst; auto;
      repeat match goal with A : holds ?e ?u, B : holds ?e ?v |- _ => lazymatch u with v => fail | _ => pose proof (Hfun _ _ _ A B); subst end end; try contradiction; auto;
      try (exfalso; match goal with A : forall y, ~ holds ?b y, B : holds ?b _ |- _ => exact (A _ B) end);
      try (exfalso; match goal with A : Explained holds ?e _, B : Unexplained holds ?e _ |- _ => exact (explained_not _ _ A _ B) end).
  Qed.
  Variable holds' : expr -> bool -> Prop.
  Hypothesis Hext : forall e x, holds e x <-> holds' e x.
  Lemma explained_ext e s : Explained holds e s -> Explained holds' e s.
  Proof.
    induction 1; try solve [econstructor; eauto; apply Hext; eauto].
  Qed.
  Lemma unexplained_ext e s : Unexplained holds e s -> Unexplained holds' e s.
  Proof.
    induction 1.
    - now constructor.
    - eapply ux_value; [assumption|apply Hext; eassumption|]. intros y Hy. apply Hext in Hy. match goal with A : forall y, ~ _ |- _ => exact (A _ Hy) end.
    - eapply ux_left; eauto; apply Hext; eauto.
    - eapply ux_right; eauto; apply Hext; eauto.
    - eapply ux_right_too; eauto using explained_ext; apply Hext; eauto.
    - eapply ux_size; eauto using explained_ext; apply Hext; eauto.
  Qed.
  Lemma judged_ext (rep rep' : expr -> bool -> string -> Prop) e v : (forall s x t, rep s x t -> rep' s x t) -> Judged holds rep e v -> Judged holds' rep' e v.
  Proof.
    intros Hr [H|s x t H Hx Hs Ht|c H Hu|H].
    - apply jd_true. now apply Hext.
    - eapply jd_false; [now apply Hext|apply explained_ext; exact Hx|apply Hext; exact Hs|auto].
    - apply jd_unexplained; [now apply Hext|now apply unexplained_ext].
    - apply jd_none. intros x Hx. apply Hext in Hx. exact (H _ Hx).
  Qed.
End X.
