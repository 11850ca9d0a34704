(** Rewriting action constraints: by renaming parameters to keys. *)
From Coq Require Import String Ascii List ZArith NArith Bool Lia.
From Verif Require Import Base Num Token Ast AstConstructors Parser Info TypeChecker Interpreter Z3 Symbolic SpecLexer SpecGrammar SpecTyping TypeFacts SpecSemantics SpecInfo SpecMisc SpecLaws SpecSymbolic SpecSolver SpecReading EvalFacts SemFacts SemFacts2 ReadingFacts LawFacts CombineFacts.
Import ListNotations.
Open Scope string_scope.

Fixpoint swap (e : expr) : expr :=
  match e with
  | EKey m n => EParam m n
  | EParam m n => EKey m n
  | ENot m a => ENot m (swap a)
  | ENeg m a => ENeg m (swap a)
  | ECast m a => ECast m (swap a)
  | EBin m o a b => EBin m o (swap a) (swap b)
  | EField m f a => EField m f (swap a)
  | _ => e
  end.
Lemma swap_law a b : Law a b -> Law (swap a) (swap b).
Proof. intros H. destruct H; cbn [swap]; constructor. Qed.
Lemma swap_alike a b : Alike a b -> Alike (swap a) (swap b).
Proof. intros H. induction H; cbn [swap]; constructor; assumption. Qed.
Lemma swap_literals a : literals a -> literals (swap a).
Proof. induction a; cbn [swap literals]; intros H; auto. destruct H. auto. Qed.
Lemma swap_typed ps a t : Typed (InAction ps) a t <-> Typed (InTable ps) (swap a) t.
Proof.
  revert t. induction a; intros t; cbn [swap]; split; intros H; inversion H; subst; try discriminate; repeat match goal with E : InAction _ = InAction _ |- _ => injection E as <- | E : InTable _ = InTable _ |- _ => injection E as <- end;
    try solve [econstructor; try eassumption; try reflexivity; match goal with IH : forall t, _ <-> _ |- _ => apply IH; assumption end].
Qed.
Lemma swap_rewrites ps a b : Rewrites (InAction ps) a b -> Rewrites (InTable ps) (swap a) (swap b).
Proof.
  intros H. induction H; cbn [swap].
  - apply rw_law; [now apply swap_law|now apply swap_typed|now apply swap_typed|now apply swap_literals|now apply swap_literals].
  - apply rw_alike. now apply swap_alike.
  - now apply rw_sym.
  - eapply rw_trans; eassumption.
  - now apply rw_not.
  - now apply rw_bin.
Qed.
Definition as_keys (param : string -> option Z) (p : Z) : env := TableEnv (fun n => option_map VInt (param n)) p.
Lemma swap_env ps param p : env_ok (InAction ps) (ActionEnv param) -> env_ok (InTable ps) (as_keys param p).
Proof.
  intros H. inversion H as [|? ? H1 H2 E1 E2]; subst. constructor; [|exact H2]. intros n t Hd Hu. destruct (H1 n t Hd Hu) as (z & Hz & Ht). exists (VInt z). rewrite Hz. auto.
Qed.
Lemma swap_den ps param p a v : Den (InAction ps) (ActionEnv param) a v -> Den (InTable ps) (as_keys param p) (swap a) v.
Proof.
  intros H. remember (ActionEnv param) as r eqn:Er. induction H; subst; try discriminate; cbn [swap].
  - constructor.
  - now constructor.
  - injection H as <-. eapply sem_key; [reflexivity|]. cbv beta. now rewrite H0.
  - apply sem_not. auto.
  - apply sem_neg. auto.
  - eapply sem_left; eauto.
  - apply sem_both; auto.
  - eapply sem_compare; try eassumption; try (apply swap_typed; eassumption); auto.
  - eapply sem_field; eauto.
Qed.
Lemma den_swap ps param p a v : ~ has_attribute a -> Den (InTable ps) (as_keys param p) (swap a) v -> Den (InAction ps) (ActionEnv param) a v.
Proof.
  revert v. induction a as [m b|m s|m n|m n|m a IH|m a IH|m a IH|m o a IHa b IHb|m f a IH|m n|m]; intros v Hn H; cbn [swap] in H; inversion H; subst; try discriminate.
  - constructor.
  - now constructor.
  - match goal with E : as_keys _ _ = TableEnv _ _ |- _ => injection E as <- <- end. destruct (param n) as [z|] eqn:E; [|discriminate]. match goal with E : option_map _ _ = Some _ |- _ => injection E as <- end. eapply sem_param; eauto.
  - apply sem_not. apply IH; [|assumption]. intros Hx. apply Hn. now constructor.
  - apply sem_neg. apply IH; [|assumption]. intros Hx. apply Hn. now constructor.
  - eapply sem_left; try eassumption. apply IHa; [|assumption]. intros Hx. apply Hn. now apply ha_left.
  - apply sem_both; [assumption|apply IHa; [|assumption]|apply IHb; [|assumption]]; intros Hx; apply Hn; [now apply ha_left|now apply ha_right].
  - eapply sem_compare; try eassumption; try (apply swap_typed; eassumption); [apply IHa; [|assumption]|apply IHb; [|assumption]]; intros Hx; apply Hn; [now apply ha_left|now apply ha_right].
  - eapply sem_field; [|eassumption]. apply IH; [|assumption]. intros Hx. apply Hn. now constructor.
  - exfalso. apply Hn. constructor.
Qed.
(** Types are preserved, whatever the widths. *)
Lemma rewrites_types keys e f : NoDup (map fst keys) -> Rewrites (InTable keys) e f -> forall t, Typed (InTable keys) e t <-> Typed (InTable keys) f t.
Proof.
  intros HN H. induction H as [a b HL Ta Tb La Lb|a b HA|a b H IH|a b c H1 IH1 H2 IH2|m n a b H IH|m n o a b c d H1 IH1 H2 IH2]; intros t.
  - split; intros Ht.
    + rewrite (typed_fun _ _ _ (scope_witness keys HN) _ _ _ Ht Ta). exact Tb.
    + rewrite (typed_fun _ _ _ (scope_witness keys HN) _ _ _ Ht Tb). exact Ta.
  - pose proof (alike_sym _ _ HA) as HA'. split; intros; eauto using typed_alike.
  - symmetry. apply IH.
  - rewrite IH1. apply IH2.
  - split; intros Hx; inversion Hx; subst; constructor; now apply IH.
  - split; intros Hx; inversion Hx; subst; econstructor; try eassumption; first [now apply IH1|now apply IH2].
Qed.
Lemma rewrites_types_action ps e f : NoDup (map fst ps) -> Rewrites (InAction ps) e f -> forall t, Typed (InAction ps) e t <-> Typed (InAction ps) f t.
Proof. intros HN H t. rewrite !swap_typed. now apply rewrites_types, swap_rewrites. Qed.
Lemma rewrites_sound_action ps param e f : NoDup (map fst ps) -> env_ok (InAction ps) (ActionEnv param) -> Rewrites (InAction ps) e f -> ~ has_attribute f ->
  forall v, Den (InAction ps) (ActionEnv param) e v -> Den (InAction ps) (ActionEnv param) f v.
Proof.
  intros HN HR H Hf v Hv. apply (den_swap _ _ 0); [exact Hf|]. destruct (rewrites_sound ps (as_keys param 0) _ _ HN (swap_env _ _ 0 HR) (swap_rewrites _ _ _ H)) as [_ HD]. apply HD. now apply swap_den.
Qed.
(** Without ordered comparisons of exact values the checker's reading is the documented one. *)
Lemma den_unordered G r e v : ~ orders_exact G e -> Den G r e v -> Meant unordered_exact G r e v.
Proof.
  intros Hn H. induction H; try solve [econstructor; try eassumption; match goal with IH : ~ orders_exact _ _ -> _ |- _ => apply IH; intros Hx; apply Hn; econstructor; exact Hx end].
  eapply mn_compare; try eassumption; [eapply comparable_comparison; eassumption|apply IHDen1; intros Hx; apply Hn; now apply oe_left|apply IHDen2; intros Hx; apply Hn; now apply oe_right|].
    split; [split; assumption|]. intros [Ho [w ->]]. apply Hn. eapply oe_here; eassumption.
Qed.
