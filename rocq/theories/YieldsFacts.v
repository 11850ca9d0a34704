(** Evaluation of arbitrary constraint trees. *)
From Coq Require Import String List ZArith Bool Lia.
From Verif Require Import Base Num Token Ast Quote Info TypeChecker Interpreter LiteralFacts SpecParser SpecTyping SpecSemantics SpecYields EvalFacts SemFacts SemFacts2 CrashFacts.
Import ListNotations.
Open Scope string_scope.

Lemma run_not_ok {A} src e t (x : A) : RuntimeTypeError src e t <> Ok x.
Proof. unfold RuntimeTypeError, QuotedError. destruct (QuoteSubConstraint _ _ _); discriminate. Qed.
Lemma becomes_iff src m a z v : CastTo src (m_type m) a (VInt z) = Ok v <-> becomes z (m_type m) v.
Proof.
  assert (forall t (x : value), RuntimeTypeError src a t <> Ok x) as Hq by (intros t x; apply run_not_ok).
  unfold CastTo. destruct (m_type m) as [| | | |w|w|w|w|w|w|]; try (split; [intros H; now apply Hq in H|intros H; inversion H]); unfold shl1.
  - destruct (Z.ltb_spec w 0) as [Hw|Hw]; cbn [bind].
    + split; [discriminate|intros H; inversion H; lia].
    + assert ((if (Z.rem z (2 ^ w) <? 0)%Z then Z.rem z (2 ^ w) + 2 ^ w else Z.rem z (2 ^ w))%Z = (z mod 2 ^ w)%Z) as ->.
      { assert (0 < 2 ^ w)%Z as Hp by (apply Z.pow_pos_nonneg; lia). pose proof (Z.quot_rem' z (2 ^ w)) as E. pose proof (Z.rem_bound_abs z (2 ^ w) ltac:(lia)) as Hb. rewrite (Z.abs_eq (2 ^ w)) in Hb by lia.
        destruct (Z.ltb_spec (Z.rem z (2 ^ w)) 0); [apply (Z.mod_unique _ _ (Z.quot z (2 ^ w) - 1))|apply (Z.mod_unique _ _ (Z.quot z (2 ^ w)))]; lia. }
      split; [intros H; apply Ok_inj in H as <-; now constructor|intros H; inversion H; reflexivity].
  - split; [intros H; apply Ok_inj in H as <-; constructor|intros H; inversion H; reflexivity].
  - destruct (Z.ltb_spec w 0) as [Hw|Hw]; cbn [bind]; split; try discriminate; [intros H; inversion H; lia|intros H; apply Ok_inj in H as <-; now constructor|intros H; inversion H; reflexivity].
  - split; [intros H; apply Ok_inj in H as <-; constructor|intros H; inversion H; reflexivity].
  - split; [intros H; apply Ok_inj in H as <-; constructor|intros H; inversion H; reflexivity].
  - destruct (Z.ltb_spec w 0) as [Hw|Hw]; cbn [bind]; split; try discriminate; [intros H; inversion H; lia|intros H; apply Ok_inj in H as <-; now constructor|intros H; inversion H; reflexivity].
Qed.
Lemma becomes_type z t v : becomes z t v -> of_type t v.
Proof. destruct 1; constructor. Qed.
Lemma cast_int src t a u v : CastTo src t a u = Ok v -> exists z, u = VInt z.
Proof. unfold CastTo. destruct u; intros H; try (now apply run_not_ok in H). eauto. Qed.
Lemma binop_cases o : (equality o \/ ordering o) \/ (o = OAND \/ o = OOR \/ o = OIMPLIES) \/ o = UNKNOWN_OPERATOR.
Proof. destruct o; try (left; left; constructor); try (left; right; constructor); auto 10. Qed.

Section Ctx.
  Variable ctx : eval_context.
  Notation src := (ec_src ctx).
  Notation r := (env_of ctx).
  Lemma ev_yields e : forall v, ev ctx e = Ok v -> Yields r e v.
  Proof.
    induction e as [m b|m s|m n|m n|m e IH|m e IH|m e IH|m o a IHa b IHb|m f e IH|m n|m]; intros v H; cbn [ev] in H; apply bind_ok in H as (u & Hu & H); apply dyn_ok in H as [Ht <-]; cbn [e_type emeta] in Ht.
    - apply Ok_inj in Hu as <-. now constructor.
    - destruct (mpz_set_str s 10) as [z|] eqn:E; [|discriminate]. apply Ok_inj in Hu as <-. econstructor; eassumption.
    - unfold env_of. destruct (ec_ctx ctx) as [name p keys|i name ps]; [|now apply run_not_ok in Hu]. destruct (assoc_find String.eqb n keys) as [x|] eqn:E; [|now apply run_not_ok in Hu].
      apply Ok_inj in Hu as <-. eapply yi_key; [reflexivity|exact E|exact Ht].
    - unfold env_of. destruct (ec_ctx ctx) as [name p keys|i name ps]; [now apply run_not_ok in Hu|]. destruct (assoc_find String.eqb n ps) as [x|] eqn:E; [|now apply run_not_ok in Hu].
      apply Ok_inj in Hu as <-. eapply yi_param; [reflexivity|exact E|exact Ht].
    - apply bind_ok in Hu as (x & Hx & Hu). apply bind_ok in Hu as (b & Hb & Hu). apply as_bool_ok in Hb as ->. apply Ok_inj in Hu as <-. apply yi_not; [exact (IH _ Hx)|exact Ht].
    - apply bind_ok in Hu as (x & Hx & Hu). apply bind_ok in Hu as (z & Hb & Hu). apply as_int_ok in Hb as ->. apply Ok_inj in Hu as <-. apply yi_neg; [exact (IH _ Hx)|exact Ht].
    - apply bind_ok in Hu as (x & Hx & Hu). destruct (cast_int _ _ _ _ _ Hu) as [z ->]. apply becomes_iff in Hu. eapply yi_cast; [exact (IH _ Hx)|exact Hu].
    - destruct (binop_cases o) as [[Ho|Ho]|[Ho|Ho]].
      + assert (exists x y, ev ctx a = Ok x /\ ev ctx b = Ok y /\ u = VBool (match o with OEQ => value_eqb x y | _ => negb (value_eqb x y) end)) as (x & y & Hx & Hy & ->).
        { destruct Ho; apply bind_ok in Hu as (x & Hx & Hu); apply bind_ok in Hu as (y & Hy & Hu); apply Ok_inj in Hu as <-; exists x, y; auto. }
        eapply yi_eq; [exact Ho|exact (IHa _ Hx)|exact (IHb _ Hy)| |exact Ht]. now apply eq_iff.
      + assert (exists x y, ev ctx a = Ok (VInt x) /\ ev ctx b = Ok (VInt y) /\ u = VBool (ordered o x y)) as (x & y & Hx & Hy & ->).
        { destruct Ho; apply bind_ok in Hu as (x & Hx & Hu); apply bind_ok in Hu as (y & Hy & Hu); apply Ok_inj in Hu as <-; exists x, y; apply annotate_ok in Hx, Hy; apply ev_int_ok in Hx, Hy; auto. }
        eapply yi_ord; [exact Ho|exact (IHa _ Hx)|exact (IHb _ Hy)| |exact Ht]. now apply ordered_iff.
      + assert (exists x, ev ctx a = Ok (VBool x) /\ ((exists y, settled o x y /\ u = VBool y) \/ left_open o x /\ exists y, ev ctx b = Ok (VBool y) /\ u = VBool y)) as (x & Hx & [(y & Hs & ->)|(Hl & y & Hy & ->)]).
        { destruct Ho as [-> |[-> | ->]]; apply bind_ok in Hu as (x & Hx & Hu); apply ev_bool_ok in Hx; exists x; (split; [exact Hx|]); destruct x;
            first [apply Ok_inj in Hu as <-; left; eexists; split; [constructor|reflexivity]|right; split; [constructor|]; apply bind_ok in Hu as (y & Hy & Hu); apply ev_bool_ok in Hy; apply Ok_inj in Hu as <-; eauto]. }
        * eapply yi_left; [exact (IHa _ Hx)|exact Hs|exact Ht].
        * eapply yi_right; [exact (IHa _ Hx)|exact Hl|exact (IHb _ Hy)|exact Ht].
      + subst o. discriminate.
    - apply bind_ok in Hu as (x & Hx & Hu). destruct (EvalFieldAccess f x) as [y|] eqn:E; [|now apply run_not_ok in Hu]. apply Ok_inj in Hu as <-. apply field_ok in E as (z & Hf & ->).
      eapply yi_field; [exact (IH _ Hx)|exact Hf|exact Ht].
    - unfold env_of. destruct (ec_ctx ctx) as [name p keys|i name ps]; [|now apply run_not_ok in Hu]. destruct (String.eqb_spec n "priority") as [->|]; [|now apply run_not_ok in Hu].
      apply Ok_inj in Hu as <-. eapply yi_attr; [reflexivity|exact Ht].
    - discriminate.
  Qed.
  Lemma bool_eq (x y : bool) : (x = true <-> y = true) -> x = y.
  Proof. destruct x, y; intuition. Qed.
  Lemma yields_ev e v : Yields r e v -> ev ctx e = Ok v.
  Proof.
    induction 1 as [m b Ht|m s z Hz Ht|m n v key p Hr Hk Ht|m n z param Hr Hk Ht|m key p Hr Ht|m e b _ IH Ht|m e z _ IH Ht|m e z v _ IH Hb
      |m o a b u v x Ho _ IHa _ IHb Hx Ht|m o a b u v x Ho _ IHa _ IHb Hx Ht|m o a b x y _ IHa Hs Ht|m o a b x y _ IHa Hl _ IHb Ht|m f e v z _ IH Hf Ht]; cbn [ev]; apply bind_ok.
    - eexists. split; [reflexivity|]. apply dyn_ok. auto.
    - rewrite Hz. eexists. split; [reflexivity|]. apply dyn_ok. auto.
    - unfold env_of in Hr. destruct (ec_ctx ctx) as [name p' keys|i name ps]; [|discriminate]. injection Hr as <- <-. rewrite Hk. eexists. split; [reflexivity|]. apply dyn_ok. auto.
    - unfold env_of in Hr. destruct (ec_ctx ctx) as [name p' keys|i name ps]; [discriminate|]. injection Hr as <-. rewrite Hk. eexists. split; [reflexivity|]. apply dyn_ok. auto.
    - unfold env_of in Hr. destruct (ec_ctx ctx) as [name p' keys|i name ps]; [|discriminate]. injection Hr as <- <-. eexists. split; [reflexivity|]. apply dyn_ok. auto.
    - rewrite IH. eexists. split; [reflexivity|]. apply dyn_ok. auto.
    - rewrite IH. eexists. split; [reflexivity|]. apply dyn_ok. auto.
    - rewrite IH. exists v. split; [cbn [bind]; now apply becomes_iff|]. apply dyn_ok. split; [exact (becomes_type _ _ _ Hb)|reflexivity].
    - assert (x = match o with OEQ => value_eqb u v | _ => negb (value_eqb u v) end) as -> by (apply bool_eq; rewrite Hx; symmetry; now apply eq_iff).
      exists (VBool (match o with OEQ => value_eqb u v | _ => negb (value_eqb u v) end)). split; [|apply dyn_ok; auto]. destruct Ho; rewrite IHa, IHb; reflexivity.
    - assert (x = ordered o u v) as -> by (apply bool_eq; rewrite Hx; symmetry; now apply ordered_iff).
      exists (VBool (ordered o u v)). split; [|apply dyn_ok; auto]. destruct Ho; rewrite IHa, IHb; reflexivity.
    - exists (VBool y). split; [|apply dyn_ok; auto]. destruct Hs; rewrite IHa; reflexivity.
    - exists (VBool y). split; [|apply dyn_ok; auto]. destruct Hl; rewrite IHa, IHb; reflexivity.
    - rewrite IH. exists (VInt z). split; [|apply dyn_ok; auto]. cbn [bind]. assert (EvalFieldAccess f v = inl (VInt z)) as -> by (apply field_ok; eauto). reflexivity.
  Qed.
  (** Error codes. *)
  Definition unset_in (e : expr) : Prop := exists m, sub (ENotSet m) e.
  Definition code_ok (e : expr) (c : code) : Prop := c = Internal \/ c = InvalidArgument /\ unset_in e.
  Lemma code_mono e e' c : (forall s, sub s e -> sub s e') -> code_ok e c -> code_ok e' c.
  Proof. intros H [->|(-> & m & Hm)]; [now left|]. right. split; [reflexivity|]. exists m. auto. Qed.
  Lemma run_err {A} e t c m : @RuntimeTypeError A src e t = Err c m -> c = Internal.
  Proof. unfold RuntimeTypeError, QuotedError. destruct (QuoteSubConstraint _ _ _); congruence. Qed.
  Lemma bind_err {A B} (o : outcome A) (f : A -> outcome B) c m : bind o f = Err c m -> o = Err c m \/ exists a, o = Ok a /\ f a = Err c m.
  Proof. destruct o; cbn; intros H; [right; eauto|left; congruence|discriminate]. Qed.
  Lemma annotate_err {A} (o : outcome A) s c m : annotate o s = Err c m -> exists m', o = Err c m'.
  Proof. destruct o; cbn; intros H; try discriminate. injection H as <- _. eauto. Qed.
  Lemma ev_err e : forall c m, ev ctx e = Err c m -> code_ok e c.
  Proof.
    assert (forall e v c m, as_bool ctx e v = Err c m -> c = Internal) as Hab by (intros x v c m; unfold as_bool; destruct v; try discriminate; apply run_err).
    assert (forall e v c m, as_int ctx e v = Err c m -> c = Internal) as Hai by (intros x v c m; unfold as_int; destruct v; try discriminate; apply run_err).
    assert (forall t e v c m, CastTo src t e v = Err c m -> c = Internal) as Hct.
    { intros t x v c m. unfold CastTo. destruct v; try apply run_err. destruct t; try apply run_err; try discriminate; unfold shl1; destruct (w <? 0)%Z; discriminate. }
    induction e as [mm b|mm s|mm n|mm n|mm e IH|mm e IH|mm e IH|mm o l IHl r IHr|mm f e IH|mm n|mm]; intros c m H; cbn [ev] in H;
      apply bind_err in H as [H|(v & _ & H)];
      try (unfold DynamicTypeCheck in H; destruct (DynamicTypeOk _ _); [discriminate|left; now apply run_err in H]).
    11: { injection H as <- _. right. split; [reflexivity|]. exists mm. constructor. }
    all: repeat match type of H with
      | bind _ _ = Err _ _ => apply bind_err in H as [H|(? & ? & H)]
      | annotate _ _ = Err _ _ => apply annotate_err in H as [? H]
      | as_bool _ _ _ = Err _ _ => left; exact (Hab _ _ _ _ H)
      | as_int _ _ _ = Err _ _ => left; exact (Hai _ _ _ _ H)
      | CastTo _ _ _ _ = Err _ _ => left; exact (Hct _ _ _ _ _ H)
      | ev _ ?x = Err _ _ => match goal with IH' : forall c m, ev _ x = Err c m -> _ |- _ => apply IH' in H end
      | RuntimeTypeError _ _ _ = Err _ _ => left; exact (run_err _ _ _ _ H)
      | Err _ _ = Err _ _ => injection H as <- _; now left
      | context [match ?x with _ => _ end] => destruct x eqn:?; try discriminate H
      end; try discriminate H; try (now left).
    all: try (revert H; apply code_mono; intros; constructor; assumption).
    all: try (revert H; apply code_mono; intros; now apply sub_right).
  Qed.
End Ctx.
Lemma provides_iff ctx r : provides (ec_ctx ctx) r -> r = env_of ctx.
Proof. unfold env_of. intros H. destruct (ec_ctx ctx); inversion H; reflexivity. Qed.
Lemma ev_bool_err ctx e c m : ev_bool ctx e = Err c m -> code_ok e c.
Proof. intros H. apply bind_err in H as [H|(v & _ & H)]; [exact (ev_err ctx e c m H)|]. unfold as_bool in H. destruct v; try discriminate; left; exact (run_err ctx _ _ _ _ H). Qed.
Lemma size_err e c m : size e = Err c m -> c = InvalidArgument /\ exists s, sub s e /\ ((exists m n, s = EParam m n) \/ exists m, s = ENotSet m).
Proof.
  revert c m. induction e as [mm b|mm s|mm n|mm n|mm e IH|mm e IH|mm e IH|mm o l IHl r IHr|mm f e IH|mm n|mm]; intros c m H; cbn [size] in H; try discriminate.
  - injection H as <- _. split; [reflexivity|]. eexists. split; [constructor|]. left. eauto.
  - apply bind_err in H as [H|(? & _ & H)]; [|discriminate]. apply IH in H as (-> & s & Hs & H). split; [reflexivity|]. exists s. split; [now constructor|exact H].
  - apply bind_err in H as [H|(? & _ & H)]; [apply IHl in H as (-> & s & Hs & H); split; [reflexivity|]; exists s; split; [now constructor|exact H]|].
    apply bind_err in H as [H|(? & _ & H)]; [apply IHr in H as (-> & s & Hs & H); split; [reflexivity|]; exists s; split; [now apply sub_right|exact H]|]. discriminate.
  - injection H as <- _. split; [reflexivity|]. eexists. split; [constructor|]. right. eauto.
Qed.
Definition blamed (e : expr) (c : code) : Prop := c = Internal \/ c = InvalidArgument /\ exists s, sub s e /\ ((exists m n, s = EParam m n) \/ exists m, s = ENotSet m).
Lemma blamed_mono e e' c : (forall s, sub s e -> sub s e') -> blamed e c -> blamed e' c.
Proof. intros H [->|(-> & s & Hs & Hk)]; [now left|]. right. split; [reflexivity|]. exists s. auto. Qed.
Lemma code_blamed e c : code_ok e c -> blamed e c.
Proof. intros [->|(-> & m & H)]; [now left|]. right. split; [reflexivity|]. eexists. split; [exact H|]. right. eauto. Qed.
Lemma minimal_err ctx e : forall p c m, minimal ctx e p = Err c m -> blamed e c.
Proof.
  induction e as [mm b|mm s|mm n|mm n|mm e IH|mm e IH|mm e IH|mm o l IHl r IHr|mm f e IH|mm n|mm]; intros p c m H; cbn [minimal] in H; try discriminate; try (injection H as <- _; now left).
  - apply IH in H. revert H. apply blamed_mono. intros; now constructor.
  - assert (blamed l c -> blamed (EBin mm o l r) c) as Hl by (apply blamed_mono; intros; now constructor).
    assert (blamed r c -> blamed (EBin mm o l r) c) as Hr by (apply blamed_mono; intros; now apply sub_right).
    repeat match type of H with
    | bind _ _ = Err _ _ => apply bind_err in H as [H|(? & ? & H)]
    | ev_bool _ _ = Err _ _ => apply ev_bool_err, code_blamed in H; solve [auto]
    | minimal _ l _ = Err _ _ => apply IHl in H; solve [auto]
    | minimal _ r _ = Err _ _ => apply IHr in H; solve [auto]
    | Err _ _ = Err _ _ => injection H as <- _; now left
    | context [match ?x with _ => _ end] => destruct x eqn:?; try discriminate H
    end.
    all: match goal with E0 : minimal _ _ (false :: _) = Ok ?s0, E1 : minimal _ _ (true :: _) = Ok ?s1 |- _ => destruct s0 as [y0 q0], s1 as [y1 q1]; cbn [fst] in *; apply CrashFacts.minimal_sub in E0; apply CrashFacts.minimal_sub in E1 end.
    all: repeat match type of H with
    | bind _ _ = Err _ _ => apply bind_err in H as [H|(? & ? & H)]
    | Ok _ = Err _ _ => discriminate H
    end.
    all: apply size_err in H as (-> & s & Hs & H); right; split; [reflexivity|]; exists s; split; [|exact H].
    all: first [constructor; eapply CrashFacts.sub_tr; eassumption|apply sub_right; eapply CrashFacts.sub_tr; eassumption].
Qed.
Lemma check_err ctx e c m : check_constraint ctx e = Err c m -> blamed e c \/ exists s m', sub s e /\ QuoteSubConstraint (ec_src ctx) (e_start s) (e_end s) = Err c m'.
Proof.
  rewrite check_agrees. unfold check, explain. intros H. apply bind_err in H as [H|(ok & _ & H)]; [left; exact (code_blamed _ _ (ev_bool_err ctx e c m H))|]. destruct ok; [discriminate|].
  apply bind_err in H as [H|([s q] & Hm & H)]; [left; exact (minimal_err ctx e _ _ _ H)|]. apply CrashFacts.minimal_sub in Hm.
  apply bind_err in H as [H|(b & _ & H)]; [left; apply ev_bool_err, code_blamed in H; revert H; apply blamed_mono; intros s' Hs'; exact (CrashFacts.sub_tr _ _ _ Hs' Hm)|].
  apply bind_err in H as [H|(? & _ & H)]; [|discriminate]. right. exists s, m. split; [exact Hm|exact H].
Qed.
