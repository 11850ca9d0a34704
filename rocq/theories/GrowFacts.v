(** Larger tables and actions (C91). *)
From Coq Require Import String Ascii List ZArith NArith Bool Lia Permutation Sorted.
From Verif Require Import Base Num Token Ast Lexer Quote AstConstructors Parser Info TypeChecker ConstraintInfo Interpreter SpecLexer SpecGrammar SpecTyping SpecSemantics SpecInfo SpecExplain SpecReading SpecGrow
  StrFacts NumFacts LiteralFacts ParserFacts4 TypeFacts EvalFacts SemFacts SemFacts2 EntryFacts EntryFacts2 ExplainFacts ExplainFacts2 VerdictFacts InfoFacts InfoFacts2 InterpFacts InterpFacts2 ReadingFacts ReadingFacts2 LoadFacts OutcomeFacts3.
Import ListNotations.
Open Scope string_scope.

(** * Types *)
Lemma infer_grow_t t t' : (forall n k, assoc_find String.eqb n (ti_keys_by_name t) = Some k -> assoc_find String.eqb n (ti_keys_by_name t') = Some k) -> ti_source t' = ti_source t ->
  forall e x, InferTable e t = Ok x -> InferTable e t' = Ok x.
Proof.
  intros H1 H2. unfold InferTable. induction e as [m b|m s|m n|m n|m e IH|m e IH|m e IH|m o l IHl r IHr|m f e IH|m n|m]; intros x; cbn [Infer GetConstraintSource]; rewrite H2; cbn [bind]; auto.
  - destruct (assoc_find String.eqb n (ti_keys_by_name t)) as [k|] eqn:E; [rewrite (H1 _ _ E); auto|]. intros H. exfalso. revert H. unfold StaticTypeError, QuotedError. destruct (QuoteSubConstraint _ _ _); discriminate.
  - intros H. apply bind_ok in H as (y & Hy & H). rewrite (IH _ Hy). exact H.
  - intros H. apply bind_ok in H as (y & Hy & H). rewrite (IH _ Hy). exact H.
  - intros H. apply bind_ok in H as (y & Hy & H). apply bind_ok in H as (z & Hz & H). rewrite (IHl _ Hy). cbn [bind]. rewrite (IHr _ Hz). exact H.
  - intros H. apply bind_ok in H as (y & Hy & H). rewrite (IH _ Hy). exact H.
Qed.
Lemma infer_grow_a t t' : (forall n k, assoc_find String.eqb n (ai_params_by_name t) = Some k -> assoc_find String.eqb n (ai_params_by_name t') = Some k) -> ai_source t' = ai_source t ->
  forall e x, InferAction e t = Ok x -> InferAction e t' = Ok x.
Proof.
  intros H1 H2. unfold InferAction. induction e as [m b|m s|m n|m n|m e IH|m e IH|m e IH|m o l IHl r IHr|m f e IH|m n|m]; intros x; cbn [Infer GetConstraintSource]; rewrite H2; cbn [bind]; auto.
  - destruct (assoc_find String.eqb n (ai_params_by_name t)) as [k|] eqn:E; [rewrite (H1 _ _ E); auto|]. intros H. exfalso. revert H. unfold StaticTypeError, QuotedError. destruct (QuoteSubConstraint _ _ _); discriminate.
  - intros H. apply bind_ok in H as (y & Hy & H). rewrite (IH _ Hy). exact H.
  - intros H. apply bind_ok in H as (y & Hy & H). rewrite (IH _ Hy). exact H.
  - intros H. apply bind_ok in H as (y & Hy & H). apply bind_ok in H as (z & Hz & H). rewrite (IHl _ Hy). cbn [bind]. rewrite (IHr _ Hz). exact H.
  - intros H. apply bind_ok in H as (y & Hy & H). rewrite (IH _ Hy). exact H.
Qed.
Lemma typed_wide_t ks ks' e t : incl ks ks' -> Typed (key_scope ks) e t -> Typed (key_scope ks') e t.
Proof.
  intros Hi H. induction H; try solve [econstructor; eauto]; [|discriminate]. injection H as <-. eapply T_key; [reflexivity| |assumption].
  destruct H0 as (k & Hk & Ht). exists k. split; [|exact Ht]. apply in_map_iff in Hk as (k0 & E & Hk). apply in_map_iff. exists k0. auto.
Qed.
Lemma typed_wide_a ks ks' e t : incl ks ks' -> Typed (param_scope ks) e t -> Typed (param_scope ks') e t.
Proof.
  intros Hi H. induction H; try solve [econstructor; eauto]; [discriminate|]. injection H as <-. eapply T_param; [reflexivity| |assumption].
  destruct H0 as (k & Hk & Ht). exists k. split; [|exact Ht]. apply in_map_iff in Hk as (k0 & E & Hk). apply in_map_iff. exists k0. auto.
Qed.
Lemma typed_names keys e ty n : Typed (InTable keys) e ty -> mentions e n -> exists k, In (n, k) keys.
Proof.
  intros H. induction H; intros Hm; inversion Hm; subst; auto; [|discriminate]. destruct H0 as (k & Hk & _). injection H as <-. eauto.
Qed.
Lemma typed_params ps e ty n : Typed (InAction ps) e ty -> mentions e n -> exists k, In (n, k) ps.
Proof.
  intros H. induction H; intros Hm; inversion Hm; subst; auto; [discriminate|]. destruct H0 as (k & Hk & _). injection H as <-. eauto.
Qed.

(** * Answers *)
Lemma picked_same {V} (show : string * V -> string) s (k1 k2 : list (string * V)) : NoDup (map fst k1) -> NoDup (map fst k2) -> (forall n, mentions s n -> assoc_find String.eqb n k1 = assoc_find String.eqb n k2) ->
  concat_strings (map (fun kv => if mem_string (fst kv) (GetVariables s) then show kv else "") (Ordered k1)) = concat_strings (map (fun kv => if mem_string (fst kv) (GetVariables s) then show kv else "") (Ordered k2)).
Proof.
  intros N1 N2 Ha. rewrite !(picked show (fun n => mem_string n (GetVariables s))). do 2 f_equal.
  apply strong_unique; try (apply filter_strong, ordered_strong; assumption).
  intros [n v]. rewrite !filter_In, !ordered_in. cbn [fst]. rewrite mem_string_in, GetVariables_in.
  split; intros [Hi Hm]; (split; [|exact Hm]); apply (afind_iff String.eqb String.eqb_eq) in Hi; try assumption; apply (afind_in String.eqb String.eqb_eq); rewrite <- Hi; [symmetry|]; now apply Ha.
Qed.
Lemma minimal_names ctx e s q n : minimal ctx e [] = Ok (s, q) -> mentions s n -> mentions e n.
Proof.
  intros H. destruct (minimal_best ctx e [] s q H) as (q' & _ & [Hbl _]). apply Blamable_At in Hbl. clear -Hbl. induction Hbl as [|e d e' q s Hc _ IH]; [auto|]. intros Hm. apply IH in Hm. destruct Hc; (now constructor) || (now apply me_right).
Qed.
Lemma check_frame_t name prio src k1 k2 e : NoDup (map fst k1) -> NoDup (map fst k2) -> (forall n, mentions e n -> assoc_find String.eqb n k1 = assoc_find String.eqb n k2) ->
  check (mkCtx (CtxTable name prio k1) src) e = check (mkCtx (CtxTable name prio k2) src) e.
Proof.
  intros N1 N2 Ha. set (c1 := mkCtx (CtxTable name prio k1) src). set (c2 := mkCtx (CtxTable name prio k2) src).
  assert (forall s, (forall n, mentions s n -> mentions e n) -> agree_on c1 c2 s) as HA. { intros s Hs. split; [reflexivity|]. cbn. split; [reflexivity|]. split; [reflexivity|]. intros n Hn. exact (Ha n (Hs n Hn)). }
  unfold check, explain. rewrite (ev_bool_frame c1 c2 e (HA e (fun n H => H))), (minimal_frame c1 c2 e (HA e (fun n H => H))). destruct (ev_bool c2 e) as [[]| |]; cbn [bind]; try reflexivity.
  destruct (minimal c2 e []) as [[s q]| |] eqn:Em; cbn [bind]; try reflexivity. pose proof (fun n => minimal_names c2 e s q n Em) as Hs. rewrite (ev_bool_frame c1 c2 s (HA s Hs)). destruct (ev_bool c2 s) as [b| |]; cbn [bind]; try reflexivity.
  cbn [ec_src c1 c2]. destruct (QuoteSubConstraint src (e_start s) (e_end s)); cbn [bind]; try reflexivity. unfold violation_text. cbn [ec_ctx c1 c2]. cbv zeta.
  rewrite (picked_same _ s k1 k2 N1 N2 (fun n Hn => Ha n (Hs n Hn))). reflexivity.
Qed.
Lemma check_frame_a id name src k1 k2 e : NoDup (map fst k1) -> NoDup (map fst k2) -> (forall n, mentions e n -> assoc_find String.eqb n k1 = assoc_find String.eqb n k2) ->
  check (mkCtx (CtxAction id name k1) src) e = check (mkCtx (CtxAction id name k2) src) e.
Proof.
  intros N1 N2 Ha. set (c1 := mkCtx (CtxAction id name k1) src). set (c2 := mkCtx (CtxAction id name k2) src).
  assert (forall s, (forall n, mentions s n -> mentions e n) -> agree_on c1 c2 s) as HA. { intros s Hs. split; [reflexivity|]. cbn. split; [reflexivity|]. intros n Hn. exact (Ha n (Hs n Hn)). }
  unfold check, explain. rewrite (ev_bool_frame c1 c2 e (HA e (fun n H => H))), (minimal_frame c1 c2 e (HA e (fun n H => H))). destruct (ev_bool c2 e) as [[]| |]; cbn [bind]; try reflexivity.
  destruct (minimal c2 e []) as [[s q]| |] eqn:Em; cbn [bind]; try reflexivity. pose proof (fun n => minimal_names c2 e s q n Em) as Hs. rewrite (ev_bool_frame c1 c2 s (HA s Hs)). destruct (ev_bool c2 s) as [b| |]; cbn [bind]; try reflexivity.
  cbn [ec_src c1 c2]. destruct (QuoteSubConstraint src (e_start s) (e_end s)); cbn [bind]; try reflexivity. unfold violation_text. cbn [ec_ctx c1 c2]. cbv zeta.
  rewrite (picked_same _ s k1 k2 N1 N2 (fun n Hn => Ha n (Hs n Hn))). reflexivity.
Qed.
