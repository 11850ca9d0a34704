(** More facts about the interpreter, used by the property theorems. *)
From Coq Require Import String Ascii List ZArith NArith Bool Lia Permutation.
From Verif Require Import Base Num Token Ast Lexer Quote AstConstructors Parser Info TypeChecker Interpreter SpecLexer SpecGrammar SpecTyping SpecSemantics
  StrFacts LiteralFacts ParserFacts4 TypeFacts EvalFacts SemFacts SemFacts2 EntryFacts ExplainFacts VerdictFacts.
Import ListNotations.
Open Scope string_scope.

(** Parsed constraints have decimal literals. *)
Lemma D_literals pton ck n w e : D pton ck n w e -> literals e.
Proof. induction 1; cbn [literals]; eauto. destruct ck; exact I. Qed.
Lemma parse_literals pton ck c e : pton_ok pton -> ParseConstraint pton ck c = Ok e -> literals e.
Proof. intros Hp H. apply (text_iff pton Hp ck) in H as (w & t & _ & _ & H). exact (D_literals _ _ _ _ _ H). Qed.

(** Evaluation without a cache. *)
Lemma Eval_ev ctx e p : fst (Eval ctx e p None) = ev ctx e.
Proof. now rewrite Eval_none. Qed.
Lemma Eval_bool ctx e p b : fst (Eval ctx e p None) = Ok (VBool b) <-> ev_bool ctx e = Ok b.
Proof. rewrite Eval_ev. symmetry. apply ev_bool_ok. Qed.
Lemma EvalToBool_ev ctx e p : fst (EvalToBool ctx e p None) = ev_bool ctx e.
Proof. unfold EvalToBool. rewrite (to_bool_none ctx (Eval ctx) e p (Eval_none ctx e p)). reflexivity. Qed.

(** The environment matters only pointwise. *)
Definition env_eq (r r' : env) : Prop :=
  match r, r' with
  | TableEnv k p, TableEnv k' p' => p = p' /\ forall n, k n = k' n
  | ActionEnv k, ActionEnv k' => forall n, k n = k' n
  | _, _ => False
  end.
Lemma env_eq_sym r r' : env_eq r r' -> env_eq r' r.
Proof. destruct r, r'; cbn; intuition. Qed.
Lemma den_ext G r r' e v : env_eq r r' -> Den G r e v -> Den G r' e v.
Proof.
  intros HE H. induction H; subst.
  - constructor.
  - now constructor.
  - destruct r'; cbn in HE; [|contradiction]. destruct HE as [-> HE]. eapply sem_key; [reflexivity|]. now rewrite <- HE.
  - destruct r'; cbn in HE; [contradiction|]. eapply sem_param; [reflexivity|]. now rewrite <- HE.
  - destruct r'; cbn in HE; [|contradiction]. destruct HE as [-> HE]. eapply sem_priority. reflexivity.
  - now constructor.
  - now constructor.
  - eapply sem_left; eauto.
  - now apply sem_both.
  - eapply sem_compare; eauto.
  - eapply sem_field; eauto.
Qed.

(** A parsed action is a good environment if all parameters are passed. *)
Lemma action_env a ps x ctx : action_params a ps -> ParseAction x a = Ok ctx ->
  (forall p, In p ps -> usable (k_type p) -> exists w, k_type p = TBit w) ->
  (forall p, In p ps -> In (k_id p) (map fst (pa_params x))) ->
  (forall p w, In p ps -> width (k_type p) w -> (0 <= w)%Z) ->
  env_ok (InAction (ai_params_by_name a)) (env_of ctx).
Proof.
  intros HP H Ht Hall Hw. apply (action_ok a ps HP) in H as (_ & params & -> & HN & HA). cbn. constructor.
  - intros n ty (k & Hk & <-) Hu. apply (param_by_name a ps HP) in Hk as [Hk <-]. destruct (Ht k Hk Hu) as [w Ew]. rewrite Ew.
    pose proof (Hall k Hk) as Hi. apply in_map_iff in Hi as ([id s] & Eid & Hi). cbn in Eid. subst id. exists (unsigned s). split; [|constructor].
    apply (afind_iff String.eqb String.eqb_eq); [exact HN|]. apply HA. exists k, s. auto.
  - intros n ty w (k & Hk & <-) Hwd. apply (param_by_name a ps HP) in Hk as [Hk _]. eauto.
Qed.

(** Order of parameters. *)
Lemma check_same_action id name src k1 k2 e : NoDup (map fst k1) -> NoDup (map fst k2) -> same_entries k1 k2 ->
  check (mkCtx (CtxAction id name k1) src) e = check (mkCtx (CtxAction id name k2) src) e.
Proof.
  intros H1 H2 Hs. set (c1 := mkCtx (CtxAction id name k1) src). set (c2 := mkCtx (CtxAction id name k2) src).
  assert (forall e, agree_on c1 c2 e) as Ha.
  { intros x. split; [reflexivity|]. cbn. split; [reflexivity|]. intros n _. now apply (afind_same String.eqb String.eqb_eq). }
  unfold check, explain. rewrite (ev_bool_frame c1 c2 e (Ha e)), (minimal_frame c1 c2 e (Ha e)). destruct (ev_bool c2 e) as [[]| |]; cbn [bind]; try reflexivity.
  destruct (minimal c2 e []) as [[s q]| |]; cbn [bind]; try reflexivity. rewrite (ev_bool_frame c1 c2 s (Ha s)). destruct (ev_bool c2 s) as [b| |]; cbn [bind]; try reflexivity.
  cbn [ec_src c1 c2]. destruct (QuoteSubConstraint src (e_start s) (e_end s)); cbn [bind]; try reflexivity. unfold violation_text. cbn [ec_ctx c1 c2]. now rewrite (ordered_same k1 k2 H1 H2 Hs).
Qed.

(** Comparisons depend only on the operands' values. *)
Lemma ev_bin_congr ctx m o l l' r r' v : comparison o -> (forall u, ev ctx l = Ok u <-> ev ctx l' = Ok u) -> (forall u, ev ctx r = Ok u <-> ev ctx r' = Ok u) ->
  ev ctx (EBin m o l r) = Ok v -> ev ctx (EBin m o l' r') = Ok v.
Proof.
  intros Ho Hl Hr H. cbn [ev] in H |- *. apply bind_ok in H as (u & H & Hd). apply bind_ok. exists u. split.
  - destruct Ho as [o Ho|o Ho]; destruct Ho; rewrite ?bind_ok in *.
    1,2: destruct H as (x & Hx & H); exists x; (split; [now apply Hl|]); apply bind_ok in H as (y & Hy & H); apply bind_ok; exists y; (split; [now apply Hr|exact H]).
    all: destruct H as (x & Hx & H); exists x; (split; [apply annotate_ok in Hx; apply annotate_ok; apply (ev_int_ok ctx l) in Hx; apply (ev_int_ok ctx l'); now apply Hl|]);
      apply bind_ok in H as (y & Hy & H); apply bind_ok; exists y; (split; [apply annotate_ok in Hy; apply annotate_ok; apply (ev_int_ok ctx r) in Hy; apply (ev_int_ok ctx r'); now apply Hr|exact H]).
  - apply (dyn_ok ctx) in Hd. apply (dyn_ok ctx). exact Hd.
Qed.
(** Types with a width absorb int. *)
Lemma common_int ty w t : width ty w -> common ty TInt t -> t = ty.
Proof.
  intros Hw Hc. apply (common_fun ty TInt); [exact Hc|]. split; [now left|]. split.
  - right. destruct Hw; [apply below_step; constructor|..]; (eapply below_trans; [apply below_step, (step_int w)|apply below_step; constructor; constructor]).
  - intros d Hd _. exact Hd.
Qed.
Lemma common_sym a b c : common a b c -> common b a c.
Proof. intros (H1 & H2 & H3). split; [exact H2|]. split; [exact H1|]. intros d H4 H5. now apply H3. Qed.
(** The conversion of an integer depends on its residue only. *)
Lemma converts_mod ty w z z' u : width ty w -> (z mod 2 ^ w = z' mod 2 ^ w)%Z -> Converts TInt ty (VInt z) u -> Converts TInt ty (VInt z') u.
Proof.
  intros Hw E H. apply converts_inv in H as [(Ea & _)|[H|(n & v & _ & H1 & H2)]].
  - subst ty. inversion Hw.
  - inversion H; subst; try (now inversion Hw). inversion Hw; subst. rewrite E. now constructor.
  - assert (n = w) as -> by (inversion H2; subst; inversion Hw; subst; reflexivity). inversion H1; subst. eapply cv_trans; [|apply conv1_converts; exact H2]. rewrite E. now constructor.
Qed.
Lemma ev_cast_mod ctx b c ty w z z' u : e_type b = TInt -> e_type c = TInt -> width ty w -> ev ctx b = Ok (VInt z) -> ev ctx c = Ok (VInt z') -> (z mod 2 ^ w = z' mod 2 ^ w)%Z ->
  ev ctx (CastTransitivelyTo b ty) = Ok u -> ev ctx (CastTransitivelyTo c ty) = Ok u.
Proof.
  intros Hb Hc Hw Eb Ec E H.
  assert (convertible TInt ty) as Hcv.
  { right. destruct Hw; [apply below_step; constructor|..]; (eapply below_trans; [apply below_step, (step_int w)|apply below_step; constructor; constructor]). }
  apply ev_cast in H as (v & Hv & H); [|now rewrite Hb]. apply ev_cast; [now rewrite Hc|]. exists (VInt z'). split; [exact Ec|]. rewrite Hb in H. rewrite Hc. assert (v = VInt z) as -> by congruence. exact (converts_mod _ _ _ _ _ Hw E H).
Qed.

(** Conversions give point matches. *)
Lemma land_ones_eq x w : (0 <= w)%Z -> (0 <= x < 2 ^ w)%Z -> Z.land x (2 ^ w - 1) = x.
Proof. intros Hw Hx. replace (2 ^ w - 1)%Z with (Z.ones w) by (rewrite Z.ones_equiv; lia). rewrite Z.land_ones by exact Hw. apply Z.mod_small. exact Hx. Qed.
Lemma point ty w z u : match_type w ty -> (0 <= w)%Z -> Converts TInt ty (VInt z) u -> forall p, (0 <= p < 2 ^ w)%Z -> (Matches w u p <-> p = (z mod 2 ^ w)%Z).
Proof.
  intros Hm Hw H p Hp. assert (0 <= z mod 2 ^ w < 2 ^ w)%Z as Hz by (apply Z.mod_pos_bound; lia).
  apply converts_inv in H as [(Ea & _)|[H|(n & v & _ & H1 & H2)]]; [subst ty; inversion Hm|inversion H; subst; inversion Hm|].
  inversion H1; subst. inversion H2; subst; inversion Hm; subst.
  - split; [intros HM; now inversion HM|intros ->; constructor].
  - split; [intros HM; inversion HM as [|? ? ? E| |]; subst; now rewrite !land_ones_eq in E by assumption|intros ->; now constructor].
  - split; [intros HM; inversion HM as [|? ? ? E| |]; subst; now rewrite !land_ones_eq in E by assumption|intros ->; now constructor].
  - split; [intros HM; inversion HM as [| |? ? ? E|]; subst; now rewrite Z.sub_diag, !Z.shiftr_0_r in E|intros ->; now constructor].
  - split; [intros HM; inversion HM; subst; lia|intros ->; constructor; lia].
Qed.

(** Positions. *)
Lemma at_path_iff root q s : at_path root (rev q) = Some s <-> At root q s.
Proof.
  split.
  - revert root s. induction q as [|d q IH] using rev_ind; intros root s H; [injection H as <-; constructor|].
    rewrite rev_app_distr in H. cbn in H. destruct (at_path root (rev q)) as [e|] eqn:E; [|discriminate]. apply IH in E.
    assert (Child e d s) as Hc by (destruct e, d; cbn in H; try discriminate; injection H as <-; constructor).
    clear -E Hc. induction E as [e|e d' e' q s' Hc' E IH]; [econstructor; [exact Hc|constructor]|]. cbn. econstructor; [exact Hc'|auto].
  - intros H. pose proof (at_path_At root q s H root [] eq_refl) as E. now rewrite app_nil_r in E.
Qed.
Lemma blamable_ext (h h' : expr -> bool -> Prop) : (forall e b, h e b <-> h' e b) -> forall e q s, Blamable h e q s -> Blamable h' e q s.
Proof.
  intros Hh. induction 1.
  - constructor.
  - now constructor.
  - now constructor.
  - eapply bl_left; eauto. now apply Hh.
  - eapply bl_right; eauto. now apply Hh.
  - eapply bl_none; eauto; now apply Hh.
Qed.
Lemma below_exact x w : below x (TExact w) -> x = TBit w \/ x = TInt.
Proof. intros H. apply above_iff in H. unfold StrictlyAbove in H. destruct x; cbn in H; try discriminate H; auto. left. apply Z.eqb_eq in H. now subst. Qed.
Lemma no_common_exact a b w : (forall w, a <> TExact w) -> (forall w, b <> TExact w) -> ~ common a b (TExact w).
Proof.
  intros Ha Hb ([->|H1] & [->|H2] & H3); [now apply (Ha w)|now apply (Ha w)|now apply (Hb w)|].
  assert (convertible (TExact w) (TBit w)) as [E|E].
  { apply H3; [apply below_exact in H1 as [-> | ->]|apply below_exact in H2 as [-> | ->]]; (now left) || (right; apply below_step; constructor). }
  - discriminate.
  - apply above_iff in E. cbn in E. discriminate.
Qed.
Lemma orders_exact_sub G : (forall e t, Typed G e t -> forall w, t <> TExact w) -> forall e, ~ orders_exact G e.
Proof.
  intros H e Ho. induction Ho as [m o a b ta tb w Hor Ha Hb Hc| | | | |]; try assumption. revert Hc. apply no_common_exact; [exact (H _ _ Ha)|exact (H _ _ Hb)].
Qed.
