(** Facts behind C55: locations never matter for loading and acceptance. *)
From Coq Require Import String Ascii List ZArith NArith Bool Lia.
From Verif Require Import Base Num Token Ast Lexer Quote AstConstructors Parser Info TypeChecker ConstraintInfo Interpreter SpecLexer SpecGrammar SpecParser SpecTyping SpecSemantics SpecInfo SpecMisc SpecLaws
  StrFacts NumFacts LiteralFacts ParserFacts4 TypeFacts EvalFacts SemFacts SemFacts2 EntryFacts ExplainFacts VerdictFacts InfoFacts InfoFacts2 InterpFacts InterpFacts2 LawFacts.
Import ListNotations.
Open Scope string_scope.

(** * Typed trees that differ in locations *)
Inductive TA : expr -> expr -> Prop :=
| ta_bool m m' b : m_type m = m_type m' -> TA (EBool m b) (EBool m' b)
| ta_int m m' s : m_type m = m_type m' -> TA (EInt m s) (EInt m' s)
| ta_key m m' n : m_type m = m_type m' -> TA (EKey m n) (EKey m' n)
| ta_param m m' n : m_type m = m_type m' -> TA (EParam m n) (EParam m' n)
| ta_not m m' e e' : m_type m = m_type m' -> TA e e' -> TA (ENot m e) (ENot m' e')
| ta_neg m m' e e' : m_type m = m_type m' -> TA e e' -> TA (ENeg m e) (ENeg m' e')
| ta_cast m m' e e' : m_type m = m_type m' -> TA e e' -> TA (ECast m e) (ECast m' e')
| ta_bin m m' o a a' b b' : m_type m = m_type m' -> TA a a' -> TA b b' -> TA (EBin m o a b) (EBin m' o a' b')
| ta_field m m' f e e' : m_type m = m_type m' -> TA e e' -> TA (EField m f e) (EField m' f e')
| ta_attr m m' n : m_type m = m_type m' -> TA (EAttr m n) (EAttr m' n).
Lemma ta_type e e' : TA e e' -> e_type e = e_type e'.
Proof. destruct 1; assumption. Qed.
Lemma ta_wrap e e' t : TA e e' -> TA (WrapWithCast e t) (WrapWithCast e' t).
Proof. intros H. now constructor. Qed.
Lemma ta_castto e e' t : TA e e' -> TA (CastTransitivelyTo e t) (CastTransitivelyTo e' t).
Proof.
  intros H. unfold CastTransitivelyTo. rewrite <- (ta_type _ _ H). destruct (StrictlyAbove t (e_type e) && tycase_eqb (type_case (e_type e)) CInt).
  - cbn [e_type WrapWithCast emeta m_type]. destruct (StrictlyAbove _ _ && _); auto using ta_wrap.
  - rewrite <- (ta_type _ _ H). destruct (StrictlyAbove _ _ && _); auto using ta_wrap.
Qed.
Lemma infer_ta ai ti ai' ti' G G' e f : in_scope ai ti G -> in_scope ai' ti' G' -> same_scope G G' -> Alike e f -> forall x y, Infer ai ti e = Ok x -> Infer ai' ti' f = Ok y -> TA x y.
Proof.
  intros HG HG' HS HA. induction HA; intros x y Hx Hy.
  - apply (inv_atom ai ti G HG) in Hx. apply (inv_atom ai' ti' G' HG') in Hy. subst. now constructor.
  - apply (inv_atom ai ti G HG) in Hx. apply (inv_atom ai' ti' G' HG') in Hy. subst. now constructor.
  - pose proof (proj1 (infer_ok ai ti G HG _ _ Hx)) as Tx. pose proof (proj1 (infer_ok ai' ti' G' HG' _ _ Hy)) as Ty.
    apply (inv_atom ai ti G HG) in Hx as [t ->]. apply (inv_atom ai' ti' G' HG') in Hy as [u ->]. constructor. cbn in *.
    apply (typed_ext _ _ _ _ HS) in Tx. apply (typed_alike _ _ (EKey m' n)) in Tx; [|constructor]. exact (typed_fun _ _ _ HG' _ _ _ Tx Ty).
  - pose proof (proj1 (infer_ok ai ti G HG _ _ Hx)) as Tx. pose proof (proj1 (infer_ok ai' ti' G' HG' _ _ Hy)) as Ty.
    apply (inv_atom ai ti G HG) in Hx as [t ->]. apply (inv_atom ai' ti' G' HG') in Hy as [u ->]. constructor. cbn in *.
    apply (typed_ext _ _ _ _ HS) in Tx. apply (typed_alike _ _ (EParam m' n)) in Tx; [|constructor]. exact (typed_fun _ _ _ HG' _ _ _ Tx Ty).
  - apply (inv_not ai ti G HG) in Hx as (x1 & H1 & _ & ->). apply (inv_not ai' ti' G' HG') in Hy as (y1 & H2 & _ & ->). constructor; [reflexivity|auto].
  - apply (inv_neg ai ti G HG) in Hx as (x1 & H1 & _ & ->). apply (inv_neg ai' ti' G' HG') in Hy as (y1 & H2 & _ & ->). constructor; [reflexivity|auto].
  - apply (inv_atom ai ti G HG) in Hx. contradiction.
  - apply (inv_bin ai ti G HG) in Hx as (x1 & x2 & H1 & H2 & Hx). apply (inv_bin ai' ti' G' HG') in Hy as (y1 & y2 & K1 & K2 & Hy).
    pose proof (IHHA1 _ _ H1 K1) as A1. pose proof (IHHA2 _ _ H2 K2) as A2.
    destruct Hx as [(Hc & _ & _ & ->)|(t & Hco & Hop & ->)], Hy as [(Hc' & _ & _ & ->)|(u & Hcu & Hop' & ->)].
    + constructor; auto.
    + exfalso. destruct Hop' as [Hop|[Hop _]]; destruct Hc; inversion Hop.
    + exfalso. destruct Hop as [Hop|[Hop _]]; destruct Hc'; inversion Hop.
    + rewrite <- (ta_type _ _ A1), <- (ta_type _ _ A2) in Hcu. rewrite (common_fun _ _ _ _ Hcu Hco). constructor; auto using ta_castto.
  - pose proof (inv_field ai ti G HG _ _ _ _ Hx) as (x1 & t & H1 & F1 & ->). pose proof (inv_field ai' ti' G' HG' _ _ _ _ Hy) as (y1 & u & H2 & F2 & ->).
    pose proof (IHHA _ _ H1 H2) as A1. constructor; [|exact A1]. cbn. rewrite <- (ta_type _ _ A1) in F2. clear -F1 F2. inversion F1; subst; inversion F2; congruence.
  - apply (inv_atom ai ti G HG) in Hx as [-> ->]. apply (inv_atom ai' ti' G' HG') in Hy as [_ ->]. now constructor.
  - apply (inv_atom ai ti G HG) in Hx. contradiction.
Qed.

(** * Evaluation *)
Lemma castto_ta s s' t a a' v u : e_type a = e_type a' -> CastTo s t a v = Ok u -> CastTo s' t a' v = Ok u.
Proof.
  intros E. unfold CastTo. rewrite <- E. unfold RuntimeTypeError.
  destruct (e_type a); auto; destruct t; auto; destruct v; auto; try (intros H; now apply quoted_not_ok in H).
Qed.
Lemma ev_ta ctx ctx' e e' : env_eq (env_of ctx) (env_of ctx') -> TA e e' -> forall v, ev ctx e = Ok v -> ev ctx' e' = Ok v.
Proof.
  intros HE HA. induction HA; intros v Hv; cbn [ev] in Hv |- *; apply bind_ok in Hv as (u & Hu & Hd); apply dyn_ok in Hd as (Ht & <-); apply bind_ok; exists u;
    (split; [|apply dyn_ok; split; [|reflexivity]; match goal with E : _ = m_type ?k |- _ => change (of_type (m_type k) u); rewrite <- E; exact Ht end]).
  - exact Hu.
  - exact Hu.
  - unfold env_of in HE. destruct (ec_ctx ctx), (ec_ctx ctx'); cbn in HE; try contradiction; [|now apply quoted_not_ok in Hu]. destruct HE as [_ HE]. rewrite <- HE. destruct (assoc_find String.eqb n keys); [exact Hu|now apply quoted_not_ok in Hu].
  - unfold env_of in HE. destruct (ec_ctx ctx), (ec_ctx ctx'); cbn in HE; try contradiction; [now apply quoted_not_ok in Hu|]. rewrite <- HE. destruct (assoc_find String.eqb n params); [exact Hu|now apply quoted_not_ok in Hu].
  - apply bind_ok in Hu as (w & Hw & Hu). apply bind_ok. exists w. split; [auto|]. apply bind_ok in Hu as (b & Hb & Hu). apply bind_ok. exists b. split; [|exact Hu]. apply as_bool_ok in Hb. now apply as_bool_ok.
  - apply bind_ok in Hu as (w & Hw & Hu). apply bind_ok. exists w. split; [auto|]. apply bind_ok in Hu as (b & Hb & Hu). apply bind_ok. exists b. split; [|exact Hu]. apply as_int_ok in Hb. now apply as_int_ok.
  - apply bind_ok in Hu as (w & Hw & Hu). apply bind_ok. exists w. split; [auto|]. rewrite <- H. eapply castto_ta; [exact (ta_type _ _ HA)|exact Hu].
  - assert (forall w, ev_int ctx a = Ok w -> ev_int ctx' a' = Ok w) as I1 by (intros w; rewrite !ev_int_ok; auto).
    assert (forall w, ev_int ctx b = Ok w -> ev_int ctx' b' = Ok w) as I2 by (intros w; rewrite !ev_int_ok; auto).
    assert (forall w, ev_bool ctx a = Ok w -> ev_bool ctx' a' = Ok w) as B1 by (intros w; rewrite !ev_bool_ok; auto).
    assert (forall w, ev_bool ctx b = Ok w -> ev_bool ctx' b' = Ok w) as B2 by (intros w; rewrite !ev_bool_ok; auto).
    fold (ev_int ctx a) (ev_int ctx b) (ev_bool ctx a) (ev_bool ctx b) in Hu. fold (ev_int ctx' a') (ev_int ctx' b') (ev_bool ctx' a') (ev_bool ctx' b').
    destruct o; try discriminate Hu.
    all: apply bind_ok in Hu as (w & Hw & Hu).
    all: first [rewrite (B1 _ Hw); cbn [bind]; destruct w; try exact Hu; apply bind_ok in Hu as (z & Hz & Hu); rewrite (B2 _ Hz); exact Hu
      |apply bind_ok in Hu as (z & Hz & Hu); rewrite (IHHA1 _ Hw); cbn [bind]; rewrite (IHHA2 _ Hz); exact Hu
      |apply bind_ok in Hu as (z & Hz & Hu); apply annotate_ok in Hw, Hz; rewrite (I1 _ Hw); cbn [bind annotate]; rewrite (I2 _ Hz); exact Hu].
  - apply bind_ok in Hu as (w & Hw & Hu). apply bind_ok. exists w. split; [auto|]. destruct (EvalFieldAccess f w); [exact Hu|now apply quoted_not_ok in Hu].
  - unfold env_of in HE. destruct (ec_ctx ctx), (ec_ctx ctx'); cbn in HE; try contradiction; [|now apply quoted_not_ok in Hu]. destruct HE as [-> _]. destruct (String.eqb n "priority"); [exact Hu|now apply quoted_not_ok in Hu].
Qed.
Lemma entries_env t t' ks entry ctx ctx' : table_keys t ks -> table_keys t' ks -> ParseTableEntry entry t = Ok ctx -> ParseTableEntry entry t' = Ok ctx' -> env_eq (env_of ctx) (env_of ctx').
Proof.
  intros H H' E E'. destruct (entry_ok t' ks H' entry ctx' E') as (_ & keys & -> & HN & HA). cbn [env_of ec_ctx].
  apply (entry_env_eq t ks entry ctx _ H E). intros n v. rewrite <- HA. apply (afind_iff String.eqb String.eqb_eq). exact HN.
Qed.
Lemma actions_env t t' ks entry ctx ctx' : action_params t ks -> action_params t' ks -> ParseAction entry t = Ok ctx -> ParseAction entry t' = Ok ctx' -> env_eq (env_of ctx) (env_of ctx').
Proof.
  intros H H' E E'. destruct (action_ok t' ks H' entry ctx' E') as (_ & keys & -> & HN & HA). cbn [env_of ec_ctx].
  apply (action_env_eq t ks entry ctx _ H E). intros n v. rewrite <- HA. apply (afind_iff String.eqb String.eqb_eq). exact HN.
Qed.

(** * Infos *)
Lemma retold_table_of pton d d' ks t : pton_ok pton -> retold_table d d' -> table_of pton d ks t -> exists t', table_of pton d' ks t'.
Proof.
  intros Hp (Hid & Hf & HR) [Eid En Hd HK Hc]. destruct HR as [Hu Hu'|cs cs' Hr Hr' Hs].
  - exists (mkTable (pr_id (pt_preamble d')) (pr_name (pt_preamble d')) None default_csource (ti_keys_by_id t) (ti_keys_by_name t)).
    split; [reflexivity..|now rewrite <- Hf|destruct HK; now split|]. left. auto.
  - destruct Hc as [(Hu & _)|(e0 & e & Hr2 & Hp1 & Hi & He)]; [exfalso; exact (restricted_not _ _ _ Hu Hr)|].
    rewrite (restricted_fun _ _ _ _ Hr2 Hr) in Hp1. apply (text_iff pton Hp) in Hp1. change (reads_as pton kTableConstraint cs e0) in Hp1.
    destruct (reads_as_kt _ _ _ cs' _ Hp1 Hs) as (e0' & Hra & HA). pose proof (table_in_scope t ks HK) as HG.
    pose proof (proj1 (infer_ok None (Some t) _ HG _ _ Hi)) as HT. apply (typed_alike _ _ _ _ HA) in HT.
    set (t0 := mkTable (pr_id (pt_preamble d')) (pr_name (pt_preamble d')) None cs' (ti_keys_by_id t) (ti_keys_by_name t)).
    assert (in_scope None (Some t0) (InTable (ti_keys_by_name t))) as HG0 by (apply (is_table t0); exact (tk_by_name_unique _ _ HK)).
    destruct (infer_complete None (Some t0) _ HG0 _ _ HT) as (e' & Hi' & _).
    exists (mkTable (pr_id (pt_preamble d')) (pr_name (pt_preamble d')) (Some e') cs' (ti_keys_by_id t) (ti_keys_by_name t)).
    split; [reflexivity..|now rewrite <- Hf|destruct HK; now split|]. right. exists e0', e'. split; [exact Hr'|]. split; [now apply (text_iff pton Hp)|]. split; [|reflexivity].
    rewrite <- Hi'. apply infer_ext_t; reflexivity.
Qed.
Lemma retold_action_of pton d d' ks t : pton_ok pton -> retold_action d d' -> action_of pton d ks t -> exists t', action_of pton d' ks t'.
Proof.
  intros Hp (Hid & Hf & HR) [Eid En Hd HK Hc]. destruct HR as [Hu Hu'|cs cs' Hr Hr' Hs].
  - exists (mkAction (pr_id (pad_preamble d')) (pr_name (pad_preamble d')) None default_csource (ai_params_by_id t) (ai_params_by_name t)).
    split; [reflexivity..|now rewrite <- Hf|destruct HK; now split|]. left. auto.
  - destruct Hc as [(Hu & _)|(e0 & e & Hr2 & Hp1 & Hi & He)]; [exfalso; exact (restricted_not _ _ _ Hu Hr)|].
    rewrite (restricted_fun _ _ _ _ Hr2 Hr) in Hp1. apply (text_iff pton Hp) in Hp1. change (reads_as pton kActionConstraint cs e0) in Hp1.
    destruct (reads_as_kt _ _ _ cs' _ Hp1 Hs) as (e0' & Hra & HA). pose proof (action_in_scope t ks HK) as HG.
    pose proof (proj1 (infer_ok (Some t) None _ HG _ _ Hi)) as HT. apply (typed_alike _ _ _ _ HA) in HT.
    set (t0 := mkAction (pr_id (pad_preamble d')) (pr_name (pad_preamble d')) None cs' (ai_params_by_id t) (ai_params_by_name t)).
    assert (in_scope (Some t0) None (InAction (ai_params_by_name t))) as HG0 by (apply (is_action t0); exact (ap_by_name_unique _ _ HK)).
    destruct (infer_complete (Some t0) None _ HG0 _ _ HT) as (e' & Hi' & _).
    exists (mkAction (pr_id (pad_preamble d')) (pr_name (pad_preamble d')) (Some e') cs' (ai_params_by_id t) (ai_params_by_name t)).
    split; [reflexivity..|now rewrite <- Hf|destruct HK; now split|]. right. exists e0', e'. split; [exact Hr'|]. split; [now apply (text_iff pton Hp)|]. split; [|reflexivity].
    rewrite <- Hi'. apply infer_ext_a; reflexivity.
Qed.
Lemma alike_unique pton ck cs cs' e e' : pton_ok pton -> same_tokens cs cs' -> ParseConstraint pton ck cs = Ok e -> ParseConstraint pton ck cs' = Ok e' -> Alike e e'.
Proof.
  intros Hp Hs H H'. apply (text_iff pton Hp) in H. change (reads_as pton ck cs e) in H. destruct (reads_as_kt _ _ _ cs' _ H Hs) as (f & Hf & HA).
  apply (text_iff pton Hp) in Hf. rewrite Hf in H'. apply Ok_inj in H' as <-. exact HA.
Qed.
Lemma accept_table pton d d' ks t t' entry : pton_ok pton -> retold_table d d' -> table_of pton d ks t -> table_of pton d' ks t' ->
  ReasonTableViolates t entry = Ok "" -> ReasonTableViolates t' entry = Ok "".
Proof.
  intros Hp (Hid & Hf & HR) [_ _ Hd HK Hc] [_ _ Hd' HK' Hc'] H. apply table_ok. apply table_ok in H.
  destruct HR as [Hu Hu'|cs cs' Hr Hr' Hs].
  - left. destruct Hc' as [(_ & E)|(e0 & e & Hr & _)]; [auto|exfalso; exact (restricted_not _ _ _ Hu' Hr)].
  - right. destruct Hc as [(Hu & _)|(e0 & e & Hr2 & Hp1 & Hi & He)]; [exfalso; exact (restricted_not _ _ _ Hu Hr)|].
    destruct Hc' as [(Hu & _)|(e0' & e' & Hr2' & Hp1' & Hi' & He')]; [exfalso; exact (restricted_not _ _ _ Hu Hr')|].
    rewrite (restricted_fun _ _ _ _ Hr2 Hr) in Hp1. rewrite (restricted_fun _ _ _ _ Hr2' Hr') in Hp1'. pose proof (alike_unique _ _ _ _ _ _ Hp Hs Hp1 Hp1') as HA.
    destruct H as [(E & _)|(e1 & ctx & He1 & Hty & Hpa & Hch)]; [congruence|]. assert (e1 = e) as -> by congruence.
    destruct (entry_total t' ks HK' entry (proj1 (entry_ok t ks HK entry ctx Hpa))) as [ctx' Hpa']. exists e', ctx'.
    assert (TA e e') as HT. { eapply (infer_ta None (Some t) None (Some t')); eauto using table_in_scope. intros x. rewrite (tk_by_name _ _ HK x). symmetry. apply (tk_by_name _ _ HK'). }
    split; [exact He'|]. split; [now rewrite <- (ta_type _ _ HT)|]. split; [exact Hpa'|]. apply check_accepts, ev_bool_ok. apply check_accepts, ev_bool_ok in Hch.
    eapply ev_ta; [exact (entries_env t t' ks entry ctx ctx' HK HK' Hpa Hpa')|exact HT|exact Hch].
Qed.
Definition action_passes (a : action_info) (x : p4_action) : Prop :=
  ai_constraint a = None \/ exists e ctx, ai_constraint a = Some e /\ e_type e = TBool /\ ParseAction x a = Ok ctx /\ ev ctx e = Ok (VBool true).
Lemma action_passes_iff ci x : ReasonActionViolates ci x = Ok "" <-> exists a, GetActionInfoOrNull ci (pa_id x) = Some a /\ action_passes a x.
Proof.
  rewrite action_verdict. split; intros (a & Ha & H); exists a; (split; [exact Ha|]); destruct H as [H|H].
  - left. tauto.
  - right. destruct H as (e & ctx & H1 & H2 & H3 & H4). exists e, ctx. apply check_accepts, ev_bool_ok in H4. auto.
  - left. auto.
  - right. destruct H as (e & ctx & H1 & H2 & H3 & H4). exists e, ctx. split; [exact H1|]. split; [exact H2|]. split; [exact H3|]. now apply check_accepts, ev_bool_ok.
Qed.
Lemma accept_action pton d d' ks t t' x : pton_ok pton -> retold_action d d' -> action_of pton d ks t -> action_of pton d' ks t' ->
  action_passes t x -> action_passes t' x.
Proof.
  intros Hp (Hid & Hf & HR) [_ _ Hd HK Hc] [_ _ Hd' HK' Hc'] H.
  destruct HR as [Hu Hu'|cs cs' Hr Hr' Hs].
  - left. destruct Hc' as [(_ & E)|(e0 & e & Hr & _)]; [auto|exfalso; exact (restricted_not _ _ _ Hu' Hr)].
  - right. destruct Hc as [(Hu & _)|(e0 & e & Hr2 & Hp1 & Hi & He)]; [exfalso; exact (restricted_not _ _ _ Hu Hr)|].
    destruct Hc' as [(Hu & _)|(e0' & e' & Hr2' & Hp1' & Hi' & He')]; [exfalso; exact (restricted_not _ _ _ Hu Hr')|].
    rewrite (restricted_fun _ _ _ _ Hr2 Hr) in Hp1. rewrite (restricted_fun _ _ _ _ Hr2' Hr') in Hp1'. pose proof (alike_unique _ _ _ _ _ _ Hp Hs Hp1 Hp1') as HA.
    destruct H as [E|(e1 & ctx & He1 & Hty & Hpa & Hch)]; [congruence|]. assert (e1 = e) as -> by congruence.
    destruct (action_total t' ks HK' x (proj1 (action_ok t ks HK x ctx Hpa))) as [ctx' Hpa']. exists e', ctx'.
    assert (TA e e') as HT. { eapply (infer_ta (Some t) None (Some t') None); eauto using action_in_scope. intros y. rewrite (ap_by_name _ _ HK y). symmetry. apply (ap_by_name _ _ HK'). }
    split; [exact He'|]. split; [now rewrite <- (ta_type _ _ HT)|]. split; [exact Hpa'|].
    eapply ev_ta; [exact (actions_env t t' ks x ctx ctx' HK HK' Hpa Hpa')|exact HT|exact Hch].
Qed.
Lemma same_restriction_sym ck a b : same_restriction ck a b -> same_restriction ck b a.
Proof. intros [H H'|cs cs' H H' E]; [now apply sr_none|]. eapply sr_some; eauto. now symmetry. Qed.
Lemma forall2_sym {A B} (R : A -> B -> Prop) (S : B -> A -> Prop) l m : (forall a b, R a b -> S b a) -> Forall2 R l m -> Forall2 S m l.
Proof. intros H. induction 1; constructor; auto. Qed.
Lemma retold_sym p p' : retold p p' -> retold p' p.
Proof.
  intros [H1 H2]. split; [revert H1|revert H2]; apply forall2_sym; intros a b (E1 & E2 & E3); split; try split; auto using same_restriction_sym.
Qed.
Lemma forall2_other {A B} (R : A -> B -> Prop) l m y : Forall2 R l m -> In y m -> exists x, In x l /\ R x y.
Proof. induction 1 as [|a b l m H HF IH]; [contradiction|]. intros [->|Hy]; [exists a; split; [now left|exact H]|]. destruct (IH Hy) as (x & Hx & HR). exists x. split; [now right|exact HR]. Qed.
Lemma forall2_map_eq {A B C} (R : A -> B -> Prop) (f : A -> C) (g : B -> C) l m : (forall a b, R a b -> f a = g b) -> Forall2 R l m -> map f l = map g m.
Proof. intros H. induction 1; cbn; f_equal; auto. Qed.
Lemma retold_loads pton p p' : pton_ok pton -> retold p p' -> (exists ci, P4ToConstraintInfo pton p = Ok ci) -> exists ci, P4ToConstraintInfo pton p' = Ok ci.
Proof.
  intros Hp [HT HA] H. apply info_iff in H as (N1 & N2 & H1 & H2). apply info_iff. split; [|split; [|split]].
  - erewrite <- (forall2_map_eq _ tid); [exact N1| |exact HT]. intros a b (E & _). exact E.
  - erewrite <- (forall2_map_eq _ aid); [exact N2| |exact HA]. intros a b (E & _). exact E.
  - intros d' Hd'. destruct (forall2_other _ _ _ _ HT Hd') as (d & Hd & R). destruct (H1 d Hd) as [t Et]. apply table_parsed in Et as [ks Ht].
    destruct (retold_table_of pton d d' ks t Hp R Ht) as [t' Ht']. apply table_parses in Ht' as (t2 & E & _). eauto.
  - intros d' Hd'. destruct (forall2_other _ _ _ _ HA Hd') as (d & Hd & R). destruct (H2 d Hd) as [t Et]. apply action_parsed in Et as [ks Ht].
    destruct (retold_action_of pton d d' ks t Hp R Ht) as [t' Ht']. apply action_parses in Ht' as (t2 & E & _). eauto.
Qed.
Section R.
  Variables (pton : inet_pton6) (p p' : p4info) (ci ci' : constraint_info).
  Hypothesis Hp : pton_ok pton.
  Hypothesis HR : retold p p'.
  Hypothesis L : P4ToConstraintInfo pton p = Ok ci.
  Hypothesis L' : P4ToConstraintInfo pton p' = Ok ci'.
  Lemma other_table id t : GetTableInfoOrNull ci id = Some t -> exists d d' ks t', retold_table d d' /\ table_of pton d ks t /\ GetTableInfoOrNull ci' id = Some t' /\ table_of pton d' ks t'.
  Proof.
    intros H. destruct (proj1 (info_iff pton p') (ex_intro _ ci' L')) as (_ & _ & H3 & _).
    apply (proj1 (info_lookup _ _ _ L)) in H as (d & Hd & -> & Et). destruct HR as [HT _]. destruct (forall2_other _ _ _ d (forall2_sym _ (fun a b => retold_table b a) _ _ (fun a b h => h) HT) Hd) as (d' & Hd' & R).
    destruct (table_parsed _ _ _ Et) as [ks Ht]. destruct (H3 d' Hd') as [t' Et']. destruct (table_parsed _ _ _ Et') as [ks' Ht'].
    assert (ks' = ks) as ->. { eapply forall2_fun; [exact key_decl_fun|exact (to_decls _ _ _ _ Ht')|]. destruct R as (_ & <- & _). exact (to_decls _ _ _ _ Ht). }
    exists d, d', ks, t'. split; [exact R|]. split; [exact Ht|]. split; [|exact Ht']. apply (proj1 (info_lookup _ _ _ L')). exists d'. split; [exact Hd'|]. split; [exact (proj1 R)|exact Et'].
  Qed.
  Lemma other_action id t : GetActionInfoOrNull ci id = Some t -> exists d d' ks t', retold_action d d' /\ action_of pton d ks t /\ GetActionInfoOrNull ci' id = Some t' /\ action_of pton d' ks t'.
  Proof.
    intros H. destruct (proj1 (info_iff pton p') (ex_intro _ ci' L')) as (_ & _ & _ & H3).
    apply (proj2 (info_lookup _ _ _ L)) in H as (d & Hd & -> & Et). destruct HR as [_ HT]. destruct (forall2_other _ _ _ d (forall2_sym _ (fun a b => retold_action b a) _ _ (fun a b h => h) HT) Hd) as (d' & Hd' & R).
    destruct (action_parsed _ _ _ Et) as [ks Ht]. destruct (H3 d' Hd') as [t' Et']. destruct (action_parsed _ _ _ Et') as [ks' Ht'].
    assert (ks' = ks) as ->. { eapply forall2_fun; [exact param_decl_fun|exact (ao_decls _ _ _ _ Ht')|]. destruct R as (_ & <- & _). exact (ao_decls _ _ _ _ Ht). }
    exists d, d', ks, t'. split; [exact R|]. split; [exact Ht|]. split; [|exact Ht']. apply (proj2 (info_lookup _ _ _ L')). exists d'. split; [exact Hd'|]. split; [exact (proj1 R)|exact Et'].
  Qed.
  Lemma accepts_action x : ReasonActionViolates ci x = Ok "" -> ReasonActionViolates ci' x = Ok "".
  Proof.
    rewrite !action_passes_iff. intros (a & Ha & H). destruct (other_action _ _ Ha) as (d & d' & ks & a' & R & A & Ha' & A'). exists a'. split; [exact Ha'|]. eapply accept_action; eauto.
  Qed.
  Lemma accepts_set l : ReasonActionSetViolates ci l = Ok "" -> ReasonActionSetViolates ci' l = Ok "".
  Proof.
    induction l as [|x l IH]; [auto|]. cbn [ReasonActionSetViolates]. intros H. apply bind_ok in H as (r & Hr & H). destruct (String.eqb_spec r "") as [->|Hn]; [|apply Ok_inj in H; congruence].
    rewrite (accepts_action x Hr). cbn [bind]. rewrite (String.eqb_refl ""). auto.
  Qed.
  Lemma accepts_entry entry : ReasonEntryViolatesConstraint entry ci = Ok "" -> ReasonEntryViolatesConstraint entry ci' = Ok "".
  Proof.
    unfold ReasonEntryViolatesConstraint. destruct (GetTableInfoOrNull ci (pe_table_id entry)) as [t|] eqn:Et; [|discriminate].
    destruct (other_table _ _ Et) as (d & d' & ks & t' & R & T & Et' & T'). rewrite Et'. intros H. apply bind_ok in H as (r & Hr & H). destruct (String.eqb_spec r "") as [->|Hn]; cbn [negb] in H; [|apply Ok_inj in H; congruence].
    rewrite (accept_table _ _ _ _ _ _ _ Hp R T T' Hr). cbn [bind]. rewrite (String.eqb_refl ""). cbn [negb].
    destruct (pe_action entry) as [[x|m|g|l|]|]; try discriminate H; auto using accepts_action, accepts_set.
  Qed.
End R.
