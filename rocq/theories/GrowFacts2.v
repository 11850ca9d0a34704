(** Larger tables and actions: entries (C91). *)
From Coq Require Import String Ascii List ZArith NArith Bool Lia Permutation Sorted.
From Verif Require Import Base Num Token Ast Lexer Quote AstConstructors Parser Info TypeChecker ConstraintInfo Interpreter SpecLexer SpecGrammar SpecTyping SpecSemantics SpecInfo SpecExplain SpecReading SpecGrow
  StrFacts NumFacts LiteralFacts ParserFacts4 TypeFacts EvalFacts SemFacts SemFacts2 EntryFacts EntryFacts2 ExplainFacts ExplainFacts2 VerdictFacts InfoFacts InfoFacts2 InterpFacts InterpFacts2 ReadingFacts ReadingFacts2 LoadFacts OutcomeFacts3 GrowFacts.
Import ListNotations.
Open Scope string_scope.

Lemma f2_left {A B} (R : A -> B -> Prop) l m a : Forall2 R l m -> In a l -> exists b, In b m /\ R a b.
Proof. induction 1 as [|x y l m Hxy _ IH]; intros Hi; [destruct Hi|]. destruct Hi as [<-|Hi]; [exists y; split; [now left|exact Hxy]|]. destruct (IH Hi) as (b & ? & ?). exists b. split; [now right|assumption]. Qed.
Lemma f2_right {A B} (R : A -> B -> Prop) l m b : Forall2 R l m -> In b m -> exists a, In a l /\ R a b.
Proof. induction 1 as [|x y l m Hxy _ IH]; intros Hi; [destruct Hi|]. destruct Hi as [<-|Hi]; [exists x; split; [now left|exact Hxy]|]. destruct (IH Hi) as (a & ? & ?). exists a. split; [now right|assumption]. Qed.
(** Declarations of a larger list of fields. *)
Lemma larger {F} (decl : F -> key_info -> Prop) (fs new fs' : list F) ks ks' : (forall f k k', decl f k -> decl f k' -> k = k') -> Permutation fs' (fs ++ new) -> Forall2 decl fs ks -> Forall2 decl fs' ks' ->
  incl ks ks' /\ forall k, In k ks' -> In k ks \/ exists f, In f new /\ decl f k.
Proof.
  intros Hfun Hp H H'. split.
  - intros k Hk. destruct (f2_right _ _ _ _ H Hk) as (f & Hf & Hd). assert (In f fs') as Hf' by (apply (Permutation_in _ (Permutation_sym Hp)), in_or_app; now left).
    destruct (f2_left _ _ _ _ H' Hf') as (k' & Hk' & Hd'). now rewrite (Hfun _ _ _ Hd Hd').
  - intros k Hk. destruct (f2_right _ _ _ _ H' Hk) as (f & Hf & Hd). apply (Permutation_in _ Hp) in Hf. apply in_app_or in Hf as [Hf|Hf]; [left|right; eauto].
    destruct (f2_left _ _ _ _ H Hf) as (k' & Hk' & Hd'). now rewrite (Hfun _ _ _ Hd Hd').
Qed.
Lemma omittable_wild f k : omittable f -> key_decl f k -> exists v, wildcard (k_type k) v.
Proof. intros Ho (_ & _ & Ht). destruct Ho; inversion Ht; subst; eexists; now constructor. Qed.
Lemma nodup_filter_map {A B} (f : A -> B) p l : NoDup (map f l) -> NoDup (map f (filter p l)).
Proof.
  induction l as [|a l IH]; cbn; intros H; [constructor|]. inversion H as [|? ? Hn HN]; subst. destruct (p a); [|auto]. cbn. constructor; [|auto].
  intros Hi. apply Hn. apply in_map_iff in Hi as (b & E & Hb). apply filter_In in Hb as [Hb _]. apply in_map_iff. eauto.
Qed.

(** * Tables *)
Section Tables.
  Variables (pton : inet_pton6) (d d' : p4_table) (ks ks' : list key_info) (t t' : table_info).
  Hypotheses (HT : table_of pton d ks t) (HT' : table_of pton d' ks' t') (HG : grown_table d d').
  Lemma t_incl : incl ks ks'.
  Proof. destruct HG as (_ & new & Hp & _). exact (proj1 (larger key_decl _ new _ ks ks' key_decl_fun Hp (to_decls _ _ _ _ HT) (to_decls _ _ _ _ HT'))). Qed.
  Lemma t_new k : In k ks' -> In k ks \/ exists v, wildcard (k_type k) v.
  Proof.
    destruct HG as (_ & new & Hp & Ho & _). intros Hk. destruct (proj2 (larger key_decl _ new _ ks ks' key_decl_fun Hp (to_decls _ _ _ _ HT) (to_decls _ _ _ _ HT')) k Hk) as [H|(f & Hf & Hd)]; [now left|right].
    rewrite Forall_forall in Ho. exact (omittable_wild f k (Ho f Hf) Hd).
  Qed.
  Lemma t_known f : existsb (fun m => N.eqb (mf_id m) (fm_id f)) (pt_match_fields d) = true <-> exists k, In k ks /\ k_id k = fm_id f.
  Proof.
    rewrite existsb_exists. split.
    - intros (m & Hm & E). apply N.eqb_eq in E. destruct (f2_left _ _ _ _ (to_decls _ _ _ _ HT) Hm) as (k & Hk & Hd & _). exists k. split; [exact Hk|congruence].
    - intros (k & Hk & E). destruct (f2_right _ _ _ _ (to_decls _ _ _ _ HT) Hk) as (m & Hm & Hd & _). exists m. split; [exact Hm|]. apply N.eqb_eq. congruence.
  Qed.
  Lemma t_lookup n k : assoc_find String.eqb n (ti_keys_by_name t) = Some k -> assoc_find String.eqb n (ti_keys_by_name t') = Some k.
  Proof.
    pose proof (to_keys _ _ _ _ HT) as HK. pose proof (to_keys _ _ _ _ HT') as HK'. intros H. apply (afind_in String.eqb String.eqb_eq), (by_name t ks HK) in H as [H E].
    apply (afind_iff String.eqb String.eqb_eq); [exact (tk_by_name_unique _ _ HK')|]. apply (by_name t' ks' HK'). split; [now apply t_incl|exact E].
  Qed.
  Lemma t_constraint : ti_constraint t' = ti_constraint t /\ (ti_constraint t <> None -> ti_source t' = ti_source t) /\ forall e n, ti_constraint t = Some e -> mentions e n -> exists k, In k ks /\ k_name k = n.
  Proof.
    pose proof (proj1 HG) as Hpre. pose proof (to_keys _ _ _ _ HT) as HK. destruct (to_constraint _ _ _ _ HT) as [(Hu & E)|(e0 & e & Hr & Hp & Hi & E)], (to_constraint _ _ _ _ HT') as [(Hu' & E')|(e0' & e' & Hr' & Hp' & Hi' & E')].
    - rewrite E, E'. split; [reflexivity|]. split; [congruence|discriminate].
    - rewrite Hpre in Hr'. exfalso. exact (restricted_not _ _ _ Hu Hr').
    - rewrite Hpre in Hu'. exfalso. exact (restricted_not _ _ _ Hu' Hr).
    - rewrite Hpre in Hr'. pose proof (restricted_fun _ _ _ _ Hr' Hr) as Es. rewrite Es, Hp in Hp'. apply Ok_inj in Hp' as <-. rewrite (infer_grow_t t t' t_lookup Es e0 e Hi) in Hi'. apply Ok_inj in Hi' as <-.
      rewrite E, E'. split; [reflexivity|]. split; [auto|]. intros x n [= <-] Hm. destruct (infer_ok None (Some t) _ (table_in_scope t ks HK) _ _ Hi) as (Ht & _ & Eb & _).
      rewrite <- bare_mentions, Eb, bare_mentions in Hm. destruct (typed_names _ _ _ n Ht Hm) as (k & Hk). apply (by_name t ks HK) in Hk. eauto.
  Qed.
  (** The match fields for the keys of the smaller table are the same. *)
  Definition t_same (l l' : list field_match) : Prop := forall k f, In k ks -> fm_id f = k_id k -> (In f l <-> In f l').
  Lemma t_assigned l l' k v : t_same l l' -> In k ks -> (Assigned ks l (k_name k) v <-> Assigned ks' l' (k_name k) v).
  Proof.
    intros HS Hk. pose proof (to_keys _ _ _ _ HT) as HK. pose proof (to_keys _ _ _ _ HT') as HK'. split; intros H; inversion H as [k1 f v1 Hk1 Hf Hid Hv E|k1 v1 Hk1 Ho Hw E]; subst v1.
    - assert (k1 = k) as -> by (refine (nodup_keys k_name ks _ _ (tk_names _ _ HK) _ _ _); assumption). eapply as_present; [now apply t_incl|apply (HS k f Hk Hid); exact Hf|exact Hid|exact Hv].
    - assert (k1 = k) as -> by (refine (nodup_keys k_name ks _ _ (tk_names _ _ HK) _ _ _); assumption). apply as_omitted; [now apply t_incl| |exact Hw]. intros f Hf Hid. apply (HS k f Hk Hid) in Hf. exact (Ho f Hf Hid).
    - assert (k1 = k) as -> by (refine (nodup_keys k_name ks' _ _ (tk_names _ _ HK') _ _ _); try assumption; now apply t_incl). eapply as_present; [exact Hk|apply (HS k f Hk Hid); exact Hf|exact Hid|exact Hv].
    - assert (k1 = k) as -> by (refine (nodup_keys k_name ks' _ _ (tk_names _ _ HK') _ _ _); try assumption; now apply t_incl). apply as_omitted; [exact Hk| |exact Hw]. intros f Hf Hid. apply (HS k f Hk Hid) in Hf. exact (Ho f Hf Hid).
  Qed.
  Lemma t_grows l : consistent ks l -> consistent ks' l.
  Proof.
    intros [C1 C2 C3]. split; [|exact C2|].
    - intros f Hf. destruct (C1 f Hf) as (k & v & Hk & H). exists k, v. split; [now apply t_incl|exact H].
    - intros k Hk Ho. destruct (t_new k Hk) as [H|H]; [now apply C3|exact H].
  Qed.
  Lemma t_trims l : consistent ks' l -> consistent ks (trimmed_match d l).
  Proof.
    pose proof (to_keys _ _ _ _ HT') as HK'. intros [C1 C2 C3]. split.
    - intros f Hf. apply filter_In in Hf as [Hf Hx]. apply t_known in Hx as (k & Hk & E). destruct (C1 f Hf) as (k' & v & Hk' & E' & Hv).
      assert (k' = k) as -> by (refine (nodup_keys k_id ks' _ _ (tk_ids _ _ HK') _ _ _); [exact Hk'|now apply t_incl|congruence]). eauto.
    - now apply nodup_filter_map.
    - intros k Hk Ho. apply C3; [now apply t_incl|]. intros f Hf E. apply (Ho f); [|exact E]. apply filter_In. split; [exact Hf|]. apply t_known. eauto.
  Qed.
  Lemma t_same_trimmed l : t_same (trimmed_match d l) l.
  Proof. intros k f Hk E. unfold trimmed_match. rewrite filter_In. split; [tauto|]. intros H. split; [exact H|]. apply t_known. eauto. Qed.
  Lemma t_answer entry entry' r : t_same (pe_match entry) (pe_match entry') -> (consistent ks (pe_match entry) <-> consistent ks' (pe_match entry')) -> pe_priority entry' = pe_priority entry ->
    (ReasonTableViolates t entry = Ok r <-> ReasonTableViolates t' entry' = Ok r).
  Proof.
    intros HS Hc Hpr. pose proof (to_keys _ _ _ _ HT) as HK. pose proof (to_keys _ _ _ _ HT') as HK'. destruct t_constraint as (Ec & Es & En). rewrite !table_ok, Ec.
    assert (ti_name t' = ti_name t) as Enm by (rewrite (to_name _ _ _ _ HT'), (to_name _ _ _ _ HT), (proj1 HG); reflexivity).
    assert (forall e ctx ctx', ti_constraint t = Some e -> ParseTableEntry entry t = Ok ctx -> ParseTableEntry entry' t' = Ok ctx' -> check ctx e = check ctx' e) as Hch.
    { intros e ctx ctx' He Hp Hp'. destruct (entry_ok t ks HK entry ctx Hp) as (_ & k1 & -> & N1 & A1). destruct (entry_ok t' ks' HK' entry' ctx' Hp') as (_ & k2 & -> & N2 & A2).
      rewrite Hpr, Enm, Es by congruence. apply check_frame_t; [exact N1|exact N2|]. intros n Hn. destruct (En e n He Hn) as (k & Hk & <-).
      destruct (assoc_find String.eqb (k_name k) k1) as [u|] eqn:E1.
      - symmetry. apply (afind_iff String.eqb String.eqb_eq); [exact N2|]. apply A2, (t_assigned _ _ k u HS Hk), A1. now apply (afind_in String.eqb String.eqb_eq).
      - destruct (assoc_find String.eqb (k_name k) k2) as [u|] eqn:E2; [|reflexivity]. apply (afind_in String.eqb String.eqb_eq), A2, (t_assigned _ _ k u HS Hk), A1 in E2. apply (afind_iff String.eqb String.eqb_eq) in E2; [congruence|exact N1]. }
    split; (intros [H|(e & ctx & He & Hty & Hp & H)]; [now left|right]).
    - destruct (entry_total t' ks' HK' entry') as [ctx' Hp']; [apply Hc; exact (proj1 (entry_ok t ks HK entry ctx Hp))|]. exists e, ctx'. rewrite <- (Hch e ctx ctx' He Hp Hp'). auto.
    - destruct (entry_total t ks HK entry) as [ctx' Hp']; [apply Hc; exact (proj1 (entry_ok t' ks' HK' entry' ctx Hp))|]. exists e, ctx'. rewrite (Hch e ctx' ctx He Hp' Hp). auto.
  Qed.
  Lemma t_consistent_same l : consistent ks l -> t_same l l.
  Proof. intros _ k f _ _. reflexivity. Qed.
  Lemma t_kept entry r : ReasonTableViolates t entry = Ok r -> ReasonTableViolates t' entry = Ok r.
  Proof.
    intros H. pose proof H as H0. apply table_ok in H as [(E & ->)|(e & ctx & He & _ & Hp & _)].
    - apply table_ok. left. now rewrite (proj1 t_constraint).
    - pose proof (proj1 (entry_ok t ks (to_keys _ _ _ _ HT) entry ctx Hp)) as Hc. apply (t_answer entry entry r); [intros k f _ _; reflexivity|split; [intros _; now apply t_grows|intros _; exact Hc]|reflexivity|exact H0].
  Qed.
  Lemma t_cut entry act r : ReasonTableViolates t' entry = Ok r -> ReasonTableViolates t (mkEntry (pe_table_id entry) (trimmed_match d (pe_match entry)) act (pe_priority entry)) = Ok r.
  Proof.
    intros H. pose proof H as H0. apply table_ok in H as [(E & ->)|(e & ctx & He & _ & Hp & _)].
    - apply table_ok. left. now rewrite (proj1 t_constraint) in E.
    - pose proof (proj1 (entry_ok t' ks' (to_keys _ _ _ _ HT') entry ctx Hp)) as Hc. apply (t_answer (mkEntry (pe_table_id entry) (trimmed_match d (pe_match entry)) act (pe_priority entry)) entry r); [apply t_same_trimmed|split; [intros _; exact Hc|intros _; now apply t_trims]|reflexivity|exact H0].
  Qed.
End Tables.

(** * Actions *)
Section Actions.
  Variables (pton : inet_pton6) (d d' : p4_action_decl) (ps ps' : list key_info) (a a' : action_info).
  Hypotheses (HT : action_of pton d ps a) (HT' : action_of pton d' ps' a') (HG : grown_action d d').
  Lemma a_incl : incl ps ps'.
  Proof. destruct HG as (_ & new & Hp & _). exact (proj1 (larger param_decl _ new _ ps ps' param_decl_fun Hp (ao_decls _ _ _ _ HT) (ao_decls _ _ _ _ HT'))). Qed.
  Lemma a_known (x : N * string) : existsb (fun m => N.eqb (ap_id m) (fst x)) (pad_params d) = true <-> exists k, In k ps /\ k_id k = fst x.
  Proof.
    rewrite existsb_exists. split.
    - intros (m & Hm & E). apply N.eqb_eq in E. destruct (f2_left _ _ _ _ (ao_decls _ _ _ _ HT) Hm) as (k & Hk & Hd & _). exists k. split; [exact Hk|congruence].
    - intros (k & Hk & E). destruct (f2_right _ _ _ _ (ao_decls _ _ _ _ HT) Hk) as (m & Hm & Hd & _). exists m. split; [exact Hm|]. apply N.eqb_eq. congruence.
  Qed.
  Lemma by_name_a b qs n k : action_params b qs -> (In (n, k) (ai_params_by_name b) <-> In k qs /\ k_name k = n).
  Proof.
    intros HK. rewrite (ap_by_name _ _ HK (n, k)), in_map_iff. split.
    - intros (x & [= <- <-] & Hx). auto.
    - intros [Hx <-]. exists k. auto.
  Qed.
  Lemma a_lookup n k : assoc_find String.eqb n (ai_params_by_name a) = Some k -> assoc_find String.eqb n (ai_params_by_name a') = Some k.
  Proof.
    pose proof (ao_params _ _ _ _ HT) as HK. pose proof (ao_params _ _ _ _ HT') as HK'. intros H. apply (afind_in String.eqb String.eqb_eq), (by_name_a a ps _ _ HK) in H as [H E].
    apply (afind_iff String.eqb String.eqb_eq); [exact (ap_by_name_unique _ _ HK')|]. apply (by_name_a a' ps' _ _ HK'). split; [now apply a_incl|exact E].
  Qed.
  Lemma a_constraint : ai_constraint a' = ai_constraint a /\ (ai_constraint a <> None -> ai_source a' = ai_source a) /\ forall e n, ai_constraint a = Some e -> mentions e n -> exists k, In k ps /\ k_name k = n.
  Proof.
    pose proof (proj1 HG) as Hpre. pose proof (ao_params _ _ _ _ HT) as HK. destruct (ao_constraint _ _ _ _ HT) as [(Hu & E)|(e0 & e & Hr & Hp & Hi & E)], (ao_constraint _ _ _ _ HT') as [(Hu' & E')|(e0' & e' & Hr' & Hp' & Hi' & E')].
    - rewrite E, E'. split; [reflexivity|]. split; [congruence|discriminate].
    - rewrite Hpre in Hr'. exfalso. exact (restricted_not _ _ _ Hu Hr').
    - rewrite Hpre in Hu'. exfalso. exact (restricted_not _ _ _ Hu' Hr).
    - rewrite Hpre in Hr'. pose proof (restricted_fun _ _ _ _ Hr' Hr) as Es. rewrite Es, Hp in Hp'. apply Ok_inj in Hp' as <-. rewrite (infer_grow_a a a' a_lookup Es e0 e Hi) in Hi'. apply Ok_inj in Hi' as <-.
      rewrite E, E'. split; [reflexivity|]. split; [auto|]. intros x n [= <-] Hm. destruct (infer_ok (Some a) None _ (action_in_scope a ps HK) _ _ Hi) as (Ht & _ & Eb & _).
      rewrite <- bare_mentions, Eb, bare_mentions in Hm. destruct (typed_params _ _ _ n Ht Hm) as (k & Hk). apply (by_name_a a ps _ _ HK) in Hk. eauto.
  Qed.
  Definition a_same (l l' : list (N * string)) : Prop := forall k s, In k ps -> (In (k_id k, s) l <-> In (k_id k, s) l').
  Lemma a_passed l l' k z : a_same l l' -> In k ps -> (Passed ps l (k_name k) z <-> Passed ps' l' (k_name k) z).
  Proof.
    intros HS Hk. pose proof (ao_params _ _ _ _ HT) as HK. pose proof (ao_params _ _ _ _ HT') as HK'. split; intros (k1 & s & Hk1 & Hi & E & ->).
    - assert (k1 = k) as -> by (refine (nodup_keys k_name ps _ _ (ap_names _ _ HK) _ _ _); auto). exists k, s. split; [now apply a_incl|]. split; [now apply HS|auto].
    - assert (k1 = k) as -> by (refine (nodup_keys k_name ps' _ _ (ap_names _ _ HK') _ _ _); auto; now apply a_incl). exists k, s. split; [exact Hk|]. split; [now apply HS|auto].
  Qed.
  Lemma a_answer ci ci' x x' r : GetActionInfoOrNull ci (pa_id x) = Some a -> GetActionInfoOrNull ci' (pa_id x) = Some a' -> pa_id x' = pa_id x ->
    a_same (pa_params x) (pa_params x') -> (acceptable ps (pa_params x) <-> acceptable ps' (pa_params x')) -> (ReasonActionViolates ci x = Ok r <-> ReasonActionViolates ci' x' = Ok r).
  Proof.
    intros Ha Ha' Hid HS Hc. pose proof (ao_params _ _ _ _ HT) as HK. pose proof (ao_params _ _ _ _ HT') as HK'. destruct a_constraint as (Ec & Es & En). rewrite !action_verdict.
    assert (ai_name a' = ai_name a) as Enm by (rewrite (ao_name _ _ _ _ HT'), (ao_name _ _ _ _ HT), (proj1 HG); reflexivity).
    assert (forall e ctx ctx', ai_constraint a = Some e -> ParseAction x a = Ok ctx -> ParseAction x' a' = Ok ctx' -> check ctx e = check ctx' e) as Hch.
    { intros e ctx ctx' He Hp Hp'. destruct (action_ok a ps HK x ctx Hp) as (_ & k1 & -> & N1 & A1). destruct (action_ok a' ps' HK' x' ctx' Hp') as (_ & k2 & -> & N2 & A2).
      rewrite Hid, Enm, Es by congruence. apply check_frame_a; [exact N1|exact N2|]. intros n Hn. destruct (En e n He Hn) as (k & Hk & <-).
      destruct (assoc_find String.eqb (k_name k) k1) as [u|] eqn:E1.
      - symmetry. apply (afind_iff String.eqb String.eqb_eq); [exact N2|]. apply A2, (a_passed _ _ k u HS Hk), A1. now apply (afind_in String.eqb String.eqb_eq).
      - destruct (assoc_find String.eqb (k_name k) k2) as [u|] eqn:E2; [|reflexivity]. apply (afind_in String.eqb String.eqb_eq), A2, (a_passed _ _ k u HS Hk), A1 in E2. apply (afind_iff String.eqb String.eqb_eq) in E2; [congruence|exact N1]. }
    rewrite Hid. split; intros (b & Hb & H).
    - assert (b = a) as -> by congruence. exists a'. split; [exact Ha'|]. rewrite Ec. destruct H as [H|(e & ctx & He & Hty & Hp & H)]; [now left|right].
      destruct (action_total a' ps' HK' x') as [ctx' Hp']; [apply Hc; exact (proj1 (action_ok a ps HK x ctx Hp))|]. exists e, ctx'. rewrite <- (Hch e ctx ctx' He Hp Hp'). auto.
    - assert (b = a') as -> by congruence. exists a. split; [exact Ha|]. rewrite Ec in H. destruct H as [H|(e & ctx & He & Hty & Hp & H)]; [now left|right].
      destruct (action_total a ps HK x) as [ctx' Hp']; [apply Hc; exact (proj1 (action_ok a' ps' HK' x' ctx Hp))|]. exists e, ctx'. rewrite (Hch e ctx' ctx He Hp' Hp). auto.
  Qed.
  Lemma a_kept ci ci' x r : GetActionInfoOrNull ci (pa_id x) = Some a -> GetActionInfoOrNull ci' (pa_id x) = Some a' -> ReasonActionViolates ci x = Ok r -> ReasonActionViolates ci' x = Ok r.
  Proof.
    intros Ha Ha' H. pose proof H as H0. apply action_verdict in H as (b & Hb & H). assert (b = a) as -> by congruence. destruct H as [(E & ->)|(e & ctx & He & _ & Hp & _)].
    - apply action_verdict. exists a'. split; [exact Ha'|]. left. now rewrite (proj1 a_constraint).
    - pose proof (proj1 (action_ok a ps (ao_params _ _ _ _ HT) x ctx Hp)) as Hc. apply (a_answer ci ci' x x r Ha Ha' eq_refl); [intros k s _; reflexivity| |exact H0]. split; intros _; [|exact Hc].
      destruct Hc as [C1 C2]. split; [|exact C2]. intros id s Hi. destruct (C1 id s Hi) as (k & Hk & E). exists k. split; [now apply a_incl|exact E].
  Qed.
  Lemma a_cut ci ci' x r : GetActionInfoOrNull ci (pa_id x) = Some a -> GetActionInfoOrNull ci' (pa_id x) = Some a' -> ReasonActionViolates ci' x = Ok r -> ReasonActionViolates ci (mkP4Action (pa_id x) (trimmed_args d (pa_params x))) = Ok r.
  Proof.
    intros Ha Ha' H. pose proof H as H0. apply action_verdict in H as (b & Hb & H). assert (b = a') as -> by congruence. destruct H as [(E & ->)|(e & ctx & He & _ & Hp & _)].
    - apply action_verdict. exists a. split; [exact Ha|]. left. now rewrite (proj1 a_constraint) in E.
    - pose proof (proj1 (action_ok a' ps' (ao_params _ _ _ _ HT') x ctx Hp)) as Hc. apply (a_answer ci ci' (mkP4Action (pa_id x) (trimmed_args d (pa_params x))) x r Ha Ha' eq_refl); [|split; intros _; [exact Hc|]|exact H0]; cbn [pa_params].
      + intros k s Hk. unfold trimmed_args. rewrite filter_In. split; [tauto|]. intros Hi. split; [exact Hi|]. apply a_known. exists k. split; [exact Hk|reflexivity].
      + destruct Hc as [C1 C2]. split; [|now apply nodup_filter_map]. intros id s Hi. apply filter_In in Hi as [_ Hx]. apply a_known in Hx. exact Hx.
  Qed.
End Actions.
