(** C115: numbers are only names. *)
From Coq Require Import String Ascii List ZArith NArith Bool Lia.
From Verif Require Import Base Num Token Ast AstConstructors Quote Info TypeChecker ConstraintInfo Interpreter SpecLexer SpecGrammar SpecParser SpecTyping SpecSemantics SpecInfo SpecExplain SpecCrash SpecReading SpecOutcome SpecRenumber
  InterpFacts2 ReadingFacts2 RetoldFacts OutcomeFacts PropertiesParser PropertiesInfo PropertiesEntries PropertiesExplain PropertiesVerdict PropertiesReading PropertiesOutcome.
Import ListNotations.
Open Scope string_scope.

(** * Scopes *)
Definition wider (G G' : scope) : Prop :=
  match G, G' with
  | InTable l, InTable m | InAction l, InAction m => forall n t, declared l n t -> declared m n t
  | _, _ => False
  end.
Lemma typed_wider G G' e t : wider G G' -> Typed G e t -> Typed G' e t.
Proof.
  intros HS H. induction H; subst; try solve [econstructor; eauto].
  - destruct G' as [l|l]; [|contradiction]. cbn in HS. eapply T_key; eauto.
  - destruct G' as [l|l]; [contradiction|]. cbn in HS. eapply T_param; eauto.
Qed.
Lemma meant_wider cmp G G' r e v : wider G G' -> Meant cmp G r e v -> Meant cmp G' r e v.
Proof. intros HS H. induction H; subst; try solve [econstructor; eauto using typed_wider]. Qed.
Lemma f2_in {A B} (R : A -> B -> Prop) l m x : Forall2 R l m -> In x l -> exists y, In y m /\ R x y.
Proof. induction 1 as [|a b l m H _ IH]; intros Hx; [destruct Hx|]. destruct Hx as [->|Hx]; [exists b; split; [now left|exact H]|]. destruct (IH Hx) as (y & Hy & Hr). exists y. split; [now right|exact Hr]. Qed.
Lemma f2_flip {A B} (R : A -> B -> Prop) (S : B -> A -> Prop) l m : (forall a b, R a b -> S b a) -> Forall2 R l m -> Forall2 S m l.
Proof. intros H. induction 1; constructor; auto. Qed.
Lemma f2_nodup {A B} (R : A -> B -> Prop) (f : A -> N) (g : B -> N) l m : (forall a a' b b', R a b -> R a' b' -> g b = g b' -> f a = f a') -> Forall2 R l m -> NoDup (map f l) -> NoDup (map g m).
Proof.
  intros HR H. induction H as [|a b l m Hab Hlm IH]; cbn [map]; intros HN; [constructor|]. inversion HN as [|? ? Hni HN']; subst. constructor; [|now apply IH]. intros Hi. apply Hni. apply in_map_iff in Hi as (b' & E & Hb').
  destruct (f2_in (fun x y => R y x) m l b') as (a' & Ha' & Hr); [now apply (f2_flip R)|exact Hb'|]. rewrite (HR _ _ _ _ Hab Hr (eq_sym E)). now apply in_map.
Qed.
Lemma f2_split {A B} (R : A -> B -> Prop) a f b m : Forall2 R (a ++ f :: b) m -> exists a' f' b', m = (a' ++ f' :: b')%list /\ Forall2 R a a' /\ R f f' /\ Forall2 R b b'.
Proof. intros H. apply Forall2_app_inv_l in H as (a' & r & Ha & Hr & ->). inversion Hr as [|? f' ? b' Hf Hb]; subst. exists a', f', b'. auto. Qed.

(** * Keys and match fields *)
Definition rk (F : N -> N -> Prop) (k k' : key_info) : Prop := F (k_id k) (k_id k') /\ k_name k = k_name k' /\ k_type k = k_type k'.
Definition rm (F : N -> N -> Prop) (f f' : field_match) : Prop := F (fm_id f) (fm_id f') /\ fm_value f = fm_value f'.
Definition back (F : N -> N -> Prop) : N -> N -> Prop := fun a b => F b a.
Lemma back_one F : one_to_one F -> one_to_one (back F).
Proof. intros H a a' b b' H1 H2. symmetry. exact (H _ _ _ _ H1 H2). Qed.
Lemma rk_back F ks ks' : Forall2 (rk F) ks ks' -> Forall2 (rk (back F)) ks' ks.
Proof. apply f2_flip. intros a b (H1 & H2 & H3). split; [exact H1|now split]. Qed.
Lemma rm_back F l l' : Forall2 (rm F) l l' -> Forall2 (rm (back F)) l' l.
Proof. apply f2_flip. intros a b (H1 & H2). split; [exact H1|now symmetry]. Qed.
Lemma key_type_same f f' t : mf_bitwidth f = mf_bitwidth f' -> mf_match f = mf_match f' -> key_type f t -> key_type f' t.
Proof. destruct f as [i n w m], f' as [i' n' w' m']. cbn. intros <- <- H. inversion H; subst; constructor. Qed.
Lemma keys_renumbered F fs fs' ks : Forall2 (fun f f' => F (mf_id f) (mf_id f') /\ mf_name f = mf_name f' /\ mf_bitwidth f = mf_bitwidth f' /\ mf_match f = mf_match f') fs fs' -> Forall2 key_decl fs ks ->
  exists ks', Forall2 key_decl fs' ks' /\ Forall2 (rk F) ks ks'.
Proof.
  intros H. revert ks. induction H as [|f f' fs fs' (H1 & H2 & H3 & H4) _ IH]; intros ks HK; inversion HK as [|? k ? ks0 (E1 & E2 & E3) HK']; subst; [exists []; split; constructor|].
  destruct (IH _ HK') as (ks' & I1 & I2). exists (mkKey (mf_id f') (k_name k) (k_type k) :: ks'). split; constructor; auto.
  - split; [reflexivity|]. split; [cbn; congruence|]. cbn. eapply key_type_same; eauto.
  - split; [cbn; now rewrite E1|now split].
Qed.
Lemma params_renumbered F fs fs' ks : Forall2 (fun f f' => F (ap_id f) (ap_id f') /\ ap_name f = ap_name f' /\ ap_bitwidth f = ap_bitwidth f' /\ ap_type_name f = ap_type_name f') fs fs' -> Forall2 param_decl fs ks ->
  exists ks', Forall2 param_decl fs' ks' /\ Forall2 (rk F) ks ks'.
Proof.
  intros H. revert ks. induction H as [|f f' fs fs' (H1 & H2 & H3 & H4) _ IH]; intros ks HK; inversion HK as [|? k ? ks0 (E1 & E2 & E3) HK']; subst; [exists []; split; constructor|].
  destruct (IH _ HK') as (ks' & I1 & I2). exists (mkKey (ap_id f') (k_name k) (k_type k) :: ks'). split; constructor; auto.
  - split; [reflexivity|]. split; [cbn; congruence|]. cbn. unfold param_type in *. rewrite <- H3, <- H4. exact E3.
  - split; [cbn; now rewrite E1|now split].
Qed.
Lemma declared_renumbered F ks ks' n t : Forall2 (rk F) ks ks' -> declared (map (fun k => (k_name k, k)) ks) n t -> declared (map (fun k => (k_name k, k)) ks') n t.
Proof.
  intros H (k & Hk & E). apply in_map_iff in Hk as (k0 & E0 & Hk). injection E0 as E1 ->. destruct (f2_in _ _ _ _ H Hk) as (k' & Hk' & _ & E2 & E3).
  exists k'. split; [apply in_map_iff; exists k'; split; [congruence|exact Hk']|congruence].
Qed.
Lemma key_scope_wider F ks ks' : Forall2 (rk F) ks ks' -> wider (key_scope ks) (key_scope ks').
Proof. intros H n t. exact (declared_renumbered F ks ks' n t H). Qed.
Lemma param_scope_wider F ks ks' : Forall2 (rk F) ks ks' -> wider (param_scope ks) (param_scope ks').
Proof. intros H n t. exact (declared_renumbered F ks ks' n t H). Qed.

Section Fields.
  Variable F : N -> N -> Prop.
  Hypothesis HF : one_to_one F.
  Lemma omitted_renumbered k k' l l' : rk F k k' -> Forall2 (rm F) l l' -> omitted k l -> omitted k' l'.
  Proof.
    intros (Hk & _) Hl Ho f' Hf' E. destruct (f2_in _ _ _ f' (rm_back _ _ _ Hl) Hf') as (f & Hf & Hff & _). apply (Ho f Hf). apply (HF _ _ _ _ Hff Hk). exact E.
  Qed.
  Lemma fine_renumbered ks ks' pre pre' f f' : Forall2 (rk F) ks ks' -> Forall2 (rm F) pre pre' -> rm F f f' -> fine ks pre f -> fine ks' pre' f'.
  Proof.
    intros Hks Hpre (Hf & Ev) (k & Hk & E & Hfit & Hn). destruct (f2_in _ _ _ _ Hks Hk) as (k' & Hk' & Hkk & _ & Et). exists k'. split; [exact Hk'|]. split; [apply (HF _ _ _ _ Hkk Hf); exact E|]. split; [rewrite <- Et, <- Ev; exact Hfit|].
    intros Hi. apply Hn. apply in_map_iff in Hi as (g' & Eg & Hg'). destruct (f2_in _ _ _ g' (rm_back _ _ _ Hpre) Hg') as (g & Hg & Hgg & _). apply in_map_iff. exists g. split; [|exact Hg]. apply (HF _ _ _ _ Hgg Hf). exact Eg.
  Qed.
  Lemma misfit_renumbered ks ks' f f' : Forall2 (rk F) ks ks' -> rm F f f' -> misfit ks f -> misfit ks' f'.
  Proof.
    intros Hks (Hf & Ev) (k & Hk & E & Hs & Hn). destruct (f2_in _ _ _ _ Hks Hk) as (k' & Hk' & Hkk & _ & Et). exists k'. split; [exact Hk'|]. split; [apply (HF _ _ _ _ Hkk Hf); exact E|]. rewrite <- Et, <- Ev. now split.
  Qed.
  Lemma all_fine_renumbered ks ks' l l' : Forall2 (rk F) ks ks' -> Forall2 (rm F) l l' -> all_fine ks l -> all_fine ks' l'.
  Proof.
    intros Hks Hl Ha pre' f' post' E. subst l'. apply rm_back in Hl. apply f2_split in Hl as (pre & f & post & -> & H1 & H2 & _). apply (fine_renumbered ks ks' pre pre' f f' Hks); [exact (rm_back _ _ _ H1)|destruct H2 as (H2 & E); split; [exact H2|now symmetry]|]. exact (Ha _ _ _ eq_refl).
  Qed.
  Lemma assigned_renumbered ks ks' l l' n v : Forall2 (rk F) ks ks' -> Forall2 (rm F) l l' -> Assigned ks l n v -> Assigned ks' l' n v.
  Proof.
    intros Hks Hl [k f v' Hk Hf E Hv|k v' Hk Ho Hw].
    - destruct (f2_in _ _ _ _ Hks Hk) as (k' & Hk' & Hkk & En & Et). destruct (f2_in _ _ _ _ Hl Hf) as (f' & Hf' & Hff & Ev). rewrite En. apply (as_present ks' l' k' f' v'); [exact Hk'|exact Hf'|apply (HF _ _ _ _ Hff Hkk); exact E|rewrite <- Et, <- Ev; exact Hv].
    - destruct (f2_in _ _ _ _ Hks Hk) as (k' & Hk' & Hkk). pose proof Hkk as (_ & En & Et). rewrite En. apply as_omitted; [exact Hk'|exact (omitted_renumbered _ _ _ _ Hkk Hl Ho)|rewrite <- Et; exact Hw].
  Qed.
End Fields.
Section Sides.
  Variable F : N -> N -> Prop.
  Hypothesis HF : one_to_one F.
  Variables (ks ks' : list key_info) (l l' : list field_match).
  Hypothesis Hks : Forall2 (rk F) ks ks'.
  Hypothesis Hl : Forall2 (rm F) l l'.
  Lemma consistent_renumbered : consistent ks l -> consistent ks' l'.
  Proof.
    intros [H1 H2 H3]. constructor.
    - intros f' Hf'. destruct (f2_in _ _ _ f' (rm_back _ _ _ Hl) Hf') as (f & Hf & Hff & Ev). destruct (H1 f Hf) as (k & v & Hk & E & Hv). destruct (f2_in _ _ _ _ Hks Hk) as (k' & Hk' & Hkk & _ & Et). exists k', v. split; [exact Hk'|]. split; [apply (HF _ _ _ _ Hkk Hff); exact E|]. rewrite <- Et, Ev. exact Hv.
    - apply (f2_nodup (rm F) fm_id fm_id l l'); [|exact Hl|exact H2]. intros a a' b b' (Ha & _) (Hb & _) E. apply (HF _ _ _ _ Ha Hb). exact E.
    - intros k' Hk' Ho. destruct (f2_in _ _ _ k' (rk_back _ _ _ Hks) Hk') as (k & Hk & Hkk). destruct (H3 k Hk) as (v & Hv); [exact (omitted_renumbered (back F) (back_one F HF) k' k l' l Hkk (rm_back _ _ _ Hl) Ho)|]. exists v. destruct Hkk as (_ & _ & ->). exact Hv.
  Qed.
  Lemma faulty_renumbered c : faulty ks l c -> faulty ks' l' c.
  Proof.
    intros [a f b E Ha Hm|a f b E Ha Hn Hm|k w Ha Hk Ho Ht|k Ha Hk Ho Ht].
    - subst l. apply f2_split in Hl as (a' & f' & b' & -> & H1 & H2 & _). eapply fl_misfit; [reflexivity|exact (all_fine_renumbered F HF _ _ _ _ Hks H1 Ha)|exact (misfit_renumbered F HF _ _ _ _ Hks H2 Hm)].
    - subst l. apply f2_split in Hl as (a' & f' & b' & -> & H1 & H2 & _). assert (rm (back F) f' f) as H2' by (destruct H2 as (X & Y); split; [exact X|now symmetry]). eapply fl_other; [reflexivity|exact (all_fine_renumbered F HF _ _ _ _ Hks H1 Ha)| |].
      + intros Hx. apply Hn. exact (fine_renumbered (back F) (back_one F HF) _ _ _ _ _ _ (rk_back _ _ _ Hks) (rm_back _ _ _ H1) H2' Hx).
      + intros Hx. apply Hm. exact (misfit_renumbered (back F) (back_one F HF) _ _ _ _ (rk_back _ _ _ Hks) H2' Hx).
    - destruct (f2_in _ _ _ _ Hks Hk) as (k' & Hk' & Hkk). pose proof Hkk as (_ & _ & Et). apply (fl_missing ks' l' k' w); [exact (all_fine_renumbered F HF _ _ _ _ Hks Hl Ha)|exact Hk'|exact (omitted_renumbered F HF _ _ _ _ Hkk Hl Ho)|congruence].
    - destruct (f2_in _ _ _ _ Hks Hk) as (k' & Hk' & Hkk). pose proof Hkk as (_ & _ & Et). apply (fl_unsupported ks' l' k'); [exact (all_fine_renumbered F HF _ _ _ _ Hks Hl Ha)|exact Hk'|exact (omitted_renumbered F HF _ _ _ _ Hkk Hl Ho)|rewrite <- Et; exact Ht].
  Qed.
  Lemma assigned_both n v : Assigned ks l n v <-> Assigned ks' l' n v.
  Proof. split; [exact (assigned_renumbered F HF _ _ _ _ _ _ Hks Hl)|exact (assigned_renumbered (back F) (back_one F HF) _ _ _ _ _ _ (rk_back _ _ _ Hks) (rm_back _ _ _ Hl))]. Qed.
End Sides.
Definition ra (F : N -> N -> Prop) (x x' : N * string) : Prop := F (fst x) (fst x') /\ snd x = snd x'.
Lemma ra_back F l l' : Forall2 (ra F) l l' -> Forall2 (ra (back F)) l' l.
Proof. apply f2_flip. intros a b (H1 & H2). split; [exact H1|now symmetry]. Qed.
Lemma acceptable_renumbered F ps ps' l l' : one_to_one F -> Forall2 (rk F) ps ps' -> Forall2 (ra F) l l' -> acceptable ps l -> acceptable ps' l'.
Proof.
  intros HF Hp Hl [H1 H2]. constructor.
  - intros id' s' Hi. destruct (f2_in _ _ _ _ (ra_back _ _ _ Hl) Hi) as ([id s] & Hx & Hr & _). cbn in Hr. destruct (H1 id s Hx) as (p & Hpp & E). destruct (f2_in _ _ _ _ Hp Hpp) as (p' & Hp' & Hr' & _). exists p'. split; [exact Hp'|]. apply (HF _ _ _ _ Hr' Hr). exact E.
  - apply (f2_nodup (ra F) fst fst l l'); [|exact Hl|exact H2]. intros a a' b b' (Ha & _) (Hb & _) E. apply (HF _ _ _ _ Ha Hb). exact E.
Qed.
Lemma passed_renumbered F ps ps' l l' n z : one_to_one F -> Forall2 (rk F) ps ps' -> Forall2 (ra F) l l' -> Passed ps l n z -> Passed ps' l' n z.
Proof.
  intros HF Hp Hl (p & s & H1 & H2 & -> & ->). destruct (f2_in _ _ _ _ Hp H1) as (p' & Hp' & Hr & En & _). destruct (f2_in _ _ _ _ Hl H2) as ([i s'] & Hi & Hr' & Es). cbn in Hr', Es. subst s'. exists p', s. split; [exact Hp'|]. split; [|split; [exact En|reflexivity]].
  replace (k_id p') with i; [exact Hi|]. apply (HF _ _ _ _ Hr' Hr). reflexivity.
Qed.

(** * Declarations *)
Lemma unrestricted_same ck p p' : pr_annotations p = pr_annotations p' -> unrestricted ck p -> unrestricted ck p'.
Proof. intros E. unfold unrestricted. now rewrite E. Qed.
Lemma restricted_same ck p p' cs : pr_name p = pr_name p' -> pr_annotations p = pr_annotations p' -> restricted ck p cs -> restricted ck p' cs.
Proof. intros E1 E2. unfold restricted. now rewrite E1, E2. Qed.
Section Outcomes.
  Variable n : numbering.
  Hypothesis Hn : faithful n.
  Lemma table_outcome_renumbered pton d d' e e' v : renumbered_table n d d' -> renumbered_entry n e e' -> pr_id (pt_preamble d) = pe_table_id e -> pr_id (pt_preamble d') = pe_table_id e' ->
    table_outcome pton d e v -> table_outcome pton d' e' v.
  Proof.
    intros ((_ & En & Ea) & HK) (_ & HM & _ & Ep) E1 E2 H. rewrite E1, E2 in HK. pose proof (proj1 (proj2 Hn) (pe_table_id e) (pe_table_id e')) as HF. set (F := of_fields n (pe_table_id e) (pe_table_id e')) in *.
    assert (Forall2 (rm F) (pe_match e) (pe_match e')) as HM' by exact HM.
    destruct H as [H|ks cs x t H1 H2 H3 H4 H5|ks cs x c H1 H2 H3 H4 H5|ks cs x key v H1 H2 H3 H4 H5 H6 H7].
    - apply tv_free. exact (unrestricted_same _ _ _ Ea H).
    - destruct (keys_renumbered F _ _ ks HK H1) as (ks' & K1 & K2). eapply tv_type; [exact K1|exact (restricted_same _ _ _ _ En Ea H2)|exact H3|exact (typed_wider _ _ _ _ (key_scope_wider F _ _ K2) H4)|exact H5].
    - destruct (keys_renumbered F _ _ ks HK H1) as (ks' & K1 & K2). eapply tv_faulty; [exact K1|exact (restricted_same _ _ _ _ En Ea H2)|exact H3|exact (typed_wider _ _ _ _ (key_scope_wider F _ _ K2) H4)|exact (faulty_renumbered F HF _ _ _ _ K2 HM' _ H5)].
    - destruct (keys_renumbered F _ _ ks HK H1) as (ks' & K1 & K2). eapply (tv_judged pton d' e' ks' cs x key v); [exact K1|exact (restricted_same _ _ _ _ En Ea H2)|exact H3|exact (typed_wider _ _ _ _ (key_scope_wider F _ _ K2) H4)|exact (consistent_renumbered F HF _ _ _ _ K2 HM' H5)| |].
      + intros m u. rewrite H6. exact (assigned_both F HF _ _ _ _ K2 HM' m u).
      + rewrite <- Ep, <- En. revert H7. apply judged_ext; [|auto]. intros s b. split; apply meant_wider; [exact (key_scope_wider F _ _ K2)|exact (key_scope_wider _ _ _ (rk_back _ _ _ K2))].
  Qed.
  Lemma action_outcome_renumbered pton d d' a a' v : renumbered_action n d d' -> renumbered_call n a a' -> pr_id (pad_preamble d) = pa_id a -> pr_id (pad_preamble d') = pa_id a' ->
    action_outcome pton d a v -> action_outcome pton d' a' v.
  Proof.
    intros ((_ & En & Ea) & HK) (_ & HM) E1 E2 H. rewrite E1, E2 in HK. pose proof (proj2 (proj2 (proj2 Hn)) (pa_id a) (pa_id a')) as HF. set (F := of_params n (pa_id a) (pa_id a')) in *.
    assert (Forall2 (ra F) (pa_params a) (pa_params a')) as HM' by exact HM.
    destruct H as [H|ks cs x t H1 H2 H3 H4 H5|ks cs x H1 H2 H3 H4 H5|ks cs x key v H1 H2 H3 H4 H5 H6 H7].
    - apply av_free. exact (unrestricted_same _ _ _ Ea H).
    - destruct (params_renumbered F _ _ ks HK H1) as (ks' & K1 & K2). eapply av_type; [exact K1|exact (restricted_same _ _ _ _ En Ea H2)|exact H3|exact (typed_wider _ _ _ _ (param_scope_wider F _ _ K2) H4)|exact H5].
    - destruct (params_renumbered F _ _ ks HK H1) as (ks' & K1 & K2). eapply av_faulty; [exact K1|exact (restricted_same _ _ _ _ En Ea H2)|exact H3|exact (typed_wider _ _ _ _ (param_scope_wider F _ _ K2) H4)|].
      intros Hx. apply H5. exact (acceptable_renumbered (back F) _ _ _ _ (back_one F HF) (rk_back _ _ _ K2) (ra_back _ _ _ HM') Hx).
    - destruct (params_renumbered F _ _ ks HK H1) as (ks' & K1 & K2). eapply (av_judged pton d' a' ks' cs x key v); [exact K1|exact (restricted_same _ _ _ _ En Ea H2)|exact H3|exact (typed_wider _ _ _ _ (param_scope_wider F _ _ K2) H4)|exact (acceptable_renumbered F _ _ _ _ HF K2 HM' H5)| |].
      + intros m u. rewrite H6. split; [exact (passed_renumbered F _ _ _ _ m u HF K2 HM')|exact (passed_renumbered (back F) _ _ _ _ m u (back_one F HF) (rk_back _ _ _ K2) (ra_back _ _ _ HM'))].
      + rewrite <- En. revert H7. apply judged_ext; [|auto]. intros s b. split; apply meant_wider; [exact (param_scope_wider F _ _ K2)|exact (param_scope_wider _ _ _ (rk_back _ _ _ K2))].
  Qed.
  Variables p p' : p4info.
  Hypothesis Hp : renumbered n p p'.
  Lemma table_found d a a' : of_tables n a a' -> In d (p4_tables p) -> pr_id (pt_preamble d) = a -> exists d', In d' (p4_tables p') /\ pr_id (pt_preamble d') = a' /\ renumbered_table n d d'.
  Proof. intros Ha Hd E. destruct (f2_in _ _ _ _ (proj1 Hp) Hd) as (d' & Hd' & HR). exists d'. split; [exact Hd'|]. split; [|exact HR]. apply (proj1 Hn _ _ _ _ (proj1 (proj1 HR)) Ha). exact E. Qed.
  Lemma action_found d a a' : of_actions n a a' -> In d (p4_actions p) -> pr_id (pad_preamble d) = a -> exists d', In d' (p4_actions p') /\ pr_id (pad_preamble d') = a' /\ renumbered_action n d d'.
  Proof. intros Ha Hd E. destruct (f2_in _ _ _ _ (proj2 Hp) Hd) as (d' & Hd' & HR). exists d'. split; [exact Hd'|]. split; [|exact HR]. apply (proj1 (proj2 (proj2 Hn)) _ _ _ _ (proj1 (proj1 HR)) Ha). exact E. Qed.
  Lemma table_unknown a a' : of_tables n a a' -> (forall d, In d (p4_tables p) -> pr_id (pt_preamble d) <> a) -> forall d', In d' (p4_tables p') -> pr_id (pt_preamble d') <> a'.
  Proof.
    intros Ha H d' Hd' E. destruct (f2_in (fun y x => renumbered_table n x y) _ _ d' (f2_flip _ _ _ _ (fun x y r => r) (proj1 Hp)) Hd') as (d & Hd & HR). apply (H d Hd). apply (proj1 Hn _ _ _ _ (proj1 (proj1 HR)) Ha). exact E.
  Qed.
  Lemma action_unknown a a' : of_actions n a a' -> (forall d, In d (p4_actions p) -> pr_id (pad_preamble d) <> a) -> forall d', In d' (p4_actions p') -> pr_id (pad_preamble d') <> a'.
  Proof.
    intros Ha H d' Hd' E. destruct (f2_in (fun y x => renumbered_action n x y) _ _ d' (f2_flip _ _ _ _ (fun x y r => r) (proj2 Hp)) Hd') as (d & Hd & HR). apply (H d Hd). apply (proj1 (proj2 (proj2 Hn)) _ _ _ _ (proj1 (proj1 HR)) Ha). exact E.
  Qed.
  Lemma actions_outcome_renumbered pton l v : actions_outcome pton p l v -> forall l', Forall2 (renumbered_call n) l l' -> actions_outcome pton p' l' v.
  Proof.
    induction 1 as [|a l Hu|d a l v Hd E Ho Hv|d a l v Hd E Ho _ IH]; intros l' Hl; inversion Hl as [|? a' ? l2 Hc Hl2]; subst.
    - constructor.
    - apply sv_unknown. exact (action_unknown _ _ (proj1 Hc) Hu).
    - destruct (action_found d _ _ (proj1 Hc) Hd E) as (d' & Hd' & E' & HR). eapply sv_stop; [exact Hd'|exact E'|exact (action_outcome_renumbered pton d d' a a' v HR Hc E E' Ho)|exact Hv].
    - destruct (action_found d _ _ (proj1 Hc) Hd E) as (d' & Hd' & E' & HR). eapply sv_next; [exact Hd'|exact E'|exact (action_outcome_renumbered pton d d' a a' _ HR Hc E E' Ho)|exact (IH _ Hl2)].
  Qed.
  Lemma action_list_renumbered e e' : renumbered_entry n e e' -> match action_list e, action_list e' with Some l, Some l' => Forall2 (renumbered_call n) l l' | None, None => True | _, _ => False end.
  Proof. intros (_ & _ & H & _). unfold action_list. destruct H; auto. Qed.
  Lemma entry_outcome_renumbered pton e e' v : renumbered_entry n e e' -> entry_outcome pton p e v -> entry_outcome pton p' e' v.
  Proof.
    intros He. pose proof (action_list_renumbered e e' He) as HA. pose proof (proj1 He) as Ht. intros [Hu|d v0 Hd E Ho Hv|d Hd E Ho HN|d l v0 Hd E Ho HL HO].
    - apply nv_unknown. exact (table_unknown _ _ Ht Hu).
    - destruct (table_found d _ _ Ht Hd E) as (d' & Hd' & E' & HR). eapply nv_table; [exact Hd'|exact E'|exact (table_outcome_renumbered pton d d' e e' _ HR He E E' Ho)|exact Hv].
    - destruct (table_found d _ _ Ht Hd E) as (d' & Hd' & E' & HR). rewrite HN in HA. eapply nv_indirect; [exact Hd'|exact E'|exact (table_outcome_renumbered pton d d' e e' _ HR He E E' Ho)|]. destruct (action_list e'); [contradiction|reflexivity].
    - destruct (table_found d _ _ Ht Hd E) as (d' & Hd' & E' & HR). rewrite HL in HA. destruct (action_list e') as [l'|] eqn:EL; [|contradiction]. eapply nv_actions; [exact Hd'|exact E'|exact (table_outcome_renumbered pton d d' e e' _ HR He E E' Ho)|exact EL|exact (actions_outcome_renumbered pton l v0 HO l' HA)].
  Qed.
End Outcomes.

(** * Both ways *)
Definition undo (n : numbering) : numbering :=
  mkNumbering (back (of_tables n)) (fun t' t => back (of_fields n t t')) (back (of_actions n)) (fun a' a => back (of_params n a a')).
Lemma undo_faithful n : faithful n -> faithful (undo n).
Proof. intros (H1 & H2 & H3 & H4). split; [exact (back_one _ H1)|]. split; [intros t t'; exact (back_one _ (H2 t' t))|]. split; [exact (back_one _ H3)|intros a a'; exact (back_one _ (H4 a' a))]. Qed.
Lemma undo_table n d d' : renumbered_table n d d' -> renumbered_table (undo n) d' d.
Proof. intros ((H1 & H2 & H3) & H4). split; [split; [exact H1|now split]|]. revert H4. apply f2_flip. intros f f' (E1 & E2 & E3 & E4). split; [exact E1|auto]. Qed.
Lemma undo_action n d d' : renumbered_action n d d' -> renumbered_action (undo n) d' d.
Proof. intros ((H1 & H2 & H3) & H4). split; [split; [exact H1|now split]|]. revert H4. apply f2_flip. intros f f' (E1 & E2 & E3 & E4). split; [exact E1|auto]. Qed.
Lemma undo_info n p p' : renumbered n p p' -> renumbered (undo n) p' p.
Proof. intros (H1 & H2). split; [revert H1; apply f2_flip; exact (undo_table n)|revert H2; apply f2_flip; exact (undo_action n)]. Qed.
Lemma undo_call n a a' : renumbered_call n a a' -> renumbered_call (undo n) a' a.
Proof. intros (H1 & H2). split; [exact H1|]. revert H2. apply f2_flip. intros x x' (E1 & E2). split; [exact E1|now symmetry]. Qed.
Lemma undo_entry n e e' : renumbered_entry n e e' -> renumbered_entry (undo n) e' e.
Proof.
  intros (H1 & H2 & H3 & H4). split; [exact H1|]. split; [revert H2; apply f2_flip; intros f f' (E1 & E2); split; [exact E1|now symmetry]|]. split; [|now symmetry].
  destruct H3 as [|a a' H|l l' H|i i'|i i'|]; constructor; [exact (undo_call n _ _ H)|revert H; apply f2_flip; exact (undo_call n)].
Qed.
Lemma declares_renumbered n p p' ck cs : renumbered n p p' -> declares p ck cs -> declares p' ck cs.
Proof.
  intros (H1 & H2) [d cs0 Hd Hr|d cs0 Hd Hr].
  - destruct (f2_in _ _ _ _ H1 Hd) as (d' & Hd' & (_ & En & Ea) & _). apply (dc_table p' d' cs0 Hd'). exact (restricted_same _ _ _ _ En Ea Hr).
  - destruct (f2_in _ _ _ _ H2 Hd) as (d' & Hd' & (_ & En & Ea) & _). apply (dc_action p' d' cs0 Hd'). exact (restricted_same _ _ _ _ En Ea Hr).
Qed.
Lemma legible_renumbered n pton p p' : renumbered n p p' -> legible pton p -> legible pton p'.
Proof. intros H HL ck cs e Hd. apply HL. exact (declares_renumbered (undo n) p' p ck cs (undo_info n p p' H) Hd). Qed.
Lemma widths_renumbered n p p' : renumbered n p p' -> sane_widths p -> sane_widths p'.
Proof.
  intros H (H1 & H2). apply undo_info in H as (K1 & K2). split; intros d' f' Hd' Hf'.
  - destruct (f2_in _ _ _ _ K1 Hd') as (d & Hd & _ & HF). destruct (f2_in _ _ _ _ HF Hf') as (f & Hf & _ & _ & -> & _). exact (H1 d f Hd Hf).
  - destruct (f2_in _ _ _ _ K2 Hd') as (d & Hd & _ & HF). destruct (f2_in _ _ _ _ HF Hf') as (f & Hf & _ & _ & -> & _). exact (H2 d f Hd Hf).
Qed.
Lemma standard_renumbered n p p' : renumbered n p p' -> standard_keys p -> standard_keys p'.
Proof.
  intros H H1 d' f' Hd' Hf'. apply undo_info in H as (K1 & _). destruct (f2_in _ _ _ _ K1 Hd') as (d & Hd & _ & HF). destruct (f2_in _ _ _ _ HF Hf') as (f & Hf & _ & _ & _ & ->). exact (H1 d f Hd Hf).
Qed.
Lemma nodup_names {A} (f : A -> string) l l' : Forall2 (fun a b => f a = f b) l l' -> map f l = map f l'.
Proof. induction 1; cbn [map]; congruence. Qed.
Lemma f2_impl {A B} (R S : A -> B -> Prop) l m : (forall a b, R a b -> S a b) -> Forall2 R l m -> Forall2 S l m.
Proof. intros H. induction 1; constructor; auto. Qed.
Lemma loadable_table_renumbered n pton d d' : faithful n -> renumbered_table n d d' -> loadable_table pton d -> loadable_table pton d'.
Proof.
  intros Hn ((_ & En & Ea) & HF) (ks & H1 & H2 & H3 & H4). set (F := of_fields n (pr_id (pt_preamble d)) (pr_id (pt_preamble d'))) in *. pose proof (proj1 (proj2 Hn) _ _ : one_to_one F) as HO.
  destruct (keys_renumbered F _ _ ks HF H1) as (ks' & K1 & K2). exists ks'. split; [exact K1|]. split; [|split].
  - revert H2. refine (f2_nodup _ mf_id mf_id _ _ _ HF). intros a a' b b' (Ha & _) (Hb & _) E. apply (HO _ _ _ _ Ha Hb). exact E.
  - rewrite <- (nodup_names mf_name (pt_match_fields d) (pt_match_fields d')); [exact H3|]. revert HF. apply f2_impl. intros a b (_ & E & _). exact E.
  - destruct H4 as [H4|(cs & e & t & R1 & R2 & R3)]; [left; exact (unrestricted_same _ _ _ Ea H4)|right]. exists cs, e, t. split; [exact (restricted_same _ _ _ _ En Ea R1)|]. split; [exact R2|exact (typed_wider _ _ _ _ (key_scope_wider F _ _ K2) R3)].
Qed.
Lemma loadable_action_renumbered n pton d d' : faithful n -> renumbered_action n d d' -> loadable_action pton d -> loadable_action pton d'.
Proof.
  intros Hn ((_ & En & Ea) & HF) (ks & H1 & H2 & H3 & H4). set (F := of_params n (pr_id (pad_preamble d)) (pr_id (pad_preamble d'))) in *. pose proof (proj2 (proj2 (proj2 Hn)) _ _ : one_to_one F) as HO.
  destruct (params_renumbered F _ _ ks HF H1) as (ks' & K1 & K2). exists ks'. split; [exact K1|]. split; [|split].
  - revert H2. refine (f2_nodup _ ap_id ap_id _ _ _ HF). intros a a' b b' (Ha & _) (Hb & _) E. apply (HO _ _ _ _ Ha Hb). exact E.
  - rewrite <- (nodup_names ap_name (pad_params d) (pad_params d')); [exact H3|]. revert HF. apply f2_impl. intros a b (_ & E & _). exact E.
  - destruct H4 as [H4|(cs & e & t & R1 & R2 & R3)]; [left; exact (unrestricted_same _ _ _ Ea H4)|right]. exists cs, e, t. split; [exact (restricted_same _ _ _ _ En Ea R1)|]. split; [exact R2|exact (typed_wider _ _ _ _ (param_scope_wider F _ _ K2) R3)].
Qed.
Lemma loads_renumbered pton n p p' : pton_ok pton -> faithful n -> renumbered n p p' -> (exists ci, P4ToConstraintInfo pton p = Ok ci) -> exists ci, P4ToConstraintInfo pton p' = Ok ci.
Proof.
  intros Hp Hn H HL. apply (C37_loads_iff pton p Hp) in HL as (L1 & L2 & L3 & L4). apply (C37_loads_iff pton p' Hp). pose proof (undo_info n p p' H) as (U1 & U2). split; [|split; [|split]].
  - revert L1. refine (f2_nodup _ PropertiesInfo.table_id PropertiesInfo.table_id _ _ _ (proj1 H)). intros a a' b b' ((Ha & _) & _) ((Hb & _) & _) E. apply (proj1 Hn _ _ _ _ Ha Hb). exact E.
  - revert L2. refine (f2_nodup _ PropertiesInfo.action_id PropertiesInfo.action_id _ _ _ (proj2 H)). intros a a' b b' ((Ha & _) & _) ((Hb & _) & _) E. apply (proj1 (proj2 (proj2 Hn)) _ _ _ _ Ha Hb). exact E.
  - intros d' Hd'. destruct (f2_in (fun y x => renumbered_table n x y) _ _ d' (f2_flip _ _ _ _ (fun x y r => r) (proj1 H)) Hd') as (d & Hd & HR). exact (loadable_table_renumbered n pton d d' Hn HR (L3 d Hd)).
  - intros d' Hd'. destruct (f2_in (fun y x => renumbered_action n x y) _ _ d' (f2_flip _ _ _ _ (fun x y r => r) (proj2 H)) Hd') as (d & Hd & HR). exact (loadable_action_renumbered n pton d d' Hn HR (L4 d Hd)).
Qed.
Lemma table_allows_renumbered n pton d d' e e' : faithful n -> renumbered_table n d d' -> renumbered_entry n e e' -> pr_id (pt_preamble d) = pe_table_id e -> pr_id (pt_preamble d') = pe_table_id e' ->
  table_allows pton d e -> table_allows pton d' e'.
Proof.
  intros Hn ((_ & En & Ea) & HK) (_ & HM & _ & Ep) E1 E2 [H|(ks & cs & x & key & H1 & H2 & H3 & H4 & H5 & H6 & H7)]; [left; exact (unrestricted_same _ _ _ Ea H)|right].
  rewrite E1, E2 in HK. pose proof (proj1 (proj2 Hn) (pe_table_id e) (pe_table_id e')) as HF. set (F := of_fields n (pe_table_id e) (pe_table_id e')) in *. assert (Forall2 (rm F) (pe_match e) (pe_match e')) as HM' by exact HM.
  destruct (keys_renumbered F _ _ ks HK H1) as (ks' & K1 & K2). exists ks', cs, x, key. split; [exact K1|]. split; [exact (restricted_same _ _ _ _ En Ea H2)|]. split; [exact H3|]. split; [exact (consistent_renumbered F HF _ _ _ _ K2 HM' H4)|].
  split; [intros m u; rewrite H5; exact (assigned_both F HF _ _ _ _ K2 HM' m u)|]. split; [exact (typed_wider _ _ _ _ (key_scope_wider F _ _ K2) H6)|]. rewrite <- Ep. exact (meant_wider _ _ _ _ _ _ (key_scope_wider F _ _ K2) H7).
Qed.
Lemma action_allows_renumbered n pton d d' a a' : faithful n -> renumbered_action n d d' -> renumbered_call n a a' -> pr_id (pad_preamble d) = pa_id a -> pr_id (pad_preamble d') = pa_id a' ->
  action_allows pton d a -> action_allows pton d' a'.
Proof.
  intros Hn ((_ & En & Ea) & HK) (_ & HM) E1 E2 [H|(ks & cs & x & key & H1 & H2 & H3 & H4 & H5 & H6 & H7)]; [left; exact (unrestricted_same _ _ _ Ea H)|right].
  rewrite E1, E2 in HK. pose proof (proj2 (proj2 (proj2 Hn)) (pa_id a) (pa_id a')) as HF. set (F := of_params n (pa_id a) (pa_id a')) in *. assert (Forall2 (ra F) (pa_params a) (pa_params a')) as HM' by exact HM.
  destruct (params_renumbered F _ _ ks HK H1) as (ks' & K1 & K2). exists ks', cs, x, key. split; [exact K1|]. split; [exact (restricted_same _ _ _ _ En Ea H2)|]. split; [exact H3|]. split; [exact (acceptable_renumbered F _ _ _ _ HF K2 HM' H4)|].
  split; [intros m u; rewrite H5; split; [exact (passed_renumbered F _ _ _ _ m u HF K2 HM')|exact (passed_renumbered (back F) _ _ _ _ m u (back_one F HF) (rk_back _ _ _ K2) (ra_back _ _ _ HM'))]|].
  split; [exact (typed_wider _ _ _ _ (param_scope_wider F _ _ K2) H6)|]. exact (meant_wider _ _ _ _ _ _ (param_scope_wider F _ _ K2) H7).
Qed.
Lemma accepts_renumbered pton n p p' ci ci' e e' : pton_ok pton -> faithful n -> renumbered n p p' -> renumbered_entry n e e' -> P4ToConstraintInfo pton p = Ok ci -> P4ToConstraintInfo pton p' = Ok ci' ->
  ReasonEntryViolatesConstraint e ci = Ok "" -> ReasonEntryViolatesConstraint e' ci' = Ok "".
Proof.
  intros Hp Hn H He Hci Hci' HA. apply (C58_accepted_iff pton p ci e Hp Hci) in HA as ((d & Hd & E & Hok) & HD & HAs). apply (C58_accepted_iff pton p' ci' e' Hp Hci'). split; [|split].
  - destruct (table_found n Hn p p' H d _ _ (proj1 He) Hd E) as (d' & Hd' & E' & HR). exists d'. split; [exact Hd'|]. split; [exact E'|]. exact (table_allows_renumbered n pton d d' e e' Hn HR He E E' Hok).
  - unfold direct in *. destruct He as (_ & _ & Hc & _). destruct Hc; auto.
  - intros a' Ha'. assert (exists a, In a (actions_of e) /\ renumbered_call n a a') as (a & Ha & Hc).
    { pose proof (undo_entry n e e' He) as (_ & _ & Hc & _). unfold actions_of in *. destruct Hc as [|b b' Hb|l l' Hl|i i'|i i'|]; try contradiction.
      - destruct Ha' as [<-|[]]. exists b'. split; [now left|]. apply undo_call in Hb. exact Hb.
      - destruct (f2_in _ _ _ _ Hl Ha') as (x & Hx & Hr). exists x. split; [exact Hx|]. apply undo_call in Hr. exact Hr. }
    destruct (HAs a Ha) as (da & Hda & Ea & Hoka). destruct (action_found n Hn p p' H da _ _ (proj1 Hc) Hda Ea) as (d' & Hd' & E' & HR). exists d'. split; [exact Hd'|]. split; [exact E'|]. exact (action_allows_renumbered n pton da d' a a' Hn HR Hc Ea E' Hoka).
Qed.

(** * The theorems *)
(** A program can be loaded exactly if the renumbered one can. *)
Theorem C115_loads : forall pton n p p', pton_ok pton -> faithful n -> renumbered n p p' ->
  ((exists ci, P4ToConstraintInfo pton p = Ok ci) <-> (exists ci', P4ToConstraintInfo pton p' = Ok ci')).
Proof. intros pton n p p' Hp Hn H. split; [exact (loads_renumbered pton n p p' Hp Hn H)|exact (loads_renumbered pton (undo n) p' p Hp (undo_faithful n Hn) (undo_info n p p' H))]. Qed.
Print Assumptions C115_loads.
(** The same entries are accepted. *)
Theorem C115_accepts : forall pton n p p' ci ci' entry entry', pton_ok pton -> faithful n -> renumbered n p p' -> renumbered_entry n entry entry' ->
  P4ToConstraintInfo pton p = Ok ci -> P4ToConstraintInfo pton p' = Ok ci' ->
  (ReasonEntryViolatesConstraint entry ci = Ok "" <-> ReasonEntryViolatesConstraint entry' ci' = Ok "").
Proof.
  intros pton n p p' ci ci' e e' Hp Hn H He Hci Hci'. split; [exact (accepts_renumbered pton n p p' ci ci' e e' Hp Hn H He Hci Hci')|exact (accepts_renumbered pton (undo n) p' p ci' ci e' e Hp (undo_faithful n Hn) (undo_info n p p' H) (undo_entry n e e' He) Hci' Hci)].
Qed.
Print Assumptions C115_accepts.
(** So are the explanations, letter for letter, and the codes of failures. *)
Theorem C115_outcome : forall pton n p p' ci ci' entry entry' v, pton_ok pton -> faithful n -> renumbered n p p' -> renumbered_entry n entry entry' ->
  P4ToConstraintInfo pton p = Ok ci -> P4ToConstraintInfo pton p' = Ok ci' -> sane_widths p -> legible pton p -> standard_keys p ->
  (reports (ReasonEntryViolatesConstraint entry ci) v <-> reports (ReasonEntryViolatesConstraint entry' ci') v).
Proof.
  intros pton n p p' ci ci' e e' v Hp Hn H He Hci Hci' Hs Hl Hst. rewrite (C71_exact pton p ci e v Hp Hci Hs Hl Hst).
  rewrite (C71_exact pton p' ci' e' v Hp Hci' (widths_renumbered n p p' H Hs) (legible_renumbered n pton p p' H Hl) (standard_renumbered n p p' H Hst)).
  split; [exact (entry_outcome_renumbered n Hn p p' H pton e e' v He)|exact (entry_outcome_renumbered (undo n) (undo_faithful n Hn) p' p (undo_info n p p' H) pton e' e v (undo_entry n e e' He))].
Qed.
Print Assumptions C115_outcome.

(** The demo program with other numbers: tables and actions are 100 higher, fields doubled, and parameters swapped. *)
Definition demo_numbering : numbering :=
  mkNumbering (fun a b => b = a + 100)%N (fun _ _ a b => b = 2 * a)%N (fun a b => b = a + 100)%N (fun _ _ a b => a = 1 /\ b = 2 \/ a = 2 /\ b = 1)%N.
Definition demo_info2 : p4info := mkP4Info
  [mkP4Table (mkPre 103 "demo" [restriction "entry" [demo_source]]) [mkMF 2 "e" 8 (MMatchType MTExact); mkMF 4 "t" 16 (MMatchType MTTernary); mkMF 6 "r" 4 (MMatchType MTRange)];
   mkP4Table (mkPre 105 "free" []) []]
  [mkP4ActionDecl (mkPre 104 "act" [restriction "action" ["p < 3 || q == 0"]]) [mkAP 2 "p" 8 ""; mkAP 1 "q" 8 ""]].
Definition demo_ci2 : constraint_info := Eval vm_compute in the (mkInfo [] []) (P4ToConstraintInfo pton1 demo_info2).
Lemma demo_parsed2 : P4ToConstraintInfo pton1 demo_info2 = Ok demo_ci2.
Proof. vm_compute. reflexivity. Qed.
Definition demo_entry1 : p4_entry := mkEntry 3 demo_match (Some (TAction (mkP4Action 4 [(1%N, "b"); (2%N, "a")]))) 7.
Definition demo_entry2 : p4_entry := mkEntry 103 [mkFM 2 (FMExact "a")] (Some (TAction (mkP4Action 104 [(2%N, "b"); (1%N, "a")]))) 7.
Example C115_case : faithful demo_numbering /\ renumbered demo_numbering demo_info demo_info2 /\ renumbered_entry demo_numbering demo_entry1 demo_entry2 /\
  P4ToConstraintInfo pton1 demo_info = Ok demo_ci /\ P4ToConstraintInfo pton1 demo_info2 = Ok demo_ci2 /\ sane_widths demo_info /\ legible pton1 demo_info /\ standard_keys demo_info /\
  (exists text, ReasonEntryViolatesConstraint demo_entry1 demo_ci = Ok text /\ ReasonEntryViolatesConstraint demo_entry2 demo_ci2 = Ok text /\ text <> "").
Proof.
  destruct C71_case as (Hs & Hl & Hst & Hci & _). split.
  { unfold faithful, one_to_one, demo_numbering. cbn [of_tables of_fields of_actions of_params]. repeat split; lia. }
  split. { split; repeat (constructor; [repeat split; cbn; auto|]); constructor. }
  split. { split; [reflexivity|]. split; [repeat constructor|]. split; [|reflexivity]. constructor. split; [reflexivity|]. repeat (constructor; [cbn; auto|]). constructor. }
  split; [exact Hci|]. split; [exact demo_parsed2|]. split; [exact Hs|]. split; [exact Hl|]. split; [exact Hst|].
  exists (the "" (ReasonEntryViolatesConstraint demo_entry1 demo_ci)). split; [vm_compute; reflexivity|]. split; [vm_compute; reflexivity|]. vm_compute. discriminate.
Qed.
