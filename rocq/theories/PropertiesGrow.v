(** New match fields and parameters (C91). *)
From Coq Require Import String Ascii List ZArith NArith Bool Lia Permutation.
From Verif Require Import Base Num Token Ast Lexer Quote AstConstructors Parser Info TypeChecker ConstraintInfo Interpreter SpecLexer SpecGrammar SpecTyping SpecSemantics SpecInfo SpecReading SpecGrow
  LiteralFacts SemFacts EntryFacts InfoFacts InfoFacts2 InterpFacts2 LoadFacts VerdictFacts GrowFacts GrowFacts2 PropertiesParser PropertiesInfo PropertiesVerdict PropertiesReading.
Import ListNotations.
Open Scope string_scope.

(** * C91 *)
Lemma decls_exist {F} (decl : F -> key_info -> Prop) l : (forall f, In f l -> exists k, decl f k) -> exists ks, Forall2 decl l ks.
Proof.
  induction l as [|f l IH]; intros H; [exists []; constructor|]. destruct (H f (or_introl eq_refl)) as [k Hk]. destruct IH as [ks Hks]; [intros g Hg; apply H; now right|]. exists (k :: ks). now constructor.
Qed.
Lemma omittable_decl f : omittable f -> exists k, key_decl f k.
Proof. intros H. destruct H as [i n w|i n w|i n w Hw|i n w]; [exists (mkKey i n (TTernary w))|exists (mkKey i n (TLpm w))|exists (mkKey i n (TRange w))|exists (mkKey i n (TOptional w))]; repeat split; constructor. Qed.
Lemma param_decl_exists f : exists k, param_decl f k.
Proof.
  destruct (String.eqb_spec (ap_type_name f) "") as [E|E]; [exists (mkKey (ap_id f) (ap_name f) (TBit (ap_bitwidth f)))|exists (mkKey (ap_id f) (ap_name f) (TUnsupported (ap_type_name f)))]; (split; [reflexivity|]; split; [reflexivity|]); [now left|now right].
Qed.
Lemma table_loads_grown pton d d' : grown_table d d' -> loadable_table pton d -> loadable_table pton d'.
Proof.
  intros (Hpre & new & Hp & Ho & N1 & N2) (ks & Hks & _ & _ & Hc). rewrite Forall_forall in Ho.
  assert (exists ks', Forall2 key_decl (pt_match_fields d') ks') as [ks' Hks'].
  { apply decls_exist. intros f Hf. apply (Permutation_in _ Hp), in_app_or in Hf as [Hf|Hf]; [destruct (f2_left _ _ _ _ Hks Hf) as (k & _ & Hk); eauto|apply omittable_decl; auto]. }
  exists ks'. split; [exact Hks'|]. split; [exact (Permutation_NoDup (Permutation_map mf_id (Permutation_sym Hp)) N1)|]. split; [exact (Permutation_NoDup (Permutation_map mf_name (Permutation_sym Hp)) N2)|].
  rewrite Hpre. destruct Hc as [Hu|(cs & e & t & Hr & Hra & Ht)]; [now left|right]. exists cs, e, t. split; [exact Hr|]. split; [exact Hra|].
  apply (typed_wide_t ks ks'); [|exact Ht]. exact (proj1 (larger key_decl _ new _ ks ks' key_decl_fun Hp Hks Hks')).
Qed.
Lemma action_loads_grown pton d d' : grown_action d d' -> loadable_action pton d -> loadable_action pton d'.
Proof.
  intros (Hpre & new & Hp & N1 & N2) (ks & Hks & _ & _ & Hc).
  assert (exists ks', Forall2 param_decl (pad_params d') ks') as [ks' Hks'] by (apply decls_exist; intros f _; apply param_decl_exists).
  exists ks'. split; [exact Hks'|]. split; [exact (Permutation_NoDup (Permutation_map ap_id (Permutation_sym Hp)) N1)|]. split; [exact (Permutation_NoDup (Permutation_map ap_name (Permutation_sym Hp)) N2)|].
  rewrite Hpre. destruct Hc as [Hu|(cs & e & t & Hr & Hra & Ht)]; [now left|right]. exists cs, e, t. split; [exact Hr|]. split; [exact Hra|].
  apply (typed_wide_a ks ks'); [|exact Ht]. exact (proj1 (larger param_decl _ new _ ks ks' param_decl_fun Hp Hks Hks')).
Qed.
Lemma grown_ids {A} (R : A -> A -> Prop) (id : A -> N) l l' : (forall a b, R a b -> id b = id a) -> Forall2 R l l' -> map id l' = map id l.
Proof. intros HR H. induction H as [|a b l l' Hab _ IH]; cbn; [reflexivity|]. rewrite IH, (HR a b Hab). reflexivity. Qed.
Lemma grown_table_id d d' : grown_table d d' -> table_id d' = table_id d.
Proof. intros [E _]. unfold table_id. now rewrite E. Qed.
Lemma grown_action_id d d' : grown_action d d' -> action_id d' = action_id d.
Proof. intros [E _]. unfold action_id. now rewrite E. Qed.
(** A P4Info that loads still loads. *)
Theorem C91_loads : forall pton p p' ci, pton_ok pton -> grown p p' -> P4ToConstraintInfo pton p = Ok ci -> exists ci', P4ToConstraintInfo pton p' = Ok ci'.
Proof.
  intros pton p p' ci Hp [HT HA] Hci. apply (C37_loads_iff pton p' Hp). destruct (proj1 (C37_loads_iff pton p Hp) (ex_intro _ ci Hci)) as (N1 & N2 & H1 & H2).
  split; [now rewrite (grown_ids _ table_id _ _ grown_table_id HT)|]. split; [now rewrite (grown_ids _ action_id _ _ grown_action_id HA)|]. split.
  - intros d' Hd'. destruct (f2_right _ _ _ _ HT Hd') as (d & Hd & Hg). exact (table_loads_grown pton d d' Hg (H1 d Hd)).
  - intros d' Hd'. destruct (f2_right _ _ _ _ HA Hd') as (d & Hd & Hg). exact (action_loads_grown pton d d' Hg (H2 d Hd)).
Qed.
Print Assumptions C91_loads.
Section Grown.
  Variables (pton : inet_pton6) (p p' : p4info) (ci ci' : constraint_info).
  Hypotheses (HG : grown p p') (Hci : P4ToConstraintInfo pton p = Ok ci) (Hci' : P4ToConstraintInfo pton p' = Ok ci').
  Lemma pair_table d : In d (p4_tables p) -> exists d' ks ks' t t', grown_table d d' /\ GetTableInfoOrNull ci (table_id d) = Some t /\ GetTableInfoOrNull ci' (table_id d) = Some t' /\ table_of pton d ks t /\ table_of pton d' ks' t'.
  Proof.
    intros Hd. destruct (C37_exact pton p ci Hci) as (H & _). destruct (C37_exact pton p' ci' Hci') as (H' & _). destruct (f2_left _ _ _ _ (proj1 HG) Hd) as (d' & Hd' & Hg).
    destruct (H d Hd) as (ks & t & Ht & Hto). destruct (H' d' Hd') as (ks' & t' & Ht' & Hto'). rewrite (grown_table_id _ _ Hg) in Ht'. exists d', ks, ks', t, t'. auto.
  Qed.
  Lemma pair_action d : In d (p4_actions p) -> exists d' ps ps' a a', grown_action d d' /\ GetActionInfoOrNull ci (action_id d) = Some a /\ GetActionInfoOrNull ci' (action_id d) = Some a' /\ action_of pton d ps a /\ action_of pton d' ps' a'.
  Proof.
    intros Hd. destruct (C37_exact pton p ci Hci) as (_ & _ & H & _). destruct (C37_exact pton p' ci' Hci') as (_ & _ & H' & _). destruct (f2_left _ _ _ _ (proj2 HG) Hd) as (d' & Hd' & Hg).
    destruct (H d Hd) as (ks & t & Ht & Hto). destruct (H' d' Hd') as (ks' & t' & Ht' & Hto'). rewrite (grown_action_id _ _ Hg) in Ht'. exists d', ks, ks', t, t'. auto.
  Qed.
  Lemma action_kept x r : ReasonActionViolates ci x = Ok r -> ReasonActionViolates ci' x = Ok r.
  Proof.
    intros H. pose proof H as H0. apply action_verdict in H as (b & Hb & _). destruct (C37_exact pton p ci Hci) as (_ & _ & _ & HA). destruct (HA _ _ Hb) as (d & ps0 & Hd & Hid & _).
    destruct (pair_action d Hd) as (d' & ps & ps' & a & a' & Hg & Ha & Ha' & Hao & Hao'). rewrite Hid in Ha, Ha'. exact (a_kept pton d d' ps ps' a a' Hao Hao' Hg ci ci' x r Ha Ha' H0).
  Qed.
  Lemma action_cut x y r : trimmed_action p x y -> ReasonActionViolates ci' x = Ok r -> ReasonActionViolates ci y = Ok r.
  Proof.
    intros Ht H. destruct Ht as [d Hd Hid|Hn].
    - destruct (pair_action d Hd) as (d' & ps & ps' & a & a' & Hg & Ha & Ha' & Hao & Hao'). unfold action_id in Ha, Ha'. rewrite Hid in Ha, Ha'. exact (a_cut pton d d' ps ps' a a' Hao Hao' Hg ci ci' x r Ha Ha' H).
    - exfalso. apply action_verdict in H as (b & Hb & _). destruct (C37_exact pton p' ci' Hci') as (_ & _ & _ & HA). destruct (HA _ _ Hb) as (d' & ps' & Hd' & Hid & _).
      destruct (f2_right _ _ _ _ (proj2 HG) Hd') as (d & Hd & Hg). apply (Hn d Hd). rewrite <- Hid. symmetry. exact (grown_action_id _ _ Hg).
  Qed.
  Lemma set_kept l r : ReasonActionSetViolates ci l = Ok r -> ReasonActionSetViolates ci' l = Ok r.
  Proof.
    induction l as [|x l IH]; cbn [ReasonActionSetViolates]; intros H; [exact H|]. apply bind_ok in H as (s & Hs & H). rewrite (action_kept x s Hs). cbn [bind]. destruct (String.eqb s ""); [auto|exact H].
  Qed.
  Lemma set_cut l m r : Forall2 (trimmed_action p) l m -> ReasonActionSetViolates ci' l = Ok r -> ReasonActionSetViolates ci m = Ok r.
  Proof.
    intros HF. induction HF as [|x y l m Hxy _ IH]; cbn [ReasonActionSetViolates]; intros H; [exact H|]. apply bind_ok in H as (s & Hs & H). rewrite (action_cut x y s Hxy Hs). cbn [bind]. destruct (String.eqb s ""); [auto|exact H].
  Qed.
End Grown.
(** Every answer about an entry stays as it is, with its text. *)
Theorem C91_kept : forall pton p p' ci ci' entry r, grown p p' -> P4ToConstraintInfo pton p = Ok ci -> P4ToConstraintInfo pton p' = Ok ci' ->
  ReasonEntryViolatesConstraint entry ci = Ok r -> ReasonEntryViolatesConstraint entry ci' = Ok r.
Proof.
  intros pton p p' ci ci' entry r HG Hci Hci'. unfold ReasonEntryViolatesConstraint. destruct (GetTableInfoOrNull ci (pe_table_id entry)) as [t0|] eqn:E; [|discriminate].
  destruct (C37_exact pton p ci Hci) as (_ & HT & _). destruct (HT _ _ E) as (d & ks0 & Hd & Hid & _). destruct (pair_table pton p p' ci ci' HG Hci Hci' d Hd) as (d' & ks & ks' & t & t' & Hg & Ht & Ht' & Hto & Hto').
  rewrite Hid in Ht, Ht'. rewrite Ht in E. injection E as <-. rewrite Ht'. intros H. apply bind_ok in H as (s & Hs & H). rewrite (t_kept pton d d' ks ks' t t' Hto Hto' Hg entry s Hs). cbn [bind].
  destruct (negb (String.eqb s "")); [exact H|]. destruct (pe_action entry) as [[x|?|?|l|]|]; try exact H; [exact (action_kept pton p p' ci ci' HG Hci Hci' x r H)|exact (set_kept pton p p' ci ci' HG Hci Hci' l r H)].
Qed.
Print Assumptions C91_kept.
(** What an entry says about the new fields and parameters does not change the answer. *)
Theorem C91_trimmed : forall pton p p' ci ci' entry entry' r, grown p p' -> P4ToConstraintInfo pton p = Ok ci -> P4ToConstraintInfo pton p' = Ok ci' -> trimmed p entry entry' ->
  ReasonEntryViolatesConstraint entry ci' = Ok r -> ReasonEntryViolatesConstraint entry' ci = Ok r.
Proof.
  intros pton p p' ci ci' entry entry' r HG Hci Hci' (d & act & Hd & Hid & Hact & ->). destruct (pair_table pton p p' ci ci' HG Hci Hci' d Hd) as (d' & ks & ks' & t & t' & Hg & Ht & Ht' & Hto & Hto').
  unfold table_id in Ht, Ht'. rewrite Hid in Ht, Ht'. unfold ReasonEntryViolatesConstraint. cbn [pe_table_id pe_action]. rewrite Ht, Ht'. intros H. apply bind_ok in H as (s & Hs & H).
  rewrite (t_cut pton d d' ks ks' t t' Hto Hto' Hg entry act s Hs). cbn [bind]. destruct (negb (String.eqb s "")); [exact H|].
  destruct Hact as [|x y Hxy|l m Hlm|x H1 H2]; [exact H|exact (action_cut pton p p' ci ci' HG Hci Hci' x y r Hxy H)|exact (set_cut pton p p' ci ci' HG Hci Hci' l m r Hlm H)|].
  destruct x as [x|?|?|l|]; try exact H; exfalso; [now apply (H1 x)|now apply (H2 l)].
Qed.
Print Assumptions C91_trimmed.
(** For entries that say nothing about them the answers are the same. *)
Theorem C91_same : forall pton p p' ci ci' entry r, grown p p' -> P4ToConstraintInfo pton p = Ok ci -> P4ToConstraintInfo pton p' = Ok ci' -> trimmed p entry entry ->
  (ReasonEntryViolatesConstraint entry ci = Ok r <-> ReasonEntryViolatesConstraint entry ci' = Ok r).
Proof.
  intros pton p p' ci ci' entry r HG Hci Hci' Ht. split; [exact (C91_kept pton p p' ci ci' entry r HG Hci Hci')|exact (C91_trimmed pton p p' ci ci' entry entry r HG Hci Hci' Ht)].
Qed.
Print Assumptions C91_same.

(** The table of the other examples, with two new match fields in front, and its action with a new parameter. *)
Definition wide_decl : p4_table := mkP4Table (pt_preamble demo_decl) (mkMF 9 "port" 9 (MMatchType MTOptional) :: mkMF 8 "dst" 32 (MMatchType MTLpm) :: pt_match_fields demo_decl).
Definition wide_action : p4_action_decl := mkP4ActionDecl (pad_preamble demo_action) (mkAP 7 "vlan" 12 "" :: pad_params demo_action).
Definition wide_info : p4info := mkP4Info [wide_decl; mkP4Table (mkPre 5 "free" []) []] [wide_action].
Definition wide_ci : constraint_info := Eval vm_compute in the (mkInfo [] []) (P4ToConstraintInfo pton1 wide_info).
Lemma wide_parsed : P4ToConstraintInfo pton1 wide_info = Ok wide_ci.
Proof. vm_compute. reflexivity. Qed.
Lemma wide_grown : grown demo_info wide_info.
Proof.
  split; constructor.
  - split; [reflexivity|]. exists [mkMF 9 "port" 9 (MMatchType MTOptional); mkMF 8 "dst" 32 (MMatchType MTLpm)]. split; [exact (Permutation_app_comm [_; _] _)|]. split; [repeat constructor|].
    split; cbn; repeat constructor; cbn; intuition discriminate.
  - constructor; [|constructor]. split; [reflexivity|]. exists []. split; [apply Permutation_refl|]. split; [constructor|]. split; constructor.
  - split; [reflexivity|]. exists [mkAP 7 "vlan" 12 ""]. split; [exact (Permutation_app_comm [_] _)|]. split; cbn; repeat constructor; cbn; intuition discriminate.
  - constructor.
Qed.
(** An entry with a new field and a new argument, and what is left of it: both are rejected, with the same text. *)
Definition wide_entry : p4_entry := mkEntry 3 [mkFM 9 (FMOptional "a"); mkFM 1 (FMExact "a")] (Some (TAction (mkP4Action 4 [(7%N, "b"); (1%N, "a"); (2%N, "a")]))) 0.
Definition slim_entry : p4_entry := mkEntry 3 [mkFM 1 (FMExact "a")] (Some (TAction (mkP4Action 4 [(1%N, "a"); (2%N, "a")]))) 0.
Example C91_case : P4ToConstraintInfo pton1 demo_info = Ok demo_ci /\ P4ToConstraintInfo pton1 wide_info = Ok wide_ci /\ grown demo_info wide_info /\
  trimmed demo_info wide_entry slim_entry /\ trimmed demo_info slim_entry slim_entry /\
  exists text, text <> "" /\ ReasonEntryViolatesConstraint wide_entry wide_ci = Ok text /\ ReasonEntryViolatesConstraint slim_entry wide_ci = Ok text /\ ReasonEntryViolatesConstraint slim_entry demo_ci = Ok text.
Proof.
  split; [exact demo_parsed|]. split; [exact wide_parsed|]. split; [exact wide_grown|]. split; [|split].
  - exists demo_decl. eexists. split; [now left|]. split; [reflexivity|]. split; [apply tt_action; eapply (ta_known _ _ demo_action); [now left|reflexivity]|]. reflexivity.
  - exists demo_decl. eexists. split; [now left|]. split; [reflexivity|]. split; [apply tt_action; eapply (ta_known _ _ demo_action); [now left|reflexivity]|]. reflexivity.
  - exists (the "" (ReasonEntryViolatesConstraint slim_entry demo_ci)). split; [vm_compute; discriminate|]. split; [vm_compute; reflexivity|]. split; vm_compute; reflexivity.
Qed.
