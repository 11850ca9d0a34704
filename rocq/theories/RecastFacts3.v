(** Entries and arguments of two declarations whose types and values correspond. *)
From Coq Require Import String Ascii List ZArith NArith Bool Lia.
From Verif Require Import Base Num Token Ast Lexer Quote AstConstructors Parser Info TypeChecker ConstraintInfo Interpreter SpecLexer SpecGrammar SpecTyping SpecSemantics SpecInfo SpecReading SpecResize
  LiteralFacts TypeFacts SemFacts EntryFacts InfoFacts InfoFacts2 InterpFacts2 LoadFacts ReadingFacts3 RenameFacts RetoldFacts RecastFacts.
Import ListNotations.
Open Scope string_scope.

Lemma forall2_left {A B} (R : A -> B -> Prop) l m x : Forall2 R l m -> In x l -> exists y, In y m /\ R x y.
Proof. induction 1 as [|a b l m H HF IH]; [contradiction|]. intros [->|Hx]; [exists b; split; [now left|exact H]|]. destruct (IH Hx) as (y & Hy & HR). exists y. split; [now right|exact HR]. Qed.
Lemma forall2_weaken {A B} (R S : A -> B -> Prop) l m : (forall x y, R x y -> S x y) -> Forall2 R l m -> Forall2 S l m.
Proof. intros HRS. induction 1; constructor; auto. Qed.
Lemma forall2_flipped {A B} (R : A -> B -> Prop) (S : B -> A -> Prop) l m : (forall x y, R x y -> S y x) -> Forall2 R l m -> Forall2 S m l.
Proof. intros HRS. induction 1; constructor; auto. Qed.

Section Carry.
Variable K : ty -> ty -> Prop.
Variable R : ty -> ty -> value -> value -> Prop.
Variable small : Z -> Prop.
Definition paired (k k' : key_info) : Prop := k_id k' = k_id k /\ k_name k' = k_name k /\ K (k_type k) (k_type k').
Record carries (ks ks' : list key_info) (l l' : list field_match) : Prop := {
  ca_keys : forall k, In k ks -> exists k', In k' ks' /\ paired k k';
  ca_back : forall k', In k' ks' -> exists k, In k ks /\ paired k k';
  ca_fields : Forall2 (fun x x' => fm_id x' = fm_id x /\ forall k k' v, In k ks -> In k' ks' -> paired k k' -> k_id k = fm_id x -> field_value (k_type k) (fm_value x) v ->
    exists v', field_value (k_type k') (fm_value x') v' /\ R (k_type k) (k_type k') v v') l l';
  ca_wild : forall k k' v, In k ks -> In k' ks' -> paired k k' -> omitted k l -> wildcard (k_type k) v ->
    exists v', wildcard (k_type k') v' /\ R (k_type k) (k_type k') v v' }.
Lemma carried ks ks' l l' : carries ks ks' l l' -> consistent ks l ->
  consistent ks' l' /\ forall n v, Assigned ks l n v -> exists k k' v', In k ks /\ In k' ks' /\ k_name k = n /\ paired k k' /\ Assigned ks' l' n v' /\ R (k_type k) (k_type k') v v'.
Proof.
  intros [HA HB HF HW] [C1 C2 C3].
  assert (map fm_id l' = map fm_id l) as Ei by (clear -HF; induction HF as [|? ? ? ? [E _]]; cbn; congruence).
  assert (forall k k', paired k k' -> omitted k' l' -> omitted k l) as HO.
  { intros k k' (E & _) Ho x Hx Hid. destruct (forall2_left _ _ _ x HF Hx) as (x' & Hx' & E' & _). apply (Ho x' Hx'). congruence. }
  assert (forall k k', paired k k' -> omitted k l -> omitted k' l') as HO'.
  { intros k k' (E & _) Ho x' Hx' Hid. destruct (forall2_other _ _ _ x' HF Hx') as (x & Hx & E' & _). apply (Ho x Hx). congruence. }
  split.
  - split.
    + intros x' Hx'. destruct (forall2_other _ _ _ x' HF Hx') as (x & Hx & E & Hv). destruct (C1 x Hx) as (k & v & Hk & Hid & Hfv). destruct (HA k Hk) as (k' & Hk' & HP).
      destruct (Hv k k' v Hk Hk' HP Hid Hfv) as (v' & Hv' & _). exists k', v'. split; [exact Hk'|]. split; [destruct HP; congruence|exact Hv'].
    + now rewrite Ei.
    + intros k' Hk' Ho. destruct (HB k' Hk') as (k & Hk & HP). destruct (C3 k Hk (HO k k' HP Ho)) as (v & Hv). destruct (HW k k' v Hk Hk' HP (HO k k' HP Ho) Hv) as (v' & Hv' & _). eauto.
  - intros n v H. destruct H as [k x v Hk Hx Hid Hv|k v Hk Ho Hw]; destruct (HA k Hk) as (k' & Hk' & HP); exists k, k'.
    + destruct (forall2_left _ _ _ x HF Hx) as (x' & Hx' & E & Hf). destruct (Hf k k' v Hk Hk' HP (eq_sym Hid) Hv) as (v' & Hv' & Hr). exists v'.
      split; [exact Hk|]. split; [exact Hk'|]. split; [reflexivity|]. split; [exact HP|]. split; [|exact Hr]. destruct HP as (E1 & E2 & _). rewrite <- E2. eapply as_present; [exact Hk'|exact Hx'|congruence|exact Hv'].
    + destruct (HW k k' v Hk Hk' HP Ho Hw) as (v' & Hv' & Hr). exists v'.
      split; [exact Hk|]. split; [exact Hk'|]. split; [reflexivity|]. split; [exact HP|]. split; [|exact Hr]. pose proof HP as (_ & E2 & _). rewrite <- E2. apply as_omitted; [exact Hk'|exact (HO' k k' HP Ho)|exact Hv'].
Qed.


Hypothesis HS : simulation K R small.
Hypothesis HB : forall t, K TBool t -> t = TBool.
Lemma says_carried pton d d' entry entry' x : pton_ok pton -> pt_preamble d' = pt_preamble d -> pe_priority entry' = pe_priority entry -> loadable_table pton d -> loadable_table pton d' ->
  (forall ks ks', Forall2 key_decl (pt_match_fields d) ks -> Forall2 key_decl (pt_match_fields d') ks' -> carries ks ks' (pe_match entry) (pe_match entry')) ->
  (forall ks cs e key, Forall2 key_decl (pt_match_fields d) ks -> restricted kTableConstraint (pt_preamble d) cs -> reads_as pton kTableConstraint cs e ->
    Typed (key_scope ks) e TBool -> within small (key_scope ks) (TableEnv key (pe_priority entry)) e) ->
  table_says pton d entry x -> table_says pton d' entry' x.
Proof.
  intros Hp Epre Epri (ks0 & Hks0 & N1 & N2 & _) (ks' & Hks' & N1' & N2' & HL) HC HWi (ks & cs & e & key & Hks & Hr & Hra & Hco & Hkey & Hty & HM). specialize (HC ks ks' Hks Hks').
  destruct (carried _ _ _ _ HC Hco) as [Hco' HA]. rewrite Epre in HL.
  destruct HL as [Hu|(cs' & e' & t' & Hr' & Hra' & Ht')]; [exfalso; exact (restricted_not _ _ _ Hu Hr)|].
  rewrite (restricted_fun _ _ _ _ Hr' Hr) in Hra'. rewrite (reads_as_fun _ _ _ _ _ Hp Hra' Hra) in Ht'.
  pose proof (decl_names_k _ _ Hks) as En. pose proof (decl_names_k _ _ Hks') as En'.
  destruct (key_function ks' (pe_match entry')) as (key' & Hkey'); [rewrite (decl_ids_k _ _ Hks'); exact N1'|rewrite En'; exact N2'|exact Hco'|].
  assert (linked K R (key_scope ks) (TableEnv key (pe_priority entry)) (key_scope ks') (TableEnv key' (pe_priority entry))) as HLk.
  { apply li_table. intros n t t'' Hd _ Hd' _. apply declared_in in Hd as (k & Hk & Enk & <-). apply declared_in in Hd' as (k' & Hk' & Enk' & <-).
    assert (forall a a', In a ks -> In a' ks' -> k_name a = n -> paired a a' -> a = k /\ a' = k') as HU.
    { intros a a' Ha Ha' Ea (_ & E2 & _). split.
      - refine (nodup_keys k_name ks _ _ _ Ha Hk _); [rewrite En; exact N2|congruence].
      - refine (nodup_keys k_name ks' _ _ _ Ha' Hk' _); [rewrite En'; exact N2'|congruence]. }
    split.
    - destruct (ca_keys _ _ _ _ HC k Hk) as (a' & Ha' & HP). destruct (HU k a' Hk Ha' Enk HP) as [_ ->]. apply HP.
    - intros v Hv. apply Hkey in Hv. destruct (HA n v Hv) as (a & a' & v' & Ha & Ha' & Ea & HP & Hv' & Hrel). destruct (HU a a' Ha Ha' Ea HP) as [-> ->]. exists v'. split; [now apply Hkey'|exact Hrel]. }
  destruct (meant_R K R small HS _ _ _ _ e (VBool x) HLk HM (HWi ks cs e key Hks Hr Hra Hty) TBool t' Hty Ht') as (v' & Hv' & Hrel).
  pose proof (typed_K K R small HS _ _ _ _ e HLk TBool t' Hty Ht') as HK.
  assert (t' = TBool) as -> by exact (HB _ HK). apply (s_vbool _ _ _ HS) in Hrel as <-.
  exists ks', cs, e, key'. rewrite Epre, Epri. split; [exact Hks'|]. split; [exact Hr|]. split; [exact Hra|]. split; [exact Hco'|]. split; [exact Hkey'|]. split; [exact Ht'|exact Hv'].
Qed.

Record carries_params (ps ps' : list key_info) : Prop := {
  cp_params : forall k, In k ps -> exists k', In k' ps' /\ paired k k';
  cp_same : forall k k' z, In k ps -> In k' ps' -> paired k k' -> R (k_type k) (k_type k') (VInt z) (VInt z) }.
Lemma action_carried pton d d' a x : pton_ok pton -> pad_preamble d' = pad_preamble d -> loadable_action pton d -> loadable_action pton d' ->
  (forall ps ps', Forall2 param_decl (pad_params d) ps -> Forall2 param_decl (pad_params d') ps' -> carries_params ps ps') ->
  (forall ps cs e param, Forall2 param_decl (pad_params d) ps -> restricted kActionConstraint (pad_preamble d) cs -> reads_as pton kActionConstraint cs e ->
    Typed (param_scope ps) e TBool -> within small (param_scope ps) (ActionEnv param) e) ->
  action_says pton d a x -> action_says pton d' a x.
Proof.
  intros Hp Epre (ps0 & Hps0 & N1 & N2 & _) (ps' & Hps' & N1' & N2' & HL) HC HWi (ps & cs & e & param & Hps & Hr & Hra & Hco & Hkey & Hty & HM). specialize (HC ps ps' Hps Hps'). destruct HC as [HC1 HC2].
  rewrite Epre in HL. destruct HL as [Hu|(cs' & e' & t' & Hr' & Hra' & Ht')]; [exfalso; exact (restricted_not _ _ _ Hu Hr)|].
  rewrite (restricted_fun _ _ _ _ Hr' Hr) in Hra'. rewrite (reads_as_fun _ _ _ _ _ Hp Hra' Hra) in Ht'.
  pose proof (decl_names_p _ _ Hps) as En. pose proof (decl_names_p _ _ Hps') as En'.
  assert (acceptable ps' (pa_params a)) as Hco'.
  { destruct Hco as [A1 A2]. split; [|exact A2]. intros id s Hin. destruct (A1 id s Hin) as (k & Hk & <-). destruct (HC1 k Hk) as (k' & Hk' & E & _). exists k'. split; [exact Hk'|exact E]. }
  destruct (param_function ps' (pa_params a)) as (param' & Hkey'); [rewrite (decl_ids_p _ _ Hps'); exact N1'|rewrite En'; exact N2'|exact Hco'|].
  assert (linked K R (param_scope ps) (ActionEnv param) (param_scope ps') (ActionEnv param')) as HLk.
  { apply li_action. intros n t t'' Hd _ Hd' _. apply declared_in in Hd as (k & Hk & Enk & <-). apply declared_in in Hd' as (k' & Hk' & Enk' & <-).
    assert (paired k k') as HP.
    { destruct (HC1 k Hk) as (b & Hb & HP). replace k' with b; [exact HP|]. pose proof HP as (_ & E2 & _). refine (nodup_keys k_name ps' _ _ _ Hb Hk' _); [rewrite En'; exact N2'|congruence]. }
    split; [apply HP|]. intros z Hz. apply Hkey in Hz as (q & s & Hq & Hs & Eq & ->).
    assert (q = k) as -> by (refine (nodup_keys k_name ps _ _ _ Hq Hk _); [rewrite En; exact N2|congruence]).
    exists (unsigned s). split; [|exact (HC2 k k' _ Hk Hk' HP)]. apply Hkey'. exists k', s. split; [exact Hk'|]. split; [destruct HP as (-> & _); exact Hs|]. split; [congruence|reflexivity]. }
  destruct (meant_R K R small HS _ _ _ _ e (VBool x) HLk HM (HWi ps cs e param Hps Hr Hra Hty) TBool t' Hty Ht') as (v' & Hv' & Hrel).
  pose proof (typed_K K R small HS _ _ _ _ e HLk TBool t' Hty Ht') as HK.
  assert (t' = TBool) as -> by exact (HB _ HK). apply (s_vbool _ _ _ HS) in Hrel as <-.
  exists ps', cs, e, param'. rewrite Epre. split; [exact Hps'|]. split; [exact Hr|]. split; [exact Hra|]. split; [exact Hco'|]. split; [exact Hkey'|]. split; [exact Ht'|exact Hv'].
Qed.
End Carry.
