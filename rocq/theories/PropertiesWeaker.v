(** C97: loosening constraints. *)
From Coq Require Import String Ascii List ZArith NArith Bool Lia.
From Verif Require Import Base Num Token Ast Lexer Quote AstConstructors Parser Info TypeChecker ConstraintInfo Interpreter Z3 Symbolic SpecLexer SpecGrammar SpecParser SpecTyping SpecSemantics SpecInfo SpecMisc SpecLaws SpecSymbolic SpecSolver SpecReading SpecSession SpecShared SpecCrash SpecRewritten SpecWeaker
  StrFacts NumFacts LiteralFacts ParserFacts4 TypeFacts EvalFacts SemFacts SemFacts2 EntryFacts EntryFacts2 InfoFacts InfoFacts2 InterpFacts InterpFacts2 LawFacts CombineFacts RetoldFacts LoadFacts RenameFacts SymFacts SymFacts2 SymKeys SymState SymMeaning SymComplete SymDemo ReadingFacts ReadingFacts2 ReadingFacts3 SolverLawFacts RewrittenFacts WeakerFacts
  PropertiesParser PropertiesTypes PropertiesInfo PropertiesInterpreter PropertiesVerdict PropertiesExplain PropertiesSymbolic PropertiesReading PropertiesRobust PropertiesCrash PropertiesSession PropertiesRewrite PropertiesRewritten.
From Verif Require OutcomeFacts2.
Import ListNotations.
Open Scope string_scope.

(** * The meaning *)
(** A loosened constraint is true wherever the constraint was, in tables and actions. *)
Theorem C97_entails : forall ks e f,
  (NoDup (map k_name ks) -> Loosens (key_scope ks) (entails (key_scope ks)) e f -> entails (key_scope ks) e f) /\
  (NoDup (map k_name ks) -> Loosens (param_scope ks) (entails (param_scope ks)) e f -> entails (param_scope ks) e f).
Proof.
  intros ks e f. split; intros HN HL r Hr H; rewrite <- (scope_names ks) in HN.
  - exact (loosens_den _ _ _ r e f (scope_witness _ HN) Hr HL H).
  - exact (loosens_den _ _ _ r e f (is_action (mkAction 0 "" None default_csource [] (map (fun k => (k_name k, k)) ks)) HN) Hr HL H).
Qed.
Print Assumptions C97_entails.
(** Moving a literal bound outwards is a loosening, as long as the new bound fits the width. *)
Inductive outwards : binop -> N -> N -> Prop :=
| ou_lt n n' : (n <= n')%N -> outwards OLT n n'
| ou_le n n' : (n <= n')%N -> outwards OLE n n'
| ou_gt n n' : (n' <= n)%N -> outwards OGT n n'
| ou_ge n n' : (n' <= n)%N -> outwards OGE n n'.
Lemma outwards_compares o n n' z : outwards o n n' -> Compares o (VInt z) (VInt (Z.of_N n)) -> Compares o (VInt z) (VInt (Z.of_N n')).
Proof.
  intros Ho H. destruct Ho; inversion H as [| |? ? x y Hx Hy L|? ? x y Hx Hy L|? ? x y Hx Hy L|? ? x y Hx Hy L]; subst; inversion Hx; inversion Hy; subst;
    (econstructor; [constructor|constructor|lia]).
Qed.
Lemma moved_bound ai ti G e w o m m' i i' s s' n n' : in_scope ai ti G -> Typed G e (TBit w) -> Decimal s n -> Decimal s' n' ->
  outwards o n n' -> (Z.of_N n < 2 ^ w)%Z -> (Z.of_N n' < 2 ^ w)%Z -> entails G (EBin m o e (EInt i s)) (EBin m' o e (EInt i' s')).
Proof.
  intros HG HT Hs Hs' Ho Hn Hn' r Hr H.
  assert (ordering o) as Hor by (destruct Ho; constructor). assert (~ connective o) as Hnc by (intros Hc; destruct Ho; inversion Hc).
  inversion H as [| | | | | | |? ? ? ? ? ? Hc|? ? ? ? ? ? Hc|? ? ? ? ta tb t u v u' v' ? Ta Tb Hco H1 H2 C1 C2 Hcp Hx|]; subst; try (destruct (Hnc Hc)).
  pose proof (typed_fun _ _ _ HG _ _ _ Ta HT) as ->. inversion Tb; subst. inversion H2 as [|? ? k Hk| | | | | | | | |]; subst.
  assert (k = n) as -> by (destruct Hk as [Hk _], Hs as [Hs _]; exact (Reads_fun _ _ _ _ Hk Hs)).
  assert (common (TBit w) TInt (TBit w)) as Hco' by (apply lub_iff; reflexivity). pose proof (common_fun _ _ _ _ Hco Hco') as ->.
  pose proof (den_typed _ _ _ HG r e (TBit w) u Hr HT H1) as Hu. inversion Hu as [| |? z| | | | |]; subst.
  pose proof (converts_fun _ _ _ _ _ C1 (cv_same _ _)) as ->.
  assert (0 <= w)%Z as Hw by (eapply (typed_width _ _ _ HG); [exact Hr|exact HT|constructor]).
  pose proof (converts_fun _ _ _ _ _ C2 (cv_int w _ Hw)) as ->. rewrite Z.mod_small in Hx by lia. pose proof (proj1 Hx eq_refl) as HC.
  eapply (sem_compare _ _ _ _ _ _ (TBit w) TInt (TBit w) _ (VInt (Z.of_N n')) _ (VInt (Z.of_N n' mod 2 ^ w))); [exact HT|constructor|exact Hco'|exact H1|constructor; exact Hs'|apply cv_same|apply cv_int; exact Hw| |].
  - right. split; [exact Hor|]. split; eexists; constructor.
  - rewrite Z.mod_small by lia. split; [intros _; exact (outwards_compares _ _ _ _ Ho HC)|reflexivity].
Qed.
Theorem C97_moved_bound : forall ks G e w o m m' i i' s s' n n', NoDup (map k_name ks) -> G = key_scope ks \/ G = param_scope ks -> Typed G e (TBit w) -> Decimal s n -> Decimal s' n' ->
  outwards o n n' -> (Z.of_N n < 2 ^ w)%Z -> (Z.of_N n' < 2 ^ w)%Z -> entails G (EBin m o e (EInt i s)) (EBin m' o e (EInt i' s')).
Proof.
  intros ks G e w o m m' i i' s s' n n' HN HG. rewrite <- (scope_names ks) in HN. destruct HG as [->| ->].
  - exact (moved_bound _ _ _ e w o m m' i i' s s' n n' (scope_witness _ HN)).
  - exact (moved_bound _ _ _ e w o m m' i i' s s' n n' (is_action (mkAction 0 "" None default_csource [] (map (fun k => (k_name k, k)) ks)) HN)).
Qed.
Print Assumptions C97_moved_bound.

(** * Checking *)
Lemma loosened_free pton ck G pre pre' : loosened_restriction pton ck G pre pre' -> unrestricted ck pre -> unrestricted ck pre'.
Proof. intros [Hu'|? ? ? ? Hr1 _] Hu; [exact Hu'|exfalso; exact (restricted_not _ _ _ Hu Hr1)]. Qed.
Lemma loosened_read pton ck G pre pre' cs e : pton_ok pton -> loosened_restriction pton ck G pre pre' -> restricted ck pre cs -> reads_as pton ck cs e ->
  unrestricted ck pre' \/ exists cs' e', restricted ck pre' cs' /\ reads_as pton ck cs' e' /\ Loosens G (entails G) e e'.
Proof.
  intros Hp [Hu|cs1 cs' e1 e' Hr1 Hr' Hra1 Hra' HL] Hr Hra; [left; exact Hu|right]. rewrite (restricted_fun _ _ _ _ Hr1 Hr) in Hra1. rewrite (reads_as_fun _ _ _ _ _ Hp Hra1 Hra) in HL. eauto.
Qed.
Lemma loosened_load_table pton d d' : pton_ok pton -> loosened_table pton d d' -> loadable_table pton d -> loadable_table pton d'.
Proof.
  intros Hp (_ & Ef & HR) (ks & Hks & Ni & N1 & Hc). exists ks. rewrite <- Ef. split; [exact Hks|]. split; [exact Ni|]. split; [exact N1|]. specialize (HR ks Hks). destruct Hc as [Hu|(cs & e & t & Hr & Hra & Hty)]; [left; eapply loosened_free; eauto|].
  destruct (loosened_read _ _ _ _ _ _ _ Hp HR Hr Hra) as [Hu|(cs' & e' & H1 & H2 & H3)]; [left; exact Hu|right]. exists cs', e', TBool. split; [exact H1|]. split; [exact H2|].
  exact (proj1 (proj2 (loosens_conditions _ _ _ _ H3))).
Qed.
Lemma loosened_load_action pton d d' : pton_ok pton -> loosened_action pton d d' -> loadable_action pton d -> loadable_action pton d'.
Proof.
  intros Hp (_ & Ef & HR) (ks & Hks & Ni & N1 & Hc). exists ks. rewrite <- Ef. split; [exact Hks|]. split; [exact Ni|]. split; [exact N1|]. specialize (HR ks Hks). destruct Hc as [Hu|(cs & e & t & Hr & Hra & Hty)]; [left; eapply loosened_free; eauto|].
  destruct (loosened_read _ _ _ _ _ _ _ Hp HR Hr Hra) as [Hu|(cs' & e' & H1 & H2 & H3)]; [left; exact Hu|right]. exists cs', e', TBool. split; [exact H1|]. split; [exact H2|].
  exact (proj1 (proj2 (loosens_conditions _ _ _ _ H3))).
Qed.
(** A program still loads after loosening its constraints. *)
Theorem C97_loads : forall pton p p', pton_ok pton -> loosened pton p p' -> (exists ci, P4ToConstraintInfo pton p = Ok ci) -> exists ci, P4ToConstraintInfo pton p' = Ok ci.
Proof.
  intros pton p p' Hp [HT HA] H. apply (C37_loads_iff pton p Hp) in H as (H1 & H2 & H3 & H4). apply (C37_loads_iff pton p' Hp). split; [|split; [|split]].
  - erewrite <- (forall2_map_eq _ table_id table_id); [exact H1| |exact HT]. intros a b (E & _). exact E.
  - erewrite <- (forall2_map_eq _ action_id action_id); [exact H2| |exact HA]. intros a b (E & _). exact E.
  - intros d' Hd'. destruct (forall2_other _ _ _ _ HT Hd') as (d & Hd & R). eapply loosened_load_table; eauto.
  - intros d' Hd'. destruct (forall2_other _ _ _ _ HA Hd') as (d & Hd & R). eapply loosened_load_action; eauto.
Qed.
Print Assumptions C97_loads.

Lemma loosened_allows_table pton p p' ci d d' entry : pton_ok pton -> P4ToConstraintInfo pton p = Ok ci -> sane_widths p -> workable pton p' -> In d (p4_tables p) -> In d' (p4_tables p') ->
  loosened_table pton d d' -> table_allows pton d entry -> table_allows pton d' entry.
Proof.
  intros Hp Hci Hs [HW _] Hd Hd' (_ & Ef & HR) [Hu|(ks & cs & e & key & Hks & Hr & Hra & Hco & Hkey & Hty & HM)].
  - destruct (proj1 (C37_loads_iff pton p Hp) (ex_intro _ ci Hci)) as (_ & _ & H3 & _). destruct (H3 d Hd) as (ks & Hks & _). left. exact (loosened_free _ _ _ _ _ (HR ks Hks) Hu).
  - destruct (loosened_read _ _ _ _ _ _ _ Hp (HR ks Hks) Hr Hra) as [Hu|(cs' & e' & H1 & H2 & H3)]; [left; exact Hu|right].
    destruct (table_names _ _ _ _ Hp Hci Hd) as [N1 N2]. destruct (key_ids _ _ Hks) as [K1 K2]. rewrite <- K1 in N1. rewrite <- K2 in N2.
    pose proof (CombineFacts.entry_env_ok ks entry key N1 N2 Hco (fun k w Hk Hw => PropertiesCrash.key_widths p d ks k w Hs Hd Hks Hk Hw) Hkey) as HE.
    exists ks, cs', e', key. rewrite <- Ef. split; [exact Hks|]. split; [exact H1|]. split; [exact H2|]. split; [exact Hco|]. split; [exact Hkey|]. split; [exact (proj1 (proj2 (loosens_conditions _ _ _ _ H3)))|].
    pose proof Hks as Hks'. rewrite Ef in Hks'. apply den_unordered; [exact (HW d' ks cs' e' Hd' Hks' H1 H2)|]. apply unordered_den in HM. exact (proj1 (C97_entails ks e e') N2 H3 _ HE HM).
Qed.
Lemma loosened_allows_action pton p p' ci d d' a : pton_ok pton -> P4ToConstraintInfo pton p = Ok ci -> sane_widths p -> In d (p4_actions p) -> In d' (p4_actions p') ->
  (forall f, In f (pad_params d) -> exists s, In (ap_id f, s) (pa_params a)) -> loosened_action pton d d' -> action_allows pton d a -> action_allows pton d' a.
Proof.
  intros Hp Hci Hs Hd Hd' Hall (_ & Ef & HR) [Hu|(ks & cs & e & param & Hks & Hr & Hra & Hco & Hkey & Hty & HM)].
  - destruct (proj1 (C37_loads_iff pton p Hp) (ex_intro _ ci Hci)) as (_ & _ & _ & H3). destruct (H3 d Hd) as (ks & Hks & _). left. exact (loosened_free _ _ _ _ _ (HR ks Hks) Hu).
  - destruct (loosened_read _ _ _ _ _ _ _ Hp (HR ks Hks) Hr Hra) as [Hu|(cs' & e' & H1 & H2 & H3)]; [left; exact Hu|right].
    destruct (action_names _ _ _ _ Hp Hci Hd) as [_ N2]. destruct (param_ids _ _ Hks) as [K1 K2]. rewrite <- K2 in N2.
    assert (env_ok (param_scope ks) (ActionEnv param)) as HE.
    { constructor.
      - intros n t (k & Hk & <-) Hu. apply in_map_iff in Hk as (k' & E & Hk). injection E as <- ->. destruct (params_bits _ _ Hks k Hk Hu) as [w Ew]. rewrite Ew.
        assert (In (k_id k) (map ap_id (pad_params d))) as Hi by (rewrite <- K1; now apply in_map). apply in_map_iff in Hi as (f & Ei & Hi). destruct (Hall f Hi) as [s Hs'].
        exists (unsigned s). split; [|constructor]. apply Hkey. exists k, s. rewrite <- Ei. auto.
      - intros n t w (k & Hk & <-) Hw. apply in_map_iff in Hk as (k' & E & Hk). injection E as <- ->. exact (param_widths p d ks k w Hs Hd Hks Hk Hw). }
    exists ks, cs', e', param. rewrite <- Ef. split; [exact Hks|]. split; [exact H1|]. split; [exact H2|]. split; [exact Hco|]. split; [exact Hkey|]. split; [exact (proj1 (proj2 (loosens_conditions _ _ _ _ H3)))|].
    apply den_unordered.
    + apply orders_exact_sub. intros e0 t Ht w ->. assert (OutcomeFacts2.only_bits (param_scope ks)) as HB.
      { intros ps E n t (k & Hk & <-) Hu. injection E as <-. apply in_map_iff in Hk as (k' & E & Hk). injection E as <- ->. exact (params_bits _ _ Hks k Hk Hu). }
      destruct (OutcomeFacts2.action_types _ _ e0 (TExact w) eq_refl HB Ht) as [H|[H|[w' H]]]; discriminate H.
    + apply unordered_den in HM. exact (proj2 (C97_entails ks e e') N2 H3 _ HE HM).
Qed.
(** What was accepted is accepted after loosening or dropping constraints, if the checker can evaluate the new ones and the actions get all their arguments. *)
Theorem C97_accepts : forall pton p p' ci ci' entry, pton_ok pton -> loosened pton p p' -> P4ToConstraintInfo pton p = Ok ci -> P4ToConstraintInfo pton p' = Ok ci' ->
  sane_widths p -> workable pton p' -> all_passed p (actions_of entry) ->
  ReasonEntryViolatesConstraint entry ci = Ok "" -> ReasonEntryViolatesConstraint entry ci' = Ok "".
Proof.
  intros pton p p' ci ci' entry Hp [HT HA] H H' Hs HW Hall Hr. apply (C58_accepted_iff pton p ci _ Hp H) in Hr as ((d & Hd & Hid & Hal) & Hdir & Ha). apply (C58_accepted_iff pton p' ci' _ Hp H'). split; [|split; [exact Hdir|]].
  - destruct (f2_left _ _ _ _ HT Hd) as (d' & Hd' & HR). exists d'. split; [exact Hd'|]. split; [unfold table_id in *; destruct HR as (E & _); congruence|].
    exact (loosened_allows_table pton p p' ci d d' entry Hp H Hs HW Hd Hd' HR Hal).
  - intros a Hi. destruct (Ha a Hi) as (da & Hda & Hida & Hala). destruct (f2_left _ _ _ _ HA Hda) as (d' & Hd' & HR). exists d'. split; [exact Hd'|]. split; [unfold action_id in *; destruct HR as (E & _); congruence|].
    exact (loosened_allows_action pton p p' ci da d' a Hp H Hs Hda Hd' (fun f Hf => Hall a da f Hi Hda Hida Hf) HR Hala).
Qed.
Print Assumptions C97_accepts.

(** * Solving *)
Section Solver.
  Variables (t : table_info) (ks : list key_info) (skip : string -> outcome bool).
  Hypothesis HK : table_keys t ks.
  Hypothesis Hw : int32_widths ks.
  Hypothesis Hset : forall k, In k ks -> k_type k <> TNotSet.
  Let G := InTable (ti_keys_by_name t).
  Lemma loosened_reading fields key p e f : well_formed (live_keys skip ks) fields -> (forall n v, key n = Some v <-> Assigned (live_keys skip ks) fields n v) ->
    solvable t ks skip e -> solvable t ks skip f -> Loosens G (fun _ _ => False) e f -> Meant signed_order G (TableEnv key p) e (VBool true) -> Meant signed_order G (TableEnv key p) f (VBool true).
  Proof.
    intros HW Hkey (_ & _ & Me & _) (_ & _ & Mf & _) HR Hv. destruct (full_env t ks skip HK Hw Hset fields key p HW Hkey) as (key' & HF & Hag).
    assert (forall n, mentions e n -> key n = key' n) as He by (intros n Hn; destruct (Me n Hn) as (k & Hk & <-); auto).
    assert (forall n, mentions f n -> key n = key' n) as Hf by (intros n Hn; destruct (Mf n Hn) as (k & Hk & <-); auto).
    apply (meant_agree _ _ key' key p); [intros; symmetry; auto|]. apply (loosens_read _ _ _ _ (tk_by_name_unique t ks HK) HF HR). now apply (meant_agree _ _ key key' p).
  Qed.
End Solver.
(** Solutions stay solutions. *)
Theorem C97_solutions : forall t ks skip l es es' fields p, table_keys t ks -> int32_widths ks -> (forall k, In k ks -> k_type k <> TNotSet) ->
  Forall2 (fun e f => solvable t ks skip e /\ solvable t ks skip f /\ Loosens (InTable (ti_keys_by_name t)) (fun _ _ => False) e f) es es' ->
  solution t ks skip (l ++ es) fields p -> solution t ks skip (l ++ es') fields p.
Proof.
  intros t ks skip l es es' fields p HK Hw Hset HF (H1 & H2 & key & H3 & H4). split; [exact H1|]. split; [exact H2|]. exists key. split; [exact H3|]. apply Forall_app in H4 as [H4 H5]. apply Forall_app. split; [exact H4|].
  revert H5. induction HF as [|e f es es' (S1 & S2 & HR) HF IH]; intros H5; [constructor|]. inversion H5 as [|? ? H6 H7]; subst. constructor; [|auto]. exact (loosened_reading t ks skip HK Hw Hset fields key p e f H1 H3 S1 S2 HR H6).
Qed.
Print Assumptions C97_solutions.
(** A session that was accepted is accepted after loosening some of its constraints, unless Z3 overlooks a model on the way. *)
Theorem C97_session : forall check pton t ks skip cs l l0 texts texts' es es', pton_ok pton -> table_keys t ks -> int32_widths ks -> (forall k, In k ks -> k_type k <> TNotSet) -> sound_solver check ->
  History check pton t skip cs l -> written t l0 l -> Forall2 (usable pton t ks skip) texts es -> Forall2 (usable pton t ks skip) texts' es' -> Forall2 (Loosens (InTable (ti_keys_by_name t)) (fun _ _ => False)) es es' ->
  (exists cs', Accepts check pton cs texts cs') -> (exists cs', Accepts check pton cs texts' cs') \/ gets_stuck check pton cs texts'.
Proof.
  intros check pton t ks skip cs l l0 texts texts' es es' Hp HK Hw Hset Hso HH HL HU HU' HR HA.
  apply (C72_session check pton t ks skip cs l l0 texts' es' Hp HK Hw Hso HH HL HU').
  apply (C72_session check pton t ks skip cs l l0 texts es Hp HK Hw Hso HH HL HU) in HA as (fields & p & HS). exists fields, p.
  split; [|exact (proj2 HS)]. apply proj1 in HS. apply (C97_solutions t ks skip l0 es es' fields p HK Hw Hset); [|exact HS].
  clear - HU HU' HR. revert texts texts' HU HU'. induction HR as [|e f es es' H HR IH]; intros texts texts' HU HU'; [constructor|]. inversion HU as [|? ? ? ? [_ S1] HU1]; subst. inversion HU' as [|? ? ? ? [_ S2] HU2]; subst. constructor; [auto|]. eapply IH; eauto.
Qed.
Print Assumptions C97_session.
(** If the looser constraint is refused then so is the tighter one. *)
Theorem C97_refused : forall check pton t ks skip cs l l0 a a' e e' cs1, pton_ok pton -> table_keys t ks -> int32_widths ks -> (forall k, In k ks -> k_type k <> TNotSet) -> sound_solver check ->
  History check pton t skip cs l -> written t l0 l -> usable pton t ks skip a e -> usable pton t ks skip a' e' -> Loosens (InTable (ti_keys_by_name t)) (fun _ _ => False) e e' ->
  AddConstraintString check pton cs a' = (Ok false, cs1) -> overlooks check pton cs a' \/ overlooks check pton cs a \/ exists cs1', AddConstraintString check pton cs a = (Ok false, cs1').
Proof.
  intros check pton t ks skip cs l l0 a a' e e' cs1 Hp HK Hw Hset Hso HH HL HU HU' HR E.
  destruct (step check pton t ks skip Hp HK Hw Hso cs l l0 a' e' HH HL HU') as [Ho|(x & cs2 & E2 & H2)]; [auto|]. rewrite E in E2. injection E2 as <- <-.
  destruct (step check pton t ks skip Hp HK Hw Hso cs l l0 a e HH HL HU) as [Ho|(y & cs3 & E3 & H3)]; [auto|]. destruct y; [|eauto].
  destruct H3 as (_ & _ & _ & fields & p & H3). left. apply H2. exists fields, p. split; [|exact (proj2 H3)]. apply (C97_solutions t ks skip l0 [e] [e'] fields p HK Hw Hset); [|exact (proj1 H3)]. constructor; [|constructor]. exact (conj (proj2 HU) (conj (proj2 HU') HR)).
Qed.
Print Assumptions C97_refused.

(** * Case *)
Definition we_text : string := "k::mask == 0 && k::value < 9 -> k::value <= 0".
Definition we_act1 : string := "p < 7".
Definition we_act2 : string := "p < 9 || q == 2".
Definition we_t : expr := Eval vm_compute in the wr_hole (ParseConstraint pton1 kTableConstraint (wr_cs we_text)).
Definition we_a1 : expr := Eval vm_compute in the wr_hole (ParseConstraint pton1 kActionConstraint (wr_ca we_act1)).
Definition we_a2 : expr := Eval vm_compute in the wr_hole (ParseConstraint pton1 kActionConstraint (wr_ca we_act2)).
Lemma we_parsed : ParseConstraint pton1 kTableConstraint (wr_cs we_text) = Ok we_t /\ ParseConstraint pton1 kActionConstraint (wr_ca we_act1) = Ok we_a1 /\ ParseConstraint pton1 kActionConstraint (wr_ca we_act2) = Ok we_a2.
Proof. repeat split; vm_compute; reflexivity. Qed.
Ltac lits := cbn [literals]; repeat split; first [exists 0%N; apply dec_Decimal; vm_compute; reflexivity|exists 2%N; apply dec_Decimal; vm_compute; reflexivity|exists 7%N; apply dec_Decimal; vm_compute; reflexivity|exists 9%N; apply dec_Decimal; vm_compute; reflexivity].
Ltac key_condition := split; [apply wr_typed_key; vm_compute; reflexivity|split; [lits|intros _; eexists; reflexivity]].
Ltac param_condition := split; [apply wr_typed_param; vm_compute; reflexivity|split; [lits|intros Hx; repeat match goal with H : has_attribute _ |- _ => inversion H; clear H; subst end]].
Lemma we_table : Loosens (key_scope wr_ks) (entails (key_scope wr_ks)) wr_t1 we_t.
Proof.
  unfold wr_t1, we_t. apply lo_implies.
  - eapply lo_trans; [apply lo_step; [apply ls_drop_right|key_condition|key_condition]|]. apply lo_alike; [repeat constructor|key_condition|key_condition].
  - match goal with |- Loosens _ _ (EBin ?m OEQ ?a ?b) _ => apply lo_trans with (EBin m OLE a b) end.
    + apply lo_step; [apply ls_eq_le|key_condition|key_condition].
    + apply lo_alike; [repeat constructor|key_condition|key_condition].
Qed.
Lemma we_action : Loosens (param_scope wr_ps) (entails (param_scope wr_ps)) we_a1 we_a2.
Proof.
  unfold we_a1, we_a2. match goal with |- Loosens _ _ _ (EBin _ OOR ?a ?b) => apply lo_trans with a end.
  - match goal with |- Loosens _ _ (EBin ?m OLT ?x (EInt ?i ?s)) (EBin ?n OLT ?y (EInt ?j ?u)) => apply lo_trans with (EBin m OLT x (EInt i u)) end.
    + apply lo_part; [|param_condition|param_condition]. apply (C97_moved_bound wr_ps _ _ 8 _ _ _ _ _ _ _ 7 9); [repeat constructor; cbn; intuition discriminate|right; reflexivity| | | |constructor; lia|reflexivity|reflexivity].
      * eapply T_param; [reflexivity|eexists; split; [left; reflexivity|reflexivity]|split; [discriminate|intros ?; discriminate]].
      * apply dec_Decimal. vm_compute. reflexivity.
      * apply dec_Decimal. vm_compute. reflexivity.
    + apply lo_alike; [repeat constructor|param_condition|param_condition].
  - apply lo_step; [apply ls_more_left|param_condition|param_condition].
Qed.
Lemma we_loosened : loosened pton1 (wr_info wr_text1 we_act1) (wr_info we_text we_act2).
Proof.
  destruct wr_parsed as (P1 & _). destruct we_parsed as (P2 & P3 & P4). destruct wr_decls as [D1 D2]. split; (constructor; [|constructor]); (split; [reflexivity|]); (split; [reflexivity|]); intros ks Hks.
  - rewrite (forall2_fun _ key_decl_fun _ _ _ Hks D1).
    apply (wl_some _ _ _ _ _ (wr_cs wr_text1) (wr_cs we_text) wr_t1 we_t); [apply extract_some; vm_compute; reflexivity|apply extract_some; vm_compute; reflexivity|exact (proj1 (text_iff pton1 pton1_ok _ _ _) P1)|exact (proj1 (text_iff pton1 pton1_ok _ _ _) P2)|exact we_table].
  - rewrite (forall2_fun _ param_decl_fun _ _ _ Hks D2).
    apply (wl_some _ _ _ _ _ (wr_ca we_act1) (wr_ca we_act2) we_a1 we_a2); [apply extract_some; vm_compute; reflexivity|apply extract_some; vm_compute; reflexivity|exact (proj1 (text_iff pton1 pton1_ok _ _ _) P3)|exact (proj1 (text_iff pton1 pton1_ok _ _ _) P4)|exact we_action].
Qed.
Definition we_ci1 : constraint_info := Eval vm_compute in the (mkInfo [] []) (P4ToConstraintInfo pton1 (wr_info wr_text1 we_act1)).
Definition we_ci2 : constraint_info := Eval vm_compute in the (mkInfo [] []) (P4ToConstraintInfo pton1 (wr_info we_text we_act2)).
(** The first entry is accepted by both, the second and third only by the looser program: one because of the table, one because of the action. *)
Example C97_case : loosened pton1 (wr_info wr_text1 we_act1) (wr_info we_text we_act2) /\ sane_widths (wr_info wr_text1 we_act1) /\ workable pton1 (wr_info we_text we_act2) /\
  P4ToConstraintInfo pton1 (wr_info wr_text1 we_act1) = Ok we_ci1 /\ P4ToConstraintInfo pton1 (wr_info we_text we_act2) = Ok we_ci2 /\
  (forall v m p q, all_passed (wr_info wr_text1 we_act1) (actions_of (wr_entry v m p q))) /\
  ReasonEntryViolatesConstraint (wr_entry (wr_byte 0) (wr_byte 0) (wr_byte 6) (wr_byte 0)) we_ci1 = Ok "" /\
  ReasonEntryViolatesConstraint (wr_entry (wr_byte 20) (wr_byte 0) (wr_byte 6) (wr_byte 0)) we_ci1 <> Ok "" /\
  ReasonEntryViolatesConstraint (wr_entry (wr_byte 20) (wr_byte 0) (wr_byte 6) (wr_byte 0)) we_ci2 = Ok "" /\
  ReasonEntryViolatesConstraint (wr_entry (wr_byte 0) (wr_byte 0) (wr_byte 8) (wr_byte 0)) we_ci1 <> Ok "" /\
  ReasonEntryViolatesConstraint (wr_entry (wr_byte 0) (wr_byte 0) (wr_byte 8) (wr_byte 0)) we_ci2 = Ok "".
Proof.
  destruct we_parsed as (P2 & P3 & P4). split; [exact we_loosened|]. split; [apply wr_sane|].
  split. { apply (wr_workable _ _ we_t we_a2 P2 P4); [apply extract_some; vm_compute; reflexivity|apply extract_some; vm_compute; reflexivity| |].
    - unfold we_t. intros G Ho. repeat match goal with H : orders_exact _ _ |- _ => inversion H; clear H; subst end.
      all: try (match goal with H : ordering _ |- _ => inversion H; fail end).
      all: repeat match goal with H : Typed _ (EField _ _ _) _ |- _ => inversion H; clear H; subst | H : Typed _ (EInt _ _) _ |- _ => inversion H; clear H; subst end.
      all: match goal with H : has_field _ _ _ |- _ => inversion H; subst end; match goal with H : common _ _ _ |- _ => apply lub_iff in H; discriminate H end.
    - unfold we_a2. intros Ho. repeat match goal with H : has_attribute _ |- _ => inversion H; clear H; subst end. }
  split; [vm_compute; reflexivity|]. split; [vm_compute; reflexivity|].
  split. { intros v m p q a d f Ha Hd _ Hf. destruct Ha as [<-|[]]. destruct Hd as [<-|[]]. cbn in Hf. destruct Hf as [<-|[<-|[]]]; eexists; cbn; eauto. }
  repeat split; try (vm_compute; reflexivity); vm_compute; discriminate.
Qed.
(** Raising a bound beyond the width is no loosening: for a key of 8 bits, 300 means 44. *)
Definition we_ci3 : constraint_info := Eval vm_compute in the (mkInfo [] []) (P4ToConstraintInfo pton1 (wr_info "k::value < 200" we_act1)).
Definition we_ci4 : constraint_info := Eval vm_compute in the (mkInfo [] []) (P4ToConstraintInfo pton1 (wr_info "k::value < 300" we_act1)).
Example C97_wraps : let entry := wr_entry (wr_byte 100) (wr_byte 255) (wr_byte 6) (wr_byte 0) in
  P4ToConstraintInfo pton1 (wr_info "k::value < 200" we_act1) = Ok we_ci3 /\ P4ToConstraintInfo pton1 (wr_info "k::value < 300" we_act1) = Ok we_ci4 /\
  ReasonEntryViolatesConstraint entry we_ci3 = Ok "" /\ exists text, text <> "" /\ ReasonEntryViolatesConstraint entry we_ci4 = Ok text.
Proof.
  cbv zeta. split; [vm_compute; reflexivity|]. split; [vm_compute; reflexivity|]. split; [vm_compute; reflexivity|].
  destruct (ReasonEntryViolatesConstraint (wr_entry (wr_byte 100) (wr_byte 255) (wr_byte 6) (wr_byte 0)) we_ci4) as [text| |] eqn:E; [exists text; split; [|reflexivity]; intros ->|..]; vm_compute in E; discriminate E.
Qed.
(** In a solver. *)
Definition we_solver_text : string := "e != 0 || t::value >= 2".
Definition we_tree : expr := Eval vm_compute in the no_expr (ParseConstraint pton1 kTableConstraint (text_source sy_table we_solver_text)).
Lemma we_solver_parsed : ParseConstraint pton1 kTableConstraint (text_source sy_table we_solver_text) = Ok we_tree.
Proof. vm_compute. reflexivity. Qed.
Lemma we_usable : usable pton1 sy_table sy_keys sy_skip we_solver_text we_tree.
Proof.
  eapply se_solvable; [exact we_solver_parsed|vm_compute; reflexivity|reflexivity|].
  intros n Hn. repeat match goal with H : mentions _ _ |- _ => inversion H; clear H; subst end; cbn; eauto 10.
Qed.
Example C97_solver_case : (forall k, In k sy_keys -> k_type k <> TNotSet) /\ usable pton1 sy_table sy_keys sy_skip rw_text rw_tree /\ usable pton1 sy_table sy_keys sy_skip we_solver_text we_tree /\
  Loosens (InTable (ti_keys_by_name sy_table)) (fun _ _ => False) rw_tree we_tree /\
  fst (AddConstraintString sy_check pton1 sy_cs rw_text) = Ok true /\ fst (AddConstraintString sy_check pton1 sy_cs we_solver_text) = Ok true.
Proof.
  split; [intros k Hk; repeat (destruct Hk as [<-|Hk]; [discriminate|]); destruct Hk|]. split; [exact rw_usable|]. split; [exact we_usable|]. split.
  - pose proof (proj2 rw_usable) as (T1 & L1 & _). pose proof (proj2 we_usable) as (T2 & L2 & _).
    assert (condition (InTable (ti_keys_by_name sy_table)) rw_tree) as C1 by (split; [exact T1|split; [exact L1|intros _; eexists; reflexivity]]).
    assert (condition (InTable (ti_keys_by_name sy_table)) we_tree) as C2 by (split; [exact T2|split; [exact L2|intros _; eexists; reflexivity]]).
    unfold rw_tree, we_tree in *. match goal with |- Loosens _ _ (EBin ?m OAND ?a ?b) _ => apply lo_trans with (EBin m OOR a b) end.
    + apply lo_step; [apply ls_and_or|exact C1|]. destruct (part_condition_bin _ _ _ _ _ connective_and C1) as [C3 C4]. apply join; [constructor|exact C3|exact C4].
    + destruct (part_condition_bin _ _ _ _ _ connective_and C1) as [C3 C4]. apply lo_alike; [repeat constructor|apply join; [constructor|exact C3|exact C4]|exact C2].
  - split; vm_compute; reflexivity.
Qed.
