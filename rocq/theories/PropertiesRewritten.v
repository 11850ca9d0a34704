(** C84: rewriting constraints, of tables and of actions, anywhere in a program. *)
From Coq Require Import String Ascii List ZArith NArith Bool Lia.
From Verif Require Import Base Token Ast Lexer AstConstructors Parser Info TypeChecker ConstraintInfo Interpreter LiteralFacts StrFacts NumFacts SpecLexer SpecGrammar SpecTyping SpecSemantics TypeFacts SemFacts EvalFacts EntryFacts SpecInfo InfoFacts InfoFacts2 ParserFacts4 InterpFacts InterpFacts2 SpecMisc SpecLaws SpecReading SpecCrash SpecRewritten RetoldFacts LoadFacts ReadingFacts ReadingFacts2 RenameFacts CombineFacts RewrittenFacts PropertiesParser PropertiesInfo PropertiesInterpreter PropertiesVerdict PropertiesExplain PropertiesReading PropertiesRobust PropertiesCrash.
From Verif Require OutcomeFacts2.
Import ListNotations.
Open Scope string_scope.

Lemma rewritten_sym pton p p' : rewritten pton p p' -> rewritten pton p' p.
Proof.
  intros [H1 H2]. split; [revert H1|revert H2]; apply forall2_sym; intros a b (E1 & E2 & E3); (split; [auto|]); (split; [auto|]); rewrite <- E2; intros ks Hks;
    (destruct (E3 ks Hks) as [Hu Hu'|cs cs' e e' Hr Hr' Hra Hra' HW]; [now apply wr_none|eapply wr_some; eauto using rw_sym]).
Qed.
Lemma rewritten_free pton ck G pre pre' : rewritten_restriction pton ck G pre pre' -> unrestricted ck pre -> unrestricted ck pre'.
Proof. intros [_ Hu'|? ? ? ? Hr1 _] Hu; [exact Hu'|exfalso; exact (restricted_not _ _ _ Hu Hr1)]. Qed.
Lemma rewritten_read pton ck G pre pre' cs e : pton_ok pton -> rewritten_restriction pton ck G pre pre' -> restricted ck pre cs -> reads_as pton ck cs e ->
  exists cs' e', restricted ck pre' cs' /\ reads_as pton ck cs' e' /\ Rewrites G e e'.
Proof.
  intros Hp [Hu _|cs1 cs' e1 e' Hr1 Hr' Hra1 Hra' HRn] Hr Hra; [exfalso; exact (restricted_not _ _ _ Hu Hr)|]. rewrite (restricted_fun _ _ _ _ Hr1 Hr) in Hra1. rewrite (reads_as_fun _ _ _ _ _ Hp Hra1 Hra) in HRn. eauto.
Qed.
Lemma key_ids fs ks : Forall2 key_decl fs ks -> map k_id ks = map mf_id fs /\ map k_name ks = map mf_name fs.
Proof. intros H. induction H as [|f k l m (E1 & E2 & _) H [I1 I2]]; [auto|]. cbn [map]. now rewrite E1, E2, I1, I2. Qed.
Lemma param_ids fs ks : Forall2 param_decl fs ks -> map k_id ks = map ap_id fs /\ map k_name ks = map ap_name fs.
Proof. intros H. induction H as [|f k l m (E1 & E2 & _) H [I1 I2]]; [auto|]. cbn [map]. now rewrite E1, E2, I1, I2. Qed.
Lemma scope_names (ks : list key_info) : map fst (map (fun k => (k_name k, k)) ks) = map k_name ks.
Proof. now rewrite map_map. Qed.
Lemma rewritten_load_table pton d d' : pton_ok pton -> rewritten_table pton d d' -> loadable_table pton d -> loadable_table pton d'.
Proof.
  intros Hp (_ & Ef & HR) (ks & Hks & Ni & N1 & Hc). exists ks. rewrite <- Ef. split; [exact Hks|]. split; [exact Ni|]. split; [exact N1|]. specialize (HR ks Hks). destruct Hc as [Hu|(cs & e & t & Hr & Hra & Hty)]; [left; eapply rewritten_free; eauto|right].
  destruct (rewritten_read _ _ _ _ _ _ _ Hp HR Hr Hra) as (cs' & e' & H1 & H2 & H3). exists cs', e', t. split; [exact H1|]. split; [exact H2|].
  refine (proj1 (rewrites_types _ e e' _ H3 t) Hty). rewrite scope_names, (proj2 (key_ids _ _ Hks)). exact N1.
Qed.
Lemma rewritten_load_action pton d d' : pton_ok pton -> rewritten_action pton d d' -> loadable_action pton d -> loadable_action pton d'.
Proof.
  intros Hp (_ & Ef & HR) (ks & Hks & Ni & N1 & Hc). exists ks. rewrite <- Ef. split; [exact Hks|]. split; [exact Ni|]. split; [exact N1|]. specialize (HR ks Hks). destruct Hc as [Hu|(cs & e & t & Hr & Hra & Hty)]; [left; eapply rewritten_free; eauto|right].
  destruct (rewritten_read _ _ _ _ _ _ _ Hp HR Hr Hra) as (cs' & e' & H1 & H2 & H3). exists cs', e', t. split; [exact H1|]. split; [exact H2|].
  refine (proj1 (rewrites_types_action _ e e' _ H3 t) Hty). rewrite scope_names, (proj2 (param_ids _ _ Hks)). exact N1.
Qed.
Lemma rewritten_loads pton p p' : pton_ok pton -> rewritten pton p p' -> (exists ci, P4ToConstraintInfo pton p = Ok ci) -> exists ci, P4ToConstraintInfo pton p' = Ok ci.
Proof.
  intros Hp [HT HA] H. apply (C37_loads_iff pton p Hp) in H as (H1 & H2 & H3 & H4). apply (C37_loads_iff pton p' Hp). split; [|split; [|split]].
  - erewrite <- (forall2_map_eq _ table_id table_id); [exact H1| |exact HT]. intros a b (E & _). exact E.
  - erewrite <- (forall2_map_eq _ action_id action_id); [exact H2| |exact HA]. intros a b (E & _). exact E.
  - intros d' Hd'. destruct (forall2_other _ _ _ _ HT Hd') as (d & Hd & R). eapply rewritten_load_table; eauto.
  - intros d' Hd'. destruct (forall2_other _ _ _ _ HA Hd') as (d & Hd & R). eapply rewritten_load_action; eauto.
Qed.
(** Rewriting does not change whether a program loads. *)
Theorem C84_loads : forall pton p p', pton_ok pton -> rewritten pton p p' ->
  ((exists ci, P4ToConstraintInfo pton p = Ok ci) <-> (exists ci, P4ToConstraintInfo pton p' = Ok ci)).
Proof. intros pton p p' Hp H. split; apply rewritten_loads; auto using rewritten_sym. Qed.
Print Assumptions C84_loads.

Lemma rewritten_says_table pton p p' ci d d' entry x : pton_ok pton -> P4ToConstraintInfo pton p = Ok ci -> sane_widths p -> workable pton p' -> In d (p4_tables p) -> In d' (p4_tables p') ->
  rewritten_table pton d d' -> table_says pton d entry x -> table_says pton d' entry x.
Proof.
  intros Hp Hci Hs [HW _] Hd Hd' (_ & Ef & HR) (ks & cs & e & key & Hks & Hr & Hra & Hco & Hkey & Hty & HM). destruct (rewritten_read _ _ _ _ _ _ _ Hp (HR ks Hks) Hr Hra) as (cs' & e' & H1 & H2 & H3).
  destruct (table_names _ _ _ _ Hp Hci Hd) as [N1 N2]. destruct (key_ids _ _ Hks) as [K1 K2]. rewrite <- K1 in N1. rewrite <- K2 in N2.
  pose proof (entry_env_ok ks entry key N1 N2 Hco (fun k w Hk Hw => key_widths p d ks k w Hs Hd Hks Hk Hw) Hkey) as HE.
  rewrite <- (scope_names ks) in N2. destruct (rewrites_sound _ _ _ _ N2 HE H3) as [R1 R2]. exists ks, cs', e', key. rewrite <- Ef. split; [exact Hks|]. split; [exact H1|]. split; [exact H2|]. split; [exact Hco|]. split; [exact Hkey|]. split; [now apply R1|].
  rewrite Ef in Hks. apply den_unordered; [exact (HW d' ks cs' e' Hd' Hks H1 H2)|]. apply R2. now apply unordered_den.
Qed.
Lemma rewritten_says_action pton p p' ci d d' a x : pton_ok pton -> P4ToConstraintInfo pton p = Ok ci -> sane_widths p -> workable pton p' -> In d (p4_actions p) -> In d' (p4_actions p') ->
  (forall f, In f (pad_params d) -> exists s, In (ap_id f, s) (pa_params a)) -> rewritten_action pton d d' -> action_says pton d a x -> action_says pton d' a x.
Proof.
  intros Hp Hci Hs [_ HW] Hd Hd' Hall (_ & Ef & HR) (ks & cs & e & param & Hks & Hr & Hra & Hco & Hkey & Hty & HM). destruct (rewritten_read _ _ _ _ _ _ _ Hp (HR ks Hks) Hr Hra) as (cs' & e' & H1 & H2 & H3).
  destruct (action_names _ _ _ _ Hp Hci Hd) as [_ N2]. destruct (param_ids _ _ Hks) as [K1 K2]. rewrite <- K2 in N2.
  assert (env_ok (param_scope ks) (ActionEnv param)) as HE.
  { constructor.
    - intros n t (k & Hk & <-) Hu. apply in_map_iff in Hk as (k' & E & Hk). injection E as <- ->. destruct (params_bits _ _ Hks k Hk Hu) as [w Ew]. rewrite Ew.
      assert (In (k_id k) (map ap_id (pad_params d))) as Hi by (rewrite <- K1; now apply in_map). apply in_map_iff in Hi as (f & Ei & Hi). destruct (Hall f Hi) as [s Hs'].
      exists (unsigned s). split; [|constructor]. apply Hkey. exists k, s. rewrite <- Ei. auto.
    - intros n t w (k & Hk & <-) Hw. apply in_map_iff in Hk as (k' & E & Hk). injection E as <- ->. exact (param_widths p d ks k w Hs Hd Hks Hk Hw). }
  rewrite <- (scope_names ks) in N2. exists ks, cs', e', param. rewrite <- Ef. split; [exact Hks|]. split; [exact H1|]. split; [exact H2|]. split; [exact Hco|]. split; [exact Hkey|]. split; [now apply (rewrites_types_action _ e e' N2 H3)|].
  apply den_unordered.
  - apply orders_exact_sub. intros e0 t Ht w ->. assert (OutcomeFacts2.only_bits (param_scope ks)) as HB.
    { intros ps E n t (k & Hk & <-) Hu. injection E as <-. apply in_map_iff in Hk as (k' & E & Hk). injection E as <- ->. exact (params_bits _ _ Hks k Hk Hu). }
    destruct (OutcomeFacts2.action_types _ _ e0 (TExact w) eq_refl HB Ht) as [H|[H|[w' H]]]; discriminate H.
  - apply (rewrites_sound_action _ param e e' N2 HE H3); [exact (HW d' cs' e' Hd' H1 H2)|]. now apply unordered_den.
Qed.
Lemma rewritten_accepts pton p p' ci ci' entry : pton_ok pton -> rewritten pton p p' -> P4ToConstraintInfo pton p = Ok ci -> P4ToConstraintInfo pton p' = Ok ci' -> sane_widths p -> workable pton p' ->
  all_passed p (actions_of entry) -> ReasonEntryViolatesConstraint entry ci = Ok "" -> ReasonEntryViolatesConstraint entry ci' = Ok "".
Proof.
  intros Hp [HT HA] H H' Hs HW Hall Hr. apply (C58_accepted_iff pton p ci _ Hp H) in Hr as ((d & Hd & Hid & Hal) & Hdir & Ha). apply (C58_accepted_iff pton p' ci' _ Hp H'). split; [|split; [exact Hdir|]].
  - destruct (f2_left _ _ _ _ HT Hd) as (d' & Hd' & HR). exists d'. split; [exact Hd'|]. split; [unfold table_id in *; destruct HR as (E & _); congruence|].
    destruct Hal as [Hu|Hx]; [left|right; exact (rewritten_says_table pton p p' ci d d' entry true Hp H Hs HW Hd Hd' HR Hx)]. destruct (proj1 (C37_loads_iff pton p Hp) (ex_intro _ ci H)) as (_ & _ & H3 & _). destruct (H3 d Hd) as (ks & Hks & _). destruct HR as (_ & _ & HR). exact (rewritten_free _ _ _ _ _ (HR ks Hks) Hu).
  - intros a Hi. destruct (Ha a Hi) as (da & Hda & Hida & Hala). destruct (f2_left _ _ _ _ HA Hda) as (d' & Hd' & HR). exists d'. split; [exact Hd'|]. split; [unfold action_id in *; destruct HR as (E & _); congruence|].
    destruct Hala as [Hu|Hx]; [left|right; exact (rewritten_says_action pton p p' ci da d' a true Hp H Hs HW Hda Hd' (fun f Hf => Hall a da f Hi Hda Hida Hf) HR Hx)]. destruct (proj1 (C37_loads_iff pton p Hp) (ex_intro _ ci H)) as (_ & _ & _ & H3). destruct (H3 da Hda) as (ks & Hks & _). destruct HR as (_ & _ & HR). exact (rewritten_free _ _ _ _ _ (HR ks Hks) Hu).
Qed.
Lemma rewritten_widths pton p p' : rewritten pton p p' -> sane_widths p -> sane_widths p'.
Proof.
  intros [HT HA] [H1 H2]. split; intros d' f Hd' Hf.
  - destruct (forall2_other _ _ _ _ HT Hd') as (d & Hd & (_ & E & _)). rewrite <- E in Hf. eauto.
  - destruct (forall2_other _ _ _ _ HA Hd') as (d & Hd & (_ & E & _)). rewrite <- E in Hf. eauto.
Qed.
Lemma rewritten_passed pton p p' acts : rewritten pton p p' -> all_passed p acts -> all_passed p' acts.
Proof.
  intros [HT HA] H a d' f Ha Hd' Hid Hf. destruct (forall2_other _ _ _ _ HA Hd') as (d & Hd & (E1 & E & _)). rewrite <- E in Hf. rewrite <- E1 in Hid. eauto.
Qed.
(** Nor which entries are accepted, if the checker can evaluate the constraints and the actions get all their arguments. *)
Theorem C84_accepts : forall pton p p' ci ci' entry, pton_ok pton -> rewritten pton p p' -> P4ToConstraintInfo pton p = Ok ci -> P4ToConstraintInfo pton p' = Ok ci' ->
  sane_widths p -> workable pton p -> workable pton p' -> all_passed p (actions_of entry) ->
  (ReasonEntryViolatesConstraint entry ci = Ok "" <-> ReasonEntryViolatesConstraint entry ci' = Ok "").
Proof.
  intros pton p p' ci ci' entry Hp HR H H' Hs W W' Hall. split; intros Hx.
  - exact (rewritten_accepts pton p p' ci ci' entry Hp HR H H' Hs W' Hall Hx).
  - exact (rewritten_accepts pton p' p ci' ci entry Hp (rewritten_sym _ _ _ HR) H' H (rewritten_widths _ _ _ HR Hs) W (rewritten_passed _ _ _ _ HR Hall) Hx).
Qed.
Print Assumptions C84_accepts.

(** A program with a table and an action, and the same with both constraints rewritten. *)
Definition wr_text1 : string := "k::mask == 0 -> k::value == 0".
Definition wr_text2 : string := "!(k::mask == 0) || k::value == 0".
Definition wr_act1 : string := "p == 1 || q != 2".
Definition wr_act2 : string := "!(q == 2) || p == 1".
Definition wr_info (t a : string) : p4info :=
  mkP4Info [mkP4Table (mkPre 1 "t" [restriction "entry" [t]]) [mkMF 1 "k" 8 (MMatchType MTTernary)]]
           [mkP4ActionDecl (mkPre 7 "a" [restriction "action" [a]]) [mkAP 1 "p" 8 ""; mkAP 2 "q" 8 ""]].
Definition wr_cs (t : string) : csource := mkCSource t (mkLoc 0 0 (SrcTable "t")).
Definition wr_ca (t : string) : csource := mkCSource t (mkLoc 0 0 (SrcAction "a")).
Definition wr_hole : expr := EBool (mkMeta default_loc default_loc TUnknown) true.
Definition wr_t1 : expr := Eval vm_compute in the wr_hole (ParseConstraint pton1 kTableConstraint (wr_cs wr_text1)).
Definition wr_t2 : expr := Eval vm_compute in the wr_hole (ParseConstraint pton1 kTableConstraint (wr_cs wr_text2)).
Definition wr_a1 : expr := Eval vm_compute in the wr_hole (ParseConstraint pton1 kActionConstraint (wr_ca wr_act1)).
Definition wr_a2 : expr := Eval vm_compute in the wr_hole (ParseConstraint pton1 kActionConstraint (wr_ca wr_act2)).
Lemma wr_parsed : ParseConstraint pton1 kTableConstraint (wr_cs wr_text1) = Ok wr_t1 /\ ParseConstraint pton1 kTableConstraint (wr_cs wr_text2) = Ok wr_t2 /\
  ParseConstraint pton1 kActionConstraint (wr_ca wr_act1) = Ok wr_a1 /\ ParseConstraint pton1 kActionConstraint (wr_ca wr_act2) = Ok wr_a2.
Proof. repeat split; vm_compute; reflexivity. Qed.

Definition wr_ks : list key_info := [mkKey 1 "k" (TTernary 8)].
Definition wr_ps : list key_info := [mkKey 1 "p" (TBit 8); mkKey 2 "q" (TBit 8)].
Lemma wr_decls : Forall2 key_decl [mkMF 1 "k" 8 (MMatchType MTTernary)] wr_ks /\ Forall2 param_decl [mkAP 1 "p" 8 ""; mkAP 2 "q" 8 ""] wr_ps.
Proof. split; repeat constructor. Qed.
Lemma wr_typed_key x : (match InferTable x (mkTable 0 "" None default_csource [] (map (fun k => (k_name k, k)) wr_ks)) with Ok y => is_bool_type (e_type y) | _ => false end) = true -> Typed (key_scope wr_ks) x TBool.
Proof.
  intros H. destruct (InferTable x _) as [y| |] eqn:E; [|discriminate..]. apply bool_iff in H. rewrite <- H.
  refine (proj1 (infer_ok None (Some (mkTable 0 "" None default_csource [] (map (fun k => (k_name k, k)) wr_ks))) _ _ _ _ E)).
  apply (is_table (mkTable 0 "" None default_csource [] (map (fun k => (k_name k, k)) wr_ks))). cbn. repeat constructor; cbn; intuition discriminate.
Qed.
Lemma wr_typed_param x : (match InferAction x (mkAction 0 "" None default_csource [] (map (fun k => (k_name k, k)) wr_ps)) with Ok y => is_bool_type (e_type y) | _ => false end) = true -> Typed (param_scope wr_ps) x TBool.
Proof.
  intros H. destruct (InferAction x _) as [y| |] eqn:E; [|discriminate..]. apply bool_iff in H. rewrite <- H.
  refine (proj1 (infer_ok (Some (mkAction 0 "" None default_csource [] (map (fun k => (k_name k, k)) wr_ps))) None _ _ _ _ E)).
  apply (is_action (mkAction 0 "" None default_csource [] (map (fun k => (k_name k, k)) wr_ps))). cbn. repeat constructor; cbn; intuition discriminate.
Qed.
Lemma wr_literals : literals wr_t1 /\ literals wr_a1.
Proof. unfold wr_t1, wr_a1. cbn [literals]. repeat split; first [exists 0%N; apply dec_Decimal; vm_compute; reflexivity|exists 1%N; apply dec_Decimal; vm_compute; reflexivity|exists 2%N; apply dec_Decimal; vm_compute; reflexivity]. Qed.
Lemma wr_table_rewrites : Rewrites (key_scope wr_ks) wr_t1 wr_t2.
Proof.
  pose (m := at_ default_loc default_loc). pose proof (proj1 wr_literals) as L. unfold wr_t1, wr_t2 in *.
  match goal with |- Rewrites _ (EBin _ _ ?a ?b) _ =>
    apply rw_trans with (EBin m OOR (ENot m a) b);
    [apply rw_law; [apply law_implies|apply wr_typed_key; vm_compute; reflexivity..|exact L|exact L]|apply rw_alike; repeat constructor]
  end.
Qed.
Lemma wr_action_rewrites : Rewrites (param_scope wr_ps) wr_a1 wr_a2.
Proof.
  pose (m := at_ default_loc default_loc). pose proof (proj2 wr_literals) as L. unfold wr_a1, wr_a2 in *.
  match goal with |- Rewrites _ (EBin _ _ ?a (EBin ?n _ ?x ?y)) _ =>
    destruct L as [L1 L2];
    apply rw_trans with (EBin m OOR (EBin n ONE x y) a);
    [apply rw_law; [apply law_or_comm|apply wr_typed_param; vm_compute; reflexivity..|split; assumption|split; assumption]|];
    apply rw_bin; [|apply rw_alike; repeat constructor];
    apply rw_trans with (ENot m (EBin m OEQ x y));
    [apply rw_law; [apply law_ne|apply wr_typed_param; vm_compute; reflexivity..|exact L2|exact L2]|apply rw_alike; repeat constructor]
  end.
Qed.
Lemma wr_rewritten : rewritten pton1 (wr_info wr_text1 wr_act1) (wr_info wr_text2 wr_act2).
Proof.
  destruct wr_parsed as (P1 & P2 & P3 & P4). destruct wr_decls as [D1 D2]. split; (constructor; [|constructor]); (split; [reflexivity|]); (split; [reflexivity|]); intros ks Hks.
  - rewrite (forall2_fun _ key_decl_fun _ _ _ Hks D1).
    apply (wr_some _ _ _ _ _ (wr_cs wr_text1) (wr_cs wr_text2) wr_t1 wr_t2); [apply extract_some; vm_compute; reflexivity|apply extract_some; vm_compute; reflexivity|exact (proj1 (text_iff pton1 pton1_ok _ _ _) P1)|exact (proj1 (text_iff pton1 pton1_ok _ _ _) P2)|exact wr_table_rewrites].
  - rewrite (forall2_fun _ param_decl_fun _ _ _ Hks D2).
    apply (wr_some _ _ _ _ _ (wr_ca wr_act1) (wr_ca wr_act2) wr_a1 wr_a2); [apply extract_some; vm_compute; reflexivity|apply extract_some; vm_compute; reflexivity|exact (proj1 (text_iff pton1 pton1_ok _ _ _) P3)|exact (proj1 (text_iff pton1 pton1_ok _ _ _) P4)|exact wr_action_rewrites].
Qed.
Lemma wr_sane t a : sane_widths (wr_info t a).
Proof. split; intros d f Hd Hf; destruct Hd as [<-|[]]; cbn in Hf; repeat destruct Hf as [<-|Hf]; try contradiction; cbn; lia. Qed.
Lemma wr_workable t a te ae : ParseConstraint pton1 kTableConstraint (wr_cs t) = Ok te -> ParseConstraint pton1 kActionConstraint (wr_ca a) = Ok ae ->
  restricted kTableConstraint (mkPre 1 "t" [restriction "entry" [t]]) (wr_cs t) -> restricted kActionConstraint (mkPre 7 "a" [restriction "action" [a]]) (wr_ca a) ->
  (forall G, ~ orders_exact G te) -> ~ has_attribute ae -> workable pton1 (wr_info t a).
Proof.
  intros P1 P2 R1 R2 H1 H2. split.
  - intros d ks cs e [<-|[]] _ Hr Hra. rewrite (restricted_fun _ _ _ _ Hr R1) in Hra. rewrite (reads_as_fun _ _ _ _ _ pton1_ok Hra (proj1 (text_iff pton1 pton1_ok _ _ _) P1)). apply H1.
  - intros d cs e [<-|[]] Hr Hra. rewrite (restricted_fun _ _ _ _ Hr R2) in Hra. rewrite (reads_as_fun _ _ _ _ _ pton1_ok Hra (proj1 (text_iff pton1 pton1_ok _ _ _) P2)). exact H2.
Qed.
Definition wr_entry (v m p q : string) : p4_entry := mkEntry 1 [mkFM 1 (FMTernary v m)] (Some (TAction (mkP4Action 7 [(1%N, p); (2%N, q)]))) 1.
Definition wr_byte (n : nat) : string := String (ascii_of_nat n) "".
Definition wr_ci1 : constraint_info := Eval vm_compute in the (mkInfo [] []) (P4ToConstraintInfo pton1 (wr_info wr_text1 wr_act1)).
Definition wr_ci2 : constraint_info := Eval vm_compute in the (mkInfo [] []) (P4ToConstraintInfo pton1 (wr_info wr_text2 wr_act2)).
Example C84_case : rewritten pton1 (wr_info wr_text1 wr_act1) (wr_info wr_text2 wr_act2) /\ sane_widths (wr_info wr_text1 wr_act1) /\
  workable pton1 (wr_info wr_text1 wr_act1) /\ workable pton1 (wr_info wr_text2 wr_act2) /\
  P4ToConstraintInfo pton1 (wr_info wr_text1 wr_act1) = Ok wr_ci1 /\ P4ToConstraintInfo pton1 (wr_info wr_text2 wr_act2) = Ok wr_ci2 /\
  (forall v m p q, all_passed (wr_info wr_text1 wr_act1) (actions_of (wr_entry v m p q))) /\
  ReasonEntryViolatesConstraint (wr_entry (wr_byte 1) (wr_byte 1) (wr_byte 1) (wr_byte 2)) wr_ci1 = Ok "" /\
  ReasonEntryViolatesConstraint (wr_entry (wr_byte 1) (wr_byte 1) (wr_byte 3) (wr_byte 2)) wr_ci1 <> Ok "".
Proof.
  destruct wr_parsed as (P1 & P2 & P3 & P4). split; [exact wr_rewritten|]. split; [apply wr_sane|].
  split. { apply (wr_workable _ _ wr_t1 wr_a1 P1 P3); [apply extract_some; vm_compute; reflexivity|apply extract_some; vm_compute; reflexivity| |].
    - unfold wr_t1. intros G Ho. repeat match goal with H : orders_exact _ _ |- _ => inversion H; clear H; subst end; match goal with H : ordering _ |- _ => inversion H end.
    - unfold wr_a1. intros Ho. repeat match goal with H : has_attribute _ |- _ => inversion H; clear H; subst end. }
  split. { apply (wr_workable _ _ wr_t2 wr_a2 P2 P4); [apply extract_some; vm_compute; reflexivity|apply extract_some; vm_compute; reflexivity| |].
    - unfold wr_t2. intros G Ho. repeat match goal with H : orders_exact _ _ |- _ => inversion H; clear H; subst end; match goal with H : ordering _ |- _ => inversion H end.
    - unfold wr_a2. intros Ho. repeat match goal with H : has_attribute _ |- _ => inversion H; clear H; subst end. }
  split; [vm_compute; reflexivity|]. split; [vm_compute; reflexivity|].
  split. { intros v m p q a d f Ha Hd _ Hf. destruct Ha as [<-|[]]. destruct Hd as [<-|[]]. cbn in Hf. destruct Hf as [<-|[<-|[]]]; eexists; cbn; eauto. }
  split; [vm_compute; reflexivity|vm_compute; discriminate].
Qed.
(** Arguments must be given: here [q] is not, and the constraint is only decided by the operand evaluated first. *)
Example C84_needs_arguments : let entry := mkEntry 1 [mkFM 1 (FMTernary (wr_byte 1) (wr_byte 1))] (Some (TAction (mkP4Action 7 [(1%N, wr_byte 1)]))) 1 in
  ReasonEntryViolatesConstraint entry wr_ci1 = Ok "" /\ ReasonEntryViolatesConstraint entry wr_ci2 <> Ok "".
Proof. cbv zeta. split; [vm_compute; reflexivity|vm_compute; discriminate]. Qed.
