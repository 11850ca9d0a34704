(** C37-C40: building the constraint info from a P4Info. *)
From Coq Require Import String Ascii List ZArith NArith Bool Lia Permutation.
From Verif Require Import Base Token Ast AstConstructors Parser Info TypeChecker ConstraintInfo Interpreter LiteralFacts StrFacts SpecLexer SpecGrammar SpecTyping SpecSemantics TypeFacts SemFacts EntryFacts SpecInfo InfoFacts InfoFacts2 PropertiesParser PropertiesTypes.
Import ListNotations.
Open Scope string_scope.

Definition table_id (d : p4_table) : N := pr_id (pt_preamble d).
Definition action_id (d : p4_action_decl) : N := pr_id (pad_preamble d).

(** A P4Info: two tables and an action. *)
Definition restriction (what : string) (parts : list string) : string :=
  "@" ++ what ++ "_restriction" ++ parts_text parts.
Definition ex_decl : p4_table :=
  mkP4Table (mkPre 7 "t7" ["@file(" ++ dq ++ "x.p4" ++ dq ++ ")"; "@line(12)"; restriction "entry" ["k1 != 0;"; "k2::mask == 0 || ::priority > 3"]])
    [mkMF 1 "k1" 8 (MMatchType MTExact); mkMF 2 "k2" 16 (MMatchType MTTernary); mkMF 3 "k3" 0 (MOther "custom")].
Definition ex_info : p4info :=
  mkP4Info [ex_decl; mkP4Table (mkPre 8 "t8" []) []]
    [mkP4ActionDecl (mkPre 9 "a" [restriction "action" ["p <= 3"]]) [mkAP 1 "p" 4 ""; mkAP 2 "q" 4 "custom_t"]].

(** * C37 *)
Theorem C37_success_iff : forall pton p,
  (exists ci, P4ToConstraintInfo pton p = Ok ci) <->
  NoDup (map table_id (p4_tables p)) /\ NoDup (map action_id (p4_actions p)) /\
  (forall d, In d (p4_tables p) -> exists ks t, table_of pton d ks t) /\
  (forall d, In d (p4_actions p) -> exists ps a, action_of pton d ps a).
Proof.
  intros pton p. rewrite info_iff. split; intros (H1 & H2 & H3 & H4); (split; [exact H1|split; [exact H2|split; intros d Hd]]).
  - apply H3 in Hd as [t Ht]. apply table_parsed in Ht as [ks Ht]. eauto.
  - apply H4 in Hd as [t Ht]. apply action_parsed in Ht as [ks Ht]. eauto.
  - apply H3 in Hd as (ks & t & Ht). apply table_parses in Ht as (t' & Ht & _). eauto.
  - apply H4 in Hd as (ks & t & Ht). apply action_parses in Ht as (t' & Ht & _). eauto.
Qed.
Print Assumptions C37_success_iff.
(** Every declaration is found under its id, and nothing else is. *)
Theorem C37_exact : forall pton p ci, P4ToConstraintInfo pton p = Ok ci ->
  (forall d, In d (p4_tables p) -> exists ks t, GetTableInfoOrNull ci (table_id d) = Some t /\ table_of pton d ks t) /\
  (forall id t, GetTableInfoOrNull ci id = Some t -> exists d ks, In d (p4_tables p) /\ table_id d = id /\ table_of pton d ks t) /\
  (forall d, In d (p4_actions p) -> exists ps a, GetActionInfoOrNull ci (action_id d) = Some a /\ action_of pton d ps a) /\
  (forall id a, GetActionInfoOrNull ci id = Some a -> exists d ps, In d (p4_actions p) /\ action_id d = id /\ action_of pton d ps a).
Proof.
  intros pton p ci H. destruct (proj1 (info_iff pton p) (ex_intro _ ci H)) as (_ & _ & H3 & H4). apply info_lookup in H as (Ht & Ha). split; [|split; [|split]].
  - intros d Hd. destruct (H3 d Hd) as [t E]. destruct (table_parsed _ _ _ E) as [ks Hk]. exists ks, t. split; [|exact Hk]. apply Ht. exists d. auto.
  - intros id t E. apply Ht in E as (d & Hd & -> & E). destruct (table_parsed _ _ _ E) as [ks Hk]. exists d, ks. auto.
  - intros d Hd. destruct (H4 d Hd) as [t E]. destruct (action_parsed _ _ _ E) as [ks Hk]. exists ks, t. split; [|exact Hk]. apply Ha. exists d. auto.
  - intros id t E. apply Ha in E as (d & Hd & -> & E). destruct (action_parsed _ _ _ E) as [ks Hk]. exists d, ks. auto.
Qed.
Print Assumptions C37_exact.
(** Otherwise it fails with InvalidArgument as a whole, or crashes where the parsing of one constraint crashes. *)
Theorem C37_failure : forall pton p, (forall ci, P4ToConstraintInfo pton p <> Ok ci) ->
  (exists m, P4ToConstraintInfo pton p = Err InvalidArgument m) \/
  exists w, P4ToConstraintInfo pton p = Crash w /\
    ((exists d cs, In d (p4_tables p) /\ restricted kTableConstraint (pt_preamble d) cs /\
        (ParseConstraint pton kTableConstraint cs = Crash w \/ exists e t, ParseConstraint pton kTableConstraint cs = Ok e /\ ti_source t = cs /\ InferTable e t = Crash w)) \/
     (exists d cs, In d (p4_actions p) /\ restricted kActionConstraint (pad_preamble d) cs /\
        (ParseConstraint pton kActionConstraint cs = Crash w \/ exists e a, ParseConstraint pton kActionConstraint cs = Ok e /\ ai_source a = cs /\ InferAction e a = Crash w))).
Proof.
  intros pton p H. destruct (info_result pton p) as [[ci E]|[E|(w & E & E')]]; [now apply H in E|now left|]. right. exists w. split; [exact E|].
  assert (forall what l bi bn, (forall o, In o l -> o <> Crash w) -> insert_keys what l bi bn <> Crash w) as Hk.
  { intros what. induction l as [|o l IH]; intros bi bn Hc; cbn [insert_keys]; [discriminate|]. destruct o as [k|c m|w'] eqn:Eo; cbn [bind]; [|discriminate|intros [= ->]; now apply (Hc (Crash w)); [left|]].
    destruct (assoc_insert N.eqb (k_id k) k bi); [|discriminate]. destruct (assoc_insert String.eqb (k_name k) k bn); [|discriminate]. apply IH. intros o' Ho'. apply Hc. now right. }
  destruct E' as [(d & Hd & E')|(d & Hd & E')]; [left|right]; exists d.
  - unfold ParseTableInfo in E'. destruct (insert_keys _ _ _ _) as [[bi bn]|c m|w'] eqn:F; cbn [bind] in E'; [|discriminate|].
    + destruct (ExtractConstraint kTableConstraint (pt_preamble d)) as [[cs|]|c m|w'] eqn:F2; cbn [bind] in E'; [|discriminate..|destruct (extract_errors kTableConstraint (pt_preamble d)) as [[? ?]|[? ?]]; congruence].
      exists cs. split; [exact Hd|]. split; [now apply extract_some|]. destruct (ParseConstraint pton kTableConstraint cs) as [e|c m|w'] eqn:F3; cbn [bind] in E'; [|discriminate|left; congruence].
      right. exists e. destruct (InferTable e (mkTable (pr_id (pt_preamble d)) (pr_name (pt_preamble d)) (Some e) cs bi bn)) as [e'|c m|w'] eqn:F4; cbn [bind] in E'; [discriminate..|]. eexists. split; [reflexivity|]. split; [|rewrite F4; congruence]. reflexivity.
    + exfalso. assert (w' = w) as -> by congruence. revert F. apply Hk. intros o Ho. apply in_map_iff in Ho as (f & <- & _). unfold ParseMatchField, ParseKeyType. destruct (mf_match f) as [[]| |]; cbn [bind]; discriminate.
  - unfold ParseActionInfo in E'. destruct (insert_keys _ _ _ _) as [[bi bn]|c m|w'] eqn:F; cbn [bind] in E'; [|discriminate|].
    + destruct (ExtractConstraint kActionConstraint (pad_preamble d)) as [[cs|]|c m|w'] eqn:F2; cbn [bind] in E'; [|discriminate..|destruct (extract_errors kActionConstraint (pad_preamble d)) as [[? ?]|[? ?]]; congruence].
      exists cs. split; [exact Hd|]. split; [now apply extract_some|]. destruct (ParseConstraint pton kActionConstraint cs) as [e|c m|w'] eqn:F3; cbn [bind] in E'; [|discriminate|left; congruence].
      right. exists e. destruct (InferAction e (mkAction (pr_id (pad_preamble d)) (pr_name (pad_preamble d)) (Some e) cs bi bn)) as [e'|c m|w'] eqn:F4; cbn [bind] in E'; [discriminate..|]. eexists. split; [reflexivity|]. split; [|rewrite F4; congruence]. reflexivity.
    + exfalso. assert (w' = w) as -> by congruence. revert F. apply Hk. intros o Ho. apply in_map_iff in Ho as (f & <- & _). unfold ParseParam, ParseParamType. destruct (negb _); cbn [bind]; discriminate.
Qed.
Print Assumptions C37_failure.

Example C37_case : exists ci t, P4ToConstraintInfo pton1 ex_info = Ok ci /\ GetTableInfoOrNull ci 7 = Some t /\ ti_constraint t <> None /\ GetTableInfoOrNull ci 10 = None.
Proof. eexists. eexists. split; [vm_compute; reflexivity|]. split; [vm_compute; reflexivity|]. split; [vm_compute; discriminate|vm_compute; reflexivity]. Qed.
Example C37_failure_case : forall ci, P4ToConstraintInfo pton1 (mkP4Info [ex_decl; ex_decl] []) <> Ok ci.
Proof. intros ci H. assert (is_ok (P4ToConstraintInfo pton1 (mkP4Info [ex_decl; ex_decl] [])) = false) as E by (vm_compute; reflexivity). rewrite H in E. discriminate E. Qed.
(** Failures are not always InvalidArgument: quoting a type error across two lines crashes. *)
Theorem C37_failure_can_crash : exists w, P4ToConstraintInfo pton1 (mkP4Info [mkP4Table (mkPre 1 "t" [restriction "entry" ["k"; "< 1"]]) [mkMF 1 "k" 8 (MMatchType MTTernary)]] []) = Crash w.
Proof. eexists. vm_compute. reflexivity. Qed.

(** * C38 *)
Theorem C38_order_irrelevant : forall pton p p', Permutation (p4_tables p) (p4_tables p') -> Permutation (p4_actions p) (p4_actions p') ->
  ((exists ci, P4ToConstraintInfo pton p = Ok ci) <-> (exists ci, P4ToConstraintInfo pton p' = Ok ci)) /\
  forall ci ci', P4ToConstraintInfo pton p = Ok ci -> P4ToConstraintInfo pton p' = Ok ci' ->
    (forall id, GetTableInfoOrNull ci id = GetTableInfoOrNull ci' id) /\ (forall id, GetActionInfoOrNull ci id = GetActionInfoOrNull ci' id).
Proof.
  intros pton p p' Ht Ha. split.
  - rewrite !info_iff. split; intros (H1 & H2 & H3 & H4).
    + split; [|split; [|split; intros d Hd]].
      * exact (Permutation_NoDup (Permutation_map _ Ht) H1).
      * exact (Permutation_NoDup (Permutation_map _ Ha) H2).
      * apply H3. exact (Permutation_in _ (Permutation_sym Ht) Hd).
      * apply H4. exact (Permutation_in _ (Permutation_sym Ha) Hd).
    + split; [|split; [|split; intros d Hd]].
      * exact (Permutation_NoDup (Permutation_map _ (Permutation_sym Ht)) H1).
      * exact (Permutation_NoDup (Permutation_map _ (Permutation_sym Ha)) H2).
      * apply H3. exact (Permutation_in _ Ht Hd).
      * apply H4. exact (Permutation_in _ Ha Hd).
  - intros ci ci' H H'. apply info_lookup in H as (H1 & H2). apply info_lookup in H' as (H1' & H2').
    assert (forall A (x y : option A), (forall a, x = Some a <-> y = Some a) -> x = y) as Hx.
    { intros A [a|] [b|] E; try reflexivity; [symmetry; now apply E|symmetry; now apply E|now apply E]. }
    split; intros id; apply Hx; intros t.
    + rewrite H1, H1'. split; intros (d & Hd & E); exists d; (split; [|exact E]); [exact (Permutation_in _ Ht Hd)|exact (Permutation_in _ (Permutation_sym Ht) Hd)].
    + rewrite H2, H2'. split; intros (d & Hd & E); exists d; (split; [|exact E]); [exact (Permutation_in _ Ha Hd)|exact (Permutation_in _ (Permutation_sym Ha) Hd)].
Qed.
Print Assumptions C38_order_irrelevant.

(** In particular no verdict changes. *)
Theorem C38_verdicts : forall pton p p' ci ci' entry, Permutation (p4_tables p) (p4_tables p') -> Permutation (p4_actions p) (p4_actions p') ->
  P4ToConstraintInfo pton p = Ok ci -> P4ToConstraintInfo pton p' = Ok ci' ->
  ReasonEntryViolatesConstraint entry ci = ReasonEntryViolatesConstraint entry ci'.
Proof.
  intros pton p p' ci ci' entry Ht Ha H H'. destruct (proj2 (C38_order_irrelevant pton p p' Ht Ha) ci ci' H H') as (E1 & E2).
  assert (forall a, ReasonActionViolates ci a = ReasonActionViolates ci' a) as Ea by (intros a; unfold ReasonActionViolates; now rewrite E2).
  assert (forall l, ReasonActionSetViolates ci l = ReasonActionSetViolates ci' l) as El by (induction l as [|a l IH]; cbn [ReasonActionSetViolates]; [reflexivity|now rewrite Ea, IH]).
  unfold ReasonEntryViolatesConstraint. rewrite E1. destruct (GetTableInfoOrNull ci' (pe_table_id entry)); [|reflexivity]. destruct (ReasonTableViolates t entry); cbn [bind]; try reflexivity.
  destruct (negb _); [reflexivity|]. destruct (pe_action entry) as [[]|]; auto.
Qed.
Print Assumptions C38_verdicts.
Example C38_case : Permutation (p4_tables ex_info) (rev (p4_tables ex_info)) /\ (exists ci, P4ToConstraintInfo pton1 (mkP4Info (rev (p4_tables ex_info)) (p4_actions ex_info)) = Ok ci).
Proof. split; [apply Permutation_rev|]. eexists. vm_compute. reflexivity. Qed.

(** * C39 *)
(** What is stored. *)
Theorem C39_stored : forall pton p ci, P4ToConstraintInfo pton p = Ok ci ->
  (forall d, In d (p4_tables p) -> exists t, GetTableInfoOrNull ci (table_id d) = Some t /\
     ((unrestricted kTableConstraint (pt_preamble d) /\ ti_constraint t = None) \/
      (restricted kTableConstraint (pt_preamble d) (ti_source t) /\ exists e, ti_constraint t = Some e))) /\
  (forall d, In d (p4_actions p) -> exists a, GetActionInfoOrNull ci (action_id d) = Some a /\
     ((unrestricted kActionConstraint (pad_preamble d) /\ ai_constraint a = None) \/
      (restricted kActionConstraint (pad_preamble d) (ai_source a) /\ exists e, ai_constraint a = Some e))).
Proof.
  intros pton p ci H. destruct (C37_exact pton p ci H) as (Ht & _ & Ha & _). split; intros d Hd.
  - destruct (Ht d Hd) as (ks & t & E & [_ _ _ _ [Hc|(e0 & e & Hr & _ & _ & He)]]); exists t; (split; [exact E|]); [now left|right; eauto].
  - destruct (Ha d Hd) as (ks & t & E & [_ _ _ _ [Hc|(e0 & e & Hr & _ & _ & He)]]); exists t; (split; [exact E|]); [now left|right; eauto].
Qed.
Print Assumptions C39_stored.
(** The constraint is determined by the annotations; malformed ones are errors. *)
Theorem C39_unique : forall ck pre cs cs', restricted ck pre cs -> restricted ck pre cs' -> cs = cs' /\ ~ unrestricted ck pre.
Proof. intros ck pre cs cs' H H'. split; [exact (restricted_fun _ _ _ _ H H')|intros Hu; exact (restricted_not _ _ _ Hu H)]. Qed.
Print Assumptions C39_unique.
Theorem C39_malformed : forall pton p,
  (exists d, In d (p4_tables p) /\ ~ unrestricted kTableConstraint (pt_preamble d) /\ forall cs, ~ restricted kTableConstraint (pt_preamble d) cs) \/
  (exists d, In d (p4_actions p) /\ ~ unrestricted kActionConstraint (pad_preamble d) /\ forall cs, ~ restricted kActionConstraint (pad_preamble d) cs) ->
  (exists m, P4ToConstraintInfo pton p = Err InvalidArgument m) \/ exists w, P4ToConstraintInfo pton p = Crash w.
Proof.
  intros pton p H. destruct (info_result pton p) as [[ci E]|[E|(w & E & _)]]; [exfalso|now left|right; eauto]. apply C39_stored in E as (Ht & Ha). destruct H as [(d & Hd & Hu & Hr)|(d & Hd & Hu & Hr)].
  - destruct (Ht d Hd) as (t & _ & [(Hu' & _)|(Hr' & _)]); [now apply Hu|now apply Hr in Hr'].
  - destruct (Ha d Hd) as (t & _ & [(Hu' & _)|(Hr' & _)]); [now apply Hu|now apply Hr in Hr'].
Qed.
Print Assumptions C39_malformed.
(** Each declaration by itself: no crash, and no other error. *)
Theorem C39_extract : forall ck pre,
  (ExtractConstraint ck pre = Ok None <-> unrestricted ck pre) /\
  (forall cs, ExtractConstraint ck pre = Ok (Some cs) <-> restricted ck pre cs) /\
  (~ unrestricted ck pre -> (forall cs, ~ restricted ck pre cs) -> exists m, ExtractConstraint ck pre = Err InvalidArgument m).
Proof.
  intros ck pre. split; [apply extract_none|]. split; [apply extract_some|]. intros Hu Hr. destruct (extract_errors ck pre) as [[[cs|] E]|E]; [|now apply extract_none in E|exact E]. apply extract_some in E. now apply Hr in E.
Qed.
Print Assumptions C39_extract.
(** Two parts, with a position. *)
Example C39_case : restricted kTableConstraint (pt_preamble ex_decl)
  (mkCSource ("k1 != 0;" ++ nl ++ "k2::mask == 0 || ::priority > 3") (mkLoc 12 0 (SrcFile "x.p4"))).
Proof. apply extract_some. vm_compute. reflexivity. Qed.
(** The first restriction counts; without a position the declaration is named. *)
Example C39_first : restricted kActionConstraint (mkPre 1 "a" ["@name(" ++ dq ++ "b" ++ dq ++ ")"; restriction "action" ["p == 1"]; restriction "action" ["p == 2"]])
  (mkCSource "p == 1" (mkLoc 0 0 (SrcAction "a"))).
Proof. apply extract_some. vm_compute. reflexivity. Qed.
Example C39_malformed_case : ~ unrestricted kTableConstraint (mkPre 1 "t" ["@entry_restriction(true)"]) /\ forall cs, ~ restricted kTableConstraint (mkPre 1 "t" ["@entry_restriction(true)"]) cs.
Proof. split; [intros H; apply extract_none in H|intros cs H; apply extract_some in H]; vm_compute in H; discriminate H. Qed.
(** A surprise: without argument, or with a NUL, there is no constraint. *)
Example C39_empty : unrestricted kTableConstraint (mkPre 1 "t" ["@entry_restriction"; restriction "entry" ["false"]]).
Proof. apply extract_none. vm_compute. reflexivity. Qed.

(** * C40 *)
Theorem C40_type_checked : forall pton p ci, P4ToConstraintInfo pton p = Ok ci ->
  (forall id t e, GetTableInfoOrNull ci id = Some t -> ti_constraint t = Some e ->
     exists e0, ParseConstraint pton kTableConstraint (ti_source t) = Ok e0 /\
       Typed (InTable (ti_keys_by_name t)) e0 (e_type e) /\ Annotated (InTable (ti_keys_by_name t)) e /\ bare e = bare e0) /\
  (forall id a e, GetActionInfoOrNull ci id = Some a -> ai_constraint a = Some e ->
     exists e0, ParseConstraint pton kActionConstraint (ai_source a) = Ok e0 /\
       Typed (InAction (ai_params_by_name a)) e0 (e_type e) /\ Annotated (InAction (ai_params_by_name a)) e /\ bare e = bare e0).
Proof.
  intros pton p ci H. destruct (C37_exact pton p ci H) as (_ & Ht & _ & Ha). split.
  - intros id t e Hl Hc. apply Ht in Hl as (d & ks & _ & _ & [_ _ _ HK [(_ & E)|(e0 & e' & _ & Hp & Hi & E)]]); [congruence|]. assert (e' = e) as -> by congruence. exists e0. split; [exact Hp|].
    assert (in_scope None (Some t) (InTable (ti_keys_by_name t))) as HG by (constructor; exact (tk_by_name_unique _ _ HK)).
    split; [apply (C18_typechecker_iff _ _ _ _ _ HG); eauto|]. destruct (C19_only_types_and_casts _ _ _ _ _ HG Hi) as (H1 & H2). auto.
  - intros id t e Hl Hc. apply Ha in Hl as (d & ks & _ & _ & [_ _ _ HK [(_ & E)|(e0 & e' & _ & Hp & Hi & E)]]); [congruence|]. assert (e' = e) as -> by congruence. exists e0. split; [exact Hp|].
    assert (in_scope (Some t) None (InAction (ai_params_by_name t))) as HG by (constructor; exact (ap_by_name_unique _ _ HK)).
    split; [apply (C18_typechecker_iff _ _ _ _ _ HG); eauto|]. destruct (C19_only_types_and_casts _ _ _ _ _ HG Hi) as (H1 & H2). auto.
Qed.
Print Assumptions C40_type_checked.
(** Non-boolean constraints make every check fail. *)
Theorem C40_non_boolean : forall ci entry t e, GetTableInfoOrNull ci (pe_table_id entry) = Some t -> ti_constraint t = Some e -> e_type e <> TBool ->
  exists m, ReasonEntryViolatesConstraint entry ci = Err InvalidArgument m.
Proof.
  intros ci entry t e Ht He Hb. unfold ReasonEntryViolatesConstraint, ReasonTableViolates. rewrite Ht, He. destruct (e_type e); cbn [is_bool_type negb bind]; eauto. congruence.
Qed.
Print Assumptions C40_non_boolean.
Theorem C40_non_boolean_action : forall ci entry t a ai e, GetTableInfoOrNull ci (pe_table_id entry) = Some t -> ReasonTableViolates t entry = Ok "" ->
  pe_action entry = Some (TAction a) -> GetActionInfoOrNull ci (pa_id a) = Some ai -> ai_constraint ai = Some e -> e_type e <> TBool ->
  exists m, ReasonEntryViolatesConstraint entry ci = Err InvalidArgument m.
Proof.
  intros ci entry t a ai e Ht Hr Ha Hai He Hb. unfold ReasonEntryViolatesConstraint. rewrite Ht, Hr, Ha. cbn [bind]. change (String.eqb "" "") with true. cbn [negb]. unfold ReasonActionViolates. rewrite Hai, He.
  destruct (e_type e); cbn [is_bool_type negb]; eauto. congruence.
Qed.
Print Assumptions C40_non_boolean_action.
Example C40_case : exists ci t e, P4ToConstraintInfo pton1 ex_info = Ok ci /\ GetTableInfoOrNull ci 7 = Some t /\ ti_constraint t = Some e /\ e_type e = TBool.
Proof. eexists. eexists. eexists. repeat (split; [vm_compute; reflexivity|]). vm_compute. reflexivity. Qed.
(** Stored constraints need not be boolean. *)
Theorem C40_need_not_be_boolean : exists p ci t e, P4ToConstraintInfo pton1 p = Ok ci /\ GetTableInfoOrNull ci 1 = Some t /\ ti_constraint t = Some e /\ e_type e <> TBool.
Proof.
  exists (mkP4Info [mkP4Table (mkPre 1 "t" [restriction "entry" ["k"]]) [mkMF 1 "k" 8 (MMatchType MTExact)]] []). eexists. eexists. eexists.
  repeat (split; [vm_compute; reflexivity|]). vm_compute. discriminate.
Qed.
Print Assumptions C40_need_not_be_boolean.
