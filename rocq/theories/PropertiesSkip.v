(** C99: leaving keys out of the solver is the same as solving for the table without them. *)
From Coq Require Import String List ZArith NArith Bool Lia.
From Verif Require Import Base Num Token Ast AstConstructors Parser Info TypeChecker ConstraintInfo Interpreter Z3 Symbolic SpecLexer SpecGrammar SpecTyping SpecSemantics SpecInfo SpecSymbolic SpecSolver SpecSkip.
From Verif Require Import PropertiesVerdict ParserFacts ParserFacts4 LiteralFacts InfoFacts InfoFacts2 EntryFacts ExplainFacts SymFacts SymState SkipFacts PropertiesParser PropertiesSymbolic SymDemo.
Import ListNotations.
Open Scope string_scope.

Lemma text_history check pton t skip cs l text : cs_table cs = t -> History check pton t skip cs l -> exists l', History check pton t skip (snd (AddConstraintString check pton cs text)) l'.
Proof.
  intros Et H. destruct (AddConstraintString check pton cs text) as [r cs1] eqn:E. cbn [snd].
  assert (r = Ok true \/ r <> Ok true) as [->|Hr] by (destruct r as [[]| |]; auto; right; discriminate).
  - pose proof E as E'. apply add_text_cases in E' as [[E' _]|(e0 & e & H1 & H2 & _)]; [congruence|]. rewrite Et in H1, H2. exists (l ++ [e])%list. exact (hi_added_text _ _ _ _ _ _ _ _ _ _ H E H1 H2).
  - exists l. exact (hi_refused_text _ _ _ _ _ _ _ _ _ H E Hr).
Qed.
(** One text, given to both. *)
Lemma text_twins check pton skip t ks t' cs cs' l text : lacking skip t ks t' -> History check pton t skip cs l -> twins skip t t' cs cs' ->
  told (fst (AddConstraintString check pton cs text)) = told (fst (AddConstraintString check pton cs' text)) /\
  twins skip t t' (snd (AddConstraintString check pton cs text)) (snd (AddConstraintString check pton cs' text)).
Proof.
  intros HL HH Ht. pose proof Ht as (H1 & H2 & _). unfold AddConstraintString at 1 2 3 4. rewrite H1, H2, (wo_name _ _ _ _ HL).
  destruct (ParseConstraint pton kTableConstraint _) as [e0| |] eqn:Ep; cbn [bind fst snd]; auto.
  destruct (mentions_dec skip e0 ks) as [Hm|(k & Hk & Hme & Hl)].
  - assert (InferTable e0 t = InferTable e0 t') as <-. { apply infer_mentioned; [now rewrite (wo_source _ _ _ _ HL)|]. intros n Hn. apply (find_lacking skip t ks t' n HL). eauto. }
    destruct (InferTable e0 t) as [e| |]; cbn [fst snd]; auto. destruct (add_twins check skip t t' cs cs' e (mkCSource text (mkLoc 0 0 (SrcTable (ti_name t)))) Ht) as [E1 E2]. split; [now rewrite E1|exact E2].
  - assert (forall e, InferTable e0 t' <> Ok e) as Hn.
    { intros e He. apply (infer_known _ _ _ (k_name k)) in He; [|exact Hme]. destruct (assoc_find String.eqb (k_name k) (ti_keys_by_name t')) as [k'|] eqn:E; [|contradiction].
      apply (find_key t' _ _ (wo_rest _ _ _ _ HL)) in E as [E1 E2]. apply live_in_keys in E1 as [E1 E3]. apply Hl. unfold live in *. now rewrite <- E2. }
    destruct (InferTable e0 t') as [e'| |] eqn:E'; [destruct (Hn e' eq_refl)|..]; cbn [fst snd told].
    all: destruct (InferTable e0 t) as [e| |] eqn:E; cbn [fst snd told]; auto.
    all: destruct (AddConstraint check cs e _) as [r c1] eqn:EA.
    all: destruct (C48_mention_refused check pton t ks skip cs l e0 e _ k r c1 (wo_keys _ _ _ _ HL) HH E Hk Hl Hme EA) as [Hr ->]; cbn [fst snd]; split; [|exact Ht].
    all: destruct r as [b| |]; [destruct (Hr b eq_refl)|reflexivity..].
Qed.

(** Create gives a solver for both tables, or the same error for both. *)
Theorem C99_create : forall check skip t ks t', lacking skip t ks t' ->
  (forall cs, Create check t skip = Ok cs -> exists cs', Create check t' keep_all = Ok cs') /\ (forall cs', Create check t' keep_all = Ok cs' -> exists cs, Create check t skip = Ok cs) /\
  (forall c m, Create check t skip = Err c m <-> Create check t' keep_all = Err c m) /\ (forall w, Create check t skip = Crash w <-> Create check t' keep_all = Crash w).
Proof.
  intros check skip t ks t' HL. pose proof (create_twins check _ _ _ _ HL) as H. destruct (Create check t skip) as [cs|c m|w], (Create check t' keep_all) as [cs'|c' m'|w']; try contradiction.
  - repeat split; eauto; discriminate.
  - destruct H as [-> ->]. repeat split; (discriminate || auto).
  - subst w'. repeat split; (discriminate || auto).
Qed.
Print Assumptions C99_create.

(** From then on, whatever texts are added, they give the same answers and the same entry. *)
Theorem C99_conversation : forall check pton skip t ks t' cs cs' texts, lacking skip t ks t' -> Create check t skip = Ok cs -> Create check t' keep_all = Ok cs' ->
  fst (conversation check pton cs texts) = fst (conversation check pton cs' texts) /\
  ConcretizeEntry check (snd (conversation check pton cs texts)) = ConcretizeEntry check (snd (conversation check pton cs' texts)).
Proof.
  intros check pton skip t ks t' cs cs' texts HL HC HC'. pose proof (create_twins check _ _ _ _ HL) as Ht. rewrite HC, HC' in Ht. pose proof (hi_create check pton t skip cs HC) as HH. clear HC HC'.
  revert cs cs' Ht HH. generalize (match ti_constraint t with Some e => [e] | None => [] end). intros l. revert l.
  induction texts as [|text texts IH]; intros l cs cs' Ht HH.
  - cbn [conversation fst snd]. split; [reflexivity|]. eapply concretize_twins; eauto.
  - destruct (text_twins check pton skip t ks t' cs cs' l text HL HH Ht) as [E1 E2]. destruct (text_history check pton t skip cs l text (proj1 Ht) HH) as [l' HH']. cbn [conversation].
    destruct (AddConstraintString check pton cs text) as [r1 c1], (AddConstraintString check pton cs' text) as [r2 c2]. cbn [fst snd] in E1, E2, HH'.
    specialize (IH l' c1 c2 E2 HH'). destruct (conversation check pton c1 texts) as [a1 d1], (conversation check pton c2 texts) as [a2 d2]. cbn [fst snd] in *. destruct IH as [-> IH]. rewrite E1. auto.
Qed.
Print Assumptions C99_conversation.

(** The program with these match fields removed declares that table, if the constraint does not mention them. *)
Theorem C99_program : forall pton p ci id t ks skip, pton_ok pton -> P4ToConstraintInfo pton p = Ok ci -> GetTableInfoOrNull ci id = Some t -> table_keys t ks ->
  (forall k, In k ks -> exists b, skip (k_name k) = Ok b) -> (prioritized ks -> prioritized (live_keys skip ks)) ->
  (forall e0 k, ti_constraint t <> None -> reads_as pton kTableConstraint (ti_source t) e0 -> In k ks -> mentions e0 (k_name k) -> live skip k) ->
  exists ci' t', P4ToConstraintInfo pton (drop_keys skip id p) = Ok ci' /\ GetTableInfoOrNull ci' id = Some t' /\ lacking skip t ks t'.
Proof.
  intros pton p ci id t ks skip Hp HI HG HK Ha Hpr Hm. destruct (info_lookup _ _ _ HI) as [L _]. apply L in HG as (d & Hd & Eid & Hpt).
  assert (forall e0 k, ParseConstraint pton kTableConstraint (ti_source t) = Ok e0 -> ti_constraint t <> None -> In k ks -> mentions e0 (k_name k) -> live skip k) as Hm' by (intros e0 k He Hc; apply (Hm e0 k Hc); now apply (text_iff pton Hp)).
  destruct (drop_parsed pton skip d t ks Hpt HK Ha Hpr Hm') as (t' & Ht' & HL).
  destruct (proj1 (info_iff pton p) (ex_intro _ ci HI)) as (N1 & N2 & F1 & F2).
  assert (map tid (p4_tables (drop_keys skip id p)) = map tid (p4_tables p)) as Em. { unfold drop_keys. cbn [p4_tables]. rewrite map_map. apply map_ext. intros x. destruct (N.eqb _ id); reflexivity. }
  assert (In (drop_fields skip d) (p4_tables (drop_keys skip id p))) as Hd'. { unfold drop_keys. cbn [p4_tables]. apply in_map_iff. exists d. split; [|exact Hd]. rewrite Eid. now rewrite N.eqb_refl. }
  assert (exists ci', P4ToConstraintInfo pton (drop_keys skip id p) = Ok ci') as [ci' HI'].
  { apply info_iff. rewrite Em. split; [exact N1|]. split; [exact N2|]. split; [|exact F2]. intros d' Hd2. unfold drop_keys in Hd2. cbn [p4_tables] in Hd2. apply in_map_iff in Hd2 as (x & E & Hx).
    destruct (N.eqb (pr_id (pt_preamble x)) id) eqn:Ex; [|subst d'; now apply F1]. apply N.eqb_eq in Ex. assert (x = d) as -> by (refine (nodup_keys tid (p4_tables p) _ _ N1 Hx Hd _); congruence). subst d'. eauto. }
  exists ci', t'. split; [exact HI'|]. split; [|exact HL]. apply (info_lookup _ _ _ HI'). exists (drop_fields skip d). auto.
Qed.
Print Assumptions C99_program.
(** What [C99_program] asks for: a range key, which the solver cannot handle, is skipped; a text that mentions it is an error for both solvers. *)
Definition le_ci : constraint_info := Eval vm_compute in the (mkInfo [] []) (P4ToConstraintInfo pton1 (drop_keys sy_skip 3 (mkP4Info [sy_decl] []))).
Definition le_table : table_info := Eval vm_compute in match GetTableInfoOrNull le_ci 3 with Some t => t | None => no_table end.
Definition le_texts : list string := [sy_more; "r::low == 3"; "e == 0"; "l::prefix_length == 8"].
Definition le_cs : constraint_solver := the (mkCS no_table (mkEnv [] []) never_skip []) (Create sy_check le_table keep_all).
Lemma le_created : Create sy_check le_table keep_all = Ok le_cs.
Proof. vm_compute. reflexivity. Qed.
Lemma le_lacking : lacking sy_skip sy_table sy_keys le_table.
Proof.
  split; [exact sy_table_keys| |reflexivity..| |].
  - split; cbn; try (repeat constructor; cbn; intuition congruence); intros x; tauto.
  - intros k _. unfold sy_skip. eauto.
  - intros _. exists (mkKey 2 "t" (TTernary 16)), 16%Z. split; [cbn; tauto|now left].
Qed.
Example C99_case : P4ToConstraintInfo pton1 (mkP4Info [sy_decl] []) = Ok sy_ci /\ GetTableInfoOrNull sy_ci 3 = Some sy_table /\ table_keys sy_table sy_keys /\
  (forall k, In k sy_keys -> exists b, sy_skip (k_name k) = Ok b) /\ (prioritized sy_keys -> prioritized (live_keys sy_skip sy_keys)) /\
  (forall e0 k, reads_as pton1 kTableConstraint (ti_source sy_table) e0 -> In k sy_keys -> mentions e0 (k_name k) -> live sy_skip k) /\
  lacking sy_skip sy_table sy_keys le_table /\ Create sy_check sy_table sy_skip = Ok sy_cs /\ Create sy_check le_table keep_all = Ok le_cs /\
  fst (conversation sy_check pton1 sy_cs le_texts) = [Some true; None; Some false; Some true] /\ (exists en, ConcretizeEntry sy_check (snd (conversation sy_check pton1 sy_cs le_texts)) = Ok en).
Proof.
  split; [vm_compute; reflexivity|]. split; [vm_compute; reflexivity|]. split; [exact sy_table_keys|]. split; [intros k _; unfold sy_skip; eauto|]. split; [exact (wo_priority _ _ _ _ le_lacking)|].
  split. { intros e0 k Hr Hk Hm. apply (text_iff pton1 pton1_ok) in Hr. change (ti_source sy_table) with sy_source in Hr. assert (e0 = sy_tree) as -> by (vm_compute in Hr; vm_compute; congruence).
    cbn in Hk. repeat (destruct Hk as [<-|Hk]; [try reflexivity; exfalso; unfold sy_tree in Hm; cbn [k_name] in Hm; repeat match goal with H : mentions _ _ |- _ => inversion H; clear H; subst end|]). contradiction. }
  split; [exact le_lacking|]. split; [exact sy_created|]. split; [exact le_created|]. split; [vm_compute; reflexivity|]. vm_compute. eexists. reflexivity.
Qed.

(** Skipping the last ternary or optional key is different: the solver still demands a priority. *)
Definition lp_decl : p4_table := mkP4Table (mkPre 4 "lp" []) [mkMF 1 "e" 8 (MMatchType MTExact); mkMF 2 "t" 16 (MMatchType MTTernary)].
Definition lp_skip : string -> outcome bool := fun n => Ok (String.eqb n "t").
Definition lp_check : solver := candidate (listed [(("e", SBV 8), 7%Z); (("priority", SInt), 12%Z)]).
Example C99_priority_stays : exists t t' cs cs' fields, ParseTableInfo pton1 lp_decl = Ok t /\ ParseTableInfo pton1 (drop_fields lp_skip lp_decl) = Ok t' /\
  Create lp_check t lp_skip = Ok cs /\ Create lp_check t' keep_all = Ok cs' /\
  ConcretizeEntry lp_check cs = Ok (mkEntry 4 fields None 12) /\ ConcretizeEntry lp_check cs' = Ok (mkEntry 4 fields None 0).
Proof. do 5 eexists. repeat (split; [vm_compute; reflexivity|]). vm_compute. reflexivity. Qed.
