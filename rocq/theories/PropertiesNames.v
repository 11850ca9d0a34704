(** C116: the names of tables and actions appear in messages only. *)
From Coq Require Import String Ascii List ZArith NArith Bool Lia.
From Verif Require Import Base Num Token Ast Regex Lexer AstConstructors Parser Quote Info TypeChecker ConstraintInfo Interpreter Z3 Symbolic SpecOrder SpecNames NameFacts NameFacts2 SymDemo PropertiesParser PropertiesVerdict PropertiesInfo.
Import ListNotations.
Open Scope string_scope.

(** * Without shifting lines *)
Notation xl f := (NameFacts.xl f 0).
Notation xc f := (NameFacts.xc f 0).
Notation xe f := (NameFacts.xe f 0).
Notation xx f := (NameFacts.xx f 0).
Lemma sim_bind {A A' B B'} (R : A -> A' -> Prop) (S : B -> B' -> Prop) o o' f f' : similar R o o' -> (forall a a', R a a' -> similar S (f a) (f' a')) -> similar S (bind o f) (bind o' f').
Proof. destruct o, o'; cbn; try easy. intros H1 H2. exact (H2 _ _ H1). Qed.
Lemma sim_refl {A} (R : A -> A -> Prop) o : (forall a, R a a) -> similar R o o.
Proof. intros H. destruct o; cbn; auto. Qed.
Lemma sim_eq {A} (o : outcome A) : similar eq o o.
Proof. apply sim_refl. reflexivity. Qed.
Lemma sim_annotate {A B} (R : A -> B -> Prop) o o' s s' : similar R o o' -> similar R (annotate o s) (annotate o' s').
Proof. destruct o, o'; cbn; auto. Qed.
Lemma sim_mono {A B} (R S : A -> B -> Prop) o o' : (forall a b, R a b -> S a b) -> similar R o o' -> similar S o o'.
Proof. intros H. destruct o, o'; cbn; auto. Qed.
Section Still.
  Variable f : source -> source.
  Hypothesis Hf : exchange f.
  Lemma n_parse pton ck c : similar (xx f) (ParseConstraint pton ck c) (ParseConstraint pton ck (xc f c)).
  Proof. apply near_similar, x_parse; [exact Hf|now left]. Qed.
  Lemma n_infer ai ai' ti ti' c :
    GetConstraintSource ai ti = Ok c -> GetConstraintSource ai' ti' = Ok (xc f c) -> option_map ai_params_by_name ai = option_map ai_params_by_name ai' -> option_map ti_keys_by_name ti = option_map ti_keys_by_name ti' ->
    forall e, similar (xx f) (Infer ai ti e) (Infer ai' ti' (xe f e)).
  Proof. intros H1 H2 H3 H4 e. apply near_similar. eapply x_infer; try eassumption. now left. Qed.
  Lemma n_check ctx ctx' e : ec_src ctx' = xc f (ec_src ctx) -> same_values (ec_ctx ctx) (ec_ctx ctx') -> similar same_verdict (check_constraint ctx e) (check_constraint ctx' (xe f e)).
  Proof. intros H1 H2. apply near_similar, x_check; try assumption. now left. Qed.
  Lemma n_evaluate env c e : similar eq (EvaluateConstraintSymbolically env c e) (EvaluateConstraintSymbolically env (xc f c) (xe f e)).
  Proof. apply near_similar, x_evaluate; [exact Hf|now left]. Qed.
End Still.

(** * Exchanging two names *)
Definition swap (n n' x : string) : string := if String.eqb x n then n' else if String.eqb x n' then n else x.
Lemma swap_twice n n' x : swap n n' (swap n n' x) = x.
Proof. unfold swap. destruct (String.eqb_spec x n) as [->|N1]. { destruct (String.eqb_spec n' n) as [->|N2]; [reflexivity|]. now rewrite String.eqb_refl. } destruct (String.eqb_spec x n') as [->|N2]; [now rewrite String.eqb_refl|]. destruct (String.eqb_spec x n); [contradiction|]. destruct (String.eqb_spec x n'); [contradiction|reflexivity]. Qed.
Lemma swap_eqb n n' x y : String.eqb (swap n n' x) (swap n n' y) = String.eqb x y.
Proof. destruct (String.eqb_spec x y) as [->|N]; [apply String.eqb_refl|]. apply String.eqb_neq. intros E. apply N. rewrite <- (swap_twice n n' x), E. apply swap_twice. Qed.
Lemma swap_left n n' : swap n n' n = n'.
Proof. unfold swap. now rewrite String.eqb_refl. Qed.
Definition swap_source (n n' : string) (s : source) : source :=
  match s with SrcTable x => SrcTable (swap n n' x) | SrcAction x => SrcAction (swap n n' x) | _ => s end.
Lemma swap_exchange n n' : exchange (swap_source n n').
Proof. constructor; [intros [|a|a|a] [|b|b|b]; try reflexivity; apply swap_eqb|reflexivity|intros [| | |] H; [now elim H|discriminate..]]. Qed.

(** * Loading *)
Notation xsrc p p' := (swap_source (pr_name p) (pr_name p')).
Lemma extract_name ck p p' : same_but_name p p' -> similar (fun a b => b = option_map (xc (xsrc p p')) a) (ExtractConstraint ck p) (ExtractConstraint ck p').
Proof.
  intros [_ E]. unfold ExtractConstraint. rewrite <- E. destruct (scan_annotations _ _ _ _) as [[text file] line]. destruct (String.eqb text ""); [reflexivity|]. cbv zeta. destruct (match strip_prefix _ _ with Some _ => _ | None => _ end) as [t|]; [|reflexivity].
  destruct (contains_char _ _); [reflexivity|]. cbn [similar option_map]. unfold NameFacts.xc, NameFacts.xl. cbn [cs_string cs_loc l_line l_col l_src]. rewrite Z.add_0_r. destruct (String.eqb file ""); [|reflexivity]. destruct ck; cbn [SetConstraintLocationName swap_source]; now rewrite swap_left.
Qed.
Lemma insert_what what what' l : forall bi bn, similar eq (insert_keys what l bi bn) (insert_keys what' l bi bn).
Proof. induction l as [|o l IH]; intros bi bn; [reflexivity|]. cbn [insert_keys]. apply (sim_bind eq); [apply sim_eq|]. intros k ? <-. destruct (assoc_insert N.eqb _ _ _); [|reflexivity]. destruct (assoc_insert String.eqb _ _ _); [apply IH|reflexivity]. Qed.
(** A table under another name. *)
Record same_table (t t' : table_info) : Prop := mkSameTable {
  st_id : ti_id t = ti_id t'; st_by_id : ti_keys_by_id t = ti_keys_by_id t'; st_by_name : ti_keys_by_name t = ti_keys_by_name t';
  st_source : ti_source t' = xc (swap_source (ti_name t) (ti_name t')) (ti_source t); st_constraint : ti_constraint t' = option_map (xe (swap_source (ti_name t) (ti_name t'))) (ti_constraint t) }.
Record same_action (t t' : action_info) : Prop := mkSameAction {
  sa_id : ai_id t = ai_id t'; sa_by_id : ai_params_by_id t = ai_params_by_id t'; sa_by_name : ai_params_by_name t = ai_params_by_name t';
  sa_source : ai_source t' = xc (swap_source (ai_name t) (ai_name t')) (ai_source t); sa_constraint : ai_constraint t' = option_map (xe (swap_source (ai_name t) (ai_name t'))) (ai_constraint t) }.
Lemma table_name_free pton d d' : same_but_name (pt_preamble d) (pt_preamble d') -> pt_match_fields d = pt_match_fields d' -> similar same_table (ParseTableInfo pton d) (ParseTableInfo pton d').
Proof.
  intros Hn Hm. pose proof (swap_exchange (pr_name (pt_preamble d)) (pr_name (pt_preamble d'))) as Hx. unfold ParseTableInfo. rewrite <- Hm. cbv zeta. apply (sim_bind eq); [apply insert_what|]. intros [bi bn] ? <-. apply (sim_bind (fun a b => b = option_map (xc (xsrc (pt_preamble d) (pt_preamble d'))) a)); [now apply extract_name|].
  intros [cs|] ? ->; cbn [option_map]; [|cbn; constructor; try reflexivity; exact (proj1 Hn)]. apply (sim_bind (xx (xsrc (pt_preamble d) (pt_preamble d')))); [now apply n_parse|]. intros e ? ->.
  apply (sim_bind (xx (xsrc (pt_preamble d) (pt_preamble d')))); [unfold InferTable; eapply n_infer; [exact Hx|reflexivity..]|]. intros e' ? ->. constructor; try reflexivity. exact (proj1 Hn).
Qed.
Lemma action_name_free pton d d' : same_but_name (pad_preamble d) (pad_preamble d') -> pad_params d = pad_params d' -> similar same_action (ParseActionInfo pton d) (ParseActionInfo pton d').
Proof.
  intros Hn Hm. pose proof (swap_exchange (pr_name (pad_preamble d)) (pr_name (pad_preamble d'))) as Hx. unfold ParseActionInfo. rewrite <- Hm. cbv zeta. apply (sim_bind eq); [apply insert_what|]. intros [bi bn] ? <-. apply (sim_bind (fun a b => b = option_map (xc (xsrc (pad_preamble d) (pad_preamble d'))) a)); [now apply extract_name|].
  intros [cs|] ? ->; cbn [option_map]; [|cbn; constructor; try reflexivity; exact (proj1 Hn)]. apply (sim_bind (xx (xsrc (pad_preamble d) (pad_preamble d')))); [now apply n_parse|]. intros e ? ->.
  apply (sim_bind (xx (xsrc (pad_preamble d) (pad_preamble d')))); [unfold InferAction; eapply n_infer; [exact Hx|reflexivity..]|]. intros e' ? ->. constructor; try reflexivity. exact (proj1 Hn).
Qed.
Definition same_entry {I} (R : I -> I -> Prop) (x y : N * I) : Prop := fst x = fst y /\ R (snd x) (snd y).
Lemma find_same {I} (R : I -> I -> Prop) l l' i : Forall2 (same_entry R) l l' -> match assoc_find N.eqb i l, assoc_find N.eqb i l' with Some a, Some b => R a b | None, None => True | _, _ => False end.
Proof. induction 1 as [|[a x] [a' x'] l l' [E H] _ IH]; [exact Logic.I|]. cbn [fst snd assoc_find] in *. subst a'. destruct (N.eqb i a); [exact H|exact IH]. Qed.
Lemma collect_same {D I} (parse : D -> outcome I) id dup (R : I -> I -> Prop) l l' : Forall2 (fun d d' => id d = id d' /\ similar R (parse d) (parse d')) l l' ->
  forall bi bi' es es', Forall2 (same_entry R) bi bi' -> List.length es = List.length es' ->
  similar (fun a b => Forall2 (same_entry R) (fst a) (fst b) /\ List.length (snd a) = List.length (snd b)) (collect parse id dup l bi es) (collect parse id dup l' bi' es').
Proof.
  induction 1 as [|d d' l l' [Ei Hd] _ IH]; intros bi bi' es es' Hb He; cbn [collect]; [cbn; auto|]. destruct (parse d) as [i| |], (parse d') as [i'| |]; cbn [similar] in Hd; try contradiction.
  - rewrite <- Ei. unfold assoc_insert. pose proof (find_same R bi bi' (id d) Hb) as F. destruct (assoc_find _ _ bi), (assoc_find _ _ bi'); try contradiction; apply IH; auto; [rewrite !app_length; cbn; lia|]. apply Forall2_app; [exact Hb|]. repeat constructor. exact Hd.
  - apply IH; auto. rewrite !app_length. cbn. lia.
  - exact Hd.
Qed.
Record same_info (ci ci' : constraint_info) : Prop := mkSameInfo { si_actions : Forall2 (same_entry same_action) (ci_actions ci) (ci_actions ci'); si_tables : Forall2 (same_entry same_table) (ci_tables ci) (ci_tables ci') }.
Lemma load_same pton p p' : other_names p p' -> similar same_info (P4ToConstraintInfo pton p) (P4ToConstraintInfo pton p').
Proof.
  intros [HT HA]. unfold P4ToConstraintInfo. eapply sim_bind; [apply (collect_same _ _ _ same_table); [|constructor|reflexivity]|].
  { revert HT. generalize (p4_tables p) (p4_tables p'). induction 1 as [|d d' l l' [Hn Hm] _ IH]; constructor; [|exact IH]. split; [exact (proj1 Hn)|now apply table_name_free]. }
  intros [ts es] [ts' es'] [H1 H2]. cbn [fst snd] in *. eapply sim_bind; [apply (collect_same _ _ _ same_action); [|constructor|exact H2]|].
  { revert HA. generalize (p4_actions p) (p4_actions p'). induction 1 as [|d d' l l' [Hn Hm] _ IH]; constructor; [|exact IH]. split; [exact (proj1 Hn)|now apply action_name_free]. }
  intros [as_ fs] [as' fs'] [H3 H4]. cbn [fst snd] in *. destruct fs, fs'; try discriminate H4; [|reflexivity]. constructor; assumption.
Qed.

(** Loading a program under other names succeeds or fails alike. *)
Theorem C116_load : forall pton p p', other_names p p' -> similar (fun _ _ => True) (P4ToConstraintInfo pton p) (P4ToConstraintInfo pton p').
Proof. intros pton p p' H. exact (sim_mono _ _ _ _ (fun _ _ _ => I) (load_same pton p p' H)). Qed.
Print Assumptions C116_load.

(** * Checking *)
Lemma verdict_refl o : similar same_verdict o o.
Proof. apply sim_refl. intros a. unfold same_verdict. tauto. Qed.
Lemma fields_free t t' l : ti_keys_by_id t = ti_keys_by_id t' -> forall keys, parse_fields t l keys = parse_fields t' l keys.
Proof. intros E. induction l as [|x l IH]; intros keys; [reflexivity|]. cbn [parse_fields]. assert (ParseKey x t = ParseKey x t') as -> by (unfold ParseKey; now rewrite E). destruct (ParseKey x t') as [[n v]| |]; cbn [bind]; try reflexivity. destruct (assoc_insert _ _ _ _); [apply IH|reflexivity]. Qed.
Lemma params_free t t' l : ai_params_by_id t = ai_params_by_id t' -> forall ps, parse_params t l ps = parse_params t' l ps.
Proof.
  intros E. induction l as [|[i v] l IH]; intros ps; [reflexivity|]. cbn [parse_params]. assert (assoc_find N.eqb i (ai_params_by_id t) = assoc_find N.eqb i (ai_params_by_id t')) as -> by (now rewrite E). destruct (assoc_find N.eqb i _); [|reflexivity]. destruct (assoc_find String.eqb _ _); [reflexivity|apply IH].
Qed.
Lemma table_verdict t t' e : same_table t t' -> similar same_verdict (ReasonTableViolates t e) (ReasonTableViolates t' e).
Proof.
  intros [S1 S2 S3 S4 S5]. unfold ReasonTableViolates. rewrite S5. destruct (ti_constraint t) as [x|]; cbn [option_map]; [|apply verdict_refl]. rewrite x_type. destruct (negb _); [reflexivity|].
  apply (sim_bind (fun c c' => ec_src c' = xc (swap_source (ti_name t) (ti_name t')) (ec_src c) /\ same_values (ec_ctx c) (ec_ctx c'))).
  - apply sim_annotate. unfold ParseTableEntry. rewrite <- (fields_free t t' _ S2), <- S3. apply (sim_bind eq); [apply sim_eq|]. intros k ? <-. apply (sim_bind eq); [apply sim_eq|]. intros k' ? <-. split; [exact S4|split; reflexivity].
  - intros c c' [E1 E2]. apply n_check; [apply swap_exchange|exact E1|exact E2].
Qed.
Lemma action_verdict ci ci' a : same_info ci ci' -> similar same_verdict (ReasonActionViolates ci a) (ReasonActionViolates ci' a).
Proof.
  intros [HA _]. unfold ReasonActionViolates, GetActionInfoOrNull. pose proof (find_same _ _ _ (pa_id a) HA) as F. destruct (assoc_find _ _ (ci_actions ci)) as [t|], (assoc_find _ _ (ci_actions ci')) as [t'|]; try contradiction; [|reflexivity].
  destruct F as [S1 S2 S3 S4 S5]. rewrite S5. destruct (ai_constraint t) as [x|]; cbn [option_map]; [|apply verdict_refl]. rewrite x_type. destruct (negb _); [reflexivity|].
  apply (sim_bind (fun c c' => ec_src c' = xc (swap_source (ai_name t) (ai_name t')) (ec_src c) /\ same_values (ec_ctx c) (ec_ctx c'))).
  - apply sim_annotate. unfold ParseAction. rewrite <- (params_free t t' _ S2). apply (sim_bind eq); [apply sim_eq|]. intros k ? <-. split; [exact S4|reflexivity].
  - intros c c' [E1 E2]. apply n_check; [apply swap_exchange|exact E1|exact E2].
Qed.
Lemma set_verdict ci ci' l : same_info ci ci' -> similar same_verdict (ReasonActionSetViolates ci l) (ReasonActionSetViolates ci' l).
Proof.
  intros H. induction l as [|a l IH]; [apply verdict_refl|]. cbn [ReasonActionSetViolates]. apply (sim_bind same_verdict); [now apply action_verdict|]. intros r r' Hr. destruct (String.eqb_spec r "") as [E|E], (String.eqb_spec r' "") as [E'|E']; [exact IH|now elim E'; apply Hr|now elim E; apply Hr|exact Hr].
Qed.
(** Checking an entry gives the same verdict, the same kind of error, or the same crash. *)
Theorem C116_check : forall pton p p' ci ci' entry, other_names p p' -> P4ToConstraintInfo pton p = Ok ci -> P4ToConstraintInfo pton p' = Ok ci' ->
  similar same_verdict (ReasonEntryViolatesConstraint entry ci) (ReasonEntryViolatesConstraint entry ci').
Proof.
  intros pton p p' ci ci' e Hn H H'. pose proof (load_same pton p p' Hn) as L. rewrite H, H' in L. cbn [similar] in L. unfold ReasonEntryViolatesConstraint, GetTableInfoOrNull. pose proof (find_same _ _ _ (pe_table_id e) (si_tables _ _ L)) as F.
  destruct (assoc_find _ _ (ci_tables ci)) as [t|], (assoc_find _ _ (ci_tables ci')) as [t'|]; try contradiction; [|reflexivity]. apply (sim_bind same_verdict); [now apply table_verdict|]. intros r r' Hr.
  destruct (String.eqb_spec r "") as [E|E], (String.eqb_spec r' "") as [E'|E']; cbn [negb]; [|now elim E'; apply Hr|now elim E; apply Hr|exact Hr].
  destruct (pe_action e) as [[a|i|i|l|]|]; try (apply verdict_refl); [now apply action_verdict|now apply set_verdict].
Qed.
Print Assumptions C116_check.

(** * Solving *)
Record same_solver (t t' : table_info) (cs cs' : constraint_solver) : Prop := mkSameSolver {
  ss_left : cs_table cs = t; ss_right : cs_table cs' = t'; ss_env : cs_env cs = cs_env cs'; ss_skip : cs_skip cs = cs_skip cs'; ss_stack : cs_stack cs = cs_stack cs' }.
Section Solver.
  Variable check : solver.
  Variable pton : inet_pton6.
  Variables t t' : table_info.
  Hypothesis HS : same_table t t'.
  Notation xf := (swap_source (ti_name t) (ti_name t')).
  Lemma add_free cs cs' e e' src src' : same_solver t t' cs cs' -> similar eq (EvaluateConstraintSymbolically (cs_env cs) src e) (EvaluateConstraintSymbolically (cs_env cs) src' e') ->
    similar eq (fst (AddConstraint check cs e src)) (fst (AddConstraint check cs' e' src')) /\ same_solver t t' (snd (AddConstraint check cs e src)) (snd (AddConstraint check cs' e' src')).
  Proof.
    intros K E. pose proof K as [K1 K2 K3 K4 K5]. unfold AddConstraint. rewrite <- K5, <- K3. destruct (negb _); [split; [reflexivity|exact K]|].
    destruct (EvaluateConstraintSymbolically _ src e) as [u| |], (EvaluateConstraintSymbolically _ src' e') as [u'| |]; cbn [similar] in E; try contradiction; try (split; [exact E|exact K]). subst u'.
    destruct (negb _); [split; [apply sim_eq|exact K]|]. cbv zeta. destruct (negb _); (split; [reflexivity|]); constructor; cbn [snd set_stack cs_table cs_env cs_skip cs_stack]; auto; congruence.
  Qed.
  Lemma text_free cs cs' text : same_solver t t' cs cs' ->
    similar eq (fst (AddConstraintString check pton cs text)) (fst (AddConstraintString check pton cs' text)) /\ same_solver t t' (snd (AddConstraintString check pton cs text)) (snd (AddConstraintString check pton cs' text)).
  Proof.
    intros K. pose proof K as [K1 K2 K3 K4 K5]. unfold AddConstraintString. rewrite K1, K2. cbv zeta.
    assert (mkCSource text (mkLoc 0 0 (SrcTable (ti_name t'))) = xc xf (mkCSource text (mkLoc 0 0 (SrcTable (ti_name t))))) as -> by (unfold NameFacts.xc, NameFacts.xl; cbn [cs_string cs_loc l_line l_col l_src swap_source]; now rewrite swap_left).
    set (src := mkCSource text _). pose proof (swap_exchange (ti_name t) (ti_name t')) as Hx.
    assert (similar (xx xf) (let* e := ParseConstraint pton kTableConstraint src in InferTable e t) (let* e := ParseConstraint pton kTableConstraint (xc xf src) in InferTable e t')) as HP.
    { apply (sim_bind (xx xf)); [now apply n_parse|]. intros e ? ->. unfold InferTable. eapply n_infer; [exact Hx|reflexivity|cbn [GetConstraintSource]; f_equal; exact (st_source _ _ HS)|reflexivity|cbn [option_map]; f_equal; exact (st_by_name _ _ HS)]. }
    destruct (let* e := ParseConstraint pton kTableConstraint src in _) as [e| |], (let* e := ParseConstraint pton kTableConstraint (xc xf src) in _) as [e'| |]; cbn [similar] in HP; try contradiction; try (split; [exact HP|exact K]).
    unfold NameFacts.xx in HP. subst e'. apply add_free; [exact K|]. now apply n_evaluate.
  Qed.
  Lemma create_free skip : similar (same_solver t t') (Create check t skip) (Create check t' skip).
  Proof.
    unfold Create. rewrite <- (st_by_name _ _ HS). apply (sim_bind eq); [apply sim_eq|]. intros [[prio keys] asserted] ? <-.
    destruct (if prio then _ else _) as [attrs asserted']. assert (same_solver t t' (mkCS t (mkEnv keys attrs) skip [asserted']) (mkCS t' (mkEnv keys attrs) skip [asserted'])) as K by (constructor; reflexivity).
    rewrite (st_constraint _ _ HS), (st_source _ _ HS). destruct (ti_constraint t) as [e|]; cbn [option_map]; [|exact K].
    destruct (add_free _ _ e (xe xf e) (ti_source t) (xc xf (ti_source t)) K) as (D & K1); [apply n_evaluate, swap_exchange|].
    destruct (AddConstraint check (mkCS t _ _ _) e (ti_source t)) as [b c]. destruct (AddConstraint check (mkCS t' _ _ _) _ _) as [b' c']. cbn [fst snd] in *.
    destruct b as [[|]| |], b' as [[|]| |]; cbn [similar] in D |- *; try contradiction; try discriminate; auto.
  Qed.
  Lemma entry_free cs cs' : same_solver t t' cs cs' -> ConcretizeEntry check cs = ConcretizeEntry check cs'.
  Proof.
    intros [K1 K2 K3 K4 K5]. unfold ConcretizeEntry. rewrite <- K5, K1, K2, <- (st_by_name _ _ HS), <- (st_id _ _ HS), <- K3. destruct (check _) as [m|]; [|reflexivity].
    assert (forall l acc, concretize_keys cs m l acc = concretize_keys cs' m l acc) as ->; [|reflexivity].
    induction l as [|[a k] l IH]; intros acc; cbn [concretize_keys]; [reflexivity|]. rewrite <- K3, <- K4. destruct (cs_skip cs a) as [[|]| |]; cbn [bind]; auto. destruct (FindPtrOrStatus _ _); cbn [bind]; auto. destruct (ConcretizeKey _ _ _); cbn [bind]; auto.
  Qed.
  Lemma replies_free l : forall cs cs', same_solver t t' cs cs' -> Forall2 same_reply (replies check pton cs l) (replies check pton cs' l).
  Proof.
    induction l as [|[e src|text|] l IH]; intros cs cs' K; cbn [replies]; [constructor|..].
    - destruct (add_free cs cs' e e src src K (sim_eq _)) as [D K1]. constructor; [exact D|now apply IH].
    - destruct (text_free cs cs' text K) as [D K1]. constructor; [exact D|now apply IH].
    - constructor; [exact (entry_free cs cs' K)|now apply IH].
  Qed.
End Solver.
(** Solvers are made alike, and asked anything they reply alike: whatever the table is called, with whatever keys skipped. *)
Theorem C116_solver : forall check pton p p' ci ci' id skip requests, other_names p p' -> P4ToConstraintInfo pton p = Ok ci -> P4ToConstraintInfo pton p' = Ok ci' ->
  match GetTableInfoOrNull ci id, GetTableInfoOrNull ci' id with
  | Some t, Some t' => similar (Forall2 same_reply) (conversation check pton t skip requests) (conversation check pton t' skip requests)
  | None, None => True
  | _, _ => False
  end.
Proof.
  intros check pton p p' ci ci' id skip rs Hn H H'. pose proof (load_same pton p p' Hn) as L. rewrite H, H' in L. cbn [similar] in L. unfold GetTableInfoOrNull. pose proof (find_same _ _ _ id (si_tables _ _ L)) as F.
  destruct (assoc_find _ _ (ci_tables ci)) as [t|], (assoc_find _ _ (ci_tables ci')) as [t'|]; try contradiction; [|exact I]. unfold conversation. apply (sim_bind (same_solver t t')); [now apply create_free|]. intros cs cs' K. exact (replies_free check pton t t' F rs cs cs' K).
Qed.
Print Assumptions C116_solver.

(** Two tables and an action that trade names, next to names that are empty and that occur twice. The first table comes with a position in a file. Entries are accepted, refused with different texts, faulty, or end the program; the solver accepts one constraint, refuses one and cannot read one. *)
Definition nm_info (a b c : string) : p4info := mkP4Info
  [mkP4Table (mkPre 3 a [restriction "entry" [sy_text]]) (pt_match_fields sy_decl);
   mkP4Table (mkPre 5 b [("@file(" ++ dq ++ "f.p4" ++ dq ++ ")"); restriction "entry" ["x != 1"]]) [mkMF 1 "x" 8 (MMatchType MTExact); mkMF 2 "y" (-1) (MMatchType MTOptional)]]
  [mkP4ActionDecl (mkPre 7 c [restriction "action" ["v < 9"]]) [mkAP 1 "v" 8 ""]].
Definition nm_ci : constraint_info := Eval vm_compute in the (mkInfo [] []) (P4ToConstraintInfo pton1 (nm_info "one" "two" "act")).
Definition nm_ci2 : constraint_info := Eval vm_compute in the (mkInfo [] []) (P4ToConstraintInfo pton1 (nm_info "two" "" "two")).
Definition nm_entry (v : string) (a : string) (more : list field_match) : p4_entry := mkEntry 5 (mkFM 1 (FMExact v) :: more) (Some (TAction (mkP4Action 7 [(1%N, a)]))) 0.
Definition byte_text (n : N) : string := str1 (ascii_of_N n).
Definition nm_requests : list request := [AddsText sy_more; AddsText "false"; WantsEntry; AddsText "nonsense ="; AddsText "t"].
Definition nm_bad (a : string) : p4info := mkP4Info [mkP4Table (mkPre 3 a [restriction "entry" ["e ="]]) (pt_match_fields sy_decl)] [].
Example C116_case : other_names (nm_info "one" "two" "act") (nm_info "two" "" "two") /\ other_names (nm_bad "one") (nm_bad "") /\
  P4ToConstraintInfo pton1 (nm_info "one" "two" "act") = Ok nm_ci /\ P4ToConstraintInfo pton1 (nm_info "two" "" "two") = Ok nm_ci2 /\
  (exists m m', P4ToConstraintInfo pton1 (nm_bad "one") = Err InvalidArgument m /\ P4ToConstraintInfo pton1 (nm_bad "") = Err InvalidArgument m' /\ m <> m') /\
  ReasonEntryViolatesConstraint (nm_entry (byte_text 2) (byte_text 3) []) nm_ci = Ok "" /\
  (exists m m', ReasonEntryViolatesConstraint (nm_entry (byte_text 1) (byte_text 3) []) nm_ci = Ok m /\ ReasonEntryViolatesConstraint (nm_entry (byte_text 1) (byte_text 3) []) nm_ci2 = Ok m' /\ m <> "" /\ m <> m') /\
  (exists m m', ReasonEntryViolatesConstraint (nm_entry (byte_text 2) (byte_text 9) []) nm_ci = Ok m /\ ReasonEntryViolatesConstraint (nm_entry (byte_text 2) (byte_text 9) []) nm_ci2 = Ok m' /\ m <> "" /\ m <> m') /\
  (exists m, ReasonEntryViolatesConstraint (mkEntry 5 [] None 0) nm_ci2 = Err InvalidArgument m) /\
  (exists w, ReasonEntryViolatesConstraint (nm_entry (byte_text 2) (byte_text 3) [mkFM 2 (FMOptional (byte_text 1))]) nm_ci2 = Crash w) /\
  (exists t' m m', GetTableInfoOrNull nm_ci2 3 = Some t' /\ conversation sy_check pton1 t' sy_skip nm_requests = Ok [Added (Ok true); Added (Ok false); Entry (Ok sy_entry); Added (Err InvalidArgument m); Added (Err InvalidArgument m')]).
Proof.
  split; [split; repeat (constructor; [repeat split|]); constructor|]. split; [split; repeat (constructor; [repeat split|]); constructor|].
  split; [vm_compute; reflexivity|]. split; [vm_compute; reflexivity|].
  split. { exists (match P4ToConstraintInfo pton1 (nm_bad "one") with Err _ m => m | _ => "" end), (match P4ToConstraintInfo pton1 (nm_bad "") with Err _ m => m | _ => "" end). split; [vm_compute; reflexivity|]. split; [vm_compute; reflexivity|]. vm_compute. discriminate. }
  split; [vm_compute; reflexivity|].
  split. { exists (the "" (ReasonEntryViolatesConstraint (nm_entry (byte_text 1) (byte_text 3) []) nm_ci)), (the "" (ReasonEntryViolatesConstraint (nm_entry (byte_text 1) (byte_text 3) []) nm_ci2)). split; [vm_compute; reflexivity|]. split; [vm_compute; reflexivity|]. split; vm_compute; discriminate. }
  split. { exists (the "" (ReasonEntryViolatesConstraint (nm_entry (byte_text 2) (byte_text 9) []) nm_ci)), (the "" (ReasonEntryViolatesConstraint (nm_entry (byte_text 2) (byte_text 9) []) nm_ci2)). split; [vm_compute; reflexivity|]. split; [vm_compute; reflexivity|]. split; vm_compute; discriminate. }
  split; [eexists; vm_compute; reflexivity|]. split; [eexists; vm_compute; reflexivity|].
  exists (match GetTableInfoOrNull nm_ci2 3 with Some t => t | None => no_table end).
  exists (match conversation sy_check pton1 (match GetTableInfoOrNull nm_ci2 3 with Some t => t | None => no_table end) sy_skip nm_requests with Ok [_; _; _; Added (Err _ m); _] => m | _ => "" end).
  exists (match conversation sy_check pton1 (match GetTableInfoOrNull nm_ci2 3 with Some t => t | None => no_table end) sy_skip nm_requests with Ok [_; _; _; _; Added (Err _ m)] => m | _ => "" end).
  split; [vm_compute; reflexivity|]. vm_compute. reflexivity.
Qed.
