(** C115, continued: the solver. *)
From Coq Require Import String Ascii List ZArith NArith Bool Lia.
From Verif Require Import Base Num Token Ast AstConstructors Parser Quote Info TypeChecker ConstraintInfo Interpreter Z3 Symbolic SpecRenumber SpecQueries
  InfoFacts2 PropertiesParser PropertiesVerdict SymDemo PropertiesRenumber PropertiesVerdict PropertiesInfo PropertiesQueries.
Import ListNotations.
Open Scope string_scope.

(** The same outcome, up to [R] for results: errors are the same letter for letter. *)
Definition same_but {A} (R : A -> A -> Prop) (o o' : outcome A) : Prop :=
  match o, o' with
  | Ok a, Ok a' => R a a'
  | Err c m, Err c' m' => c = c' /\ m = m'
  | Crash w, Crash w' => w = w'
  | _, _ => False
  end.
Lemma but_bind {A B} (R : A -> A -> Prop) (S : B -> B -> Prop) o o' f f' : same_but R o o' -> (forall a a', R a a' -> same_but S (f a) (f' a')) -> same_but S (bind o f) (bind o' f').
Proof. destruct o, o'; cbn; try easy. intros H1 H2. exact (H2 _ _ H1). Qed.
Lemma but_eq {A} (o o' : outcome A) : same_but eq o o' <-> o = o'.
Proof. destruct o, o'; cbn; split; try easy; try (intros [-> ->]; reflexivity); try congruence. intros [= -> ->]. auto. Qed.
Lemma but_refl {A} (R : A -> A -> Prop) (o : outcome A) : (forall a, R a a) -> same_but R o o.
Proof. intros H. destruct o; cbn; auto. Qed.

(** * Tables *)
Definition rn (F : N -> N -> Prop) (x x' : string * key_info) : Prop := fst x = fst x' /\ rk F (snd x) (snd x').
Record like (F : N -> N -> Prop) (t t' : table_info) : Prop := mkLike {
  lk_name : ti_name t = ti_name t'; lk_constraint : ti_constraint t = ti_constraint t'; lk_source : ti_source t = ti_source t'; lk_keys : Forall2 (rn F) (ti_keys_by_name t) (ti_keys_by_name t') }.
Lemma find_like F l l' n : Forall2 (rn F) l l' -> option_map k_type (assoc_find String.eqb n l) = option_map k_type (assoc_find String.eqb n l').
Proof. induction 1 as [|[a k] [a' k'] l l' (E & _ & _ & Et) H IH]; [reflexivity|]. cbn [fst snd] in *. subst a'. cbn [assoc_find]. destruct (String.eqb n a); [cbn; now rewrite Et|exact IH]. Qed.
Lemma infer_like F t t' : Forall2 (rn F) (ti_keys_by_name t) (ti_keys_by_name t') -> ti_source t = ti_source t' -> forall e, InferTable e t = InferTable e t'.
Proof.
  intros H1 H2. unfold InferTable. induction e; cbn [Infer GetConstraintSource]; rewrite <- H2; cbn [bind]; try reflexivity;
    try (repeat match goal with H : Infer _ _ _ = Infer _ _ _ |- _ => rewrite <- H; clear H end; reflexivity).
  match goal with |- context [assoc_find String.eqb ?n (ti_keys_by_name t)] => pose proof (find_like F _ _ n H1) as E; destruct (assoc_find String.eqb n (ti_keys_by_name t)) as [k|], (assoc_find String.eqb n (ti_keys_by_name t')) as [k'|]; cbn in E; try discriminate E; [|reflexivity] end.
  injection E as E. now rewrite E.
Qed.
Lemma extract_same ck p p' : pr_name p = pr_name p' -> pr_annotations p = pr_annotations p' -> ExtractConstraint ck p = ExtractConstraint ck p'.
Proof. intros E1 E2. unfold ExtractConstraint. now rewrite ?E1, ?E2. Qed.
Lemma insert_like F what fs fs' : Forall2 (fun f f' => F (mf_id f) (mf_id f') /\ mf_name f = mf_name f' /\ mf_bitwidth f = mf_bitwidth f' /\ mf_match f = mf_match f') fs fs' ->
  forall bi bi' bn bn' x x' y y', Forall2 (rn F) bn bn' -> insert_keys what (map ParseMatchField fs) bi bn = Ok (x, y) -> insert_keys what (map ParseMatchField fs') bi' bn' = Ok (x', y') -> Forall2 (rn F) y y'.
Proof.
  induction 1 as [|f f' fs fs' (E1 & E2 & E3 & E4) H IH]; intros bi bi' bn bn' x x' y y' Hb H1 H2; cbn [map insert_keys] in H1, H2.
  - injection H1 as _ <-. injection H2 as _ <-. exact Hb.
  - unfold ParseMatchField at 1 in H1. unfold ParseMatchField at 1 in H2. assert (ParseKeyType f = ParseKeyType f') as E by (unfold ParseKeyType; now rewrite E3, E4). rewrite <- E in H2. destruct (ParseKeyType f) as [ty| |]; [|discriminate..]. cbn [bind k_id k_name] in H1, H2.
    destruct (assoc_insert N.eqb _ _ bi) as [bi1|]; [|discriminate]. destruct (assoc_insert N.eqb _ _ bi') as [bi1'|]; [|discriminate].
    unfold assoc_insert in H1, H2. destruct (assoc_find String.eqb _ bn); [discriminate|]. destruct (assoc_find String.eqb _ bn'); [discriminate|].
    refine (IH _ _ _ _ _ _ _ _ _ H1 H2). apply Forall2_app; [exact Hb|]. constructor; [|constructor]. split; [exact E2|]. split; [exact E1|]. split; [exact E2|reflexivity].
Qed.
Lemma table_like pton n d d' t t' : renumbered_table n d d' -> ParseTableInfo pton d = Ok t -> ParseTableInfo pton d' = Ok t' -> like (of_fields n (pr_id (pt_preamble d)) (pr_id (pt_preamble d'))) t t' /\ ti_id t = pr_id (pt_preamble d) /\ ti_id t' = pr_id (pt_preamble d').
Proof.
  intros ((_ & E1 & E2) & Hf) H H'. unfold ParseTableInfo in H, H'. rewrite <- E1 in H'. rewrite <- (extract_same kTableConstraint _ _ E1 E2) in H'.
  apply SemFacts.bind_ok in H as ([bi bn] & I & H). apply SemFacts.bind_ok in H' as ([bi' bn'] & I' & H'). pose proof (insert_like _ _ _ _ Hf _ _ _ _ _ _ _ _ (Forall2_nil _) I I') as Hk.
  destruct (ExtractConstraint kTableConstraint (pt_preamble d)) as [[cs|]| |]; cbn [bind] in H, H'; try discriminate.
  - apply SemFacts.bind_ok in H as (e & P & H). rewrite P in H'. cbn [bind] in H'. apply SemFacts.bind_ok in H as (e1 & Q & H). apply SemFacts.bind_ok in H' as (e1' & Q' & H'). injection H as <-. injection H' as <-.
    assert (e1 = e1') as ->.
    { match type of Q with InferTable _ ?a = _ => match type of Q' with InferTable _ ?b = _ => pose proof (infer_like _ a b Hk eq_refl e) as E end end. rewrite E in Q. congruence. }
    split; [|auto]. constructor; auto.
  - injection H as <-. injection H' as <-. split; [|auto]. constructor; auto.
Qed.
Lemma sorted_like F x x' l l' : rn F x x' -> Forall2 (rn F) l l' -> Forall2 (rn F) (insert_sorted x l) (insert_sorted x' l').
Proof.
  intros Hx. induction 1 as [|y y' l l' Hy H IH]; [repeat constructor; apply Hx|]. cbn [insert_sorted]. rewrite <- (proj1 Hx), <- (proj1 Hy). destruct (string_ltb (fst x) (fst y)); constructor; auto.
Qed.
Lemma ordered_like F l l' : Forall2 (rn F) l l' -> Forall2 (rn F) (Ordered l) (Ordered l').
Proof. induction 1; [constructor|]. cbn [Ordered fold_right]. now apply sorted_like. Qed.

(** * Solvers *)
Record twin (F : N -> N -> Prop) (cs cs' : constraint_solver) : Prop := mkTwin {
  tw_table : like F (cs_table cs) (cs_table cs'); tw_env : cs_env cs = cs_env cs'; tw_skip : cs_skip cs = cs_skip cs'; tw_stack : cs_stack cs = cs_stack cs' }.
Section Solver.
  Variable check : solver.
  Variable pton : inet_pton6.
  Variable F : N -> N -> Prop.
  Lemma add_like cs cs' e src : twin F cs cs' -> fst (AddConstraint check cs e src) = fst (AddConstraint check cs' e src) /\ twin F (snd (AddConstraint check cs e src)) (snd (AddConstraint check cs' e src)) /\
    cs_table (snd (AddConstraint check cs e src)) = cs_table cs /\ cs_table (snd (AddConstraint check cs' e src)) = cs_table cs'.
  Proof.
    intros T. pose proof T as [T1 T2 T3 T4]. unfold AddConstraint. rewrite <- T4, <- T2. destruct (negb _); [auto|]. destruct (EvaluateConstraintSymbolically (cs_env cs) src e) as [t| |]; [|auto|auto]. destruct (negb _); [auto|]. cbv zeta.
    destruct (negb _); cbn [fst snd set_stack cs_table]; (split; [reflexivity|]); (split; [|auto]); constructor; cbn [set_stack cs_table cs_env cs_skip cs_stack]; auto.
  Qed.
  Lemma perform_like cs cs' r : twin F cs cs' -> fst (perform check pton cs r) = fst (perform check pton cs' r) /\ twin F (snd (perform check pton cs r)) (snd (perform check pton cs' r)) /\
    cs_table (snd (perform check pton cs r)) = cs_table cs /\ cs_table (snd (perform check pton cs' r)) = cs_table cs'.
  Proof.
    intros T. destruct r as [e src|text]; cbn [perform]; [now apply add_like|]. unfold AddConstraintString. pose proof T as [[L1 L2 L3 L4] T2 T3 T4]. rewrite <- L1. cbv zeta.
    destruct (ParseConstraint _ _ _) as [e| |]; cbn [bind]; [|auto|auto]. rewrite <- (infer_like F _ _ L4 L3 e). destruct (InferTable e (cs_table cs)) as [e'| |]; [|auto|auto]. now apply add_like.
  Qed.
  Lemma replies_like rs : forall cs cs', twin F cs cs' -> fst (replies check pton cs rs) = fst (replies check pton cs' rs) /\ twin F (snd (replies check pton cs rs)) (snd (replies check pton cs' rs)) /\
    cs_table (snd (replies check pton cs rs)) = cs_table cs /\ cs_table (snd (replies check pton cs' rs)) = cs_table cs'.
  Proof.
    induction rs as [|r rs IH]; intros cs cs' T; cbn [replies]; [auto|]. destruct (perform_like cs cs' r T) as (E & T1 & K & K'). destruct (perform check pton cs r) as [b c]. destruct (perform check pton cs' r) as [b' c']. cbn [fst snd] in *. subst b'.
    destruct (IH c c' T1) as (E2 & T2 & K2 & K2'). destruct (replies check pton c rs) as [bs d]. destruct (replies check pton c' rs) as [bs' d']. cbn [fst snd] in *. subst bs'. split; [reflexivity|]. split; [exact T2|]. split; congruence.
  Qed.
  Lemma symbolic_like k k' : rk F k k' -> AddSymbolicKey k = AddSymbolicKey k'.
  Proof. intros (_ & E1 & E2). unfold AddSymbolicKey. now rewrite E1, E2. Qed.
  Lemma keys_like skip l l' : Forall2 (rn F) l l' -> forall prio keys asserted, create_keys skip l prio keys asserted = create_keys skip l' prio keys asserted.
  Proof.
    induction 1 as [|[a k] [a' k'] l l' [E Hk] H IH]; intros prio keys asserted; [reflexivity|]. cbn [fst snd] in *. subst a'. cbn [create_keys]. rewrite <- (symbolic_like k k' Hk), <- (proj2 (proj2 Hk)). destruct (skip a) as [[|]| |]; cbn [bind]; [apply IH| |reflexivity..].
    destruct (AddSymbolicKey k) as [[sk ts]| |]; cbn [bind]; [apply IH|reflexivity..].
  Qed.
  Lemma create_like t t' skip : like F t t' -> same_but (fun cs cs' => twin F cs cs' /\ cs_table cs = t /\ cs_table cs' = t') (Create check t skip) (Create check t' skip).
  Proof.
    intros L. pose proof L as [L1 L2 L3 L4]. unfold Create. rewrite <- (keys_like skip _ _ (ordered_like _ _ _ L4)). destruct (create_keys _ _ _ _ _) as [[[prio keys] asserted]| |]; cbn [bind]; [|cbn; auto..].
    destruct (if prio then _ else _) as [attrs asserted']. rewrite <- L2, <- L3. assert (twin F (mkCS t (mkEnv keys attrs) skip [asserted']) (mkCS t' (mkEnv keys attrs) skip [asserted'])) as T by (constructor; cbn; auto).
    destruct (ti_constraint t) as [e|]; [|cbn; auto]. destruct (add_like _ _ e (ti_source t) T) as (E & T1 & K & K'). cbn [cs_table] in K, K'.
    destruct (AddConstraint check (mkCS t (mkEnv keys attrs) skip [asserted']) e (ti_source t)) as [b c]. destruct (AddConstraint check (mkCS t' (mkEnv keys attrs) skip [asserted']) e (ti_source t)) as [b' c']. cbn [fst snd] in *. subst b'.
    destruct b as [[|]| |]; cbn; auto.
  Qed.
  Definition maybe (o o' : option field_match) : Prop := match o, o' with Some f, Some f' => rm F f f' | None, None => True | _, _ => False end.
  Lemma concretize_like sk k k' m : rk F k k' -> same_but maybe (ConcretizeKey sk k m) (ConcretizeKey sk k' m).
  Proof.
    intros (E1 & _ & E2). unfold ConcretizeKey. rewrite <- E2. apply (but_bind eq); [now apply but_refl|]. intros w ? <-.
    assert (forall v, maybe (Some (mkFM (k_id k) v)) (Some (mkFM (k_id k') v))) as Hs by (intros v; split; [exact E1|reflexivity]).
    destruct (k_type k); cbn [same_but]; auto; repeat (first [match goal with |- same_but maybe (if ?b then _ else _) _ => destruct b end | apply (but_bind eq); [now apply but_refl|intros ? ? <-] | exact I | exact (Hs _)]).
  Qed.
  Lemma concretize_keys_like cs cs' m l l' : cs_env cs = cs_env cs' -> cs_skip cs = cs_skip cs' -> Forall2 (rn F) l l' -> forall acc acc', Forall2 (rm F) acc acc' -> same_but (Forall2 (rm F)) (concretize_keys cs m l acc) (concretize_keys cs' m l' acc').
  Proof.
    intros He Hk. induction 1 as [|[a k] [a' k'] l l' [E Hr] H IH]; intros acc acc' Ha; [exact Ha|]. cbn [fst snd] in *. subst a'. cbn [concretize_keys]. rewrite <- He, <- Hk. apply (but_bind eq); [now apply but_refl|]. intros sk ? <-. destruct sk; [now apply IH|].
    apply (but_bind eq); [now apply but_refl|]. intros sy ? <-. apply (but_bind maybe); [now apply concretize_like|]. intros [f|] [f'|] Hf; try easy; apply IH; auto. apply Forall2_app; auto.
  Qed.
  Lemma entry_like cs cs' : twin F cs cs' -> same_but (fun e e' => pe_table_id e = ti_id (cs_table cs) /\ pe_table_id e' = ti_id (cs_table cs') /\ Forall2 (rm F) (pe_match e) (pe_match e') /\ pe_action e = None /\ pe_action e' = None /\ pe_priority e = pe_priority e')
    (ConcretizeEntry check cs) (ConcretizeEntry check cs').
  Proof.
    intros [T1 T2 T3 T4]. unfold ConcretizeEntry. rewrite <- T4. destruct (check _) as [m|]; [|cbn; auto]. apply (but_bind (Forall2 (rm F))).
    - apply concretize_keys_like; auto. apply ordered_like. exact (lk_keys _ _ _ T1).
    - intros fs fs' Hf. rewrite <- T2. apply (but_bind eq); [now apply but_refl|]. intros pr ? <-. cbn. split; [reflexivity|]. split; [reflexivity|]. split; [exact Hf|]. repeat split.
  Qed.
End Solver.

(** Solvers made for a table and for the same table with other numbers, with the same keys skipped. Both are made, or both are refused with the same message.
    They reply alike to all requests made of them, and afterwards produce entries that differ in their numbers only, or fail with the same message. *)
Theorem C115_solver : forall check pton n p p' ci ci' id id' t skip, faithful n -> renumbered n p p' -> of_tables n id id' ->
  P4ToConstraintInfo pton p = Ok ci -> P4ToConstraintInfo pton p' = Ok ci' -> GetTableInfoOrNull ci id = Some t ->
  exists t', GetTableInfoOrNull ci' id' = Some t' /\
    same_but (fun cs cs' => forall rs, fst (replies check pton cs rs) = fst (replies check pton cs' rs) /\
        same_but (renumbered_entry n) (ConcretizeEntry check (snd (replies check pton cs rs))) (ConcretizeEntry check (snd (replies check pton cs' rs))))
      (Create check t skip) (Create check t' skip).
Proof.
  intros check pton n p p' ci ci' id id' t skip Hn Hr Hid H H' Ht. apply (proj1 (info_lookup _ _ _ H)) in Ht as (d & Hd & -> & Hpt).
  destruct (table_found n Hn p p' Hr d _ _ Hid Hd eq_refl) as (d' & Hd' & Ed' & Hrd). assert (exists t', ParseTableInfo pton d' = Ok t') as [t' Hpt'].
  { destruct (proj1 (info_ok _ _ _) H') as (ts & _ & Hts & _). destruct (f2_in _ _ _ _ Hts Hd') as (t' & _ & E). now exists t'. }
  exists t'. split. { apply (proj1 (info_lookup _ _ _ H')). exists d'. auto. }
  destruct (table_like pton n d d' t t' Hrd Hpt Hpt') as (L & I1 & I2). pose proof (create_like check _ t t' skip L) as HC.
  destruct (Create check t skip) as [cs| |], (Create check t' skip) as [cs'| |]; cbn [same_but] in *; auto. destruct HC as (T & K & K'). intros rs. destruct (replies_like check pton _ rs cs cs' T) as (E & T1 & K1 & K1'). split; [exact E|].
  pose proof (entry_like check _ _ _ T1) as HE. rewrite K1, K1', K, K', I1, I2 in HE.
  destruct (ConcretizeEntry check _) as [e| |], (ConcretizeEntry check _) as [e'| |]; cbn [same_but] in *; auto. destruct HE as (A1 & A2 & A3 & A4 & A5 & A6). unfold renumbered_entry. rewrite A1, A2, A4, A5, A6. split; [exact (proj1 (proj1 Hrd))|]. split; [exact A3|]. split; [constructor|reflexivity].
Qed.
Print Assumptions C115_solver.

(** A solver for the table with keys of all kinds, renumbered, that accepts a constraint, refuses one and cannot read one, and then produces an entry. *)
Definition sy_info : p4info := mkP4Info [sy_decl] [].
Definition sy_info2 : p4info := mkP4Info [mkP4Table (mkPre 103 "sy" [restriction "entry" [sy_text]])
  (map (fun f => mkMF (2 * mf_id f) (mf_name f) (mf_bitwidth f) (mf_match f)) (pt_match_fields sy_decl))] [].
Definition sy_ci2 : constraint_info := Eval vm_compute in the (mkInfo [] []) (P4ToConstraintInfo pton1 sy_info2).
Definition sy_table2 : table_info := Eval vm_compute in match GetTableInfoOrNull sy_ci2 103 with Some t => t | None => no_table end.
Definition sy_cs0' : constraint_solver := the (mkCS no_table (mkEnv [] []) never_skip []) (Create sy_check sy_table2 sy_skip).
Definition sy_requests : list request := [AddText sy_more; AddText "false"; AddText "nonsense"].
Definition sy_entry2 : p4_entry := Eval vm_compute in the (mkEntry 0 [] None 0) (ConcretizeEntry sy_check (snd (replies sy_check pton1 sy_cs0' sy_requests))).
Example C115_solver_case : faithful demo_numbering /\ renumbered demo_numbering sy_info sy_info2 /\ of_tables demo_numbering 3 103 /\
  P4ToConstraintInfo pton1 sy_info = Ok sy_ci /\ P4ToConstraintInfo pton1 sy_info2 = Ok sy_ci2 /\ GetTableInfoOrNull sy_ci 3 = Some sy_table /\ GetTableInfoOrNull sy_ci2 103 = Some sy_table2 /\
  Create sy_check sy_table sy_skip = Ok sy_cs /\ Create sy_check sy_table2 sy_skip = Ok sy_cs0' /\
  (exists m, fst (replies sy_check pton1 sy_cs0' sy_requests) = [Ok true; Ok false; Err InvalidArgument m]) /\
  ConcretizeEntry sy_check (snd (replies sy_check pton1 sy_cs sy_requests)) = Ok sy_entry /\
  ConcretizeEntry sy_check (snd (replies sy_check pton1 sy_cs0' sy_requests)) = Ok sy_entry2 /\ map fm_id (pe_match sy_entry) = [1; 4; 5; 2]%N /\ map fm_id (pe_match sy_entry2) = [2; 8; 10; 4]%N.
Proof.
  split; [exact (proj1 C115_case)|]. split. { split; repeat (constructor; [repeat split; cbn; auto; repeat (constructor; [repeat split|]); constructor|]); constructor. }
  split; [reflexivity|]. do 4 (split; [vm_compute; reflexivity|]). split; [exact sy_created|]. split; [vm_compute; reflexivity|].
  split; [|repeat split; vm_compute; reflexivity].
  exists (match fst (replies sy_check pton1 sy_cs0' sy_requests) with [_; _; Err _ m] => m | _ => "" end). vm_compute. reflexivity.
Qed.
