(** C117: where constraints stand affects messages, and whether quoting several lines crashes. *)
From Coq Require Import String Ascii List ZArith NArith Bool Lia.
From Verif Require Import Base Num Token Ast Regex Lexer AstConstructors Parser Quote Info TypeChecker ConstraintInfo Interpreter SpecLexer SpecGrammar SpecInfo SpecCrash SpecNames SpecPlaces InfoFacts NameFacts NameFacts2 PropertiesParser PropertiesVerdict PropertiesInfo PropertiesCrash.
Import ListNotations.
Open Scope string_scope.

(** * Exchanging two sources *)
Lemma source_eqb_spec a b : reflect (a = b) (source_eqb a b).
Proof. destruct a as [|a|a|a], b as [|b|b|b]; try (constructor; discriminate); try (constructor; reflexivity); cbn [source_eqb]; destruct (String.eqb_spec a b); constructor; congruence. Qed.
Definition trade (s s' x : source) : source := if source_eqb x s then s' else if source_eqb x s' then s else x.
Lemma trade_twice s s' x : trade s s' (trade s s' x) = x.
Proof. unfold trade. destruct (source_eqb_spec x s) as [->|N1]; [destruct (source_eqb_spec s' s) as [E|N2]; [exact E|destruct (source_eqb_spec s' s'); [reflexivity|contradiction]]|]. destruct (source_eqb_spec x s') as [->|N2]; [destruct (source_eqb_spec s s); [reflexivity|contradiction]|]. destruct (source_eqb_spec x s); [contradiction|]. destruct (source_eqb_spec x s'); [contradiction|reflexivity]. Qed.
Lemma trade_left s s' : trade s s' s = s'.
Proof. unfold trade. destruct (source_eqb_spec s s); [reflexivity|contradiction]. Qed.
Lemma trade_exchange s s' : s <> SrcNone -> s' <> SrcNone -> exchange (trade s s').
Proof.
  intros H H'. constructor.
  - intros a b. destruct (source_eqb_spec (trade s s' a) (trade s s' b)) as [E|E], (source_eqb_spec a b) as [Q|N]; try reflexivity; [|elim E; now rewrite Q]. elim N. rewrite <- (trade_twice s s' a), E. apply trade_twice.
  - unfold trade. destruct (source_eqb_spec SrcNone s) as [<-|]; [now elim H|]. destruct (source_eqb_spec SrcNone s') as [<-|]; [now elim H'|reflexivity].
  - intros a Ha E. unfold trade in E. destruct (source_eqb_spec a s) as [->|]; [now elim H'|]. destruct (source_eqb_spec a s'); [now elim H|now elim Ha].
Qed.

(** * Annotations *)
Lemma scan_file ck a l f n g : file_note a g -> scan_annotations ck f n (a :: l) = scan_annotations ck g n l.
Proof. intros H. apply file_iff in H. cbn [scan_annotations]. destruct (first_match file_annotation a); [now rewrite H|contradiction]. Qed.
Lemma scan_line ck a l f n m : line_note a m -> scan_annotations ck f n (a :: l) = scan_annotations ck f m l.
Proof.
  intros H. cbn [scan_annotations]. destruct (first_match file_annotation a) as [h|] eqn:E.
  - exfalso. apply (file_line a (capture "1" h) m); [|exact H]. apply file_iff. now rewrite E.
  - apply line_iff in H. now rewrite H.
Qed.
Lemma scan_place ck l l' : notes_apart of_place l l' -> forall f n f' n', fst (fst (scan_annotations ck f n l)) = fst (fst (scan_annotations ck f' n' l')).
Proof.
  induction 1 as [|a l l' _ IH|a l l' Ha _ IH|a l l' Ha _ IH]; intros f n f' n'.
  - reflexivity.
  - cbn [scan_annotations]. destruct (first_match file_annotation a); [apply IH|]. destruct (match first_match line_annotation a with Some h => _ | None => _ end); [apply IH|]. destruct (first_match (GetConstraintAnnotation ck) a); [reflexivity|apply IH].
  - destruct Ha as [(g & Ha)|(m & Ha)]; [rewrite (scan_file _ _ _ _ _ _ Ha)|rewrite (scan_line _ _ _ _ _ _ Ha)]; apply IH.
  - destruct Ha as [(g & Ha)|(m & Ha)]; [rewrite (scan_file _ _ _ f' _ _ Ha)|rewrite (scan_line _ _ _ f' _ _ Ha)]; apply IH.
Qed.
Lemma scan_files ck l l' : notes_apart of_file l l' -> forall f n f', snd (scan_annotations ck f n l) = snd (scan_annotations ck f' n l').
Proof.
  induction 1 as [|a l l' _ IH|a l l' Ha _ IH|a l l' Ha _ IH]; intros f n f'.
  - reflexivity.
  - cbn [scan_annotations]. destruct (first_match file_annotation a); [apply IH|]. destruct (match first_match line_annotation a with Some h => _ | None => _ end); [apply IH|]. destruct (first_match (GetConstraintAnnotation ck) a); [reflexivity|apply IH].
  - destruct Ha as (g & Ha). rewrite (scan_file _ _ _ _ _ _ Ha). apply IH.
  - destruct Ha as (g & Ha). rewrite (scan_file _ _ _ f' _ _ Ha). apply IH.
Qed.
Lemma file_place l l' : notes_apart of_file l l' -> notes_apart of_place l l'.
Proof. induction 1; [constructor|constructor; assumption|apply na_left; [now left|assumption]|apply na_right; [now left|assumption]]. Qed.

(** * Loading *)
Section Apart.
  (** [P]: lines may differ. *)
  Variable P : Prop.
  Definition apart (l l' : list string) : Prop := notes_apart of_file l l' \/ P /\ notes_apart of_place l l'.
  Definition moved (c c' : csource) (f : source -> source) (d : Z) : Prop := exchange f /\ (d = 0%Z \/ P) /\ c' = xc f d c.
  Lemma extract_place ck p p' : apart (pr_annotations p) (pr_annotations p') ->
    near P (fun a b => match a, b with None, None => True | Some c, Some c' => exists f d, moved c c' f d | _, _ => False end) (ExtractConstraint ck p) (ExtractConstraint ck p').
  Proof.
    intros H. assert (fst (fst (scan_annotations ck "" 0%Z (pr_annotations p))) = fst (fst (scan_annotations ck "" 0%Z (pr_annotations p'))) /\ (snd (scan_annotations ck "" 0%Z (pr_annotations p)) = snd (scan_annotations ck "" 0%Z (pr_annotations p')) \/ P)) as [E1 E2].
    { destruct H as [H|[H0 H]]; (split; [apply scan_place; auto using file_place|]); [left; now apply scan_files|now right]. }
    unfold ExtractConstraint. destruct (scan_annotations ck "" 0%Z (pr_annotations p)) as [[text file] line], (scan_annotations ck "" 0%Z (pr_annotations p')) as [[text' file'] line']. cbn [fst snd] in *. subst text'.
    destruct (String.eqb text ""); [exact I|]. cbv zeta. destruct (match strip_prefix _ _ with Some _ => _ | None => _ end) as [t|]; [|reflexivity]. destruct (contains_char _ _); [reflexivity|]. cbn [near].
    set (s := if String.eqb file "" then _ else _). set (s' := if String.eqb file' "" then _ else _). exists (trade s s'), (line' - line)%Z. split; [|split].
    - apply trade_exchange; unfold s, s'; [destruct (String.eqb file "")|destruct (String.eqb file' "")]; try destruct ck; discriminate.
    - destruct E2 as [->|E2]; [left; lia|now right].
    - unfold xc, xl. cbn [cs_string cs_loc l_line l_col l_src]. rewrite trade_left. do 2 f_equal. lia.
  Qed.
  Lemma insert_near what what' l : forall bi bn, near P eq (insert_keys what l bi bn) (insert_keys what' l bi bn).
  Proof. induction l as [|o l IH]; intros bi bn; [reflexivity|]. cbn [insert_keys]. apply (sim_bind eq); [apply sim_eq|]. intros k ? <-. destruct (assoc_insert N.eqb _ _ _); [|reflexivity]. destruct (assoc_insert String.eqb _ _ _); [apply IH|reflexivity]. Qed.
  Definition moved_constraint (c c' : csource) (e e' : option expr) : Prop :=
    match e, e' with None, None => True | Some e, Some e' => exists f d, moved c c' f d /\ e' = xe f d e | _, _ => False end.
  Record moved_table (t t' : table_info) : Prop := mkMovedTable {
    mt_by_id : ti_keys_by_id t = ti_keys_by_id t'; mt_by_name : ti_keys_by_name t = ti_keys_by_name t'; mt_constraint : moved_constraint (ti_source t) (ti_source t') (ti_constraint t) (ti_constraint t') }.
  Record moved_action (t t' : action_info) : Prop := mkMovedAction {
    ma_by_id : ai_params_by_id t = ai_params_by_id t'; ma_by_name : ai_params_by_name t = ai_params_by_name t'; ma_constraint : moved_constraint (ai_source t) (ai_source t') (ai_constraint t) (ai_constraint t') }.
  Lemma table_place pton d d' : apart (pr_annotations (pt_preamble d)) (pr_annotations (pt_preamble d')) -> pt_match_fields d = pt_match_fields d' -> near P moved_table (ParseTableInfo pton d) (ParseTableInfo pton d').
  Proof.
    intros Hn Hm. unfold ParseTableInfo. rewrite <- Hm. cbv zeta. apply (sim_bind eq); [apply insert_near|]. intros [bi bn] ? <-. eapply sim_bind; [apply extract_place; exact Hn|].
    intros [c|] [c'|] H; try contradiction; [|cbn; constructor; try reflexivity; exact I]. destruct H as (f & k & Hx & Hk & ->). apply (sim_bind (xx f k)); [now apply x_parse|]. intros e ? ->.
    apply (sim_bind (xx f k)); [unfold InferTable; eapply x_infer; [exact Hx|exact Hk|reflexivity..]|]. intros e' ? ->. constructor; try reflexivity. exists f, k. split; [|reflexivity]. split; [exact Hx|]. split; [exact Hk|reflexivity].
  Qed.
  Lemma action_place pton d d' : apart (pr_annotations (pad_preamble d)) (pr_annotations (pad_preamble d')) -> pad_params d = pad_params d' -> near P moved_action (ParseActionInfo pton d) (ParseActionInfo pton d').
  Proof.
    intros Hn Hm. unfold ParseActionInfo. rewrite <- Hm. cbv zeta. apply (sim_bind eq); [apply insert_near|]. intros [bi bn] ? <-. eapply sim_bind; [apply extract_place; exact Hn|].
    intros [c|] [c'|] H; try contradiction; [|cbn; constructor; try reflexivity; exact I]. destruct H as (f & k & Hx & Hk & ->). apply (sim_bind (xx f k)); [now apply x_parse|]. intros e ? ->.
    apply (sim_bind (xx f k)); [unfold InferAction; eapply x_infer; [exact Hx|exact Hk|reflexivity..]|]. intros e' ? ->. constructor; try reflexivity. exists f, k. split; [|reflexivity]. split; [exact Hx|]. split; [exact Hk|reflexivity].
  Qed.
  Definition entry_of {I} (R : I -> I -> Prop) (x y : N * I) : Prop := fst x = fst y /\ R (snd x) (snd y).
  Lemma find_near {I} (R : I -> I -> Prop) l l' i : Forall2 (entry_of R) l l' -> match assoc_find N.eqb i l, assoc_find N.eqb i l' with Some a, Some b => R a b | None, None => True | _, _ => False end.
  Proof. induction 1 as [|[a x] [a' x'] l l' [E H] _ IH]; [exact Logic.I|]. cbn [fst snd assoc_find] in *. subst a'. destruct (N.eqb i a); [exact H|exact IH]. Qed.
  Lemma collect_near {D I} (parse : D -> outcome I) id dup (R : I -> I -> Prop) l l' : Forall2 (fun d d' => id d = id d' /\ near P R (parse d) (parse d')) l l' ->
    forall bi bi' es es', Forall2 (entry_of R) bi bi' -> List.length es = List.length es' ->
    near P (fun a b => Forall2 (entry_of R) (fst a) (fst b) /\ List.length (snd a) = List.length (snd b)) (collect parse id dup l bi es) (collect parse id dup l' bi' es').
  Proof.
    induction 1 as [|d d' l l' [Ei Hd] _ IH]; intros bi bi' es es' Hb He; cbn [collect]; [cbn; auto|]. destruct (parse d) as [i| |w], (parse d') as [i'| |w']; cbn [near] in Hd; try contradiction;
      try (destruct Hd as [Hd ->]; apply near_iff; right; split; [exact Hd|]; auto; fail).
    - rewrite <- Ei. unfold assoc_insert. pose proof (find_near R bi bi' (id d) Hb) as F. destruct (assoc_find _ _ bi), (assoc_find _ _ bi'); try contradiction; apply IH; auto; [rewrite !app_length; cbn; lia|]. apply Forall2_app; [exact Hb|]. repeat constructor. exact Hd.
    - apply IH; auto. rewrite !app_length. cbn. lia.
    - exact Hd.
  Qed.
  Record moved_info (ci ci' : constraint_info) : Prop := mkMovedInfo { mi_actions : Forall2 (entry_of moved_action) (ci_actions ci) (ci_actions ci'); mi_tables : Forall2 (entry_of moved_table) (ci_tables ci) (ci_tables ci') }.
  Lemma load_place note pton p p' : (forall l l', notes_apart note l l' -> apart l l') -> info_apart note p p' -> near P moved_info (P4ToConstraintInfo pton p) (P4ToConstraintInfo pton p').
  Proof.
    intros Hn [HT HA]. unfold P4ToConstraintInfo. eapply sim_bind; [apply (collect_near _ _ _ moved_table); [|constructor|reflexivity]|].
    { revert HT. generalize (p4_tables p) (p4_tables p'). induction 1 as [|d d' l l' [[Hi Ha] Hm] _ IH]; constructor; [|exact IH]. split; [exact Hi|]. apply table_place; auto. }
    intros [ts es] [ts' es'] [H1 H2]. cbn [fst snd] in *. eapply sim_bind; [apply (collect_near _ _ _ moved_action); [|constructor|exact H2]|].
    { revert HA. generalize (p4_actions p) (p4_actions p'). induction 1 as [|d d' l l' [[Hi Ha] Hm] _ IH]; constructor; [|exact IH]. split; [exact Hi|]. apply action_place; auto. }
    intros [as_ fs] [as' fs'] [H3 H4]. cbn [fst snd] in *. destruct fs, fs'; try discriminate H4; [|reflexivity]. constructor; assumption.
  Qed.

  (** * Checking *)
  Lemma verdict_same o : near P same_verdict o o.
  Proof. apply sim_refl. intros a. unfold same_verdict. tauto. Qed.
  Lemma fields_place t t' l : ti_keys_by_id t = ti_keys_by_id t' -> forall keys, parse_fields t l keys = parse_fields t' l keys.
  Proof. intros E. induction l as [|x l IH]; intros keys; [reflexivity|]. cbn [parse_fields]. assert (ParseKey x t = ParseKey x t') as -> by (unfold ParseKey; now rewrite E). destruct (ParseKey x t') as [[n v]| |]; cbn [bind]; try reflexivity. destruct (assoc_insert _ _ _ _); [apply IH|reflexivity]. Qed.
  Lemma params_place t t' l : ai_params_by_id t = ai_params_by_id t' -> forall ps, parse_params t l ps = parse_params t' l ps.
  Proof.
    intros E. induction l as [|[i v] l IH]; intros ps; [reflexivity|]. cbn [parse_params]. assert (assoc_find N.eqb i (ai_params_by_id t) = assoc_find N.eqb i (ai_params_by_id t')) as -> by (now rewrite E). destruct (assoc_find N.eqb i _); [|reflexivity]. destruct (assoc_find String.eqb _ _); [reflexivity|apply IH].
  Qed.
  Lemma table_near t t' e : moved_table t t' -> near P same_verdict (ReasonTableViolates t e) (ReasonTableViolates t' e).
  Proof.
    intros [S2 S3 S]. unfold ReasonTableViolates. unfold moved_constraint in S. destruct (ti_constraint t) as [x|], (ti_constraint t') as [x'|]; try contradiction; [|apply verdict_same]. destruct S as (f & d & (Hx & Hd & Hc) & ->). rewrite x_type. destruct (negb _); [reflexivity|].
    apply (sim_bind (fun c c' => ec_src c' = xc f d (ec_src c) /\ same_values (ec_ctx c) (ec_ctx c'))).
    - apply sim_annotate. unfold ParseTableEntry. rewrite <- (fields_place t t' _ S2), <- S3. apply (sim_bind eq); [apply sim_eq|]. intros k ? <-. apply (sim_bind eq); [apply sim_eq|]. intros k' ? <-. split; [exact Hc|split; reflexivity].
    - intros c c' [E1 E2]. now apply x_check.
  Qed.
  Lemma action_near ci ci' a : moved_info ci ci' -> near P same_verdict (ReasonActionViolates ci a) (ReasonActionViolates ci' a).
  Proof.
    intros [HA _]. unfold ReasonActionViolates, GetActionInfoOrNull. pose proof (find_near _ _ _ (pa_id a) HA) as F. destruct (assoc_find _ _ (ci_actions ci)) as [t|], (assoc_find _ _ (ci_actions ci')) as [t'|]; try contradiction; [|reflexivity].
    destruct F as [S2 S3 S]. unfold moved_constraint in S. destruct (ai_constraint t) as [x|], (ai_constraint t') as [x'|]; try contradiction; [|apply verdict_same]. destruct S as (f & d & (Hx & Hd & Hc) & ->). rewrite x_type. destruct (negb _); [reflexivity|].
    apply (sim_bind (fun c c' => ec_src c' = xc f d (ec_src c) /\ same_values (ec_ctx c) (ec_ctx c'))).
    - apply sim_annotate. unfold ParseAction. rewrite <- (params_place t t' _ S2). apply (sim_bind eq); [apply sim_eq|]. intros k ? <-. split; [exact Hc|reflexivity].
    - intros c c' [E1 E2]. now apply x_check.
  Qed.
  Lemma set_near ci ci' l : moved_info ci ci' -> near P same_verdict (ReasonActionSetViolates ci l) (ReasonActionSetViolates ci' l).
  Proof.
    intros H. induction l as [|a l IH]; [apply verdict_same|]. cbn [ReasonActionSetViolates]. apply (sim_bind same_verdict); [now apply action_near|]. intros r r' Hr. destruct (String.eqb_spec r "") as [E|E], (String.eqb_spec r' "") as [E'|E']; [exact IH|now elim E'; apply Hr|now elim E; apply Hr|exact Hr].
  Qed.
  Lemma entry_near ci ci' e : moved_info ci ci' -> near P same_verdict (ReasonEntryViolatesConstraint e ci) (ReasonEntryViolatesConstraint e ci').
  Proof.
    intros L. unfold ReasonEntryViolatesConstraint, GetTableInfoOrNull. pose proof (find_near _ _ _ (pe_table_id e) (mi_tables _ _ L)) as F.
    destruct (assoc_find _ _ (ci_tables ci)) as [t|], (assoc_find _ _ (ci_tables ci')) as [t'|]; try contradiction; [|reflexivity]. apply (sim_bind same_verdict); [now apply table_near|]. intros r r' Hr.
    destruct (String.eqb_spec r "") as [E|E], (String.eqb_spec r' "") as [E'|E']; cbn [negb]; [|now elim E'; apply Hr|now elim E; apply Hr|exact Hr].
    destruct (pe_action e) as [[a|i|i|l|]|]; try (apply verdict_same); [now apply action_near|now apply set_near].
  Qed.
End Apart.

(** The names of files appear in messages only, whatever the constraints. *)
Theorem C117_files : forall pton p p', info_apart of_file p p' ->
  similar (fun ci ci' => forall entry, similar same_verdict (ReasonEntryViolatesConstraint entry ci) (ReasonEntryViolatesConstraint entry ci')) (P4ToConstraintInfo pton p) (P4ToConstraintInfo pton p').
Proof.
  intros pton p p' H. apply near_similar. eapply sim_mono; [|apply (load_place False of_file); [intros l l' K; now left|exact H]]. intros ci ci' K e. apply near_similar. now apply entry_near.
Qed.
Print Assumptions C117_files.
(** Files and lines: either outcomes agree, or one of the programs dies quoting several lines. *)
Theorem C117_lines_partial : forall pton p p', info_apart of_place p p' ->
  (similar (fun _ _ => True) (P4ToConstraintInfo pton p) (P4ToConstraintInfo pton p') \/ P4ToConstraintInfo pton p = Crash LengthError \/ P4ToConstraintInfo pton p' = Crash LengthError) /\
  (forall ci ci' entry, P4ToConstraintInfo pton p = Ok ci -> P4ToConstraintInfo pton p' = Ok ci' ->
    similar same_verdict (ReasonEntryViolatesConstraint entry ci) (ReasonEntryViolatesConstraint entry ci') \/ ReasonEntryViolatesConstraint entry ci = Crash LengthError \/ ReasonEntryViolatesConstraint entry ci' = Crash LengthError).
Proof.
  intros pton p p' H. assert (near True (moved_info True) (P4ToConstraintInfo pton p) (P4ToConstraintInfo pton p')) as L by (apply (load_place True of_place); [intros l l' K; right; split; [exact I|exact K]|exact H]). split.
  - apply (sim_mono _ (fun _ _ => True)) in L; [|auto]. apply near_iff in L. tauto.
  - intros ci ci' e E E'. rewrite E, E' in L. cbn [near] in L. pose proof (entry_near True ci ci' e L) as K. apply near_iff in K. tauto.
Qed.
Print Assumptions C117_lines_partial.
(** Constraints written in one line may stand anywhere. *)
Theorem C117_one_line : forall pton p p', info_apart of_place p p' -> pton_ok pton -> sane_widths p -> (forall ck cs, declares p ck cs -> one_line (cs_string cs)) ->
  similar (fun ci ci' => forall entry, similar same_verdict (ReasonEntryViolatesConstraint entry ci) (ReasonEntryViolatesConstraint entry ci')) (P4ToConstraintInfo pton p) (P4ToConstraintInfo pton p').
Proof.
  intros pton p p' H Hp Hw Hl. destruct (C117_lines_partial pton p p' H) as [HL HC].
  assert (forall {A} {R : A -> A -> Prop} l l', Forall2 R l l' -> forall y, In y l' -> exists x, In x l /\ R x y) as HF by (intros A R l l'; induction 1 as [|x y l l' Hx _ IH]; intros z Hz; [destruct Hz|destruct Hz as [<-|Hz]; [exists x; split; [now left|exact Hx]|destruct (IH _ Hz) as (u & Hu & Hr); exists u; split; [now right|exact Hr]]]).
  destruct H as [HT HA].
  assert (sane_widths p') as Hw'.
  { split; intros d' f Hd Hf; [destruct (HF _ _ _ _ HT d' Hd) as (d & Hin & _ & E)|destruct (HF _ _ _ _ HA d' Hd) as (d & Hin & _ & E)]; rewrite <- E in Hf; [exact (proj1 Hw _ _ Hin Hf)|exact (proj2 Hw _ _ Hin Hf)]. }
  assert (forall ck pre pre' cs', notes_apart of_place (pr_annotations pre) (pr_annotations pre') -> restricted ck pre' cs' -> exists cs, restricted ck pre cs /\ cs_string cs' = cs_string cs) as HR.
  { intros ck pre pre' cs' Ha Hr. apply extract_some in Hr. pose proof (extract_place True ck pre pre' (or_intror (conj I Ha))) as K. rewrite Hr in K. destruct (ExtractConstraint ck pre) as [[cs|]| |w] eqn:E; cbn [near] in K; try contradiction.
    - destruct K as (f & d & _ & _ & ->). exists cs. split; [now apply extract_some|reflexivity].
    - exfalso. clear - E. unfold ExtractConstraint in E. destruct (scan_annotations _ _ _ _) as [[? ?] ?]. destruct (String.eqb _ _); [discriminate|]. cbv zeta in E. destruct (match strip_prefix _ _ with Some _ => _ | None => _ end); [|discriminate]. destruct (contains_char _ _); discriminate. }
  assert (forall ck cs, declares p' ck cs -> one_line (cs_string cs)) as Hl'.
  { intros ck cs [d' cs' Hd Hr|d' cs' Hd Hr]; [destruct (HF _ _ _ _ HT d' Hd) as (d & Hin & [_ Ha] & _)|destruct (HF _ _ _ _ HA d' Hd) as (d & Hin & [_ Ha] & _)]; destruct (HR _ _ _ _ Ha Hr) as (c & Hc & ->); [exact (Hl _ _ (dc_table _ _ _ Hin Hc))|exact (Hl _ _ (dc_action _ _ _ Hin Hc))]. }
  destruct (C64_never_crashes pton p Hp Hw Hl) as (N1 & N2 & _). destruct (C64_never_crashes pton p' Hp Hw' Hl') as (N1' & N2' & _).
  destruct HL as [HL|[HL|HL]]; [|now elim (N1 _ HL)|now elim (N1' _ HL)].
  destruct (P4ToConstraintInfo pton p) as [ci| |] eqn:E, (P4ToConstraintInfo pton p') as [ci'| |] eqn:E'; cbn [similar] in *; try contradiction; try assumption.
  intros e. destruct (HC ci ci' e eq_refl eq_refl) as [K|[K|K]]; [exact K|now elim (N2 ci e _ eq_refl K)|now elim (N2' ci' e _ eq_refl K)].
Qed.
Print Assumptions C117_one_line.

(** Constraints of several lines may not: a violation that is explained when the constraint stands in line 9 ends the program when it stands in line 10. *)
Definition at_line (n : string) : p4info := mkP4Info [mkP4Table (mkPre 5 "t" ["@line(" ++ n ++ ")"; restriction "entry" ["x =="; "1"]]) [mkMF 1 "x" 8 (MMatchType MTExact)]] [].
Definition place_entry : p4_entry := mkEntry 5 [mkFM 1 (FMExact (str1 (ascii_of_N 2)))] None 0.
Definition place_ci : constraint_info := Eval vm_compute in the (mkInfo [] []) (P4ToConstraintInfo pton1 (at_line "8")).
Definition place_ci' : constraint_info := Eval vm_compute in the (mkInfo [] []) (P4ToConstraintInfo pton1 (at_line "9")).
Lemma at_line_apart n n' z z' : line_note ("@line(" ++ n ++ ")") z -> line_note ("@line(" ++ n' ++ ")") z' -> info_apart of_place (at_line n) (at_line n').
Proof.
  intros H H'. split; [|constructor]. constructor; [|constructor]. split; [|reflexivity]. split; [reflexivity|]. cbn [pt_preamble at_line pr_annotations].
  apply na_left; [right; now exists z|]. apply na_right; [right; now exists z'|]. apply na_same, na_end.
Qed.
Theorem C117_lines_refuted : exists p p' ci ci' entry text, info_apart of_place p p' /\ P4ToConstraintInfo pton1 p = Ok ci /\ P4ToConstraintInfo pton1 p' = Ok ci' /\
  ReasonEntryViolatesConstraint entry ci = Ok text /\ ReasonEntryViolatesConstraint entry ci' = Crash LengthError.
Proof.
  exists (at_line "8"), (at_line "9"), place_ci, place_ci', place_entry, (the "" (ReasonEntryViolatesConstraint place_entry place_ci)).
  split; [apply (at_line_apart "8" "9" 8 9); apply line_iff; vm_compute; reflexivity|]. split; [vm_compute; reflexivity|]. split; [vm_compute; reflexivity|]. split; vm_compute; reflexivity.
Qed.
Print Assumptions C117_lines_refuted.

(** A table and an action whose constraints, written in one line, move to another file and down that file. Entries are accepted, and refused with different texts. *)
Definition place_info (notes : list string) : p4info := mkP4Info
  [mkP4Table (mkPre 5 "t" (notes ++ [restriction "entry" ["x != 1"]])%list) [mkMF 1 "x" 8 (MMatchType MTExact)]]
  [mkP4ActionDecl (mkPre 7 "a" (restriction "action" ["v < 9"] :: notes)) [mkAP 1 "v" 8 ""]].
Definition place_notes : list string := ["@file(" ++ dq ++ "g.p4" ++ dq ++ ")"; "@line(12)"].
Definition place_a : constraint_info := Eval vm_compute in the (mkInfo [] []) (P4ToConstraintInfo pton1 (place_info [])).
Definition place_b : constraint_info := Eval vm_compute in the (mkInfo [] []) (P4ToConstraintInfo pton1 (place_info place_notes)).
Definition place_test (v w : N) : p4_entry := mkEntry 5 [mkFM 1 (FMExact (str1 (ascii_of_N v)))] (Some (TAction (mkP4Action 7 [(1%N, str1 (ascii_of_N w))]))) 0.
Lemma place_apart : info_apart of_place (place_info []) (place_info place_notes).
Proof.
  assert (of_place ("@file(" ++ dq ++ "g.p4" ++ dq ++ ")")) as H1 by (left; exists "g.p4"; apply file_iff; vm_compute; reflexivity).
  assert (of_place "@line(12)") as H2 by (right; exists 12%Z; apply line_iff; vm_compute; reflexivity).
  split; (constructor; [|constructor]); (split; [|reflexivity]); (split; [reflexivity|]).
  - apply na_right; [exact H1|]. apply na_right; [exact H2|]. apply na_same, na_end.
  - apply na_same. apply na_right; [exact H1|]. apply na_right; [exact H2|]. apply na_end.
Qed.
Example C117_case : info_apart of_place (place_info []) (place_info place_notes) /\ pton_ok pton1 /\ sane_widths (place_info []) /\ (forall ck cs, declares (place_info []) ck cs -> one_line (cs_string cs)) /\
  P4ToConstraintInfo pton1 (place_info []) = Ok place_a /\ P4ToConstraintInfo pton1 (place_info place_notes) = Ok place_b /\
  ReasonEntryViolatesConstraint (place_test 2 3) place_a = Ok "" /\ ReasonEntryViolatesConstraint (place_test 2 3) place_b = Ok "" /\
  (exists m m', ReasonEntryViolatesConstraint (place_test 1 3) place_a = Ok m /\ ReasonEntryViolatesConstraint (place_test 1 3) place_b = Ok m' /\ m <> "" /\ m <> m').
Proof.
  split; [exact place_apart|]. split; [exact pton1_ok|].
  split. { split; intros d f [<-|[]] [<-|[]]; cbn; lia. }
  split. { assert (forall s, existsb (fun c => Ascii.eqb c LF || Ascii.eqb c CR)%bool (chars s) = false -> one_line s) as Hx.
    { intros s H. split; intros Hin; assert (existsb (fun c => Ascii.eqb c LF || Ascii.eqb c CR)%bool (chars s) = true) as E by (apply existsb_exists; eexists; split; [exact Hin|reflexivity]); congruence. }
    intros ck cs [d cs' [<-|[]] Hr|d cs' [<-|[]] Hr]; apply extract_some in Hr; apply Hx;
      [assert (ExtractConstraint kTableConstraint (pt_preamble (mkP4Table (mkPre 5 "t" [restriction "entry" ["x != 1"]]) [])) = Ok (Some (mkCSource "x != 1" (mkLoc 0 0 (SrcTable "t"))))) as E by (vm_compute; reflexivity)
      |assert (ExtractConstraint kActionConstraint (mkPre 7 "a" [restriction "action" ["v < 9"]]) = Ok (Some (mkCSource "v < 9" (mkLoc 0 0 (SrcAction "a"))))) as E by (vm_compute; reflexivity)];
      cbn [pt_preamble pad_preamble app] in *; rewrite E in Hr; injection Hr as <-; reflexivity. }
  split; [vm_compute; reflexivity|]. split; [vm_compute; reflexivity|]. split; [vm_compute; reflexivity|]. split; [vm_compute; reflexivity|].
  exists (the "" (ReasonEntryViolatesConstraint (place_test 1 3) place_a)), (the "" (ReasonEntryViolatesConstraint (place_test 1 3) place_b)). split; [vm_compute; reflexivity|]. split; [vm_compute; reflexivity|]. split; vm_compute; discriminate.
Qed.
