(** C62, continued: renaming keys does not change what the solver decides. *)
From Coq Require Import String Ascii List ZArith NArith Bool Lia Permutation.
From Verif Require Import Base Num Token Ast AstConstructors Parser Quote Info TypeChecker ConstraintInfo Interpreter Z3 Symbolic SpecLexer SpecGrammar SpecParser SpecTyping SpecSemantics SpecSymbolic SpecSolver SpecReading SpecRobust SpecSession SpecMissed SpecShared SpecRenamedSolver SpecInfo SpecSolver SpecGrammar SpecSolver
  LiteralFacts SymFacts SkipFacts ReadingFacts3 RenameFacts SymDemo PropertiesParser PropertiesVerdict PropertiesInfo PropertiesReading PropertiesShared.
Import ListNotations.
Open Scope string_scope.

Lemma names_flip skip skip' ks ks' : same_but_names skip skip' ks ks' -> same_but_names skip' skip ks' ks.
Proof. induction 1 as [|k k' l l' (E1 & E2 & E3) H IH]; constructor; auto. Qed.
Lemma new_flip ks ks' n n' : new_name ks ks' n n' -> new_name ks' ks n' n.
Proof. intros (k & k' & Hi & E1 & E2). exists k', k. split; [now apply combine_flip|auto]. Qed.
Lemma in_pair {A B} (R : A -> B -> Prop) l m x : Forall2 R l m -> In x l -> exists y, In (x, y) (combine l m) /\ R x y.
Proof. induction 1 as [|a b l m Hab H IH]; intros Hi; [destruct Hi|]. destruct Hi as [->|Hi]; [exists b; split; [now left|exact Hab]|]. destruct (IH Hi) as (y & ? & ?). exists y. split; [now right|auto]. Qed.
Lemma pair_rel {A B} (R : A -> B -> Prop) l m x y : Forall2 R l m -> In (x, y) (combine l m) -> R x y.
Proof. induction 1 as [|a b l m Hab H IH]; intros Hi; [destruct Hi|]. destruct Hi as [[= -> ->]|Hi]; auto. Qed.
Lemma one_name (ks : list key_info) k1 k2 : NoDup (map k_name ks) -> In k1 ks -> In k2 ks -> k_name k1 = k_name k2 -> k1 = k2.
Proof.
  induction ks as [|k ks IH]; intros HN H1 H2 E; [destruct H1|]. cbn in HN. inversion HN as [|? ? Hn HN2]; subst. destruct H1 as [->|H1], H2 as [->|H2]; auto; exfalso; apply Hn; [rewrite E|rewrite <- E]; now apply in_map.
Qed.
Lemma table_declared t ks n ty : table_keys t ks -> (declared (ti_keys_by_name t) n ty <-> exists k, In k ks /\ k_name k = n /\ k_type k = ty).
Proof.
  intros HK. unfold declared. split.
  - intros (k & Hi & E). apply (tk_by_name _ _ HK) in Hi. apply in_map_iff in Hi as (k2 & [= En ->] & Hk). eauto.
  - intros (k & Hk & <- & <-). exists k. split; [|reflexivity]. apply (tk_by_name _ _ HK). apply in_map_iff. eauto.
Qed.
Section Renaming.
  Variables (t t' : table_info) (ks ks' : list key_info) (skip skip' : string -> outcome bool).
  Hypothesis HK : table_keys t ks.
  Hypothesis HK' : table_keys t' ks'.
  Hypothesis HS : same_but_names skip skip' ks ks'.
  Lemma live_renamed k k' : In (k, k') (combine ks ks') -> In k (live_keys skip ks) -> In k' (live_keys skip' ks').
  Proof.
    intros Hi Hl. apply live_in_keys in Hl as [_ Hl]. apply live_in_keys. split; [exact (in_combine_r _ _ _ _ Hi)|]. destruct (pair_rel _ _ _ _ _ HS Hi) as (_ & _ & E). unfold live in *. now rewrite <- E.
  Qed.
  Lemma live_f2 : Forall2 (fun k k' => k_id k = k_id k' /\ k_type k = k_type k') (live_keys skip ks) (live_keys skip' ks').
  Proof.
    clear HK HK'. induction HS as [|k k' l l' (E1 & E2 & E3) H IH]; [constructor|]. unfold live_keys in *. cbn [filter]. rewrite <- E3. destruct (skip (k_name k)) as [[|]| |]; auto.
  Qed.
  Lemma names_in n n' k : new_name ks ks' n n' -> In k ks -> k_name k = n -> exists k', In (k, k') (combine ks ks') /\ k_name k' = n' /\ k_id k = k_id k' /\ k_type k = k_type k'.
  Proof.
    intros (k1 & k1' & Hi & E1 & E2) Hk En. assert (k1 = k) as -> by (apply (one_name ks); [exact (tk_names _ _ HK)|exact (in_combine_l _ _ _ _ Hi)|exact Hk|congruence]). exists k1'. split; [exact Hi|]. split; [exact E2|]. destruct (pair_rel _ _ _ _ _ HS Hi) as (? & ? & _). auto.
  Qed.
  Lemma assigned_renamed fields n n' v : new_name ks ks' n n' -> Assigned (live_keys skip ks) fields n v -> Assigned (live_keys skip' ks') fields n' v.
  Proof.
    intros HR HA. inversion HA as [k f v' Hk Hf Hid Hfv|k v' Hk Ho Hw]; subst; pose proof (proj1 (proj1 (live_in_keys _ _ _) Hk)) as Hk0; destruct (names_in _ n' k HR Hk0 eq_refl) as (k' & Hi & En & Ei & Et); rewrite <- En; pose proof (live_renamed _ _ Hi Hk) as Hk'.
    - eapply as_present; [exact Hk'|exact Hf|congruence|now rewrite <- Et].
    - apply as_omitted; [exact Hk'|intros f Hf; rewrite <- Ei; now apply Ho|now rewrite <- Et].
  Qed.
  Lemma wf_renamed fields : well_formed (live_keys skip ks) fields -> well_formed (live_keys skip' ks') fields.
  Proof.
    intros [W1 W2 W3]. split; [exact W1| |].
    - intros f Hf. destruct (W2 f Hf) as (k & v & Hk & Hid & Hv). destruct (f2_left _ _ _ _ live_f2 Hk) as (k' & Hk' & E1 & E2). exists k', v. split; [exact Hk'|]. split; [congruence|]. now rewrite <- E2.
    - intros k' Hk' Ho. destruct (RetoldFacts.forall2_other _ _ _ _ live_f2 Hk') as (k & Hk & E1 & E2). rewrite <- E2. apply W3; [exact Hk|]. intros f Hf. rewrite E1. now apply Ho.
  Qed.
  Lemma prioritized_renamed : prioritized ks -> prioritized ks'.
  Proof. intros (k & w & Hk & Ht). destruct (in_pair _ _ _ _ HS Hk) as (k' & Hi & _ & E & _). exists k', w. split; [exact (in_combine_r _ _ _ _ Hi)|]. now rewrite <- E. Qed.
  Lemma typed_key m m' n n' ty : new_name ks ks' n n' -> Typed (InTable (ti_keys_by_name t)) (EKey m n) ty -> Typed (InTable (ti_keys_by_name t')) (EKey m' n') ty.
  Proof.
    intros HR Ht. inversion Ht as [| |keys ? ? ? EG Hd Hus| | | | | | | |]; subst. injection EG as <-. apply (table_declared _ _ _ _ HK) in Hd as (k & Hk & En & Et). destruct (names_in n n' k HR Hk En) as (k' & Hi & En' & _ & Et').
    econstructor; [reflexivity| |exact Hus]. apply (table_declared _ _ _ _ HK'). exists k'. split; [exact (in_combine_r _ _ _ _ Hi)|]. split; [exact En'|congruence].
  Qed.
  Lemma typed_param m m' n n' ty : new_name ks ks' n n' -> Typed (InTable (ti_keys_by_name t)) (EParam m n) ty -> Typed (InTable (ti_keys_by_name t')) (EParam m' n') ty.
  Proof. intros _ Ht. inversion Ht. discriminate. Qed.
  Lemma solvable_renamed e e' : Renamed (new_name ks ks') e e' -> solvable t ks skip e -> solvable t' ks' skip' e'.
  Proof.
    intros HR (S1 & S2 & S3 & S4). split; [exact (renamed_typed _ _ _ typed_key typed_param _ _ HR _ S1)|]. split; [|split].
    - clear S1 S3 S4. induction HR; cbn [literals] in *; tauto.
    - clear S1 S2 S4. intros n' Hm. assert (exists n, mentions e n /\ new_name ks ks' n n') as (n & Hn & Hr).
      { clear S3. induction HR; inversion Hm; subst; eauto using mentions;
          match goal with IH : mentions _ ?x -> _, H : mentions _ ?x |- _ => destruct (IH H) as (? & ? & ?); eauto using mentions end. }
      destruct (S3 n Hn) as (k & Hk & En). destruct (names_in n n' k Hr (proj1 (proj1 (live_in_keys _ _ _) Hk)) En) as (k' & Hi & En' & _). exists k'. split; [exact (live_renamed _ _ Hi Hk)|exact En'].
    - intros Ha. apply prioritized_renamed. apply S4. clear - HR Ha. induction HR; inversion Ha; subst; eauto using has_attribute.
  Qed.
  Lemma solution_renamed l l' fields p : int32_widths ks' -> (forall k', In k' ks' -> prioritized ks' -> prioritized ks) -> Forall2 (Renamed (new_name ks ks')) l l' -> solution t ks skip l fields p -> solution t' ks' skip' l' fields p.
  Proof.
    intros Hw Hb HR (W & P & key & Hkey & HM). pose proof (wf_renamed _ W) as W'. split; [exact W'|]. split. { intros Hp. apply P. pose proof Hp as (k & _ & Hk & _). exact (Hb k Hk Hp). }
    assert (consistent (live_keys skip' ks') fields) as HC by (apply live_formed; [intros k w Hk Hkw; apply (Hw k w Hk Hkw)|exact W']).
    assert (forall {A} (f : key_info -> A), NoDup (map f ks') -> NoDup (map f (live_keys skip' ks'))) as HF.
    { intros A f. unfold live_keys. clear. induction ks' as [|k l IH]; cbn [map filter]; [auto|]. intros HN. inversion HN as [|? ? Hn HN2]; subst. destruct (match skip' (k_name k) with Ok false => true | _ => false end); [|auto]. cbn. constructor; [|auto]. intros Hi. apply Hn. apply in_map_iff in Hi as (x & E & Hx). apply filter_In in Hx as [Hx _]. apply in_map_iff. eauto. }
    destruct (key_function (live_keys skip' ks') fields (HF _ _ (tk_ids _ _ HK')) (HF _ _ (tk_names _ _ HK')) HC) as (key' & Hkey'). exists key'. split; [exact Hkey'|].
    clear - HK HK' HS HR HM Hkey Hkey'. induction HR as [|e e' l l' He HR IH]; [constructor|]. inversion HM as [|? ? H1 H2]; subst. constructor; [|auto].
    refine (renamed_meant _ _ _ typed_key typed_param signed_order (TableEnv key p) (TableEnv key' p) _ _ _ e e' He _ H1).
    - intros m m' n n' v Hr Hv. inversion Hv as [| |k0 p0 ? ? ? Er Ek| | | | | | | |]; subst. injection Er as <- <-. econstructor; [reflexivity|]. apply Hkey'. apply Hkey in Ek. exact (assigned_renamed _ _ _ _ Hr Ek).
    - intros m m' n n' v _ Hv. inversion Hv. discriminate.
    - intros m m' n v Hv. inversion Hv as [| | | |k0 p0 ? Er| | | | | |]; subst. injection Er as <- <-. econstructor. reflexivity.
  Qed.
End Renaming.
Lemma widths_renamed skip skip' ks ks' : same_but_names skip skip' ks ks' -> int32_widths ks -> int32_widths ks'.
Proof. intros HS Hw k' w Hk Hkw. apply names_flip in HS. destruct (in_pair _ _ _ _ HS Hk) as (k & Hi & _ & E & _). rewrite E in Hkw. exact (Hw k w (in_combine_r _ _ _ _ Hi) Hkw). Qed.
Lemma renamed_list_flip ks ks' l l' : Forall2 (Renamed (new_name ks ks')) l l' -> Forall2 (Renamed (new_name ks' ks)) l' l.
Proof. induction 1; constructor; auto. eapply renamed_mono; [|apply renamed_flip; eassumption]. cbn. intros. now apply new_flip. Qed.

(** Two tables whose keys differ in their names only, and constraints that differ in these names only. They have the same solutions. *)
Theorem C62_solutions : forall t t' ks ks' skip skip' l l' fields p, table_keys t ks -> table_keys t' ks' -> int32_widths ks -> same_but_names skip skip' ks ks' ->
  Forall2 (Renamed (new_name ks ks')) l l' -> (solution t ks skip l fields p <-> solution t' ks' skip' l' fields p).
Proof.
  intros t t' ks ks' skip skip' l l' fields p HK HK' Hw HS HR. pose proof (names_flip _ _ _ _ HS) as HS'. split; intros H.
  - refine (solution_renamed t t' ks ks' skip skip' HK HK' HS l l' fields p (widths_renamed _ _ _ _ HS Hw) _ HR H). intros _ _. exact (prioritized_renamed _ _ _ _ HS').
  - refine (solution_renamed t' t ks' ks skip' skip HK' HK HS' l' l fields p Hw _ (renamed_list_flip _ _ _ _ HR) H). intros _ _. exact (prioritized_renamed _ _ _ _ HS).
Qed.
Print Assumptions C62_solutions.

(** Solvers for both tables, to which constraints have been added that differ in names only, answer alike, unless Z3 overlooks a model. *)
Theorem C62_decides : forall check check' pton t t' ks ks' skip skip' cs cs' l l' l0 l0' text text' e e', pton_ok pton -> sound_solver check -> sound_solver check' ->
  table_keys t ks -> table_keys t' ks' -> int32_widths ks -> same_but_names skip skip' ks ks' -> apart (live_keys skip ks) -> apart (live_keys skip' ks') ->
  History check pton t skip cs l -> written t l0 l -> History check' pton t' skip' cs' l' -> written t' l0' l' -> Forall2 (Renamed (new_name ks ks')) l0 l0' ->
  reads_as pton kTableConstraint (text_source t text) e -> reads_as pton kTableConstraint (text_source t' text') e' -> Renamed (new_name ks ks') e e' -> solvable t ks skip e ->
  ~ overlooks check pton cs text -> ~ overlooks check' pton cs' text' ->
  exists b c c', AddConstraintString check pton cs text = (Ok b, c) /\ AddConstraintString check' pton cs' text' = (Ok b, c').
Proof.
  intros check check' pton t t' ks ks' skip skip' cs cs' l l' l0 l0' text text' e e' Hp S S' HK HK' Hw HS A A' H W H' W' HR R R' He Hsol O O'.
  destruct (C59_decides check pton t ks skip cs l l0 text e Hp HK Hw S A H W R Hsol O) as (b & c & E & Hb).
  destruct (C59_decides check' pton t' ks' skip' cs' l' l0' text' e' Hp HK' (widths_renamed _ _ _ _ HS Hw) S' A' H' W' R' (solvable_renamed _ _ _ _ _ _ HK HK' HS _ _ He Hsol) O') as (b' & c' & E' & Hb').
  assert (b = b') as <-; [|eauto]. assert (b = true <-> b' = true) as Hbb; [|destruct b, b'; intuition congruence].
  rewrite Hb, Hb'. assert (Forall2 (Renamed (new_name ks ks')) (l0 ++ [e]) (l0' ++ [e'])) as HR2 by (apply Forall2_app; auto). split; intros (fields & p & Hs); exists fields, p; apply (C62_solutions t t' ks ks' skip skip' _ _ fields p HK HK' Hw HS HR2); exact Hs.
Qed.
Print Assumptions C62_decides.

(** Every entry that the one solver produces can be produced by the other, given the right model, up to the order of match fields. *)
Theorem C62_entries : forall check check' pton t t' ks ks' skip skip' cs cs' l l' l0 l0' entry, sound_solver check -> table_keys t ks -> table_keys t' ks' -> int32_widths ks ->
  (forall k, In k (live_keys skip' ks') -> representable k) -> same_but_names skip skip' ks ks' -> apart (live_keys skip' ks') ->
  History check pton t skip cs l -> written t l0 l -> History check' pton t' skip' cs' l' -> written t' l0' l' -> Forall2 (Renamed (new_name ks ks')) l0 l0' ->
  ConcretizeEntry check cs = Ok entry ->
  exists check2 entry', sound_solver check2 /\ ConcretizeEntry check2 cs' = Ok entry' /\ Permutation (pe_match entry) (pe_match entry') /\ (prioritized ks -> pe_priority entry' = pe_priority entry).
Proof.
  intros check check' pton t t' ks ks' skip skip' cs cs' l l' l0 l0' entry S HK HK' Hw Hrep HS A' H W H' W' HR E.
  pose proof (C59_entries check pton t ks skip cs l l0 entry HK Hw S H W E) as Hs. apply (C62_solutions t t' ks ks' skip skip' l0 l0' _ _ HK HK' Hw HS HR) in Hs.
  pose proof (C88_apart t' ks' skip' l0' _ _ HK' Hrep A' Hs) as Hc.
  destruct (C88_possible check' pton t' ks' skip' cs' l' l0' _ _ HK' (widths_renamed _ _ _ _ HS Hw) H' W' (conj Hs Hc)) as (check2 & entry' & S2 & E2 & P2 & _ & Pr). exists check2, entry'. split; [exact S2|]. split; [exact E2|]. split; [exact P2|].
  intros Hpr. apply Pr. exact (prioritized_renamed _ _ _ _ HS Hpr).
Qed.
Print Assumptions C62_entries.

(** Solvers for the two tables can both be made, or neither, unless Z3 misses a model. *)
Theorem C62_creates : forall check check' t t' ks ks' skip skip' l0 l0', sound_solver check -> sound_solver check' -> table_keys t ks -> table_keys t' ks' -> int32_widths ks -> same_but_names skip skip' ks ks' ->
  apart (live_keys skip ks) -> apart (live_keys skip' ks') -> (forall k, In k ks -> skipped skip k \/ live skip k /\ representable k) ->
  written t l0 (match ti_constraint t with Some e => [e] | None => [] end) -> written t' l0' (match ti_constraint t' with Some e => [e] | None => [] end) ->
  Forall (solvable t ks skip) l0 -> Forall2 (Renamed (new_name ks ks')) l0 l0' -> ~ misses_creating check t skip -> ~ misses_creating check' t' skip' ->
  ((exists cs, Create check t skip = Ok cs) <-> (exists cs', Create check' t' skip' = Ok cs')).
Proof.
  intros check check' t t' ks ks' skip skip' l0 l0' S S' HK HK' Hw HS A A' Hr W W' Hsol HR M M'.
  destruct (C59_create check t ks skip l0 HK Hw S A Hr W Hsol) as [H1 H2].
  assert (forall k, In k ks' -> skipped skip' k \/ live skip' k /\ representable k) as Hr'.
  { intros k' Hk'. destruct (in_pair _ _ _ _ (names_flip _ _ _ _ HS) Hk') as (k & Hi & _ & Et & Es). unfold skipped, live, representable. rewrite Es, Et. exact (Hr k (in_combine_r _ _ _ _ Hi)). }
  assert (Forall (solvable t' ks' skip') l0') as Hsol'. { clear - HR Hsol HK HK' HS. induction HR as [|e e' l l' He HR IH]; [constructor|]. inversion Hsol as [|? ? X Y]; subst. constructor; [exact (solvable_renamed _ _ _ _ _ _ HK HK' HS _ _ He X)|exact (IH Y)]. }
  destruct (C59_create check' t' ks' skip' l0' HK' (widths_renamed _ _ _ _ HS Hw) S' A' Hr' W' Hsol') as [H1' H2'].
  pose proof (fun fields p => C62_solutions t t' ks ks' skip skip' l0 l0' fields p HK HK' Hw HS HR) as HE. split; intros H.
  - destruct (H1 H) as (fields & p & Hs). destruct H2' as [H3|H3]; [exists fields, p; now apply HE|exact H3|contradiction].
  - destruct (H1' H) as (fields & p & Hs). destruct H2 as [H3|H3]; [exists fields, p; now apply HE|exact H3|contradiction].
Qed.
Print Assumptions C62_creates.

(** * Cases *)
Lemma eval_any env src src' e : forall r, EvalSymbolically env src e = Ok r -> EvalSymbolically env src' e = Ok r.
Proof.
  assert (forall a r t, to_term src a r = Ok t -> to_term src' a r = Ok t) as HT by (intros a r t H; apply to_term_ok in H as ->; reflexivity).
  induction e; cbn [EvalSymbolically]; intros r0 H; try exact H;
    repeat match goal with H : bind _ _ = Ok _ |- _ => apply SemFacts.bind_ok in H as (? & ? & ?) end;
    repeat match goal with IH : forall r, EvalSymbolically _ src ?a = Ok r -> _, H : EvalSymbolically _ src ?a = Ok _ |- _ => rewrite (IH _ H); clear H end; cbn [bind];
    repeat match goal with H : to_term src _ _ = Ok _ |- _ => rewrite (HT _ _ _ H); clear H end; cbn [bind];
    repeat match goal with H : ?x = Ok _ |- bind ?x _ = _ => rewrite H; cbn [bind] end; auto.
Qed.
Lemma attentive check pton cs text cs' : AddConstraintString check pton cs text = (Ok true, cs') -> ~ overlooks check pton cs text.
Proof.
  intros H (q & Hq & _ & Hc). unfold AddConstraintString in H. fold (text_source (cs_table cs) text) in H. cbv zeta in H. destruct (let* e := _ in _) as [e| |] eqn:E; try discriminate H. apply SemFacts.bind_ok in E as (e0 & E1 & E2).
  unfold AddConstraint in H. destruct (is_sat check (cs_stack cs)) eqn:S1; [|discriminate H]. cbn [negb] in H. destruct (EvaluateConstraintSymbolically _ _ e) as [u| |] eqn:E3; try discriminate H. destruct (negb _); [discriminate H|]. cbv zeta in H. destruct (is_sat check (solver_add _ _)) eqn:S2; [|discriminate H].
  destruct Hq as [->|(e0' & e' & src & u' & F1 & F2 & F3 & ->)].
  - unfold is_sat in S1. rewrite Hc in S1. discriminate S1.
  - rewrite E1 in F1. apply Ok_inj in F1 as <-. rewrite E2 in F2. apply Ok_inj in F2 as <-. assert (u' = u) as ->.
    { unfold EvaluateConstraintSymbolically in *. destruct (negb _); [discriminate|]. apply SemFacts.bind_ok in E3 as (r & R1 & R2). apply SemFacts.bind_ok in F3 as (r' & R1' & R2'). apply (eval_any _ _ (text_source (cs_table cs) text)) in R1'. rewrite R1 in R1'. apply Ok_inj in R1' as <-. apply to_term_ok in R2. apply to_term_ok in R2'. congruence. }
    unfold is_sat in S2. cbn [solver_add solver_push] in S2. change ([] ++ [u])%list with [u] in S2. rewrite SymState.assertions_push, Hc in S2. discriminate S2.
Qed.
(** The table with keys of all kinds, where the names of an exact and an LPM key are swapped and the skipped key is called otherwise. *)
Definition rs_text : string := "l != 0 && (t::mask == 0 || ::priority > 3) && e::prefix_length >= 8".
Definition rs_decl : p4_table := mkP4Table (mkPre 3 "sy" [restriction "entry" [rs_text]])
  [mkMF 1 "l" 8 (MMatchType MTExact); mkMF 2 "t" 16 (MMatchType MTTernary); mkMF 3 "x" 4 (MMatchType MTRange); mkMF 4 "e" 32 (MMatchType MTLpm); mkMF 5 "o" 9 (MMatchType MTOptional)].
Definition rs_keys : list key_info := [mkKey 1 "l" (TExact 8); mkKey 2 "t" (TTernary 16); mkKey 3 "x" (TRange 4); mkKey 4 "e" (TLpm 32); mkKey 5 "o" (TOptional 9)].
Definition rs_ci : constraint_info := Eval vm_compute in the (mkInfo [] []) (P4ToConstraintInfo pton1 (mkP4Info [rs_decl] [])).
Definition rs_table : table_info := Eval vm_compute in match GetTableInfoOrNull rs_ci 3 with Some t => t | None => no_table end.
Definition rs_skip : string -> outcome bool := fun n => Ok (String.eqb n "x").
Definition rs_check : solver := candidate (listed [(("l", SBV 8), 7%Z); (("t", SBV 16), 258%Z); (("t_mask", SBV 16), 1282%Z); (("e", SBV 32), 167772160%Z); (("e_prefix_length", SInt), 8%Z); (("o", SBV 9), 300%Z); (("o_mask", SBV 9), 511%Z); (("priority", SInt), 12%Z)]).
Definition rs_cs : constraint_solver := the (mkCS no_table (mkEnv [] []) never_skip []) (Create rs_check rs_table rs_skip).
Definition rs_tree : expr := Eval vm_compute in the no_expr (ParseConstraint pton1 kTableConstraint (mkCSource rs_text (mkLoc 0 0 (SrcTable "sy")))).
Definition rs_checked : expr := Eval vm_compute in match ti_constraint rs_table with Some e => e | None => no_expr end.
Definition rs_more : string := "l::value != 9 && o::mask == 511 -> ::priority <= 12".
Definition rs_more_tree : expr := Eval vm_compute in the no_expr (ParseConstraint pton1 kTableConstraint (text_source rs_table rs_more)).
Definition rs_cs2 : constraint_solver := snd (AddConstraintString rs_check pton1 rs_cs rs_more).
Lemma rs_created : Create rs_check rs_table rs_skip = Ok rs_cs.
Proof. vm_compute. reflexivity. Qed.
Lemma rs_added : AddConstraintString rs_check pton1 rs_cs rs_more = (Ok true, rs_cs2).
Proof. vm_compute. reflexivity. Qed.
Lemma rs_parsed : ParseConstraint pton1 kTableConstraint (mkCSource rs_text (mkLoc 0 0 (SrcTable "sy"))) = Ok rs_tree.
Proof. vm_compute. reflexivity. Qed.
Definition rs_names := new_name sy_keys rs_keys.
Lemma rs_new : rs_names "e" "l" /\ rs_names "l" "e" /\ rs_names "t" "t" /\ rs_names "o" "o".
Proof.
  split; [exists (mkKey 1 "e" (TExact 8)), (mkKey 1 "l" (TExact 8))|split; [exists (mkKey 4 "l" (TLpm 32)), (mkKey 4 "e" (TLpm 32))|split; [exists (mkKey 2 "t" (TTernary 16)), (mkKey 2 "t" (TTernary 16))|exists (mkKey 5 "o" (TOptional 9)), (mkKey 5 "o" (TOptional 9))]]]; cbn; tauto.
Qed.
Example C62_solver_case : table_keys sy_table sy_keys /\ table_keys rs_table rs_keys /\ int32_widths sy_keys /\ same_but_names sy_skip rs_skip sy_keys rs_keys /\ sound_solver sy_check /\ sound_solver rs_check /\
  apart (live_keys sy_skip sy_keys) /\ apart (live_keys rs_skip rs_keys) /\ History sy_check pton1 sy_table sy_skip sy_cs [sy_checked] /\ History rs_check pton1 rs_table rs_skip rs_cs [rs_checked] /\
  written sy_table [sy_tree] [sy_checked] /\ written rs_table [rs_tree] [rs_checked] /\ Renamed rs_names sy_tree rs_tree /\ Renamed rs_names sy_more_tree rs_more_tree /\
  reads_as pton1 kTableConstraint (text_source rs_table rs_more) rs_more_tree /\ ~ overlooks sy_check pton1 sy_cs sy_more /\ ~ overlooks rs_check pton1 rs_cs rs_more /\
  AddConstraintString rs_check pton1 rs_cs rs_more = (Ok true, rs_cs2) /\ (forall k, In k (live_keys rs_skip rs_keys) -> representable k).
Proof.
  destruct rs_new as (N1 & N2 & N3 & N4).
  split; [exact sy_table_keys|]. split; [split; try (intros x; cbn; tauto); repeat constructor; cbn; intuition discriminate|]. split; [exact sy_widths|]. split; [repeat constructor|]. split; [exact sy_sound|]. split; [apply candidate_sound, listed_sorted|].
  split; [repeat constructor; cbn; intuition discriminate|]. split; [repeat constructor; cbn; intuition discriminate|].
  split. { pose proof (hi_create sy_check pton1 sy_table sy_skip sy_cs sy_created) as H. exact H. }
  split. { pose proof (hi_create rs_check pton1 rs_table rs_skip rs_cs rs_created) as H. exact H. }
  split. { constructor; [split; [exact (proj1 sy_inferred)|exact (proj1 sy_literals)]|constructor]. }
  split. { constructor; [split; [vm_compute; reflexivity|exact (InterpFacts.parse_literals _ _ _ _ pton1_ok rs_parsed)]|constructor]. }
  split. { unfold sy_tree, rs_tree. repeat match goal with |- Renamed _ _ _ => constructor; try assumption end. }
  split. { unfold sy_more_tree, rs_more_tree. repeat match goal with |- Renamed _ _ _ => constructor; try assumption end. }
  split. { apply (C08_parser_iff_grammar pton1 _ _ _ pton1_ok). vm_compute. reflexivity. }
  split; [exact (attentive _ _ _ _ _ sy_added)|]. split; [exact (attentive _ _ _ _ _ rs_added)|]. split; [exact rs_added|].
  intros k Hk. cbn in Hk. repeat (destruct Hk as [<-|Hk]; [eexists; split; [|tauto + (right; tauto)]; reflexivity|]). contradiction.
Qed.
