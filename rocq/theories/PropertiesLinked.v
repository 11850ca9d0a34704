(** C60, continued: programs can be checked apart and put together. *)
From Coq Require Import String Ascii List ZArith NArith Bool Lia.
From Verif Require Import Base Num Token Ast AstConstructors Info ConstraintInfo Interpreter Z3 Symbolic SpecInfo SpecOrder InfoFacts InfoFacts2 PropertiesParser PropertiesInfo PropertiesVerdict PropertiesExplain PropertiesRobust PropertiesLocalSolver.
Import ListNotations.
Open Scope string_scope.

(** The declarations of [p] and those of [q]. *)
Definition linked (p q : p4info) : p4info := mkP4Info (p4_tables p ++ p4_tables q) (p4_actions p ++ p4_actions q).
Lemma nodup_linked {A} (f : A -> N) l m : NoDup (map f (l ++ m)) <-> NoDup (map f l) /\ NoDup (map f m) /\ forall x y, In x l -> In y m -> f x <> f y.
Proof.
  rewrite map_app. induction l as [|a l IH]; cbn [map app].
  - split; [intros H; split; [constructor|]; split; [exact H|intros ? ? []]|tauto].
  - rewrite !NoDup_cons_iff, IH, in_app_iff. split.
    + intros (H1 & H2 & H3 & H4). split; [tauto|]. split; [exact H3|]. intros x y [<-|Hx] Hy E; [apply H1; right; rewrite E; now apply in_map|exact (H4 x y Hx Hy E)].
    + intros ((H1 & H2) & H3 & H4). split; [|split; [exact H2|split; [exact H3|intros x y Hx; apply H4; now right]]]. intros [H|H]; [now apply H1|].
      apply in_map_iff in H as (y & E & Hy). exact (H4 a y (or_introl eq_refl) Hy (eq_sym E)).
Qed.
(** Two programs together load if and only if each does and they share no number. *)
Theorem C60_linked : forall pton p q,
  (exists ci, P4ToConstraintInfo pton (linked p q) = Ok ci) <->
  (exists ci, P4ToConstraintInfo pton p = Ok ci) /\ (exists ci, P4ToConstraintInfo pton q = Ok ci) /\
  (forall d d', In d (p4_tables p) -> In d' (p4_tables q) -> pr_id (pt_preamble d) <> pr_id (pt_preamble d')) /\
  (forall d d', In d (p4_actions p) -> In d' (p4_actions q) -> pr_id (pad_preamble d) <> pr_id (pad_preamble d')).
Proof.
  intros pton p q. rewrite !info_iff. cbn [linked p4_tables p4_actions]. rewrite !nodup_linked. split.
  - intros ((A & B & C) & (D & E & F) & H3 & H4). split; [|split; [|split; [exact C|exact F]]].
    + split; [exact A|split; [exact D|split; intros d Hd; [apply H3|apply H4]; apply in_app_iff; now left]].
    + split; [exact B|split; [exact E|split; intros d Hd; [apply H3|apply H4]; apply in_app_iff; now right]].
  - intros ((A & B & C & D) & (A' & B' & C' & D') & F & G). split; [now split|]. split; [now split|].
    split; intros d Hd; apply in_app_iff in Hd as [Hd|Hd]; auto.
Qed.
Print Assumptions C60_linked.
(** Each entry is then answered as by the one program that declares its table and its actions. *)
Theorem C60_linked_verdicts : forall pton p q r a entry, P4ToConstraintInfo pton (linked p q) = Ok a ->
  (r = p \/ r = q) -> (exists d, In d (p4_tables r) /\ pr_id (pt_preamble d) = pe_table_id entry) -> (forall x, In x (actions_of entry) -> exists d, In d (p4_actions r) /\ pr_id (pad_preamble d) = pa_id x) ->
  exists b, P4ToConstraintInfo pton r = Ok b /\ ReasonEntryViolatesConstraint entry a = ReasonEntryViolatesConstraint entry b.
Proof.
  intros pton p q r a entry Ha Hr (d0 & Hd0 & Hi0) Hact. destruct (proj1 (C60_linked pton p q) (ex_intro _ a Ha)) as (Hp & Hq & HT & HA).
  assert (exists b, P4ToConstraintInfo pton r = Ok b) as (b & Hb) by (destruct Hr as [-> | ->]; assumption). exists b. split; [exact Hb|].
  apply (C60_local pton (linked p q) r a b entry Ha Hb); cbn [linked p4_tables p4_actions].
  - intros d Hd. rewrite in_app_iff. unfold table_id in Hd. destruct Hr as [-> | ->]; (split; [intros [H|H]|auto]); try exact H; exfalso.
    + apply (HT d0 d Hd0 H). congruence.
    + apply (HT d d0 H Hd0). congruence.
  - intros x d Hx Hd. rewrite in_app_iff. unfold action_id in Hd. destruct (Hact x Hx) as (d1 & Hd1 & Hi1). destruct Hr as [-> | ->]; (split; [intros [H|H]|auto]); try exact H; exfalso.
    + apply (HA d1 d Hd1 H). congruence.
    + apply (HA d d1 H Hd1). congruence.
Qed.
Print Assumptions C60_linked_verdicts.
(** So is each solver. *)
Theorem C60_linked_solver : forall check pton p q r a id skip requests, P4ToConstraintInfo pton (linked p q) = Ok a ->
  (r = p \/ r = q) -> (exists d, In d (p4_tables r) /\ pr_id (pt_preamble d) = id) ->
  exists b t t', P4ToConstraintInfo pton r = Ok b /\ GetTableInfoOrNull a id = Some t /\ GetTableInfoOrNull b id = Some t' /\ conversation check pton t skip requests = conversation check pton t' skip requests.
Proof.
  intros check pton p q r a id skip requests Ha Hr (d0 & Hd0 & Hi0). destruct (proj1 (C60_linked pton p q) (ex_intro _ a Ha)) as (Hp & Hq & HT & HA).
  assert (exists b, P4ToConstraintInfo pton r = Ok b) as (b & Hb) by (destruct Hr as [-> | ->]; assumption). exists b.
  assert (forall d, table_id d = id -> (In d (p4_tables (linked p q)) <-> In d (p4_tables r))) as Hin.
  { intros d Hd. cbn [linked p4_tables]. rewrite in_app_iff. unfold table_id in Hd. destruct Hr as [-> | ->]; (split; [intros [H|H]|auto]); try exact H; exfalso; [apply (HT d0 d Hd0 H)|apply (HT d d0 H Hd0)]; congruence. }
  pose proof (C60_solver check pton (linked p q) r a b id skip requests Ha Hb Hin) as HS. destruct (C37_exact pton r b Hb) as (HE & _). destruct (HE d0 Hd0) as (ks & t' & Ht' & _). unfold table_id in Ht'. rewrite Hi0 in Ht'. rewrite Ht' in HS.
  destruct (GetTableInfoOrNull a id) as [t|]; [|contradiction]. exists t, t'. auto.
Qed.
Print Assumptions C60_linked_solver.

(** Two programs with a table and an action each, and what happens if a number is used in both. *)
Definition half (n : N) (c : string) : p4info := mkP4Info
  [mkP4Table (mkPre n "t" [restriction "entry" [c]]) [mkMF 1 "x" 8 (MMatchType MTExact)]]
  [mkP4ActionDecl (mkPre (n + 100) "a" [restriction "action" ["v < 9"]]) [mkAP 1 "v" 8 ""]].
Definition half_test (n v w : N) : p4_entry := mkEntry n [mkFM 1 (FMExact (str1 (ascii_of_N v)))] (Some (TAction (mkP4Action (n + 100) [(1%N, str1 (ascii_of_N w))]))) 0.
Definition halves : constraint_info := Eval vm_compute in the (mkInfo [] []) (P4ToConstraintInfo pton1 (linked (half 5 "x != 1") (half 6 "x == 1"))).
Example C60_linked_case : P4ToConstraintInfo pton1 (linked (half 5 "x != 1") (half 6 "x == 1")) = Ok halves /\
  (forall ci, P4ToConstraintInfo pton1 (linked (half 5 "x != 1") (half 5 "x == 1")) <> Ok ci) /\
  ReasonEntryViolatesConstraint (half_test 5 2 3) halves = Ok "" /\ ReasonEntryViolatesConstraint (half_test 6 1 3) halves = Ok "" /\
  (exists m, ReasonEntryViolatesConstraint (half_test 6 2 3) halves = Ok m /\ m <> "") /\ (exists m, ReasonEntryViolatesConstraint (half_test 6 1 9) halves = Ok m /\ m <> "").
Proof.
  split; [vm_compute; reflexivity|]. split.
  { intros ci H. destruct (proj1 (C60_linked _ _ _) (ex_intro _ ci H)) as (_ & _ & HT & _). apply (HT _ _ (or_introl eq_refl) (or_introl eq_refl)). reflexivity. }
  split; [vm_compute; reflexivity|]. split; [vm_compute; reflexivity|].
  split; [exists (the "" (ReasonEntryViolatesConstraint (half_test 6 2 3) halves))|exists (the "" (ReasonEntryViolatesConstraint (half_test 6 1 9) halves))]; (split; [vm_compute; reflexivity|vm_compute; discriminate]).
Qed.
