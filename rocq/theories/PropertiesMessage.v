(** What a rejection message tells (C82, C83). *)
From Coq Require Import String Ascii List ZArith NArith Bool Lia Sorted.
From Verif Require Import Base Num Token Ast Lexer Quote AstConstructors Parser Info TypeChecker ConstraintInfo Interpreter SpecLexer SpecGrammar SpecParser SpecQuote SpecTyping SpecSemantics SpecInfo SpecExplain SpecCrash SpecReading SpecOutcome
  StrFacts ParserFacts4 RenameFacts InfoFacts2 InterpFacts2 ReadingFacts2 PropertiesParser PropertiesVerdict PropertiesExplain PropertiesCrash OutcomeFacts3 OutcomeFacts5 PropertiesOutcome IntervalFacts MessageFacts MessageFacts2.
Import ListNotations.
Open Scope string_scope.

(** * C82 *)
(** Different parts of a constraint have different source intervals. *)
Theorem C82_interval : forall pton ck c e s s', pton_ok pton -> ParseConstraint pton ck c = Ok e -> sub s e -> sub s' e ->
  e_start s = e_start s' -> e_end s = e_end s' -> s = s'.
Proof.
  intros pton ck c e s s' Hp H Hs Hs' E1 E2. apply (text_iff pton Hp ck) in H. exact (tight_inj e (proj1 (read_tight pton ck c e H)) s s' Hs Hs' E1 E2).
Qed.
Print Assumptions C82_interval.
(** So different parts are quoted differently, whatever text follows. *)
Theorem C82_quote : forall pton ck c e s s' q q' r r', pton_ok pton -> ParseConstraint pton ck c = Ok e -> sub s e -> sub s' e ->
  QuoteSubConstraint c (e_start s) (e_end s) = Ok q -> QuoteSubConstraint c (e_start s') (e_end s') = Ok q' -> q ++ r = q' ++ r' -> s = s' /\ r = r'.
Proof.
  intros pton ck c e s s' q q' r r' Hp H Hs Hs' Hq Hq' E. apply (text_iff pton Hp ck) in H. exact (quote_split pton ck c e H s s' q q' r r' Hs Hs' Hq Hq' E).
Qed.
Print Assumptions C82_quote.

Example C82_case : exists e s s', ParseConstraint pton1 kTableConstraint (table_src "!(a == 1); (b::mask) != 2;") = Ok e /\ sub s e /\ sub s' e /\ s <> s' /\ e_start s = e_start s' /\ e_end s <> e_end s'.
Proof.
  eexists _, _, _. split; [vm_compute; reflexivity|]. split; [apply sub_left, sub_not, sub_left, sub_refl|]. split; [apply sub_left, sub_not, sub_refl|]. split; [discriminate|]. split; [reflexivity|discriminate].
Qed.
(** * C83 *)
(** Two entries of a table that are rejected with the same explanation have the same priority, the same
    part of the constraint explains both rejections, with the same truth value, and they agree on all keys in it. *)
Theorem C83_table : forall pton p ci entry entry' text u, pton_ok pton -> P4ToConstraintInfo pton p = Ok ci -> sane_widths p -> legible pton p ->
  pe_table_id entry = pe_table_id entry' -> ReasonEntryViolatesConstraint entry ci = Ok text -> ReasonEntryViolatesConstraint entry' ci = Ok text -> text = "All entries " ++ u ->
  pe_priority entry = pe_priority entry' /\
  exists d ks cs e key key' s x, In d (p4_tables p) /\ pr_id (pt_preamble d) = pe_table_id entry /\ Forall2 key_decl (pt_match_fields d) ks /\
    restricted kTableConstraint (pt_preamble d) cs /\ reads_as pton kTableConstraint cs e /\
    (forall n v, key n = Some v <-> Assigned ks (pe_match entry) n v) /\ (forall n v, key' n = Some v <-> Assigned ks (pe_match entry') n v) /\
    (forall env, env = TableEnv key (pe_priority entry) \/ env = TableEnv key' (pe_priority entry') ->
      Explained (fun s x => Meant unordered_exact (key_scope ks) env s (VBool x)) e s /\ Meant unordered_exact (key_scope ks) env s (VBool x)) /\
    forall n, mentions s n -> key n = key' n.
Proof.
  intros pton p ci entry entry' text u Hp Hci Hs Hl Hid H H' ->.
  assert (forall en, ReasonEntryViolatesConstraint en ci = Ok ("All entries " ++ u) -> exists d ks cs e key s x, In d (p4_tables p) /\ pr_id (pt_preamble d) = pe_table_id en /\ Forall2 key_decl (pt_match_fields d) ks /\
    restricted kTableConstraint (pt_preamble d) cs /\ reads_as pton kTableConstraint cs e /\ (forall n v, key n = Some v <-> Assigned ks (pe_match en) n v) /\
    Explained (fun s x => Meant unordered_exact (key_scope ks) (TableEnv key (pe_priority en)) s (VBool x)) e s /\ Meant unordered_exact (key_scope ks) (TableEnv key (pe_priority en)) s (VBool x) /\
    table_report (pr_name (pt_preamble d)) cs key (pe_priority en) s x ("All entries " ++ u)) as HE.
  { intros en He. destruct (C71_outcome pton p ci en Hp Hci Hs Hl) as (v & Ho & Hr). rewrite He in Hr. destruct v as [text|c]; [|destruct Hr as [m Hm]; discriminate]. cbn [reports] in Hr. injection Hr as <-.
    assert (forall d a, action_outcome pton d a (Says ("All entries " ++ u)) -> False) as Hna.
    { intros d a Ha. inversion Ha as [| | |ps cs e param v Hf Hr Hra Hty Hac Hpa HJ]; subst. inversion HJ as [|s x text Hh Hx Hsx Hrep| |]; subst. destruct Hrep as (q & l & _ & _ & _ & E). discriminate E. }
    assert (forall l, actions_outcome pton p l (Says ("All entries " ++ u)) -> False) as Hnl.
    { intros l. remember (Says ("All entries " ++ u)) as v0 eqn:Ev. induction 1 as [|a l Hu|d a l v Hd Hi Ha Hne|d a l v Hd Hi Ha Hl' IH]; subst; try discriminate; [exact (Hna _ _ Ha)|exact (IH eq_refl Hna)]. }
    inversion Ho as [|d v Hd Hi Ht Hne|d|d l v Hd Hi Ht Hli Hac]; subst; [|destruct (Hnl _ Hac)].
    inversion Ht as [| | |ks cs e key v Hf Hr Hra Hty Hco Hkey HJ]; subst. inversion HJ as [|s x text Hh Hx Hsx Hrep| |]; subst. exists d, ks, cs, e, key, s, x. repeat (split; [assumption|]). exact Hrep. }
  destruct (HE _ H) as (d & ks & cs & e & key & s & x & Hd & Hi & Hf & Hr & Hra & Hk & Hx & Hsx & Hrep). destruct (HE _ H') as (d' & ks' & cs' & e' & key' & s' & x' & Hd' & Hi' & Hf' & Hr' & Hra' & Hk' & Hx' & Hsx' & Hrep').
  assert (d' = d) as -> by (apply (table_decl_same pton p ci Hci); congruence). assert (ks' = ks) as -> by (eapply forall2_fun; [exact key_decl_fun|exact Hf'|exact Hf]).
  pose proof (restricted_fun _ _ _ _ Hr Hr') as <-. pose proof (reads_as_fun _ _ _ _ _ Hp Hra Hra') as <-.
  destruct (table_same pton kTableConstraint cs e Hra _ key key' _ _ s s' x x' _ (explained_sub _ _ _ Hx) (explained_sub _ _ _ Hx') Hrep Hrep') as (<- & <- & Ep & Hag).
  split; [exact Ep|]. exists d, ks, cs, e, key, key', s, x. repeat (split; [assumption|]). split; [|exact Hag]. intros env [->| ->]; split; assumption.
Qed.
Print Assumptions C83_table.
(** The same for entries with the same action whose arguments are rejected. *)
Theorem C83_action : forall pton p ci entry entry' a a' text u, pton_ok pton -> P4ToConstraintInfo pton p = Ok ci -> sane_widths p -> legible pton p ->
  pe_action entry = Some (TAction a) -> pe_action entry' = Some (TAction a') -> pa_id a = pa_id a' ->
  ReasonEntryViolatesConstraint entry ci = Ok text -> ReasonEntryViolatesConstraint entry' ci = Ok text -> text = "All actions " ++ u ->
  exists d ps cs e param param' s x, In d (p4_actions p) /\ pr_id (pad_preamble d) = pa_id a /\ Forall2 param_decl (pad_params d) ps /\
    restricted kActionConstraint (pad_preamble d) cs /\ reads_as pton kActionConstraint cs e /\
    (forall n z, param n = Some z <-> Passed ps (pa_params a) n z) /\ (forall n z, param' n = Some z <-> Passed ps (pa_params a') n z) /\
    (forall env, env = ActionEnv param \/ env = ActionEnv param' ->
      Explained (fun s x => Meant unordered_exact (param_scope ps) env s (VBool x)) e s /\ Meant unordered_exact (param_scope ps) env s (VBool x)) /\
    forall n, mentions s n -> param n = param' n.
Proof.
  intros pton p ci entry entry' a a' text u Hp Hci Hs Hl Ha Ha' Hid H H' ->.
  assert (forall en a, pe_action en = Some (TAction a) -> ReasonEntryViolatesConstraint en ci = Ok ("All actions " ++ u) -> exists d ps cs e param s x, In d (p4_actions p) /\ pr_id (pad_preamble d) = pa_id a /\ Forall2 param_decl (pad_params d) ps /\
    restricted kActionConstraint (pad_preamble d) cs /\ reads_as pton kActionConstraint cs e /\ (forall n z, param n = Some z <-> Passed ps (pa_params a) n z) /\
    Explained (fun s x => Meant unordered_exact (param_scope ps) (ActionEnv param) s (VBool x)) e s /\ Meant unordered_exact (param_scope ps) (ActionEnv param) s (VBool x) /\
    action_report (pr_name (pad_preamble d)) cs param s x ("All actions " ++ u)) as HE.
  { intros en a0 Hen He. destruct (C71_outcome pton p ci en Hp Hci Hs Hl) as (v & Ho & Hr). rewrite He in Hr. destruct v as [text|c]; [|destruct Hr as [m Hm]; discriminate]. cbn [reports] in Hr. injection Hr as <-.
    inversion Ho as [|d v Hd Hi Ht Hne|d|d l v Hd Hi Ht Hli Hac]; subst.
    { exfalso. inversion Ht as [| | |ks cs e key v Hf Hr Hra Hty Hco Hkey HJ]; subst. inversion HJ as [|s x text Hh Hx Hsx Hrep| |]; subst. destruct Hrep as (q & l & _ & _ & _ & E). discriminate E. }
    unfold action_list in Hli. rewrite Hen in Hli. injection Hli as <-.
    inversion Hac as [|a1 l1 Hu|d1 a1 l1 v Hd1 Hi1 Ha1 Hne|d1 a1 l1 v Hd1 Hi1 Ha1 Hl']; subst; [|inversion Hl'].
    inversion Ha1 as [| | |ps cs e param v Hf Hr Hra Hty Hac' Hpa HJ]; subst. inversion HJ as [|s x text Hh Hx Hsx Hrep| |]; subst. exists d1, ps, cs, e, param, s, x. repeat (split; [assumption|]). exact Hrep. }
  destruct (HE _ _ Ha H) as (d & ks & cs & e & key & s & x & Hd & Hi & Hf & Hr & Hra & Hk & Hx & Hsx & Hrep). destruct (HE _ _ Ha' H') as (d' & ks' & cs' & e' & key' & s' & x' & Hd' & Hi' & Hf' & Hr' & Hra' & Hk' & Hx' & Hsx' & Hrep').
  assert (d' = d) as -> by (apply (action_decl_same pton p ci Hci); congruence). assert (ks' = ks) as -> by (eapply forall2_fun; [exact param_decl_fun|exact Hf'|exact Hf]).
  pose proof (restricted_fun _ _ _ _ Hr Hr') as <-. pose proof (reads_as_fun _ _ _ _ _ Hp Hra Hra') as <-.
  destruct (action_same pton kActionConstraint cs e Hra _ key key' s s' x x' _ (explained_sub _ _ _ Hx) (explained_sub _ _ _ Hx') Hrep Hrep') as (<- & <- & Hag).
  exists d, ks, cs, e, key, key', s, x. repeat (split; [assumption|]). split; [|exact Hag]. intros env [->| ->]; split; assumption.
Qed.
Print Assumptions C83_action.
(** Two entries that differ in a key the explanation is not about get the same text; with another
    priority, the text is another one. *)
Definition me_plain : p4_entry := mkEntry 3 [mkFM 1 (FMExact "")] None 5.
Definition me_more : p4_entry := mkEntry 3 [mkFM 1 (FMExact ""); mkFM 2 (FMTernary "a" "a")] None 5.
Definition me_text : string := Eval vm_compute in the "" (ReasonEntryViolatesConstraint me_plain demo_ci).
Definition ma_entry (priority : Z) : p4_entry := mkEntry 3 demo_match (Some (TAction (mkP4Action 4 [(1%N, "a"); (2%N, "a")]))) priority.
Definition ma_text : string := Eval vm_compute in the "" (ReasonEntryViolatesConstraint (ma_entry 0) demo_ci).
Example C83_case : sane_widths demo_info /\ legible pton1 demo_info /\ P4ToConstraintInfo pton1 demo_info = Ok demo_ci /\
  ReasonEntryViolatesConstraint me_plain demo_ci = Ok me_text /\ ReasonEntryViolatesConstraint me_more demo_ci = Ok me_text /\ pe_match me_plain <> pe_match me_more /\ (exists u, me_text = "All entries " ++ u) /\
  ReasonEntryViolatesConstraint (mkEntry 3 [mkFM 1 (FMExact "")] None 6) demo_ci <> Ok me_text /\
  ReasonEntryViolatesConstraint (ma_entry 0) demo_ci = Ok ma_text /\ ReasonEntryViolatesConstraint (ma_entry 1) demo_ci = Ok ma_text /\ (exists u, ma_text = "All actions " ++ u).
Proof.
  destruct C71_case as (Hs & Hl & _ & Hci & _). split; [exact Hs|]. split; [exact Hl|]. split; [exact Hci|].
  split; [vm_compute; reflexivity|]. split; [vm_compute; reflexivity|]. split; [discriminate|]. split; [eexists; unfold me_text; reflexivity|]. split; [vm_compute; discriminate|].
  split; [vm_compute; reflexivity|]. split; [vm_compute; reflexivity|]. eexists. unfold ma_text. reflexivity.
Qed.
