(** Which of several violated requirements is reported (C107). *)
From Coq Require Import String Ascii List ZArith NArith Bool Lia Sorted.
From Verif Require Import Base Num Token Ast Lexer Quote AstConstructors Parser Info TypeChecker ConstraintInfo Interpreter SpecLexer SpecGrammar SpecParser SpecQuote SpecTyping SpecSemantics SpecInfo SpecExplain SpecCrash SpecReading SpecOutcome SpecClauses
  StrFacts ParserFacts4 RenameFacts InfoFacts InfoFacts2 InterpFacts2 ReadingFacts2 PropertiesParser PropertiesInfo PropertiesVerdict PropertiesExplain PropertiesEntries PropertiesReading PropertiesCrash OutcomeFacts3 OutcomeFacts5 PropertiesOutcome ExplainFacts LiteralFacts LoadFacts PropertiesRobust PropertiesAppend PropertiesRepair.
Import ListNotations.
Open Scope string_scope.

(** * Facts *)
Section Conjunction.
  Variables (cmp : ty -> binop -> value -> value -> bool -> Prop) (G : scope) (r : env).
  Hypothesis once : forall r e v v', Meant cmp G r e v -> Meant cmp G r e v' -> v = v'.
  Let M (e : expr) (x : bool) : Prop := Meant cmp G r e (VBool x).
  Lemma one_truth e x y : M e x -> M e y -> x = y.
  Proof. intros H1 H2. pose proof (once _ _ _ _ H1 H2) as E. now injection E. Qed.
  Lemma and_decides x : left_decides OAND x <-> x = false.
  Proof. split; [|intros -> y y'; reflexivity]. intros H. destruct x; [|reflexivity]. discriminate (H true false). Qed.
  Lemma and_decides_right y : right_decides OAND y <-> y = false.
  Proof. split; [|intros -> x x'; destruct x, x'; reflexivity]. intros H. destruct y; [|reflexivity]. discriminate (H true false). Qed.
  Lemma clauses_true e l : Clauses e l -> M e true -> forall c, In c l -> M c true.
  Proof.
    induction 1 as [e|m a b l l' H1 IH1 H2 IH2]; intros He c Hc; [destruct Hc as [<-|[]]; exact He|].
    assert (M a true /\ M b true) as [Ha Hb].
    { inversion He as [| | | | | | |? ? ? ? x ? _ Ha Ht|? ? ? ? x z _ Ha Hb Ex|? ? ? ? ? ? ? ? ? ? ? ? Hcm|]; subst.
      - pose proof (Ht true). pose proof (Ht false). destruct x; cbn in *; congruence.
      - destruct x, z; try discriminate. auto.
      - exfalso. inversion Hcm as [? E|? E]; subst; inversion E. }
    apply in_app_or in Hc as [Hc|Hc]; auto.
  Qed.
  Lemma clauses_false e l s : Clauses e l -> M e false -> Explained M e s ->
    exists i c, nth_error l i = Some c /\ M c false /\ Explained M c s /\
      forall j c', nth_error l j = Some c' -> M c' false -> j = i \/ exists s' n n', Explained M c' s' /\ Nodes s n /\ Nodes s' n' /\ (n < n' \/ n = n' /\ (i < j)%nat)%Z.
  Proof.
    intros HC. revert s. induction HC as [e|m a b l l' H1 IH1 H2 IH2]; intros s He Hx.
    { exists 0%nat, e. split; [reflexivity|]. split; [exact He|]. split; [exact Hx|]. intros [|[|j]] c' Hj; [now left|discriminate|discriminate]. }
    assert (forall x y, M a x -> M b y -> x && y = false) as Hand. { intros x y Ha Hb. apply (one_truth (EBin m OAND a b)); [|exact He]. exact (mn_both _ _ _ m OAND a b x y c_and Ha Hb). }
    inversion Hx as [|? ? ? ? Hcm| |? ? ? ? x y Hc Ha Hb Hl Hr|? ? ? ? x y s0 Hc Ha Hb Hl Hr Hxa|? ? ? ? x y s0 Hc Ha Hb Hl Hr Hxb|? ? ? ? x y s0 t i j Hc Ha Hb Hl Hr Hxa Hxb Hi Hj Hij|? ? ? ? x y s0 t i j Hc Ha Hb Hl Hr Hxa Hxb Hi Hj Hij]; subst; rewrite ?and_decides, ?and_decides_right in *.
    - exfalso. inversion Hcm as [? E|? E]; subst; inversion E.
    - exfalso. pose proof (Hand _ _ Ha Hb). destruct x, y; cbn in *; try discriminate; try (now apply Hl); now apply Hr.
    - subst x. destruct (IH1 _ Ha Hxa) as (i & c & Hi & Hci & Hxc & Hall). exists i, c. split; [rewrite nth_error_app1; [exact Hi|]; apply nth_error_Some; congruence|]. split; [exact Hci|]. split; [exact Hxc|].
      intros j c' Hj Hc'. destruct (Nat.lt_ge_cases j (List.length l)) as [Hlt|Hge]; [rewrite nth_error_app1 in Hj by exact Hlt; exact (Hall _ _ Hj Hc')|].
      rewrite nth_error_app2 in Hj by exact Hge. exfalso. assert (y = true) as -> by (destruct y; [reflexivity|now destruct Hr]). pose proof (clauses_true _ _ H2 Hb _ (nth_error_In _ _ Hj)) as Ht. discriminate (one_truth _ _ _ Ht Hc').
    - subst y. destruct (IH2 _ Hb Hxb) as (i & c & Hi & Hci & Hxc & Hall). exists (List.length l + i)%nat, c. split; [rewrite nth_error_app2 by lia; replace (List.length l + i - List.length l)%nat with i by lia; exact Hi|]. split; [exact Hci|]. split; [exact Hxc|].
      intros j c' Hj Hc'. destruct (Nat.lt_ge_cases j (List.length l)) as [Hlt|Hge].
      + rewrite nth_error_app1 in Hj by exact Hlt. exfalso. assert (x = true) as -> by (destruct x; [reflexivity|now destruct Hl]). pose proof (clauses_true _ _ H1 Ha _ (nth_error_In _ _ Hj)) as Ht. discriminate (one_truth _ _ _ Ht Hc').
      + rewrite nth_error_app2 in Hj by exact Hge. destruct (Hall _ _ Hj Hc') as [E|(s' & n & n' & A & B & C & D)]; [left; lia|]. right. exists s', n, n'. split; [exact A|]. split; [exact B|]. split; [exact C|]. clear - D Hge. lia.
    - subst x y. destruct (IH1 _ Ha Hxa) as (i1 & c1 & Hi1 & Hci1 & Hxc1 & Hall1). destruct (IH2 _ Hb Hxb) as (i2 & c2 & Hi2 & Hci2 & Hxc2 & Hall2). assert (i1 < List.length l)%nat as Hlen by (apply nth_error_Some; congruence).
      exists i1, c1. split; [rewrite nth_error_app1; [exact Hi1|exact Hlen]|]. split; [exact Hci1|]. split; [exact Hxc1|].
      intros k c' Hk Hc'. destruct (Nat.lt_ge_cases k (List.length l)) as [Hlt|Hge]; [rewrite nth_error_app1 in Hk by exact Hlt; exact (Hall1 _ _ Hk Hc')|].
      rewrite nth_error_app2 in Hk by exact Hge. right. destruct (Hall2 _ _ Hk Hc') as [E|(s' & n & n' & A & B & C & D)].
      + assert (c' = c2) as -> by congruence. exists t, i, j. split; [exact Hxc2|]. split; [exact Hi|]. split; [exact Hj|]. clear - Hij Hge Hlen. lia.
      + rewrite (Nodes_fun _ _ _ B Hj) in *. exists s', i, n'. split; [exact A|]. split; [exact Hi|]. split; [exact C|]. clear - Hij D Hge Hlen. lia.
    - subst x y. destruct (IH1 _ Ha Hxa) as (i1 & c1 & Hi1 & Hci1 & Hxc1 & Hall1). destruct (IH2 _ Hb Hxb) as (i2 & c2 & Hi2 & Hci2 & Hxc2 & Hall2).
      exists (List.length l + i2)%nat, c2. split; [rewrite nth_error_app2 by lia; replace (List.length l + i2 - List.length l)%nat with i2 by lia; exact Hi2|]. split; [exact Hci2|]. split; [exact Hxc2|].
      intros k c' Hk Hc'. destruct (Nat.lt_ge_cases k (List.length l)) as [Hlt|Hge].
      + rewrite nth_error_app1 in Hk by exact Hlt. right. destruct (Hall1 _ _ Hk Hc') as [E|(s' & n & n' & A & B & C & D)].
        * assert (c' = c1) as -> by congruence. exists s0, j, i. split; [exact Hxc1|]. split; [exact Hj|]. split; [exact Hi|]. clear - Hij. lia.
        * rewrite (Nodes_fun _ _ _ B Hi) in *. exists s', j, n'. split; [exact A|]. split; [exact Hj|]. split; [exact C|]. clear - Hij D. lia.
      + rewrite nth_error_app2 in Hk by exact Hge. destruct (Hall2 _ _ Hk Hc') as [E|(s' & n & n' & A & B & C & D)]; [left; clear - E Hge; lia|]. right. exists s', n, n'. split; [exact A|]. split; [exact B|]. split; [exact C|]. clear - D Hge. lia.
  Qed.
End Conjunction.

(** * C107 *)
(** If a table rejects an entry, then, however its constraint is divided into requirements, the explanation is that of one
    of the violated requirements (none of the others takes part in it), and of all violated requirements it is the one
    whose explanation is smallest, the leftmost one if there are several. *)
Theorem C107_table : forall pton p ci entry u, pton_ok pton -> P4ToConstraintInfo pton p = Ok ci -> sane_widths p -> legible pton p ->
  ReasonEntryViolatesConstraint entry ci = Ok ("All entries must " ++ u) ->
  exists d ks cs e key, In d (p4_tables p) /\ pr_id (pt_preamble d) = pe_table_id entry /\ Forall2 key_decl (pt_match_fields d) ks /\
    restricted kTableConstraint (pt_preamble d) cs /\ reads_as pton kTableConstraint cs e /\ (forall n v, key n = Some v <-> Assigned ks (pe_match entry) n v) /\
    let says (c : expr) (x : bool) : Prop := Meant unordered_exact (key_scope ks) (TableEnv key (pe_priority entry)) c (VBool x) in
    forall l, Clauses e l ->
      exists i c s x, nth_error l i = Some c /\ says c false /\ Explained says c s /\ says s x /\ table_report (pr_name (pt_preamble d)) cs key (pe_priority entry) s x ("All entries must " ++ u) /\
        forall j c', nth_error l j = Some c' -> says c' false ->
          j = i \/ exists s' n n', Explained says c' s' /\ Nodes s n /\ Nodes s' n' /\ (n < n' \/ n = n' /\ (i < j)%nat)%Z.
Proof.
  intros pton p ci en u Hp Hci Hs Hl He.
  assert (exists d, In d (p4_tables p) /\ pr_id (pt_preamble d) = pe_table_id en) as (d & Hd & Id).
  { destruct (C71_outcome pton p ci en Hp Hci Hs Hl) as (v & Ho & Hr). rewrite He in Hr. destruct v as [text|c]; [|destruct Hr as [m Hm]; discriminate]. inversion Ho; subst; eauto. }
  pose proof (table_explained pton p ci d en u Hp Hci Hs Hl Hd Id He) as Ht.
  inversion Ht as [| | |ks cs e key v Hk Hr Hra Hty Hco Hkey HJ]; subst v. inversion HJ as [|s x text Hh Hx Hsx Hrep| |]; subst text.
  exists d, ks, cs, e, key. split; [exact Hd|]. split; [exact Id|]. split; [exact Hk|]. split; [exact Hr|]. split; [exact Hra|]. split; [exact Hkey|]. intros says l Hcl.
  pose proof (table_names pton p ci d Hp Hci Hd) as [_ HN]. rewrite <- (decl_names_k _ _ Hk) in HN.
  destruct (clauses_false _ _ _ (scope_once ks HN) e l s Hcl Hh Hx) as (i & c & Hi & Hc & Hxc & Hall). exists i, c, s, x. split; [exact Hi|]. split; [exact Hc|]. split; [exact Hxc|]. split; [exact Hsx|]. split; [exact Hrep|exact Hall].
Qed.
Print Assumptions C107_table.
(** The same for actions. Sizes are not defined for comparisons of parameters, so if such a comparison is reported, only one requirement is violated. *)
Theorem C107_action : forall pton p ci entry u, pton_ok pton -> P4ToConstraintInfo pton p = Ok ci -> sane_widths p -> legible pton p ->
  ReasonEntryViolatesConstraint entry ci = Ok ("All actions must " ++ u) ->
  exists a d ps cs e param, In a (actions_of entry) /\ In d (p4_actions p) /\ pr_id (pad_preamble d) = pa_id a /\ Forall2 param_decl (pad_params d) ps /\
    restricted kActionConstraint (pad_preamble d) cs /\ reads_as pton kActionConstraint cs e /\ (forall n z, param n = Some z <-> Passed ps (pa_params a) n z) /\
    let says (c : expr) (x : bool) : Prop := Meant unordered_exact (param_scope ps) (ActionEnv param) c (VBool x) in
    forall l, Clauses e l ->
      exists i c s x, nth_error l i = Some c /\ says c false /\ Explained says c s /\ says s x /\ action_report (pr_name (pad_preamble d)) cs param s x ("All actions must " ++ u) /\
        (forall j c', nth_error l j = Some c' -> says c' false ->
          j = i \/ exists s' n n', Explained says c' s' /\ Nodes s n /\ Nodes s' n' /\ (n < n' \/ n = n' /\ (i < j)%nat)%Z) /\
        (forall m o m' n b j c', s = EBin m o (EParam m' n) b \/ s = EBin m o b (EParam m' n) -> nth_error l j = Some c' -> says c' false -> j = i).
Proof.
  intros pton p ci en u Hp Hci Hs Hl He. destruct (action_explained pton p ci en u Hp Hci Hs Hl He) as (a & d & Ha & Hd & Id & Ht).
  inversion Ht as [| | |ps cs e param v Hk Hr Hra Hty Hac Hpa HJ]; subst v. inversion HJ as [|s x text Hh Hx Hsx Hrep| |]; subst text.
  exists a, d, ps, cs, e, param. split; [exact Ha|]. split; [exact Hd|]. split; [exact Id|]. split; [exact Hk|]. split; [exact Hr|]. split; [exact Hra|]. split; [exact Hpa|]. intros says l Hcl.
  pose proof (action_names pton p ci d Hp Hci Hd) as [_ HN]. rewrite <- (decl_names_p _ _ Hk) in HN.
  destruct (clauses_false _ _ _ (params_once ps HN) e l s Hcl Hh Hx) as (i & c & Hi & Hc & Hxc & Hall). exists i, c, s, x. split; [exact Hi|]. split; [exact Hc|]. split; [exact Hxc|]. split; [exact Hsx|]. split; [exact Hrep|]. split; [exact Hall|].
  intros m o m' n b j c' Es Hj Hc'. destruct (Hall _ _ Hj Hc') as [E|(s' & k & k' & _ & Hn & _)]; [exact E|]. exfalso. destruct Es as [-> | ->]; inversion Hn as [| | | | | | | |? ? ? ? ? ? N1 N2]; subst; [inversion N1|inversion N2].
Qed.
Print Assumptions C107_action.
(** Three requirements, of which the last two are violated: the shorter one is reported, or the first one if there is no
    difference. With [k == 5] as only violated requirement of an action, that is reported. *)
Definition cz_table (constraint : string) : p4_table := mkP4Table (mkPre 1 "t" [restriction "entry" [constraint]]) [mkMF 1 "k" 8 (MMatchType MTExact)].
Definition cz_action : p4_action_decl := mkP4ActionDecl (mkPre 2 "a" [restriction "action" ["k != 0; k == 5"]]) [mkAP 1 "k" 8 ""].
Definition cz_long : string := "k != 0; k == 3 || k == 4; k == 5".
Definition cz_tie : string := "k != 0; k == 4; k == 5".
Definition cz_info (constraint : string) : p4info := mkP4Info [cz_table constraint; mkP4Table (mkPre 3 "free" []) []] [cz_action].
Definition cz_ci (constraint : string) : constraint_info := the (mkInfo [] []) (P4ToConstraintInfo pton1 (cz_info constraint)).
Definition cz_entry : p4_entry := mkEntry 1 [mkFM 1 (FMExact "a")] None 0.
Definition cz_uses : p4_entry := mkEntry 3 [] (Some (TAction (mkP4Action 2 [(1%N, "a")]))) 0.
Definition cz_tree (constraint : string) : outcome expr := ParseConstraint pton1 kTableConstraint (mkCSource constraint (mkLoc 0 0 (SrcTable "t"))).
Lemma cz_sane c : sane_widths (cz_info c).
Proof. split; intros d f Hd Hf; [destruct Hd as [<-|[<-|[]]]|destruct Hd as [<-|[]]]; cbn in Hf; try destruct Hf as [<-|[]]; cbn; try lia. Qed.
Lemma cz_legible c : ExtractConstraint kTableConstraint (pt_preamble (cz_table c)) = Ok (Some (mkCSource c (mkLoc 0 0 (SrcTable "t")))) -> one_line c -> legible pton1 (cz_info c).
Proof.
  intros E H. apply (C71_one_line pton1 _ pton1_ok). intros ck cs [d cs' Hd Hr|d cs' Hd Hr].
  - destruct Hd as [<-|[<-|[]]]; [apply extract_some in E; now rewrite (restricted_fun _ _ _ _ Hr E)|]. exfalso. refine (restricted_not _ _ _ _ Hr). apply extract_none. vm_compute. reflexivity.
  - destruct Hd as [<-|[]]. assert (cs' = mkCSource "k != 0; k == 5" (mkLoc 0 0 (SrcAction "a"))) as -> by (refine (restricted_fun _ _ _ _ Hr (proj1 (extract_some _ _ _) _)); vm_compute; reflexivity).
    split; intros Hin; vm_compute in Hin; repeat destruct Hin as [Hin|Hin]; try discriminate Hin; exact Hin.
Qed.
Definition cz_shown (where_ line mark : string) : string := "satisfy:" ++ nl ++ nl ++ "In @entry_restriction of table 't'; at offset line 1, columns " ++ where_ ++ ":" ++ nl ++ "1 | " ++ line ++ nl ++ "  | " ++ mark ++ nl ++ nl ++
  "But your entry does not." ++ nl ++ ">>>Relevant Entry Info<<<" ++ nl ++ "Table Name: " ++ dq ++ "t" ++ dq ++ nl ++ "Priority:0" ++ nl ++ "Field: " ++ dq ++ "k" ++ dq ++ " -> Value: Exact{.value = 97}" ++ nl.
Example C107_case : forall c, c = cz_long \/ c = cz_tie ->
  P4ToConstraintInfo pton1 (cz_info c) = Ok (cz_ci c) /\ sane_widths (cz_info c) /\ legible pton1 (cz_info c) /\
  (exists e l, reads_as pton1 kTableConstraint (mkCSource c (mkLoc 0 0 (SrcTable "t"))) e /\ Clauses e l /\ List.length l = 3%nat) /\
  ReasonEntryViolatesConstraint cz_entry (cz_ci cz_long) = Ok ("All entries must " ++ cz_shown "27 to 32" cz_long "                          ^^^^^^") /\
  ReasonEntryViolatesConstraint cz_entry (cz_ci cz_tie) = Ok ("All entries must " ++ cz_shown "9 to 14" cz_tie "        ^^^^^^") /\
  exists u, ReasonEntryViolatesConstraint cz_uses (cz_ci c) = Ok ("All actions must " ++ u).
Proof.
  intros c Hc. split; [destruct Hc as [-> | ->]; vm_compute; reflexivity|]. split; [apply cz_sane|]. split.
  { apply cz_legible; [destruct Hc as [-> | ->]; vm_compute; reflexivity|]. destruct Hc as [-> | ->]; split; intros Hin; vm_compute in Hin; repeat destruct Hin as [Hin|Hin]; try discriminate Hin; exact Hin. }
  split.
  { destruct Hc as [-> | ->].
    - destruct (cz_tree cz_long) as [e| |] eqn:E; [|vm_compute in E; discriminate E|vm_compute in E; discriminate E]. exists e.
      pose proof E as E'. vm_compute in E'. apply Ok_inj in E'. eexists. split; [exact (proj1 (text_iff pton1 pton1_ok _ _ _) E)|]. rewrite <- E'. split; [apply cl_and; [apply cl_and; apply cl_one|apply cl_one]|reflexivity].
    - destruct (cz_tree cz_tie) as [e| |] eqn:E; [|vm_compute in E; discriminate E|vm_compute in E; discriminate E]. exists e.
      pose proof E as E'. vm_compute in E'. apply Ok_inj in E'. eexists. split; [exact (proj1 (text_iff pton1 pton1_ok _ _ _) E)|]. rewrite <- E'. split; [apply cl_and; [apply cl_and; apply cl_one|apply cl_one]|reflexivity]. }
  split; [vm_compute; reflexivity|]. split; [vm_compute; reflexivity|].
  destruct Hc as [-> | ->].
  - assert (exists v, ReasonEntryViolatesConstraint cz_uses (cz_ci cz_long) = v) as [v E] by eauto. pose proof E as E'. vm_compute in E'. rewrite E, <- E'. eexists. reflexivity.
  - assert (exists v, ReasonEntryViolatesConstraint cz_uses (cz_ci cz_tie) = v) as [v E] by eauto. pose proof E as E'. vm_compute in E'. rewrite E, <- E'. eexists. reflexivity.
Qed.
