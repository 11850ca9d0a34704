(** Adding a line with a further requirement to a constraint (C105). *)
From Coq Require Import String Ascii List ZArith NArith Bool Lia Sorted.
From Verif Require Import Base Num Token Ast Lexer Quote AstConstructors Parser Info TypeChecker ConstraintInfo Interpreter SpecLexer SpecGrammar SpecParser SpecQuote SpecTyping SpecSemantics SpecInfo SpecExplain SpecCrash SpecMisc SpecLaws SpecReading SpecOutcome SpecAppend
  StrFacts LexerFacts2 LexerFacts5 ParserFacts3 ParserFacts4 ParserFacts5 LawFacts RenameFacts InfoFacts InfoFacts2 InterpFacts2 ReadingFacts2 QuoteFacts CombineFacts PropertiesParser PropertiesInfo PropertiesVerdict PropertiesExplain PropertiesEntries PropertiesReading PropertiesSession PropertiesCrash OutcomeFacts3 OutcomeFacts5 PropertiesOutcome MessageFacts2 AppendFacts.
Import ListNotations.
Open Scope string_scope.

(** * C105 *)
Lemma bare_end s : no_bare_CR s -> ~ ends_CR s.
Proof. intros H [a E]. destruct (H a "" E) as [b' Hb]. discriminate Hb. Qed.
Section Appended.
  Variable (holds : expr -> bool -> Prop) (m : meta) (a b : expr).
  Hypothesis (Ha : holds a false) (Hb : holds b true).
  Lemma explained_appended s : Explained holds a s -> Explained holds (EBin m OAND a b) s.
  Proof. intros H. apply (xp_left holds m OAND a b false true s); [constructor|exact Ha|exact Hb|intros y y'; reflexivity| |exact H]. intros H'. discriminate (H' true false). Qed.
End Appended.
Lemma table_report_more name c c' y key prio s x text : cs_string c' = cs_string c ++ String LF y -> cs_loc c' = cs_loc c -> table_report name c key prio s x text -> table_report name c' key prio s x text.
Proof. intros E1 E2 (q & l & Hq & H). exists q, l. split; [exact (quote_more c c' y _ _ q E1 E2 Hq)|exact H]. Qed.
Lemma action_report_more name c c' y param s x text : cs_string c' = cs_string c ++ String LF y -> cs_loc c' = cs_loc c -> action_report name c param s x text -> action_report name c' param s x text.
Proof. intros E1 E2 (q & l & Hq & H). exists q, l. split; [exact (quote_more c c' y _ _ q E1 E2 Hq)|exact H]. Qed.
Lemma csource_eta c : c = mkCSource (cs_string c) (cs_loc c).
Proof. now destruct c. Qed.
Lemma table_explained pton p ci d en u : pton_ok pton -> P4ToConstraintInfo pton p = Ok ci -> sane_widths p -> legible pton p -> In d (p4_tables p) -> pr_id (pt_preamble d) = pe_table_id en ->
  ReasonEntryViolatesConstraint en ci = Ok ("All entries must " ++ u) -> table_outcome pton d en (Says ("All entries must " ++ u)).
Proof.
  intros Hp Hci Hs Hl Hd Id He. set (text := "All entries must " ++ u) in *.
  destruct (C71_outcome pton p ci en Hp Hci Hs Hl) as (v & Ho & Hrep). rewrite He in Hrep. destruct v as [text'|c]; [|destruct Hrep as [mm Hm]; discriminate]. cbn [reports] in Hrep. injection Hrep as <-.
  assert (forall d a, action_outcome pton d a (Says text) -> False) as Hna.
  { intros d0 a Ha. inversion Ha as [| | |ps cs0 e param v Hf0 Hr0 Hra Hty Hac Hpa HJ]; subst. inversion HJ as [|s y text0 Hh Hx Hsx Hrp| |]; subst. destruct Hrp as (qq & l & _ & _ & _ & E). discriminate E. }
  assert (forall l, actions_outcome pton p l (Says text) -> False) as Hnl.
  { intros l Hac. clear - Hac Hna. remember (Says text) as v0 eqn:Ev. induction Hac as [|a l Hu|d0 a l v Hd Hi Ha Hne|d0 a l v Hd Hi Ha Hl' IH]; subst; try discriminate; [exact (Hna _ _ Ha)|exact (IH eq_refl Hna)]. }
  inversion Ho as [|d0 v Hd0 Hi Ht Hne|d0|d0 l v Hd0 Hi Ht Hli Hac]; subst; [|destruct (Hnl _ Hac)]. assert (d0 = d) as -> by (apply (table_decl_same pton p ci Hci); congruence). exact Ht.
Qed.
(** If a table rejects an entry, and a table with the same keys and the constraint [b] does not, then the table whose
    constraint has [b] added on a new line rejects the entry with the same explanation, to the letter: a requirement
    that is met does not get into the explanation, and does not move what is quoted. *)
Theorem C105_appended : forall pton p ci p' ci' q cj d d' f cs cs' cb entry u, pton_ok pton -> P4ToConstraintInfo pton p = Ok ci -> P4ToConstraintInfo pton p' = Ok ci' -> P4ToConstraintInfo pton q = Ok cj ->
  sane_widths p -> legible pton p -> sane_widths p' -> legible pton p' -> standard_keys p' ->
  In d (p4_tables p) -> In d' (p4_tables p') -> In f (p4_tables q) ->
  pr_id (pt_preamble d) = pe_table_id entry -> pr_id (pt_preamble d') = pe_table_id entry -> pr_id (pt_preamble f) = pe_table_id entry ->
  pr_name (pt_preamble d') = pr_name (pt_preamble d) -> pt_match_fields d' = pt_match_fields d -> pt_match_fields f = pt_match_fields d ->
  restricted kTableConstraint (pt_preamble d) cs -> restricted kTableConstraint (pt_preamble d') cs' -> restricted kTableConstraint (pt_preamble f) cb ->
  cs' = mkCSource (with_line (cs_string cs) (cs_string cb)) (cs_loc cs) -> open_ended cs -> ~ ends_in_comment (cs_string cs) -> ~ ends_in_comment (cs_string cb) ->
  ReasonEntryViolatesConstraint entry ci = Ok ("All entries must " ++ u) -> ReasonEntryViolatesConstraint entry cj = Ok "" -> ReasonEntryViolatesConstraint entry ci' = Ok ("All entries must " ++ u).
Proof.
  intros pton p ci p' ci' q cj d d' f cs cs' cb en u Hp Hci Hci' Hcj Hs Hl Hs' Hl' Hst Hd Hd' Hf Id Id' If En Em Emf Hr Hr' Hrb Ecs Hop Na Nb He Hb. set (text := "All entries must " ++ u) in *.
  pose proof (table_explained pton p ci d en u Hp Hci Hs Hl Hd Id He) as Ht.
  inversion Ht as [| | |ks cs0 e key v Hk Hr0 Hra Hty Hco Hkey HJ]; subst v. assert (cs0 = cs) as -> by exact (restricted_fun _ _ _ _ Hr0 Hr).
  inversion HJ as [|s x text0 Hh Hx Hsx Hrep| |]; subst text0.
  assert (exists eb, reads_as pton kTableConstraint cb eb /\ Typed (key_scope ks) eb TBool /\ Meant unordered_exact (key_scope ks) (TableEnv key (pe_priority en)) eb (VBool true)) as (eb & Hrb' & Htb & Hmb).
  { apply (C58_accepted_iff pton q cj en Hp Hcj) in Hb as ((f' & Hf' & If' & Hall) & _). assert (f' = f) as -> by (apply (table_decl_same pton q cj Hcj); unfold table_id in If'; congruence).
    destruct Hall as [Hun|(ks2 & cs2 & e2 & key2 & Hk2 & Hr2 & Hra2 & Hco2 & Hkey2 & Hty2 & Hm2)]; [destruct (restricted_not _ _ _ Hun Hrb)|].
    assert (cs2 = cb) as -> by exact (restricted_fun _ _ _ _ Hr2 Hrb). rewrite Emf in Hk2. assert (ks2 = ks) as -> by exact (forall2_fun key_decl key_decl_fun _ _ _ Hk2 Hk).
    exists e2. split; [exact Hra2|]. split; [exact Hty2|]. refine (PropertiesSession.meant_ext _ _ _ _ _ _ _ _ Hm2). intros n. destruct (key n) as [w|] eqn:E.
    - apply Hkey2, Hkey, E.
    - destruct (key2 n) as [w|] eqn:E2; [|reflexivity]. apply Hkey2, Hkey in E2. congruence. }
  rewrite (csource_eta cb) in Hrb'. pose proof (Hl kTableConstraint cs e) as Hdis. destruct Hdis as [Hcr _]; [econstructor; eassumption|exact Hra|].
  destruct (line_reads pton kTableConstraint cs (cs_string cb) (cs_loc cb) e eb Na (bare_end _ Hcr) Nb Hop Hra Hrb') as (m & eb' & Hra' & Ab). rewrite <- Ecs in Hra'.
  assert (Meant unordered_exact (key_scope ks) (TableEnv key (pe_priority en)) eb' (VBool true)) as Hmb' by exact (meant_alike _ _ _ _ _ _ Ab Hmb).
  assert (table_outcome pton d' en (Says text)) as Ht'.
  { apply (tv_judged pton d' en ks cs' (EBin m OAND e eb') key (Says text)); [rewrite Em; exact Hk|exact Hr'|exact Hra'| |exact Hco|exact Hkey|].
    - constructor; [constructor|exact Hty|exact (typed_alike _ _ _ _ Ab Htb)].
    - apply (jd_false _ _ _ s x text).
      + apply (mn_left _ _ _ m OAND e eb' false false); [constructor|exact Hh|reflexivity].
      + apply explained_appended; [exact Hh|exact Hmb'|exact Hx].
      + exact Hsx.
      + rewrite En. apply (table_report_more _ cs cs' ("; ( " ++ cs_string cb ++ " )")); [rewrite Ecs; reflexivity|rewrite Ecs; reflexivity|exact Hrep]. }
  apply (C71_exact pton p' ci' en (Says text) Hp Hci' Hs' Hl' Hst). apply (nv_table pton p' en d' (Says text)); [exact Hd'|exact Id'|exact Ht'|]. intros E. injection E as E. discriminate E.
Qed.
Print Assumptions C105_appended.
(** The same for the constraint of an action. *)
Theorem C105_appended_action : forall pton p ci p' ci' q cj t t' g d d' f cs cs' cb entry a u, pton_ok pton -> P4ToConstraintInfo pton p = Ok ci -> P4ToConstraintInfo pton p' = Ok ci' -> P4ToConstraintInfo pton q = Ok cj ->
  sane_widths p -> legible pton p -> sane_widths p' -> legible pton p' -> standard_keys p' ->
  In t (p4_tables p) -> In t' (p4_tables p') -> In g (p4_tables q) ->
  pr_id (pt_preamble t) = pe_table_id entry -> pr_id (pt_preamble t') = pe_table_id entry -> pr_id (pt_preamble g) = pe_table_id entry -> unrestricted kTableConstraint (pt_preamble t') ->
  pe_action entry = Some (TAction a) -> In d (p4_actions p) -> In d' (p4_actions p') -> In f (p4_actions q) ->
  pr_id (pad_preamble d) = pa_id a -> pr_id (pad_preamble d') = pa_id a -> pr_id (pad_preamble f) = pa_id a ->
  pr_name (pad_preamble d') = pr_name (pad_preamble d) -> pad_params d' = pad_params d -> pad_params f = pad_params d ->
  restricted kActionConstraint (pad_preamble d) cs -> restricted kActionConstraint (pad_preamble d') cs' -> restricted kActionConstraint (pad_preamble f) cb ->
  cs' = mkCSource (with_line (cs_string cs) (cs_string cb)) (cs_loc cs) -> open_ended cs -> ~ ends_in_comment (cs_string cs) -> ~ ends_in_comment (cs_string cb) ->
  ReasonEntryViolatesConstraint entry ci = Ok ("All actions must " ++ u) -> ReasonEntryViolatesConstraint entry cj = Ok "" -> ReasonEntryViolatesConstraint entry ci' = Ok ("All actions must " ++ u).
Proof.
  intros pton p ci p' ci' q cj t t' g d d' f cs cs' cb en a u Hp Hci Hci' Hcj Hs Hl Hs' Hl' Hst Htd Htd' Htg It It' Ig Hun' Hact Hd Hd' Hf Id Id' If En Em Emf Hr Hr' Hrb Ecs Hop Na Nb He Hb. set (text := "All actions must " ++ u) in *.
  destruct (C71_outcome pton p ci en Hp Hci Hs Hl) as (v & Ho & Hrep). rewrite He in Hrep. destruct v as [text'|c]; [|destruct Hrep as [mm Hm]; discriminate]. cbn [reports] in Hrep. injection Hrep as <-.
  assert (action_outcome pton d a (Says text)) as Ht.
  { inversion Ho as [|d0 v Hd0 Hi Ht Hne|d0|d0 l v Hd0 Hi Ht Hli Hac]; subst.
    - exfalso. inversion Ht as [| | |ks cs0 e key v Hk Hr0 Hra Hty Hco Hkey HJ]; subst. inversion HJ as [|s y text0 Hh Hx Hsx Hrp| |]; subst. destruct Hrp as (qq & l & _ & _ & _ & E). discriminate E.
    - unfold action_list in Hli. rewrite Hact in Hli. injection Hli as <-. inversion Hac as [|a0 l Hu|d1 a0 l v Hd1 Hi1 Ha Hne|d1 a0 l v Hd1 Hi1 Ha Hl1]; subst.
      + assert (d1 = d) as -> by (apply (action_decl_same pton p ci Hci); congruence). exact Ha.
      + inversion Hl1. }
  clear Ho. inversion Ht as [| | |ks cs0 e key v Hk Hr0 Hra Hty Hco Hkey HJ]; subst v. assert (cs0 = cs) as -> by exact (restricted_fun _ _ _ _ Hr0 Hr).
  inversion HJ as [|s x text0 Hh Hx Hsx Hrep| |]; subst text0.
  assert (exists eb, reads_as pton kActionConstraint cb eb /\ Typed (param_scope ks) eb TBool /\ Meant unordered_exact (param_scope ks) (ActionEnv key) eb (VBool true)) as (eb & Hrb' & Htb & Hmb).
  { apply (C58_accepted_iff pton q cj en Hp Hcj) in Hb as (_ & _ & Hb). destruct (Hb a) as (f' & Hf' & If' & Hall); [unfold actions_of; rewrite Hact; now left|]. assert (f' = f) as -> by (apply (action_decl_same pton q cj Hcj); unfold action_id in If'; congruence).
    destruct Hall as [Hun|(ks2 & cs2 & e2 & key2 & Hk2 & Hr2 & Hra2 & Hco2 & Hkey2 & Hty2 & Hm2)]; [destruct (restricted_not _ _ _ Hun Hrb)|].
    assert (cs2 = cb) as -> by exact (restricted_fun _ _ _ _ Hr2 Hrb). rewrite Emf in Hk2. assert (ks2 = ks) as -> by exact (forall2_fun param_decl param_decl_fun _ _ _ Hk2 Hk).
    exists e2. split; [exact Hra2|]. split; [exact Hty2|]. refine (ReadingFacts2.meant_ext _ _ _ _ _ _ _ Hm2). intros n. destruct (key2 n) as [w|] eqn:E.
    - symmetry. apply Hkey, Hkey2, E.
    - destruct (key n) as [w|] eqn:E2; [|reflexivity]. apply Hkey, Hkey2 in E2. congruence. }
  rewrite (csource_eta cb) in Hrb'. pose proof (Hl kActionConstraint cs e) as Hdis. destruct Hdis as [Hcr _]; [econstructor; eassumption|exact Hra|].
  destruct (line_reads pton kActionConstraint cs (cs_string cb) (cs_loc cb) e eb Na (bare_end _ Hcr) Nb Hop Hra Hrb') as (m & eb' & Hra' & Ab). rewrite <- Ecs in Hra'.
  assert (Meant unordered_exact (param_scope ks) (ActionEnv key) eb' (VBool true)) as Hmb' by exact (meant_alike _ _ _ _ _ _ Ab Hmb).
  assert (action_outcome pton d' a (Says text)) as Ht'.
  { apply (av_judged pton d' a ks cs' (EBin m OAND e eb') key (Says text)); [rewrite Em; exact Hk|exact Hr'|exact Hra'| |exact Hco|exact Hkey|].
    - constructor; [constructor|exact Hty|exact (typed_alike _ _ _ _ Ab Htb)].
    - apply (jd_false _ _ _ s x text).
      + apply (mn_left _ _ _ m OAND e eb' false false); [constructor|exact Hh|reflexivity].
      + apply explained_appended; [exact Hh|exact Hmb'|exact Hx].
      + exact Hsx.
      + rewrite En. apply (action_report_more _ cs cs' ("; ( " ++ cs_string cb ++ " )")); [rewrite Ecs; reflexivity|rewrite Ecs; reflexivity|exact Hrep]. }
  apply (C71_exact pton p' ci' en (Says text) Hp Hci' Hs' Hl' Hst). apply (nv_actions pton p' en t' [a] (Says text)); [exact Htd'|exact It'|now constructor|unfold action_list; rewrite Hact; reflexivity|].
  apply (sv_stop pton p' d' a [] (Says text)); [exact Hd'|exact Id'|exact Ht'|]. intros E. injection E as E. discriminate E.
Qed.
Print Assumptions C105_appended_action.
(** * Repeated requirements *)
Section Copies.
  Variable holds : expr -> bool -> Prop.
  Hypothesis same : forall a b x, Alike a b -> holds a x -> holds b x.
  Lemma nodes_alike a b n : Alike a b -> Nodes a n -> Nodes b n.
  Proof. intros H. revert n. induction H; intros k Hn; inversion Hn; subst; constructor; auto. Qed.
  Lemma explained_alike e s : Explained holds e s -> forall e', Alike e e' -> exists s', Explained holds e' s' /\ Alike s s'.
  Proof.
    induction 1 as [m b|m o a b Hc|m e s H IH|m o a b x y Hc Ha Hb Hl Hr|m o a b x y s Hc Ha Hb Hl Hr H IH|m o a b x y s Hc Ha Hb Hl Hr H IH|m o a b x y s t i j Hc Ha Hb Hl Hr H1 IH1 H2 IH2 Hi Hj Hij|m o a b x y s t i j Hc Ha Hb Hl Hr H1 IH1 H2 IH2 Hi Hj Hij];
      intros e' HA; inversion HA as [? m'| | | |? m' ? f Hf| | |? m' ? ? a' ? b' Aa Ab| | |]; subst.
    - eexists. split; [constructor|constructor].
    - eexists. split; [now constructor|now constructor].
    - destruct (IH _ Hf) as (s' & H' & A'). exists s'. split; [now constructor|exact A'].
    - eexists. split; [eapply xp_none; eauto|now constructor].
    - destruct (IH _ Aa) as (s' & H' & A'). exists s'. split; [eapply xp_left; eauto|exact A'].
    - destruct (IH _ Ab) as (s' & H' & A'). exists s'. split; [eapply xp_right; eauto|exact A'].
    - destruct (IH1 _ Aa) as (s' & H' & A'). destruct (IH2 _ Ab) as (t' & H'' & A''). exists s'. split; [|exact A']. eapply (xp_both_left _ m' o a' b' x y s' t' i j); eauto using nodes_alike.
    - destruct (IH1 _ Aa) as (s' & H' & A'). destruct (IH2 _ Ab) as (t' & H'' & A''). exists t'. split; [|exact A'']. eapply (xp_both_right _ m' o a' b' x y s' t' i j); eauto using nodes_alike.
  Qed.
  Lemma explained_repeated m a b s i : Alike a b -> holds a false -> Explained holds a s -> Nodes s i -> Explained holds (EBin m OAND a b) s.
  Proof.
    intros HA Hf Hx Hn. destruct (explained_alike _ _ Hx _ HA) as (s' & Hx' & As). apply (xp_both_left _ m OAND a b false false s s' i i); [constructor|exact Hf|exact (same _ _ _ HA Hf)|intros y y'; reflexivity|intros y y'; destruct y, y'; reflexivity|exact Hx|exact Hx'|exact Hn|exact (nodes_alike _ _ _ As Hn)|lia].
  Qed.
End Copies.
Lemma typed_nodes keys e t : Typed (InTable keys) e t -> exists n, Nodes e n.
Proof.
  remember (InTable keys) as G eqn:EG. induction 1; subst; try solve [eexists; constructor].
  - discriminate.
  - destruct IHTyped as [k Hk]. eexists. constructor. exact Hk.
  - destruct IHTyped1 as [n1 H1']. destruct IHTyped2 as [n2 H2']. eexists. constructor; eassumption.
  - destruct IHTyped1 as [n1 H1']. destruct IHTyped2 as [n2 H2']. eexists. constructor; eassumption.
  - destruct IHTyped1 as [n1 H1']. destruct IHTyped2 as [n2 H2']. eexists. constructor; eassumption.
Qed.
Lemma explained_boolean holds G e s : Explained holds e s -> Typed G e TBool -> Typed G s TBool.
Proof.
  induction 1 as [m b|m o a b Hc|m e s H IH|m o a b x y Hc Ha Hb Hl Hr|m o a b x y s Hc Ha Hb Hl Hr H IH|m o a b x y s Hc Ha Hb Hl Hr H IH|m o a b x y s t i j Hc Ha Hb Hl Hr H1 IH1 H2 IH2 Hi Hj Hij|m o a b x y s t i j Hc Ha Hb Hl Hr H1 IH1 H2 IH2 Hi Hj Hij];
    intros HT; try exact HT; inversion HT; subst; auto;
    match goal with C : connective _, E : equality _ |- _ => destruct C; inversion E | C : connective _, E : ordering _ |- _ => destruct C; inversion E end.
Qed.
(** The table whose constraint is written twice, the second time on a new line, gives the same explanation: of two
    explanations of the same size the first is taken. *)
Theorem C105_repeated : forall pton p ci p' ci' d d' cs cs' entry u, pton_ok pton -> P4ToConstraintInfo pton p = Ok ci -> P4ToConstraintInfo pton p' = Ok ci' ->
  sane_widths p -> legible pton p -> sane_widths p' -> legible pton p' -> standard_keys p' -> In d (p4_tables p) -> In d' (p4_tables p') ->
  pr_id (pt_preamble d) = pe_table_id entry -> pr_id (pt_preamble d') = pe_table_id entry -> pr_name (pt_preamble d') = pr_name (pt_preamble d) -> pt_match_fields d' = pt_match_fields d ->
  restricted kTableConstraint (pt_preamble d) cs -> restricted kTableConstraint (pt_preamble d') cs' ->
  cs' = mkCSource (with_line (cs_string cs) (cs_string cs)) (cs_loc cs) -> open_ended cs -> ~ ends_in_comment (cs_string cs) ->
  ReasonEntryViolatesConstraint entry ci = Ok ("All entries must " ++ u) -> ReasonEntryViolatesConstraint entry ci' = Ok ("All entries must " ++ u).
Proof.
  intros pton p ci p' ci' d d' cs cs' en u Hp Hci Hci' Hs Hl Hs' Hl' Hst Hd Hd' Id Id' En Em Hr Hr' Ecs Hop Na He. set (text := "All entries must " ++ u) in *.
  pose proof (table_explained pton p ci d en u Hp Hci Hs Hl Hd Id He) as Ht.
  inversion Ht as [| | |ks cs0 e key v Hk Hr0 Hra Hty Hco Hkey HJ]; subst v. assert (cs0 = cs) as -> by exact (restricted_fun _ _ _ _ Hr0 Hr).
  inversion HJ as [|s x text0 Hh Hx Hsx Hrep| |]; subst text0. pose proof Hra as Hrb'. rewrite (csource_eta cs) in Hrb'. pose proof (Hl kTableConstraint cs e) as Hdis. destruct Hdis as [Hcr _]; [econstructor; eassumption|exact Hra|].
  destruct (line_reads pton kTableConstraint cs (cs_string cs) (cs_loc cs) e e Na (bare_end _ Hcr) Na Hop Hra Hrb') as (m & eb' & Hra' & Ab). rewrite <- Ecs in Hra'.
  assert (table_outcome pton d' en (Says text)) as Ht'.
  { apply (tv_judged pton d' en ks cs' (EBin m OAND e eb') key (Says text)); [rewrite Em; exact Hk|exact Hr'|exact Hra'| |exact Hco|exact Hkey|].
    - constructor; [constructor|exact Hty|exact (typed_alike _ _ _ _ Ab Hty)].
    - destruct (typed_nodes _ _ _ (explained_boolean _ _ _ _ Hx Hty)) as [i Hi]. apply (jd_false _ _ _ s x text).
      + apply (mn_left _ _ _ m OAND e eb' false false); [constructor|exact Hh|reflexivity].
      + apply (explained_repeated _ (fun a b x A H => meant_alike _ _ _ _ _ _ A H) m e eb' s i); assumption.
      + exact Hsx.
      + rewrite En. apply (table_report_more _ cs cs' ("; ( " ++ cs_string cs ++ " )")); [rewrite Ecs; reflexivity|rewrite Ecs; reflexivity|exact Hrep]. }
  apply (C71_exact pton p' ci' en (Says text) Hp Hci' Hs' Hl' Hst). apply (nv_table pton p' en d' (Says text)); [exact Hd'|exact Id'|exact Ht'|]. intros E. injection E as E. discriminate E.
Qed.
Print Assumptions C105_repeated.
Definition ap_decl (l : list string) : p4_table := mkP4Table (mkPre 1 "t" [restriction "entry" l]) [mkMF 1 "k" 8 (MMatchType MTExact)].
Definition ap_info (l : list string) : p4info := mkP4Info [ap_decl l] [].
Definition ap_a : list string := ["k == 3"].
Definition ap_b : list string := ["k != 9"].
Definition ap_both : list string := ["k == 3"; "; ( k != 9 )"].
Definition ap_ca : constraint_info := Eval vm_compute in the (mkInfo [] []) (P4ToConstraintInfo pton1 (ap_info ap_a)).
Definition ap_cb : constraint_info := Eval vm_compute in the (mkInfo [] []) (P4ToConstraintInfo pton1 (ap_info ap_b)).
Definition ap_cboth : constraint_info := Eval vm_compute in the (mkInfo [] []) (P4ToConstraintInfo pton1 (ap_info ap_both)).
Definition ap_loc : loc := mkLoc 0 0 (SrcTable "t").
Definition ap_entry : p4_entry := mkEntry 1 [mkFM 1 (FMExact (String (ascii_of_nat 5) ""))] None 0.
Definition ap_message : string := "satisfy:" ++ nl ++ nl ++ "In @entry_restriction of table 't'; at offset line 1, columns 1 to 6:" ++ nl ++ "1 | k == 3" ++ nl ++ "  | ^^^^^^" ++ nl ++ nl ++
  "But your entry does not." ++ nl ++ ">>>Relevant Entry Info<<<" ++ nl ++ "Table Name: " ++ dq ++ "t" ++ dq ++ nl ++ "Priority:0" ++ nl ++ "Field: " ++ dq ++ "k" ++ dq ++ " -> Value: Exact{.value = 5}" ++ nl.
Definition ap_tree : expr := Eval vm_compute in the (EBool (at_ ap_loc ap_loc) true) (ParseConstraint pton1 kTableConstraint (mkCSource (with_line "k == 3" "k != 9") ap_loc)).
Lemma ap_restricted l s : ExtractConstraint kTableConstraint (mkPre 1 "t" [restriction "entry" l]) = Ok (Some (mkCSource s ap_loc)) -> restricted kTableConstraint (pt_preamble (ap_decl l)) (mkCSource s ap_loc).
Proof. intros H. now apply extract_some. Qed.
Lemma ap_sane l : sane_widths (ap_info l).
Proof. split; intros d f Hd Hf; [|destruct Hd]. destruct Hd as [<-|[]]. destruct Hf as [<-|[]]. cbn. lia. Qed.
Lemma ap_legible_both : legible pton1 (ap_info ap_both).
Proof.
  intros ck cs e [d cs' Hd Hr|d cs' Hd Hr] Hra; [|destruct Hd]. destruct Hd as [<-|[]].
  assert (cs' = mkCSource (with_line "k == 3" "k != 9") ap_loc) as -> by (refine (restricted_fun _ _ _ _ Hr (ap_restricted _ _ _)); vm_compute; reflexivity).
  assert (e = ap_tree) as ->. { apply (text_iff pton1 pton1_ok) in Hra. assert (ParseConstraint pton1 kTableConstraint (mkCSource (with_line "k == 3" "k != 9") ap_loc) = Ok ap_tree) as E by (vm_compute; reflexivity). congruence. }
  split.
  - intros a b E. exfalso. assert (In CR (chars (with_line "k == 3" "k != 9"))) as Hin by (cbn [cs_string] in E; rewrite E; unfold chars; rewrite chars_app; apply in_or_app; right; now left).
    vm_compute in Hin. repeat destruct Hin as [Hin|Hin]; try discriminate Hin. exact Hin.
  - intros s Hs [Hl (line & HL & Hlen)]. apply LineOf_nth in HL. unfold ap_tree in Hs.
    repeat match goal with H : sub ?s (_ _) |- _ => inversion H; clear H; subst | H : sub ?s (_ _ _) |- _ => inversion H; clear H; subst | H : sub ?s (_ _ _ _) |- _ => inversion H; clear H; subst end;
      first [exact (Hl eq_refl)|vm_compute in HL; injection HL as <-; vm_compute in Hlen; discriminate Hlen].
Qed.
Lemma ap_legible l s : ExtractConstraint kTableConstraint (mkPre 1 "t" [restriction "entry" l]) = Ok (Some (mkCSource s ap_loc)) -> one_line s -> legible pton1 (ap_info l).
Proof.
  intros E H. apply (C71_one_line pton1 _ pton1_ok). intros ck cs [d cs' Hd Hr|d cs' Hd Hr]; [|destruct Hd]. destruct Hd as [<-|[]]. now rewrite (restricted_fun _ _ _ _ Hr (ap_restricted _ _ E)).
Qed.
Example C105_case : ReasonEntryViolatesConstraint ap_entry ap_ca = Ok ("All entries must " ++ ap_message) /\ ReasonEntryViolatesConstraint ap_entry ap_cb = Ok "" /\
  ReasonEntryViolatesConstraint ap_entry ap_cboth = Ok ("All entries must " ++ ap_message).
Proof.
  assert (ReasonEntryViolatesConstraint ap_entry ap_ca = Ok ("All entries must " ++ ap_message)) as H1 by (vm_compute; reflexivity). assert (ReasonEntryViolatesConstraint ap_entry ap_cb = Ok "") as H2 by (vm_compute; reflexivity).
  split; [exact H1|]. split; [exact H2|].
  assert (restricted kTableConstraint (pt_preamble (ap_decl ap_a)) (mkCSource "k == 3" ap_loc)) as Ra by (apply ap_restricted; vm_compute; reflexivity).
  assert (restricted kTableConstraint (pt_preamble (ap_decl ap_b)) (mkCSource "k != 9" ap_loc)) as Rb by (apply ap_restricted; vm_compute; reflexivity).
  assert (restricted kTableConstraint (pt_preamble (ap_decl ap_both)) (mkCSource (with_line "k == 3" "k != 9") ap_loc)) as Rc by (apply ap_restricted; vm_compute; reflexivity).
  refine (C105_appended pton1 (ap_info ap_a) ap_ca (ap_info ap_both) ap_cboth (ap_info ap_b) ap_cb (ap_decl ap_a) (ap_decl ap_both) (ap_decl ap_b) _ _ _ ap_entry ap_message
    pton1_ok _ _ _ (ap_sane _) _ (ap_sane _) ap_legible_both _ (or_introl eq_refl) (or_introl eq_refl) (or_introl eq_refl) eq_refl eq_refl eq_refl eq_refl eq_refl eq_refl Ra Rc Rb eq_refl _ _ _ H1 H2).
  - vm_compute. reflexivity.
  - vm_compute. reflexivity.
  - vm_compute. reflexivity.
  - apply (ap_legible _ "k == 3"); [vm_compute; reflexivity|]. split; intros H; cbn in H; repeat destruct H as [H|H]; try discriminate H; exact H.
  - intros d f [<-|[]] [<-|[]]. exists MTExact. reflexivity.
  - intros w t u E. vm_compute in E. destruct w as [|w1 [|w2 [|w3 w]]]; try discriminate E.
    + injection E as _ _ <- _. cbn. discriminate.
    + destruct w as [|? w]; [discriminate E|destruct w; discriminate E].
  - apply no_comment. reflexivity.
  - apply no_comment. reflexivity.
Qed.
Definition aa_table : p4_table := mkP4Table (mkPre 1 "t" []) [mkMF 1 "k" 8 (MMatchType MTExact)].
Definition aa_decl (l : list string) : p4_action_decl := mkP4ActionDecl (mkPre 2 "a" [restriction "action" l]) [mkAP 1 "k" 8 ""].
Definition aa_info (l : list string) : p4info := mkP4Info [aa_table] [aa_decl l].
Definition aa_ca : constraint_info := Eval vm_compute in the (mkInfo [] []) (P4ToConstraintInfo pton1 (aa_info ap_a)).
Definition aa_cb : constraint_info := Eval vm_compute in the (mkInfo [] []) (P4ToConstraintInfo pton1 (aa_info ap_b)).
Definition aa_cboth : constraint_info := Eval vm_compute in the (mkInfo [] []) (P4ToConstraintInfo pton1 (aa_info ap_both)).
Definition aa_loc : loc := mkLoc 0 0 (SrcAction "a").
Definition aa_action : p4_action := mkP4Action 2 [(1%N, String (ascii_of_nat 5) "")].
Definition aa_entry : p4_entry := mkEntry 1 [mkFM 1 (FMExact (String (ascii_of_nat 5) ""))] (Some (TAction aa_action)) 0.
Definition aa_message : string := Eval vm_compute in match ReasonEntryViolatesConstraint aa_entry aa_ca with Ok s => substring 17 (String.length s) s | _ => "" end.
Definition aa_tree : expr := Eval vm_compute in the (EBool (at_ ap_loc ap_loc) true) (ParseConstraint pton1 kActionConstraint (mkCSource (with_line "k == 3" "k != 9") aa_loc)).
Lemma aa_free : unrestricted kTableConstraint (pt_preamble aa_table).
Proof. exists "", 0%Z. left. constructor. Qed.
Lemma aa_restricted l s : ExtractConstraint kActionConstraint (mkPre 2 "a" [restriction "action" l]) = Ok (Some (mkCSource s aa_loc)) -> restricted kActionConstraint (pad_preamble (aa_decl l)) (mkCSource s aa_loc).
Proof. intros H. now apply extract_some. Qed.
Lemma aa_sane l : sane_widths (aa_info l).
Proof. split; intros d f [<-|[]] [<-|[]]; cbn; lia. Qed.
Lemma aa_legible_both : legible pton1 (aa_info ap_both).
Proof.
  intros ck cs e [d cs' Hd Hr|d cs' Hd Hr] Hra; destruct Hd as [<-|[]]; [destruct (restricted_not _ _ _ aa_free Hr)|].
  assert (cs' = mkCSource (with_line "k == 3" "k != 9") aa_loc) as -> by (refine (restricted_fun _ _ _ _ Hr (aa_restricted _ _ _)); vm_compute; reflexivity).
  assert (e = aa_tree) as ->. { apply (text_iff pton1 pton1_ok) in Hra. assert (ParseConstraint pton1 kActionConstraint (mkCSource (with_line "k == 3" "k != 9") aa_loc) = Ok aa_tree) as E by (vm_compute; reflexivity). congruence. }
  split.
  - intros a b E. exfalso. assert (In CR (chars (with_line "k == 3" "k != 9"))) as Hin by (cbn [cs_string] in E; rewrite E; unfold chars; rewrite chars_app; apply in_or_app; right; now left).
    vm_compute in Hin. repeat destruct Hin as [Hin|Hin]; try discriminate Hin. exact Hin.
  - intros s Hs [Hl (line & HL & Hlen)]. apply LineOf_nth in HL. unfold aa_tree in Hs.
    repeat match goal with H : sub ?s (_ _) |- _ => inversion H; clear H; subst | H : sub ?s (_ _ _) |- _ => inversion H; clear H; subst | H : sub ?s (_ _ _ _) |- _ => inversion H; clear H; subst end;
      first [exact (Hl eq_refl)|vm_compute in HL; injection HL as <-; vm_compute in Hlen; discriminate Hlen].
Qed.
Example C105_action_case : ReasonEntryViolatesConstraint aa_entry aa_ca = Ok ("All actions must " ++ aa_message) /\ ReasonEntryViolatesConstraint aa_entry aa_cb = Ok "" /\
  ReasonEntryViolatesConstraint aa_entry aa_cboth = Ok ("All actions must " ++ aa_message).
Proof.
  assert (ReasonEntryViolatesConstraint aa_entry aa_ca = Ok ("All actions must " ++ aa_message)) as H1 by (vm_compute; reflexivity). assert (ReasonEntryViolatesConstraint aa_entry aa_cb = Ok "") as H2 by (vm_compute; reflexivity).
  split; [exact H1|]. split; [exact H2|].
  assert (restricted kActionConstraint (pad_preamble (aa_decl ap_a)) (mkCSource "k == 3" aa_loc)) as Ra by (apply aa_restricted; vm_compute; reflexivity).
  assert (restricted kActionConstraint (pad_preamble (aa_decl ap_b)) (mkCSource "k != 9" aa_loc)) as Rb by (apply aa_restricted; vm_compute; reflexivity).
  assert (restricted kActionConstraint (pad_preamble (aa_decl ap_both)) (mkCSource (with_line "k == 3" "k != 9") aa_loc)) as Rc by (apply aa_restricted; vm_compute; reflexivity).
  refine (C105_appended_action pton1 (aa_info ap_a) aa_ca (aa_info ap_both) aa_cboth (aa_info ap_b) aa_cb aa_table aa_table aa_table (aa_decl ap_a) (aa_decl ap_both) (aa_decl ap_b) _ _ _ aa_entry aa_action aa_message
    pton1_ok _ _ _ (aa_sane _) _ (aa_sane _) aa_legible_both _ (or_introl eq_refl) (or_introl eq_refl) (or_introl eq_refl) eq_refl eq_refl eq_refl aa_free eq_refl (or_introl eq_refl) (or_introl eq_refl) (or_introl eq_refl)
    eq_refl eq_refl eq_refl eq_refl eq_refl eq_refl Ra Rc Rb eq_refl _ _ _ H1 H2).
  - vm_compute. reflexivity.
  - vm_compute. reflexivity.
  - vm_compute. reflexivity.
  - apply (C71_one_line pton1 _ pton1_ok). intros ck cs [d cs' Hd Hr|d cs' Hd Hr]; destruct Hd as [<-|[]]; [destruct (restricted_not _ _ _ aa_free Hr)|]. rewrite (restricted_fun _ _ _ _ Hr Ra).
    split; intros H; cbn in H; repeat destruct H as [H|H]; try discriminate H; exact H.
  - intros d f [<-|[]] [<-|[]]. exists MTExact. reflexivity.
  - intros w t u E. vm_compute in E. destruct w as [|w1 [|w2 [|w3 w]]]; try discriminate E.
    + injection E as _ _ <- _. cbn. discriminate.
    + destruct w as [|? w]; [discriminate E|destruct w; discriminate E].
  - apply no_comment. reflexivity.
  - apply no_comment. reflexivity.
Qed.
Definition ap_twice : list string := ["k == 3"; "; ( k == 3 )"].
Definition ap_ctwice : constraint_info := Eval vm_compute in the (mkInfo [] []) (P4ToConstraintInfo pton1 (ap_info ap_twice)).
Definition aa_ctwice : constraint_info := Eval vm_compute in the (mkInfo [] []) (P4ToConstraintInfo pton1 (aa_info ap_twice)).
(** Actions differ: the sizes of the two explanations cannot be compared when they mention a parameter, and the check fails. *)
Theorem C105_repeated_action_fails : exists p ci p' ci' entry u m, P4ToConstraintInfo pton1 p = Ok ci /\ P4ToConstraintInfo pton1 p' = Ok ci' /\ p = aa_info ["k == 3"] /\ p' = aa_info ["k == 3"; "; ( k == 3 )"] /\
  ReasonEntryViolatesConstraint entry ci = Ok ("All actions must " ++ u) /\ ReasonEntryViolatesConstraint entry ci' = Err InvalidArgument m.
Proof.
  exists (aa_info ap_a), aa_ca, (aa_info ap_twice), aa_ctwice, aa_entry, aa_message. eexists. split; [vm_compute; reflexivity|]. split; [vm_compute; reflexivity|]. split; [reflexivity|]. split; [reflexivity|]. split; vm_compute; reflexivity.
Qed.
Print Assumptions C105_repeated_action_fails.
Definition ap_tree2 : expr := Eval vm_compute in the (EBool (at_ ap_loc ap_loc) true) (ParseConstraint pton1 kTableConstraint (mkCSource (with_line "k == 3" "k == 3") ap_loc)).
Lemma ap_legible_twice : legible pton1 (ap_info ap_twice).
Proof.
  intros ck cs e [d cs' Hd Hr|d cs' Hd Hr] Hra; [|destruct Hd]. destruct Hd as [<-|[]].
  assert (cs' = mkCSource (with_line "k == 3" "k == 3") ap_loc) as -> by (refine (restricted_fun _ _ _ _ Hr (ap_restricted _ _ _)); vm_compute; reflexivity).
  assert (e = ap_tree2) as ->. { apply (text_iff pton1 pton1_ok) in Hra. assert (ParseConstraint pton1 kTableConstraint (mkCSource (with_line "k == 3" "k == 3") ap_loc) = Ok ap_tree2) as E by (vm_compute; reflexivity). congruence. }
  split.
  - intros a b E. exfalso. assert (In CR (chars (with_line "k == 3" "k == 3"))) as Hin by (cbn [cs_string] in E; rewrite E; unfold chars; rewrite chars_app; apply in_or_app; right; now left).
    vm_compute in Hin. repeat destruct Hin as [Hin|Hin]; try discriminate Hin. exact Hin.
  - intros s Hs [Hl (line & HL & Hlen)]. apply LineOf_nth in HL. unfold ap_tree2 in Hs.
    repeat match goal with H : sub ?s (_ _) |- _ => inversion H; clear H; subst | H : sub ?s (_ _ _) |- _ => inversion H; clear H; subst | H : sub ?s (_ _ _ _) |- _ => inversion H; clear H; subst end;
      first [exact (Hl eq_refl)|vm_compute in HL; injection HL as <-; vm_compute in Hlen; discriminate Hlen].
Qed.
Example C105_repeated_case : ReasonEntryViolatesConstraint ap_entry ap_ca = Ok ("All entries must " ++ ap_message) /\ ReasonEntryViolatesConstraint ap_entry ap_ctwice = Ok ("All entries must " ++ ap_message).
Proof.
  assert (ReasonEntryViolatesConstraint ap_entry ap_ca = Ok ("All entries must " ++ ap_message)) as H1 by (vm_compute; reflexivity). split; [exact H1|].
  assert (restricted kTableConstraint (pt_preamble (ap_decl ap_a)) (mkCSource "k == 3" ap_loc)) as Ra by (apply ap_restricted; vm_compute; reflexivity).
  assert (restricted kTableConstraint (pt_preamble (ap_decl ap_twice)) (mkCSource (with_line "k == 3" "k == 3") ap_loc)) as Rc by (apply ap_restricted; vm_compute; reflexivity).
  refine (C105_repeated pton1 (ap_info ap_a) ap_ca (ap_info ap_twice) ap_ctwice (ap_decl ap_a) (ap_decl ap_twice) _ _ ap_entry ap_message
    pton1_ok _ _ (ap_sane _) _ (ap_sane _) ap_legible_twice _ (or_introl eq_refl) (or_introl eq_refl) eq_refl eq_refl eq_refl eq_refl Ra Rc eq_refl _ _ H1).
  - vm_compute. reflexivity.
  - vm_compute. reflexivity.
  - apply (ap_legible _ "k == 3"); [vm_compute; reflexivity|]. split; intros H; cbn in H; repeat destruct H as [H|H]; try discriminate H; exact H.
  - intros d f [<-|[]] [<-|[]]. exists MTExact. reflexivity.
  - intros w t u E. vm_compute in E. destruct w as [|w1 [|w2 [|w3 w]]]; try discriminate E.
    + injection E as _ _ <- _. cbn. discriminate.
    + destruct w as [|? w]; [discriminate E|destruct w; discriminate E].
  - apply no_comment. reflexivity.
Qed.
