(** C55-C57: what can be changed about a constraint's text without changing verdicts. *)
From Coq Require Import String Ascii List ZArith NArith Bool Lia.
From Verif Require Import Base Num Token Ast Lexer Quote AstConstructors Parser Info TypeChecker ConstraintInfo Interpreter SpecLexer SpecGrammar SpecParser SpecTyping SpecSemantics SpecInfo SpecMisc SpecLaws
  StrFacts NumFacts LiteralFacts ParserFacts4 TypeFacts EvalFacts SemFacts SemFacts2 EntryFacts ExplainFacts VerdictFacts InfoFacts InfoFacts2 InterpFacts InterpFacts2 LawFacts RetoldFacts CombineFacts
  PropertiesParser PropertiesInfo PropertiesInterpreter PropertiesVerdict.
Import ListNotations.
Open Scope string_scope.

(** * C55 *)
(** Only the tokens of constraints matter for loading a P4Info and for accepting entries. *)
Theorem C55_loads_alike : forall pton p p', pton_ok pton -> retold p p' ->
  ((exists ci, P4ToConstraintInfo pton p = Ok ci) <-> (exists ci', P4ToConstraintInfo pton p' = Ok ci')).
Proof. intros pton p p' Hp HR. split; apply retold_loads; auto using retold_sym. Qed.
Print Assumptions C55_loads_alike.
Theorem C55_accepts_alike : forall pton p p' ci ci' entry, pton_ok pton -> retold p p' -> P4ToConstraintInfo pton p = Ok ci -> P4ToConstraintInfo pton p' = Ok ci' ->
  (ReasonEntryViolatesConstraint entry ci = Ok "" <-> ReasonEntryViolatesConstraint entry ci' = Ok "").
Proof. intros pton p p' ci ci' entry Hp HR L L'. split; [apply (accepts_entry pton p p')|apply (accepts_entry pton p' p)]; auto using retold_sym. Qed.
Print Assumptions C55_accepts_alike.
(** The same constraint in one line and spread over a file, with comments. *)
Definition spread_lines : list string := ["e != 0 && // not zero"; "(t::mask == 0"; "|| /* or"; "*/ ::priority > 3)"].
Definition spread_decl : p4_table := mkP4Table (mkPre 3 "other" ["@file(" ++ dq ++ "x.p4" ++ dq ++ ")"; "@line(12)"; restriction "entry" spread_lines]) (pt_match_fields demo_decl).
Definition spread_info : p4info := mkP4Info [spread_decl; mkP4Table (mkPre 5 "open" ["@unrelated"]) []] [demo_action].
Lemma one_line (ck : constraint_kind) pre word s : pr_annotations pre = [keyword ck ++ parts_text [s]] -> word = keyword ck -> existsb (Ascii.eqb NUL) (chars (parts_text [s])) = false -> existsb (Ascii.eqb DQUOTE) (chars s) = false ->
  restricted ck pre (mkCSource s (mkLoc 0 0 (match ck with kTableConstraint => SrcTable (pr_name pre) | kActionConstraint => SrcAction (pr_name pre) end))).
Proof.
  intros E _ H1 H2. eexists (parts_text [s]), "", 0%Z, [s]. split; [rewrite E; apply nt_here; reflexivity|]. split; [split; [apply no_special; exact H1|left; reflexivity]|].
  split; [discriminate|]. split; [constructor; [apply no_special; exact H2|constructor]|reflexivity].
Qed.
Lemma spread_restricted : restricted kTableConstraint (pt_preamble spread_decl) (mkCSource (String.concat nl spread_lines) (mkLoc 12 0 (SrcFile "x.p4"))).
Proof. apply extract_some. vm_compute. reflexivity. Qed.
Example C55_case : retold demo_info spread_info /\ (exists ci, P4ToConstraintInfo pton1 spread_info = Ok ci) /\
  (exists ci, P4ToConstraintInfo pton1 spread_info = Ok ci /\ ReasonEntryViolatesConstraint (mkEntry 3 demo_match None 0) ci = Ok "").
Proof.
  assert (retold demo_info spread_info) as HR.
  { split.
    - constructor; [|constructor; [|constructor]].
      + split; [reflexivity|]. split; [reflexivity|]. eapply sr_some; [exact demo_restricted|exact spread_restricted|vm_compute; reflexivity].
      + split; [reflexivity|]. split; [reflexivity|]. apply sr_none; apply extract_none; vm_compute; reflexivity.
    - constructor; [|constructor]. split; [reflexivity|]. split; [reflexivity|]. eapply sr_some; [exact demo_arestricted|exact demo_arestricted|reflexivity]. }
  assert (exists ci, P4ToConstraintInfo pton1 spread_info = Ok ci) as [ci Hci].
  { apply (proj1 (C55_loads_alike pton1 demo_info spread_info pton1_ok HR)). eexists. exact demo_parsed. }
  split; [exact HR|]. split; [now exists ci|]. exists ci. split; [exact Hci|].
  apply (C55_accepts_alike pton1 demo_info spread_info demo_ci ci _ pton1_ok HR demo_parsed Hci). vm_compute. reflexivity.
Qed.

(** * C56 *)
(** The loaded P4Info restricts the table with keys [ks] by the text [s]. *)
Definition table_says (pton : inet_pton6) (ci : constraint_info) (id : N) (ks : list key_info) (s : string) : Prop :=
  exists p d l, P4ToConstraintInfo pton p = Ok ci /\ In d (p4_tables p) /\ table_id d = id /\ Forall2 key_decl (pt_match_fields d) ks /\
    restricted kTableConstraint (pt_preamble d) (mkCSource s l).
Lemma says_reads pton ci id ks s : pton_ok pton -> table_says pton ci id ks s -> exists p d l e, P4ToConstraintInfo pton p = Ok ci /\ In d (p4_tables p) /\ table_id d = id /\ Forall2 key_decl (pt_match_fields d) ks /\
    restricted kTableConstraint (pt_preamble d) (mkCSource s l) /\ reads_as pton kTableConstraint (mkCSource s l) e /\ literals e /\ NoDup (map k_id ks) /\ NoDup (map k_name ks).
Proof.
  intros Hp (p & d & l & L & Hd & Hid & Hf & Hr). exists p, d, l. destruct (proj1 (info_iff pton p) (ex_intro _ ci L)) as (_ & _ & H3 & _). destruct (H3 d Hd) as [t Et].
  destruct (table_parsed _ _ _ Et) as [ks' [_ _ Hf' HK Hc]]. destruct Hc as [(Hu & _)|(e0 & e & Hr2 & Hp1 & _)]; [exfalso; exact (restricted_not _ _ _ Hu Hr)|].
  assert (ks' = ks) as -> by (eapply forall2_fun; [exact key_decl_fun|exact Hf'|exact Hf]).
  rewrite (restricted_fun _ _ _ _ Hr2 Hr) in Hp1. pose proof (parse_literals _ _ _ _ Hp Hp1) as Hl. apply (text_iff pton Hp) in Hp1. exists e0. split; [exact L|]. split; [exact Hd|]. split; [exact Hid|]. split; [exact Hf|]. split; [exact Hr|].
  split; [exact Hp1|]. split; [exact Hl|]. split; apply HK.
Qed.
(** What a verdict says about the tree. *)
Definition meant (ks : list key_info) (entry : p4_entry) (key : string -> option value) (e : expr) (text : string) : Prop :=
  Typed (key_scope ks) e TBool /\ Den (key_scope ks) (TableEnv key (pe_priority entry)) e (VBool (String.eqb text "")).
Lemma verdict_key pton ci id ks s entry text : pton_ok pton -> table_says pton ci id ks s -> pe_table_id entry = id -> pe_action entry = None ->
  ReasonEntryViolatesConstraint entry ci = Ok text -> exists key, (forall n v, key n = Some v <-> Assigned ks (pe_match entry) n v) /\ consistent ks (pe_match entry).
Proof.
  intros Hp HS Hid Ha H. destruct (says_reads _ _ _ _ _ Hp HS) as (p & d & l & e & L & Hd & Hdid & Hf & Hr & Hra & _).
  destruct (declared_table _ _ _ _ _ _ _ Hp L Hd Hf Hr Hra) as (t & e' & Ht & HK & _ & _ & _ & _ & He).
  unfold ReasonEntryViolatesConstraint in H. unfold table_id in Hdid. rewrite Hid, <- Hdid, Ht in H. apply bind_ok in H as (r & H & _).
  apply table_ok in H as [(E & _)|(e1 & ctx & _ & _ & Hpa & _)]; [congruence|]. destruct (entry_ok t ks HK entry ctx Hpa) as (Hco & keys & _ & HN & HA).
  exists (fun n => assoc_find String.eqb n keys). split; [|exact Hco]. intros n v. rewrite <- HA. now apply (afind_iff String.eqb String.eqb_eq).
Qed.
Lemma says_meant pton ci id ks s entry text key l e : pton_ok pton -> table_says pton ci id ks s -> pe_table_id entry = id -> pe_action entry = None ->
  ReasonEntryViolatesConstraint entry ci = Ok text -> (forall n v, key n = Some v <-> Assigned ks (pe_match entry) n v) -> reads_as pton kTableConstraint (mkCSource s l) e -> meant ks entry key e text.
Proof.
  intros Hp HS Hid Ha H Hk Hre. destruct (says_reads _ _ _ _ _ Hp HS) as (p & d & l' & e' & L & Hd & Hdid & Hf & Hr & Hra & _).
  destruct (C26_verdict_sound pton p ci d ks _ e' entry key text Hp L Hd (eq_trans Hdid (eq_sym Hid)) Hf Hr Hra Hk Ha H) as (_ & HT & HD).
  assert (Alike e' e) as HA. { eapply (alike_unique pton kTableConstraint); [exact Hp| |apply (text_iff pton Hp); exact Hra|apply (text_iff pton Hp); exact Hre]. unfold same_tokens. now rewrite !LexerFacts5.kts_loc. }
  split; [eapply typed_alike; eauto|eapply den_alike; eauto].
Qed.
(** Texts can be put in parentheses and combined; the verdict is the combination of the
    verdicts. *)
Theorem C56_combined_verdict : forall pton op o a b ci ca cb id ks entry text ta tb, pton_ok pton -> connects op o -> ~ ends_in_comment a -> ~ ends_in_comment b ->
  table_says pton ca id ks a -> table_says pton cb id ks b -> table_says pton ci id ks (combined op a b) ->
  pe_table_id entry = id -> pe_action entry = None ->
  ReasonEntryViolatesConstraint entry ca = Ok ta -> ReasonEntryViolatesConstraint entry cb = Ok tb -> ReasonEntryViolatesConstraint entry ci = Ok text ->
  String.eqb text "" = truth o (String.eqb ta "") (String.eqb tb "").
Proof.
  intros pton op o a b ci ca cb id ks entry text ta tb Hp Hop Na Nb Sa Sb Sc Hid Hact Ha Hb H.
  destruct (verdict_key _ _ _ _ _ _ _ Hp Sa Hid Hact Ha) as (key & Hk & Hco).
  destruct (says_reads _ _ _ _ _ Hp Sa) as (_ & _ & la & ea & _ & _ & _ & _ & _ & Ra & _ & N1 & N2). destruct (says_reads _ _ _ _ _ Hp Sb) as (_ & _ & lb & eb & _ & _ & _ & _ & _ & Rb & _).
  destruct (combined_reads pton kTableConstraint op o a b la lb la ea eb Hop Na Nb Ra Rb) as (m & ea' & eb' & Rc & Aa & Ab).
  destruct (says_meant _ _ _ _ _ _ _ key _ _ Hp Sa Hid Hact Ha Hk Ra) as (_ & Da). destruct (says_meant _ _ _ _ _ _ _ key _ _ Hp Sb Hid Hact Hb Hk Rb) as (_ & Db).
  destruct (says_meant _ _ _ _ _ _ _ key _ _ Hp Sc Hid Hact H Hk Rc) as (_ & Dc).
  apply (den_alike _ _ _ _ _ Aa) in Da. apply (den_alike _ _ _ _ _ Ab) in Db.
  assert (NoDup (map fst (map (fun k => (k_name k, k)) ks))) as HN by (rewrite map_map; exact N2).
  assert (connective o) as Hc by (destruct Hop; constructor).
  apply (den_conn _ HN _ m o ea' eb' _ _ _ Hc Da Db) in Dc. now injection Dc.
Qed.
Print Assumptions C56_combined_verdict.
Theorem C56_negated_verdict : forall pton a ci ca id ks entry text ta, pton_ok pton -> ~ ends_in_comment a ->
  table_says pton ca id ks a -> table_says pton ci id ks (negated a) -> pe_table_id entry = id -> pe_action entry = None ->
  ReasonEntryViolatesConstraint entry ca = Ok ta -> ReasonEntryViolatesConstraint entry ci = Ok text ->
  (text = "" <-> ta <> "").
Proof.
  intros pton a ci ca id ks entry text ta Hp Na Sa Sc Hid Hact Ha H.
  destruct (verdict_key _ _ _ _ _ _ _ Hp Sa Hid Hact Ha) as (key & Hk & Hco).
  destruct (says_reads _ _ _ _ _ Hp Sa) as (_ & _ & la & ea & _ & _ & _ & _ & _ & Ra & _ & N1 & N2).
  destruct (negated_reads pton kTableConstraint a la la ea Na Ra) as (m & ea' & Rc & Aa).
  destruct (says_meant _ _ _ _ _ _ _ key _ _ Hp Sa Hid Hact Ha Hk Ra) as (_ & Da). destruct (says_meant _ _ _ _ _ _ _ key _ _ Hp Sc Hid Hact H Hk Rc) as (_ & Dc).
  apply (den_alike _ _ _ _ _ Aa) in Da. assert (NoDup (map fst (map (fun k => (k_name k, k)) ks))) as HN by (rewrite map_map; exact N2).
  apply (den_not _ HN _ m ea' _ _ Da) in Dc. injection Dc as E. destruct (String.eqb_spec text "") as [->|], (String.eqb_spec ta "") as [->|]; cbn in E; try discriminate; tauto.
Qed.
Print Assumptions C56_negated_verdict.
(** Combinations always load: they are well typed if their parts are. *)
Theorem C56_combined_reads : forall pton ck op o a b la lb l ea eb, pton_ok pton -> connects op o -> ~ ends_in_comment a -> ~ ends_in_comment b ->
  ParseConstraint pton ck (mkCSource a la) = Ok ea -> ParseConstraint pton ck (mkCSource b lb) = Ok eb ->
  exists m ea' eb', ParseConstraint pton ck (mkCSource (combined op a b) l) = Ok (EBin m o ea' eb') /\ Alike ea ea' /\ Alike eb eb' /\
    forall G, (Typed G (EBin m o ea' eb') TBool <-> Typed G ea TBool /\ Typed G eb TBool).
Proof.
  intros pton ck op o a b la lb l ea eb Hp Hop Na Nb Ha Hb. apply (text_iff pton Hp) in Ha, Hb.
  destruct (combined_reads pton ck op o a b la lb l ea eb Hop Na Nb Ha Hb) as (m & ea' & eb' & Rc & Aa & Ab). exists m, ea', eb'. split; [now apply (text_iff pton Hp)|]. split; [exact Aa|]. split; [exact Ab|].
  assert (connective o) as Hc by (destruct Hop; constructor). intros G. split.
  - intros H. inversion H; subst.
    + split; [eapply typed_alike; [apply alike_sym; exact Aa|assumption]|eapply typed_alike; [apply alike_sym; exact Ab|assumption]].
    + exfalso. destruct Hc; match goal with H : equality _ |- _ => inversion H end.
    + exfalso. destruct Hc; match goal with H : ordering _ |- _ => inversion H end.
  - intros [H1 H2]. apply T_conn; [exact Hc|eapply typed_alike; eauto..].
Qed.
Print Assumptions C56_combined_reads.
Definition part_a : string := "e != 0".
Definition part_b : string := "t::mask == 0 || ::priority > 3".
Definition says_decl (s : string) : p4_table := mkP4Table (mkPre 3 "demo" [restriction "entry" [s]]) (pt_match_fields demo_decl).
Definition says_ci (s : string) : constraint_info := the (mkInfo [] []) (P4ToConstraintInfo pton1 (mkP4Info [says_decl s] [])).
Lemma demo_says s : (match P4ToConstraintInfo pton1 (mkP4Info [says_decl s] []) with Ok _ => true | _ => false end) = true ->
  existsb (Ascii.eqb NUL) (chars (parts_text [s])) = false -> existsb (Ascii.eqb DQUOTE) (chars s) = false -> table_says pton1 (says_ci s) 3 demo_keys s.
Proof.
  intros H H1 H2. exists (mkP4Info [says_decl s] []), (says_decl s). eexists. split.
  - unfold says_ci. destruct (P4ToConstraintInfo pton1 (mkP4Info [says_decl s] [])) as [c| |]; [reflexivity|discriminate H..].
  - split; [now left|]. split; [reflexivity|]. split; [exact demo_decls|]. now apply (one_line kTableConstraint (pt_preamble (says_decl s)) (keyword kTableConstraint) s).
Qed.
Example C56_case : ~ ends_in_comment part_a /\ ~ ends_in_comment part_b /\ table_says pton1 (says_ci part_a) 3 demo_keys part_a /\ table_says pton1 (says_ci part_b) 3 demo_keys part_b /\
  table_says pton1 (says_ci (combined "->" part_a part_b)) 3 demo_keys (combined "->" part_a part_b) /\ table_says pton1 (says_ci (negated part_b)) 3 demo_keys (negated part_b) /\
  let entry := mkEntry 3 [mkFM 1 (FMExact "a"); mkFM 2 (FMTernary "a" "a")] None 1 in
  ReasonEntryViolatesConstraint entry (says_ci part_a) = Ok "" /\ (exists tb, tb <> "" /\ ReasonEntryViolatesConstraint entry (says_ci part_b) = Ok tb) /\
  (exists text, text <> "" /\ ReasonEntryViolatesConstraint entry (says_ci (combined "->" part_a part_b)) = Ok text) /\
  ReasonEntryViolatesConstraint entry (says_ci (negated part_b)) = Ok "".
Proof.
  assert (forall s, existsb (Ascii.eqb "/"%char) (chars s) = false -> ~ ends_in_comment s) as NC. { intros s H. apply no_slash. now apply (no_special "/"%char s). }
  split; [apply NC; reflexivity|]. split; [apply NC; reflexivity|]. do 4 (split; [apply demo_says; vm_compute; reflexivity|]). cbn zeta.
  split; [vm_compute; reflexivity|]. split; [eexists; split; [|vm_compute; reflexivity]; discriminate|]. split; [eexists; split; [|vm_compute; reflexivity]; discriminate|vm_compute; reflexivity].
Qed.

(** * C57 *)
(** Rewriting by the laws of logic and of comparisons never changes a verdict. *)
Theorem C57_rewritten_verdict : forall pton ci ci' id ks s s' l l' e e' entry text text', pton_ok pton ->
  table_says pton ci id ks s -> table_says pton ci' id ks s' ->
  ParseConstraint pton kTableConstraint (mkCSource s l) = Ok e -> ParseConstraint pton kTableConstraint (mkCSource s' l') = Ok e' ->
  Rewrites (key_scope ks) e e' -> (forall k w, In k ks -> width (k_type k) w -> (0 <= w)%Z) ->
  pe_table_id entry = id -> pe_action entry = None ->
  ReasonEntryViolatesConstraint entry ci = Ok text -> ReasonEntryViolatesConstraint entry ci' = Ok text' -> (text = "" <-> text' = "").
Proof.
  intros pton ci ci' id ks s s' l l' e e' entry text text' Hp S S' Pe Pe' HR Hw Hid Hact H H'. apply (text_iff pton Hp) in Pe, Pe'.
  destruct (verdict_key _ _ _ _ _ _ _ Hp S Hid Hact H) as (key & Hk & Hco). destruct (says_reads _ _ _ _ _ Hp S) as (_ & _ & _ & _ & _ & _ & _ & _ & _ & _ & _ & N1 & N2).
  destruct (says_meant _ _ _ _ _ _ _ key _ _ Hp S Hid Hact H Hk Pe) as (_ & D1). destruct (says_meant _ _ _ _ _ _ _ key _ _ Hp S' Hid Hact H' Hk Pe') as (_ & D2).
  assert (NoDup (map fst (map (fun k => (k_name k, k)) ks))) as HN by (rewrite map_map; exact N2).
  pose proof (entry_env_ok ks entry key N1 N2 Hco Hw Hk) as HE. apply (proj2 (rewrites_sound _ _ _ _ HN HE HR)) in D1.
  pose proof (den_unique _ HN _ _ _ _ D1 D2) as E. injection E as E. rewrite <- !String.eqb_eq, E. reflexivity.
Qed.
Print Assumptions C57_rewritten_verdict.
(** Without ordered comparisons of exact keys, acceptance itself is preserved. *)
Theorem C57_rewritten_accepted : forall pton ci ci' id ks s s' l l' e e' entry, pton_ok pton ->
  table_says pton ci id ks s -> table_says pton ci' id ks s' ->
  ParseConstraint pton kTableConstraint (mkCSource s l) = Ok e -> ParseConstraint pton kTableConstraint (mkCSource s' l') = Ok e' ->
  Rewrites (key_scope ks) e e' -> Typed (key_scope ks) e TBool -> (forall k w, In k ks -> width (k_type k) w -> (0 <= w)%Z) -> ~ orders_exact (key_scope ks) e' ->
  pe_table_id entry = id -> pe_action entry = None ->
  ReasonEntryViolatesConstraint entry ci = Ok "" -> ReasonEntryViolatesConstraint entry ci' = Ok "".
Proof.
  intros pton ci ci' id ks s s' l l' e e' entry Hp S S' Pe Pe' HR Ht Hw Ho Hid Hact H. pose proof Pe' as Pe2. apply (text_iff pton Hp) in Pe, Pe2.
  destruct (verdict_key _ _ _ _ _ _ _ Hp S Hid Hact H) as (key & Hk & Hco). destruct (says_reads _ _ _ _ _ Hp S) as (_ & _ & _ & _ & _ & _ & _ & _ & _ & _ & _ & N1 & N2).
  destruct (says_meant _ _ _ _ _ _ _ key _ _ Hp S Hid Hact H Hk Pe) as (_ & D1).
  assert (NoDup (map fst (map (fun k => (k_name k, k)) ks))) as HN by (rewrite map_map; exact N2).
  pose proof (entry_env_ok ks entry key N1 N2 Hco Hw Hk) as HE. destruct (rewrites_sound _ _ _ _ HN HE HR) as [R1 R2].
  destruct (says_reads _ _ _ _ _ Hp S') as (p & d & l2 & e2 & L & Hd & Hdid & Hf & Hr & Hra & _).
  assert (Alike e' e2) as HA. { eapply (alike_unique pton kTableConstraint); [exact Hp| |exact Pe'|apply (text_iff pton Hp); exact Hra]. unfold same_tokens. now rewrite !LexerFacts5.kts_loc. }
  apply (C26_accepted_iff_partial pton p ci' d ks _ e2 entry key Hp L Hd (eq_trans Hdid (eq_sym Hid)) Hf Hr Hra); try assumption.
  - eapply typed_alike; [exact HA|]. now apply R1.
  - intros Hx. apply Ho. eapply orders_alike; [apply alike_sym; exact HA|exact Hx].
  - eapply den_alike; [exact HA|]. now apply R2.
Qed.
Print Assumptions C57_rewritten_accepted.
Definition law_s : string := "e != 0 -> t::mask == 0".
Definition law_s' : string := "! (t::mask == 0) -> e == 0".
Definition law_e : expr := Eval vm_compute in the (ENotSet (at_ default_loc default_loc)) (ParseConstraint pton1 kTableConstraint (mkCSource law_s default_loc)).
Definition law_e' : expr := Eval vm_compute in the (ENotSet (at_ default_loc default_loc)) (ParseConstraint pton1 kTableConstraint (mkCSource law_s' default_loc)).
Lemma typed_by_check x : (match InferTable x (mkTable 0 "" None default_csource [] (map (fun k => (k_name k, k)) demo_keys)) with Ok y => is_bool_type (e_type y) | _ => false end) = true -> Typed (key_scope demo_keys) x TBool.
Proof.
  intros H. destruct (InferTable x _) as [y| |] eqn:E; [|discriminate..]. apply bool_iff in H. rewrite <- H.
  refine (proj1 (infer_ok None (Some (mkTable 0 "" None default_csource [] (map (fun k => (k_name k, k)) demo_keys))) _ _ _ _ E)).
  apply (is_table (mkTable 0 "" None default_csource [] (map (fun k => (k_name k, k)) demo_keys))). cbn. repeat constructor; cbn; intuition discriminate.
Qed.
Lemma law_rewrites : Rewrites (key_scope demo_keys) law_e law_e'.
Proof.
  pose (m := at_ default_loc default_loc). unfold law_e, law_e'.
  match goal with |- Rewrites _ (EBin _ _ (EBin ?m1 _ ?x ?y) ?b) (EBin _ _ (ENot _ ?b') (EBin _ _ ?x' ?y')) =>
    assert (literals (EBin m1 ONE x y) /\ literals b) as [L1 L2] by (cbn; repeat split; exists 0%N; (split; [apply (reads_one 10 "0"%char 0); [apply (dchar_digit "0"%char); split; vm_compute; discriminate|reflexivity]|now left]));
    apply rw_trans with (EBin m OIMPLIES (ENot m b) (ENot m (EBin m1 ONE x y)));
    [apply rw_law; [apply law_contrapose|apply typed_by_check; vm_compute; reflexivity..|cbn in *; tauto|cbn in *; tauto]|];
    apply rw_bin; [apply rw_not; apply rw_alike; repeat constructor|];
    apply rw_trans with (ENot m (ENot m (EBin m OEQ x y)));
    [apply rw_not; apply rw_law; [apply law_ne|apply typed_by_check; vm_compute; reflexivity..|cbn in *; tauto|cbn in *; tauto]|];
    apply rw_trans with (EBin m OEQ x y);
    [apply rw_law; [apply law_double|apply typed_by_check; vm_compute; reflexivity..|cbn in *; tauto|cbn in *; tauto]|apply rw_alike; repeat constructor]
  end.
Qed.
Example C57_case : table_says pton1 (says_ci law_s) 3 demo_keys law_s /\ table_says pton1 (says_ci law_s') 3 demo_keys law_s' /\
  ParseConstraint pton1 kTableConstraint (mkCSource law_s default_loc) = Ok law_e /\ ParseConstraint pton1 kTableConstraint (mkCSource law_s' default_loc) = Ok law_e' /\
  Rewrites (key_scope demo_keys) law_e law_e' /\ Typed (key_scope demo_keys) law_e TBool /\ (forall k w, In k demo_keys -> width (k_type k) w -> (0 <= w)%Z) /\ ~ orders_exact (key_scope demo_keys) law_e' /\
  (exists text, text <> "" /\ ReasonEntryViolatesConstraint (mkEntry 3 [mkFM 1 (FMExact "a"); mkFM 2 (FMTernary "a" "a")] None 1) (says_ci law_s) = Ok text) /\
  (exists text, text <> "" /\ ReasonEntryViolatesConstraint (mkEntry 3 [mkFM 1 (FMExact "a"); mkFM 2 (FMTernary "a" "a")] None 1) (says_ci law_s') = Ok text) /\
  ReasonEntryViolatesConstraint (mkEntry 3 demo_match None 1) (says_ci law_s) = Ok "".
Proof.
  do 2 (split; [apply demo_says; vm_compute; reflexivity|]). do 2 (split; [vm_compute; reflexivity|]). split; [exact law_rewrites|]. split; [apply typed_by_check; vm_compute; reflexivity|].
  split. { intros k w [<-|[<-|[<-|[]]]] Hw; inversion Hw; lia. }
  split. { generalize (key_scope demo_keys). intros G Ho. repeat match goal with H : orders_exact _ _ |- _ => inversion H; clear H; subst end; match goal with H : ordering _ |- _ => inversion H end. }
  split; [eexists; split; [|vm_compute; reflexivity]; discriminate|]. split; [eexists; split; [|vm_compute; reflexivity]; discriminate|vm_compute; reflexivity].
Qed.
