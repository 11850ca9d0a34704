(** Errors of loading: which part is blamed, and that all are reported (C66, C67). *)
From Coq Require Import String Ascii List ZArith NArith Bool Lia.
From Verif Require Import Base Num Token Ast Lexer Quote AstConstructors Parser Info TypeChecker ConstraintInfo SpecLexer SpecGrammar SpecParser SpecQuote SpecTyping SpecSemantics SpecInfo SpecExplain SpecCrash SpecFault SpecReport
  StrFacts ParserFacts4 TypeFacts QuoteFacts3 InfoFacts InfoFacts2 CrashFacts FaultFacts ReportFacts PropertiesParser PropertiesInfo PropertiesVerdict.
Import ListNotations.
Open Scope string_scope.

(** * C66 *)
(** A type error quotes the part at fault and says why. *)
Theorem C66_blames_fault :
  (forall t e a b why, NoDup (map fst (ti_keys_by_name t)) -> fault (InTable (ti_keys_by_name t)) e a b why ->
     InferTable e t = match QuoteSubConstraint (ti_source t) a b with
                      | Ok q => Err InvalidArgument (q ++ "Type error: " ++ why)
                      | Err k m => Err Internal ("Failed to quote sub-constraint: " ++ StableStatusToString k m ++ why)
                      | Crash w => Crash w
                      end) /\
  (forall t e a b why, NoDup (map fst (ai_params_by_name t)) -> fault (InAction (ai_params_by_name t)) e a b why ->
     InferAction e t = match QuoteSubConstraint (ai_source t) a b with
                       | Ok q => Err InvalidArgument (q ++ "Type error: " ++ why)
                       | Err k m => Err Internal ("Failed to quote sub-constraint: " ++ StableStatusToString k m ++ why)
                       | Crash w => Crash w
                       end).
Proof.
  split; intros t e a b why HN Hf.
  - unfold InferTable. rewrite (fault_infer None (Some t) _ (ti_source t) (is_table t HN) eq_refl e a b why Hf). reflexivity.
  - unfold InferAction. rewrite (fault_infer (Some t) None _ (ai_source t) (is_action t HN) eq_refl e a b why Hf). reflexivity.
Qed.
Print Assumptions C66_blames_fault.
(** Every constraint with known operators, in particular every parsed one, has a type or a fault; not both; one fault. *)
Theorem C66_typed_or_fault : forall ai ti G e, in_scope ai ti G ->
  (operators_known e -> (exists t, Typed G e t) \/ exists a b why, fault G e a b why) /\
  (forall t a b why, Typed G e t -> ~ fault G e a b why) /\
  (forall a b why a' b' why', fault G e a b why -> fault G e a' b' why' -> a = a' /\ b = b' /\ why = why').
Proof.
  intros ai ti G e HG. assert (exists src, GetConstraintSource ai ti = Ok src) as [src Hs] by (destruct HG; cbn; eauto). split; [|split].
  - exact (typed_or_fault ai ti G src HG Hs e).
  - intros t a b why Ht Hf. exact (fault_not_typed ai ti G src HG Hs e a b why t Hf Ht).
  - intros a b why a' b' why' H1 H2. exact (fault_fun ai ti G src HG Hs e a b why H1 _ _ _ H2).
Qed.
Print Assumptions C66_typed_or_fault.
Theorem C66_parsed : forall pton ck cs e, reads_as pton ck cs e -> operators_known e.
Proof. intros pton ck cs e (w & t & _ & _ & H). exact (D_operators _ _ _ _ _ H). Qed.
Print Assumptions C66_parsed.
(** Within the text: the fault is a subexpression. *)
Lemma fault_sub pton ck cs e G a b why : reads_as pton ck cs e -> fault G e a b why -> exists s, sub s e /\ e_start s = a /\ e_end s = b.
Proof.
  intros (w & t & _ & _ & HD) Hf. apply fault_spot in Hf. destruct Hf as [s Hs|m o l r Hs]; [eauto|]. exists (EBin m o l r). split; [exact Hs|]. exact (D_spans _ _ _ _ _ HD _ _ _ _ Hs).
Qed.
Lemma fault_quoted pton ck pre cs e G a b why : pton_ok pton -> restricted ck pre cs -> reads_as pton ck cs e -> displayable cs e -> fault G e a b why -> exists q, QuoteSubConstraint cs a b = Ok q.
Proof.
  intros Hp Hr Hra [Hcr Hd] Hf. destruct (fault_sub _ _ _ _ _ _ _ _ Hra Hf) as (s & Hs & <- & <-). apply (text_iff pton Hp) in Hra.
  destruct Hr as (r & f & n & ss & _ & _ & _ & _ & E). eapply (sub_quoted pton ck cs e s Hp Hcr); eauto; rewrite E; cbn; [|lia]. destruct (String.eqb f ""); [destruct ck|]; discriminate.
Qed.
(** A declared constraint with a fault that can be displayed. *)
Theorem C66_table_constraint : forall pton d ks cs e a b why, pton_ok pton -> Forall2 key_decl (pt_match_fields d) ks -> NoDup (map k_id ks) -> NoDup (map k_name ks) ->
  restricted kTableConstraint (pt_preamble d) cs -> reads_as pton kTableConstraint cs e -> displayable cs e -> fault (key_scope ks) e a b why ->
  exists q, QuoteSubConstraint cs a b = Ok q /\ P4ToConstraintInfo pton (one_table d) = Err InvalidArgument (listed [q ++ "Type error: " ++ why]) /\
    (forall p, In d (p4_tables p) -> (forall ci, P4ToConstraintInfo pton p <> Ok ci) /\
       forall m, P4ToConstraintInfo pton p = Err InvalidArgument m -> contains (nl ++ "- " ++ (q ++ "Type error: " ++ why) ++ nl) m).
Proof.
  intros pton d ks cs e a b why Hp Hf Hi Hn Hr Hra Hdis Hft. destruct (fault_quoted _ _ _ _ _ _ _ _ _ Hp Hr Hra Hdis Hft) as [q Hq]. exists q. split; [exact Hq|].
  assert (P4ToConstraintInfo pton (one_table d) = Err InvalidArgument (listed [q ++ "Type error: " ++ why])) as E.
  { rewrite one_table_load. unfold ParseTableInfo.
    rewrite (proj2 (insert_keys_ok _ _ [] [] (map (fun k => (k_id k, k)) ks, map (fun k => (k_name k, k)) ks) (NoDup_nil _) (NoDup_nil _))).
    2: { exists ks. cbn [fst snd app]. rewrite maps_keys, maps_names. split; [|auto]. apply forall2_map. now apply (forall2_iff _ _ _ _ match_field_ok). }
    cbn [bind]. rewrite (proj2 (extract_some _ _ _) Hr). cbn [bind]. rewrite (proj2 (text_iff pton Hp _ _ _) Hra). cbn [bind].
    erewrite (proj1 C66_blames_fault); [|cbn; now apply maps_names|exact Hft]. cbn [ti_source]. rewrite Hq. reflexivity. }
  split; [exact E|]. intros p Hd.
  assert (forall ci, P4ToConstraintInfo pton p <> Ok ci) as Hno.
  { intros ci Hci. destruct (proj1 (info_iff pton p) (ex_intro _ ci Hci)) as (_ & _ & H3 & _). destruct (H3 d Hd) as [t Et]. rewrite one_table_load, Et in E. discriminate. }
  split; [exact Hno|]. intros m Hm. apply load_report in Hm as (es & es' & R1 & R2 & _ & ->).
  assert (In (q ++ "Type error: " ++ why) (es ++ es')) as Hin.
  { apply in_or_app. left. apply (report_in _ _ _ _ _ _ _ d _ R1); [|intros d0 m1 m2 A B; rewrite A in B; apply (listed_inj m1 m2); congruence|exact Hd|exact E]. intros d0 [ci A] m0 B. congruence. }
  destruct (items_in _ _ Hin) as (x & y & Ex). exists ("P4Info to constraint info translation failed with the following errors:" ++ x), y. unfold listed. rewrite Ex. now rewrite !sapp_assoc.
Qed.
Print Assumptions C66_table_constraint.
Theorem C66_action_constraint : forall pton d ps cs e a b why, pton_ok pton -> Forall2 param_decl (pad_params d) ps -> NoDup (map k_id ps) -> NoDup (map k_name ps) ->
  restricted kActionConstraint (pad_preamble d) cs -> reads_as pton kActionConstraint cs e -> displayable cs e -> fault (param_scope ps) e a b why ->
  exists q, QuoteSubConstraint cs a b = Ok q /\ P4ToConstraintInfo pton (one_action d) = Err InvalidArgument (listed [q ++ "Type error: " ++ why]) /\
    (forall p, In d (p4_actions p) -> (forall ci, P4ToConstraintInfo pton p <> Ok ci) /\
       forall m, P4ToConstraintInfo pton p = Err InvalidArgument m -> contains (nl ++ "- " ++ (q ++ "Type error: " ++ why) ++ nl) m).
Proof.
  intros pton d ks cs e a b why Hp Hf Hi Hn Hr Hra Hdis Hft. destruct (fault_quoted _ _ _ _ _ _ _ _ _ Hp Hr Hra Hdis Hft) as [q Hq]. exists q. split; [exact Hq|].
  assert (P4ToConstraintInfo pton (one_action d) = Err InvalidArgument (listed [q ++ "Type error: " ++ why])) as E.
  { rewrite one_action_load. unfold ParseActionInfo.
    rewrite (proj2 (insert_keys_ok _ _ [] [] (map (fun k => (k_id k, k)) ks, map (fun k => (k_name k, k)) ks) (NoDup_nil _) (NoDup_nil _))).
    2: { exists ks. cbn [fst snd app]. rewrite maps_keys, maps_names. split; [|auto]. apply forall2_map. now apply (forall2_iff _ _ _ _ param_ok). }
    cbn [bind]. rewrite (proj2 (extract_some _ _ _) Hr). cbn [bind]. rewrite (proj2 (text_iff pton Hp _ _ _) Hra). cbn [bind].
    erewrite (proj2 C66_blames_fault); [|cbn; now apply maps_names|exact Hft]. cbn [ai_source]. rewrite Hq. reflexivity. }
  split; [exact E|]. intros p Hd.
  assert (forall ci, P4ToConstraintInfo pton p <> Ok ci) as Hno.
  { intros ci Hci. destruct (proj1 (info_iff pton p) (ex_intro _ ci Hci)) as (_ & _ & _ & H3). destruct (H3 d Hd) as [t Et]. rewrite one_action_load, Et in E. discriminate. }
  split; [exact Hno|]. intros m Hm. apply load_report in Hm as (es & es' & R1 & R2 & _ & ->).
  assert (In (q ++ "Type error: " ++ why) (es ++ es')) as Hin.
  { apply in_or_app. right. apply (report_in _ _ _ _ _ _ _ d _ R2); [|intros d0 m1 m2 A B; rewrite A in B; apply (listed_inj m1 m2); congruence|exact Hd|exact E]. intros d0 [ci A] m0 B. congruence. }
  destruct (items_in _ _ Hin) as (x & y & Ex). exists ("P4Info to constraint info translation failed with the following errors:" ++ x), y. unfold listed. rewrite Ex. now rewrite !sapp_assoc.
Qed.
Print Assumptions C66_action_constraint.
(** "e == 1 || t < 3": the right operand orders a ternary key. *)
Definition faulty_source : string := "e == 1 || t < 3".
Definition faulty_decl : p4_table := mkP4Table (mkPre 3 "demo" [restriction "entry" [faulty_source]]) (pt_match_fields demo_decl).
Definition faulty_csource : csource := mkCSource faulty_source (mkLoc 0 0 (SrcTable "demo")).
Definition faulty_tree : expr := Eval vm_compute in the (ENotSet default_meta) (ParseConstraint pton1 kTableConstraint faulty_csource).
Lemma faulty_parsed : ParseConstraint pton1 kTableConstraint faulty_csource = Ok faulty_tree.
Proof. vm_compute. reflexivity. Qed.
Example C66_case : exists a b, fault (key_scope demo_keys) faulty_tree a b "operand type ternary<16> does not support ordered comparison" /\
  l_col a = 10%Z /\ l_col b = 15%Z /\ Forall2 key_decl (pt_match_fields faulty_decl) demo_keys /\ restricted kTableConstraint (pt_preamble faulty_decl) faulty_csource /\
  reads_as pton1 kTableConstraint faulty_csource faulty_tree /\ displayable faulty_csource faulty_tree.
Proof.
  eexists _, _. split; [|split; [|split; [|split; [exact demo_decls|split; [|split]]]]].
  - unfold faulty_tree. eapply ft_right.
    + eapply T_eq; [constructor| |apply T_int|]; [|apply (proj1 (lub_iff (TExact 8) TInt (TExact 8))); reflexivity]. eapply T_key; [reflexivity| |split; [discriminate|intros ?; discriminate]]. exists (mkKey 1 "e" (TExact 8)). split; [now left|reflexivity].
    + apply (ft_no_order _ _ _ _ _ (TTernary 16) TInt (TTernary 16)); [constructor| |apply T_int|now apply lub_iff|intros H; inversion H]. eapply T_key; [reflexivity| |split; [discriminate|intros ?; discriminate]]. exists (mkKey 2 "t" (TTernary 16)). split; [now right; left|reflexivity].
  - reflexivity.
  - reflexivity.
  - eexists (parts_text [faulty_source]), "", 0%Z, [faulty_source]. split; [apply nt_here; reflexivity|]. split; [split; [apply no_special; vm_compute; reflexivity|left; reflexivity]|].
    split; [discriminate|]. split; [constructor; [apply no_special; vm_compute; reflexivity|constructor]|reflexivity].
  - exact (proj1 (text_iff pton1 pton1_ok _ _ _) faulty_parsed).
  - assert (forall c s, existsb (Ascii.eqb c) (chars s) = false -> ~ In c (chars s)) as Hx.
    { intros c s H Hin. assert (existsb (Ascii.eqb c) (chars s) = true) as E; [|congruence]. apply existsb_exists. exists c. split; [exact Hin|apply Ascii.eqb_refl]. }
    apply (one_line_displayable pton1 kTableConstraint faulty_csource faulty_tree pton1_ok faulty_parsed); [cbn; lia|apply Hx; vm_compute; reflexivity..].
Qed.

(** * C67 *)
(** A failed load reports, in order, the error of every table and action that does not load by itself, and every repeated id. *)
Theorem C67_reports_all : forall pton p m, P4ToConstraintInfo pton p = Err InvalidArgument m <->
  exists es es',
    Report (fun d => exists ci, P4ToConstraintInfo pton (one_table d) = Ok ci) (fun d m => P4ToConstraintInfo pton (one_table d) = Err InvalidArgument (listed [m]))
      (fun d => pr_id (pt_preamble d)) "duplicate table: " [] (p4_tables p) es /\
    Report (fun d => exists ci, P4ToConstraintInfo pton (one_action d) = Ok ci) (fun d m => P4ToConstraintInfo pton (one_action d) = Err InvalidArgument (listed [m]))
      (fun d => pr_id (pad_preamble d)) "duplicate action: " [] (p4_actions p) es' /\
    (es ++ es')%list <> [] /\ m = listed (es ++ es').
Proof. exact load_report. Qed.
Print Assumptions C67_reports_all.
Definition two_faults : p4info := mkP4Info [faulty_decl; demo_decl; demo_decl; mkP4Table (mkPre 9 "u" [restriction "entry" ["nokey"]]) []] [].
Example C67_case : P4ToConstraintInfo pton1 two_faults = Err InvalidArgument (listed [
  "In @entry_restriction of table 'demo'; at offset line 1, columns 11 to 15:" ++ nl ++ "1 | e == 1 || t < 3" ++ nl ++ "  |           ^^^^^" ++ nl ++ "Type error: operand type ternary<16> does not support ordered comparison";
  "duplicate table: ";
  "In @entry_restriction of table 'u'; at offset line 1, columns 1 to 5:" ++ nl ++ "1 | nokey" ++ nl ++ "  | ^^^^^" ++ nl ++ "Type error: unknown key nokey"]).
Proof. vm_compute. reflexivity. Qed.
