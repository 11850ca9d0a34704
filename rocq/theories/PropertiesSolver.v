(** The solver's failures (C65, C68). *)
From Coq Require Import String Ascii List ZArith NArith Bool Lia.
From Verif Require Import Base Num Token Ast Lexer Quote AstConstructors Info TypeChecker Parser ConstraintInfo Interpreter Z3 Symbolic SpecLexer SpecGrammar SpecQuote SpecParser SpecTyping TypeFacts SpecSemantics SpecInfo SpecSymbolic SpecSolver SpecCrash SpecFault
  StrFacts LexerFacts4 LexerFacts5 ParserFacts4 ParserFacts5 QuoteFacts3 EntryFacts EvalFacts SemFacts InfoFacts InfoFacts2 InterpFacts InterpFacts2 SymFacts SymFacts2 SymKeys SymState SymMeaning SymDemo CrashFacts FaultFacts SolverFacts PropertiesParser PropertiesInfo PropertiesVerdict PropertiesSymbolic PropertiesFault.
Import ListNotations.
Open Scope string_scope.

(** Tables from a P4Info. *)
Lemma loaded_table pton p ci d ks t : pton_ok pton -> P4ToConstraintInfo pton p = Ok ci -> In d (p4_tables p) -> Forall2 key_decl (pt_match_fields d) ks -> GetTableInfoOrNull ci (pr_id (pt_preamble d)) = Some t ->
  ParseTableInfo pton d = Ok t /\ table_of pton d ks t.
Proof.
  intros Hp Hci Hd Hf Hg. pose proof Hci as Hci'. apply info_lookup in Hci as (Ht & _). destruct (proj1 (info_iff pton p) (ex_intro _ ci Hci')) as (_ & _ & H3 & _).
  destruct (H3 d Hd) as [t' Et']. assert (t' = t) as ->. { assert (GetTableInfoOrNull ci (pr_id (pt_preamble d)) = Some t') as E by (apply Ht; exists d; auto). congruence. }
  split; [exact Et'|]. destruct (table_parsed _ _ _ Et') as [ks' H]. assert (ks' = ks) as <- by (eapply forall2_fun; [exact key_decl_fun|exact (to_decls _ _ _ _ H)|exact Hf]). exact H.
Qed.

(** * C65 *)
(** No call throws, whatever was called before: for a table from a P4Info with 32-bit widths, a total [skip]
    that skips no keys of width 0, constraints given as text in one line, and type-checked constraints given as trees. *)
Theorem C65_never_crashes : forall check pton p ci d ks t skip, pton_ok pton -> P4ToConstraintInfo pton p = Ok ci -> In d (p4_tables p) -> Forall2 key_decl (pt_match_fields d) ks ->
  GetTableInfoOrNull ci (pr_id (pt_preamble d)) = Some t -> int32_widths ks ->
  (forall k w, In k ks -> skip (k_name k) <> Crash w) -> (forall k w, In k ks -> skipped skip k -> width (k_type k) w -> (0 < w)%Z) ->
  (forall w, Create check t skip <> Crash w) /\
  forall cs l, History check pton t skip cs l ->
    (forall text w, one_line text -> fst (AddConstraintString check pton cs text) <> Crash w) /\
    (forall e0 e src w, InferTable e0 t = Ok e -> literals e0 -> fst (AddConstraint check cs e src) <> Crash w) /\
    (sound_solver check -> forall w, ConcretizeEntry check cs <> Crash w).
Proof.
  intros check pton p ci d ks t skip Hp Hci Hd Hf Hg Hw Hs Hsk. destruct (loaded_table _ _ _ _ _ _ Hp Hci Hd Hf Hg) as [_ [_ _ _ HK Hco]]. split.
  - apply (create_safe t ks skip HK Hsk); [intros k w Hk Hkw; exact (proj1 (Hw k w Hk Hkw))|exact Hs|].
    intros e E. destruct Hco as [(_ & E')|(e0 & e' & Hr & Hpa & Hi & E')]; [congruence|]. exists e0. split; [congruence|exact (parse_literals _ _ _ _ Hp Hpa)].
  - intros cs l HH. destruct (history_holds t ks HK skip check pton cs l HH) as (base & us & Hh). pose proof (h_built _ _ _ _ _ _ _ _ Hh) as HB. split; [|split].
    + intros text w Hl. unfold AddConstraintString. rewrite (h_table _ _ _ _ _ _ _ _ Hh). cbv zeta. change (mkCSource text (mkLoc 0 0 (SrcTable (ti_name t)))) with (text_source t text). destruct (ParseConstraint pton kTableConstraint (text_source t text)) as [e0|c m|w'] eqn:Ep; cbn [bind]; [|discriminate|exfalso; revert Ep; apply C13_never_crashes; apply Z.le_refl].
      destruct (InferTable e0 t) as [e|c m|w'] eqn:Ei; [exact (add_safe t ks skip HK Hsk check cs base e0 e _ HB (parse_literals _ _ _ _ Hp Ep) Ei w)|discriminate|].
      exfalso. unfold InferTable in Ei. apply (infer_crash None (Some t) (ti_source t)) in Ei as (a & b & Hsp & Hq); [|reflexivity]. apply (text_spot pton _ _ _ _ _ _ _ Hp Ep Hsp) in Hq as [Hne _].
      exact (Hne (one_line_spot _ _ _ _ _ _ Hp Ep (Z.le_refl _) Hl Hsp)).
    + intros e0 e src w Hi Hl. exact (add_safe t ks skip HK Hsk check cs base e0 e src HB Hl Hi w).
    + intros Hso w H. destruct (check (assertions (cs_stack cs))) as [mo|] eqn:Ec.
      * destruct (C43_entry_exists _ _ _ _ _ _ _ HK Hw Hso HH) as [entry E]; congruence.
      * unfold ConcretizeEntry in H. rewrite Ec in H. discriminate H.
Qed.
Print Assumptions C65_never_crashes.
(** Text with line breaks: a crash needs an interval of the text that sprawls over the table's own constraint. *)
Theorem C65_text_crash : forall check pton t ks skip cs l text w, pton_ok pton -> table_keys t ks -> (forall k w, In k ks -> skipped skip k -> width (k_type k) w -> (0 < w)%Z) -> History check pton t skip cs l ->
  fst (AddConstraintString check pton cs text) = Crash w -> exists e a b, reads_as pton kTableConstraint (text_source t text) e /\ spot e a b /\ sprawls (ti_source t) a b.
Proof.
  intros check pton t ks skip cs l text w Hp HK Hsk HH H. destruct (history_holds t ks HK skip check pton cs l HH) as (base & us & Hh). pose proof (h_built _ _ _ _ _ _ _ _ Hh) as HB.
  unfold AddConstraintString in H. rewrite (h_table _ _ _ _ _ _ _ _ Hh) in H. cbv zeta in H. change (mkCSource text (mkLoc 0 0 (SrcTable (ti_name t)))) with (text_source t text) in H. destruct (ParseConstraint pton kTableConstraint (text_source t text)) as [e0|c m|w'] eqn:Ep; cbn [bind] in H; [|discriminate|exfalso; revert Ep; apply C13_never_crashes; apply Z.le_refl].
  destruct (InferTable e0 t) as [e|c m|w'] eqn:Ei; [exfalso; exact (add_safe t ks skip HK Hsk check cs base e0 e _ HB (parse_literals _ _ _ _ Hp Ep) Ei w H)|discriminate|].
  unfold InferTable in Ei. apply (infer_crash None (Some t) (ti_source t)) in Ei as (a & b & Hsp & Hq); [|reflexivity]. exists e0, a, b. split; [now apply (text_iff pton Hp)|]. split; [exact Hsp|]. exact (text_spot pton _ _ _ _ _ _ _ Hp Ep Hsp Hq).
Qed.
Print Assumptions C65_text_crash.
(** Such text exists. *)
Theorem C65_multiline_refuted : exists text w, History sg_check pton1 sg_low never_skip sg_cs [sg_low_checked] /\ fst (AddConstraintString sg_check pton1 sg_cs text) = Crash w.
Proof.
  exists ("          v" ++ nl ++ "== true"), LengthError. split; [|vm_compute; reflexivity]. pose proof (hi_create sg_check pton1 sg_low never_skip sg_cs sg_created) as H. exact H.
Qed.
Print Assumptions C65_multiline_refuted.
Example C65_case : P4ToConstraintInfo pton1 (mkP4Info [sy_decl] []) = Ok sy_ci /\ Forall2 key_decl (pt_match_fields sy_decl) sy_keys /\ GetTableInfoOrNull sy_ci 3 = Some sy_table /\ int32_widths sy_keys /\
  (forall k w, In k sy_keys -> sy_skip (k_name k) <> Crash w) /\ (forall k w, In k sy_keys -> skipped sy_skip k -> width (k_type k) w -> (0 < w)%Z) /\
  History sy_check pton1 sy_table sy_skip sy_cs2 [sy_checked; sy_more_checked] /\ one_line sy_more /\ sound_solver sy_check.
Proof.
  split; [vm_compute; reflexivity|]. split; [repeat constructor|]. split; [vm_compute; reflexivity|]. split; [exact sy_widths|]. split; [intros; discriminate|].
  split. { intros k w Hk _ Hw. cbn in Hk. repeat (destruct Hk as [<-|Hk]; [cbn in Hw; inversion Hw; subst; lia|]). contradiction. }
  split; [exact sy_history|]. split; [|exact sy_sound].
  assert (forall s, existsb (fun c => Ascii.eqb c LF || Ascii.eqb c CR)%bool (chars s) = false -> one_line s) as Hx.
  { intros s H. split; intros Hin; (assert (existsb (fun c => Ascii.eqb c LF || Ascii.eqb c CR)%bool (chars s) = true) as E; [|congruence]); apply existsb_exists; eexists; (split; [exact Hin|]); reflexivity. }
  apply Hx. vm_compute. reflexivity.
Qed.

(** * C68 *)
(** Text that is not a well-typed constraint leaves the solver alone. A text that does not parse is refused with the
    parser's error. One with a type error is refused with an error that says why; but what it quotes is the same place
    in the table's own constraint. *)
Theorem C68_text_errors_partial : forall check pton t ks skip cs l text, pton_ok pton -> table_keys t ks -> History check pton t skip cs l ->
  (forall c m, ParseConstraint pton kTableConstraint (text_source t text) = Err c m -> AddConstraintString check pton cs text = (Err c m, cs)) /\
  (forall e a b why, reads_as pton kTableConstraint (text_source t text) e -> fault (scope_of t) e a b why ->
     AddConstraintString check pton cs text =
       (match QuoteSubConstraint (ti_source t) a b with
        | Ok q => Err InvalidArgument (q ++ "Type error: " ++ why)
        | Err k m => Err Internal ("Failed to quote sub-constraint: " ++ StableStatusToString k m ++ why)
        | Crash w => Crash w
        end, cs)).
Proof.
  intros check pton t ks skip cs l text Hp HK HH. destruct (history_holds t ks HK skip check pton cs l HH) as (base & us & Hh). unfold AddConstraintString. rewrite (h_table _ _ _ _ _ _ _ _ Hh).
  change (mkCSource text (mkLoc 0 0 (SrcTable (ti_name t)))) with (text_source t text). split.
  - intros c m ->. reflexivity.
  - intros e a b why Hra Hft. apply (text_iff pton Hp) in Hra. rewrite Hra. cbn [bind]. rewrite (proj1 C66_blames_fault t e a b why (tk_by_name_unique _ _ HK) Hft). destruct (QuoteSubConstraint (ti_source t) a b); reflexivity.
Qed.
Print Assumptions C68_text_errors_partial.
(** For tables without a constraint, and tables whose constraint is in a file, a type error is reported as an internal error. *)
Theorem C68_internal_error : forall check pton p ci d ks t skip cs l text e a b why, pton_ok pton -> P4ToConstraintInfo pton p = Ok ci -> In d (p4_tables p) -> Forall2 key_decl (pt_match_fields d) ks ->
  GetTableInfoOrNull ci (pr_id (pt_preamble d)) = Some t -> History check pton t skip cs l ->
  reads_as pton kTableConstraint (text_source t text) e -> fault (scope_of t) e a b why ->
  unrestricted kTableConstraint (pt_preamble d) \/ (exists cs' f, restricted kTableConstraint (pt_preamble d) cs' /\ l_src (cs_loc cs') = SrcFile f) ->
  exists m, AddConstraintString check pton cs text = (Err Internal m, cs).
Proof.
  intros check pton p ci d ks t skip cs l text e a b why Hp Hci Hd Hf Hg HH Hra Hft Hd'. destruct (loaded_table _ _ _ _ _ _ Hp Hci Hd Hf Hg) as [Et [_ _ _ HK Hco]].
  rewrite (proj2 (C68_text_errors_partial check pton t ks skip cs l text Hp HK HH) e a b why Hra Hft).
  assert (l_src a = SrcTable (ti_name t)) as Ha.
  { apply fault_spot in Hft. apply (text_iff pton Hp) in Hra. destruct (spot_column _ _ _ _ _ _ Hp Hra (Z.le_refl _) Hft) as (_ & _ & tk & Htk & ->).
    destruct (Lex_order _ _ _ (proj1 (Tokenize_Lex (text_source t text) _) eq_refl)) as (r & _ & Hsrc). rewrite Forall_forall in Hsrc. exact (proj1 (Hsrc tk Htk)). }
  assert (source_eqb (l_src (cs_loc (ti_source t))) (SrcTable (ti_name t)) = false) as Es.
  { destruct Hd' as [Hu|(cs' & f & Hr & Hs)].
    - unfold ParseTableInfo in Et. apply bind_ok in Et as ([bi bn] & _ & Et). rewrite (proj2 (extract_none _ _) Hu) in Et. cbn [bind] in Et. injection Et as <-. reflexivity.
    - destruct Hco as [(Hu & _)|(e0 & e' & Hr' & _)]; [exfalso; exact (restricted_not _ _ _ Hu Hr)|]. rewrite (restricted_fun _ _ _ _ Hr' Hr), Hs. reflexivity. }
  unfold QuoteSubConstraint, HaveSameSource. rewrite Ha, Es. cbn [negb orb]. eexists. reflexivity.
Qed.
Print Assumptions C68_internal_error.
(** An ill-typed text, for a table without a constraint and for one with another constraint. *)
Definition un_decl : p4_table := mkP4Table (mkPre 3 "un" []) sg_fields.
Definition un_ci : constraint_info := Eval vm_compute in the (mkInfo [] []) (P4ToConstraintInfo pton1 (mkP4Info [un_decl] [])).
Definition un_table : table_info := Eval vm_compute in match GetTableInfoOrNull un_ci 3 with Some t => t | None => no_table end.
Definition un_cs : constraint_solver := the (mkCS no_table (mkEnv [] []) never_skip []) (Create sg_check un_table never_skip).
Definition un_tree : expr := Eval vm_compute in the no_expr (ParseConstraint pton1 kTableConstraint (text_source un_table "v::value == w")).
Lemma un_created : Create sg_check un_table never_skip = Ok un_cs.
Proof. vm_compute. reflexivity. Qed.
Lemma un_parsed : ParseConstraint pton1 kTableConstraint (text_source un_table "v::value == w") = Ok un_tree.
Proof. vm_compute. reflexivity. Qed.
Example C68_case : P4ToConstraintInfo pton1 (mkP4Info [un_decl] []) = Ok un_ci /\ Forall2 key_decl (pt_match_fields un_decl) sg_keys /\ GetTableInfoOrNull un_ci 3 = Some un_table /\ History sg_check pton1 un_table never_skip un_cs [] /\
  reads_as pton1 kTableConstraint (text_source un_table "v::value == w") un_tree /\ (exists a b, fault (scope_of un_table) un_tree a b "unknown key w") /\ unrestricted kTableConstraint (pt_preamble un_decl).
Proof.
  split; [vm_compute; reflexivity|]. split; [repeat constructor|]. split; [vm_compute; reflexivity|]. split; [exact (hi_create sg_check pton1 un_table never_skip un_cs un_created)|]. split; [exact (proj1 (text_iff pton1 pton1_ok _ _ _) un_parsed)|]. split.
  - eexists _, _. unfold un_tree. eapply ft_right; [|eapply ft_key_unknown; [reflexivity|intros t (k & [E|[]] & _); discriminate E]].
    eapply T_field with (t := TTernary 8); [eapply T_key; [reflexivity| |split; [discriminate|intros ?; discriminate]]|apply f_ternary_v]. exists (mkKey 1 "v" (TTernary 8)). split; [now left|reflexivity].
  - exists "", 0%Z. left. constructor.
Qed.
(** The message shows the table's constraint, "v::value < 1", with a marker for the text "v::value == w". *)
Theorem C68_text_errors_refuted : (exists m, fst (AddConstraintString sg_check pton1 un_cs "v::value == w") = Err Internal m) /\
  fst (AddConstraintString sg_check pton1 sg_cs "v::value == w") = Err InvalidArgument ("In @entry_restriction of table 'sg'; at offset line 1, column 13:" ++ nl ++ "1 | v::value < 1" ++ nl ++ "  |             ^" ++ nl ++ "Type error: unknown key w").
Proof. split; [vm_compute; eexists; reflexivity|vm_compute; reflexivity]. Qed.
Print Assumptions C68_text_errors_refuted.
