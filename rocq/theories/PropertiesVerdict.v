(** C26-C30: verdicts are the meaning of constraints. *)
From Coq Require Import String Ascii List ZArith NArith Bool Lia Permutation.
From Verif Require Import Base Num Token Ast Lexer Quote AstConstructors Parser Info TypeChecker ConstraintInfo Interpreter SpecLexer SpecGrammar SpecTyping SpecSemantics SpecInfo
  StrFacts NumFacts LiteralFacts ParserFacts4 TypeFacts EvalFacts SemFacts SemFacts2 EntryFacts ExplainFacts VerdictFacts InfoFacts InfoFacts2 InterpFacts InterpFacts2 PropertiesParser PropertiesTypes PropertiesInfo PropertiesInterpreter.
Import ListNotations.
Open Scope string_scope.

(** * C26 *)
(** Verdicts on declared tables, for entries without action: whatever is answered is right. *)
Theorem C26_verdict_sound : forall pton p ci d ks cs e0 entry key text, pton_ok pton -> P4ToConstraintInfo pton p = Ok ci ->
  In d (p4_tables p) -> table_id d = pe_table_id entry -> Forall2 key_decl (pt_match_fields d) ks ->
  restricted kTableConstraint (pt_preamble d) cs -> reads_as pton kTableConstraint cs e0 ->
  (forall n v, key n = Some v <-> Assigned ks (pe_match entry) n v) -> pe_action entry = None ->
  ReasonEntryViolatesConstraint entry ci = Ok text ->
  consistent ks (pe_match entry) /\ Typed (key_scope ks) e0 TBool /\
  Den (key_scope ks) (TableEnv key (pe_priority entry)) e0 (VBool (String.eqb text "")).
Proof.
  intros pton p ci d ks cs e0 entry key text Hp Hci Hd Hid Hf Hr Hra Hkey Hact H.
  destruct (declared_table _ _ _ _ _ _ _ Hp Hci Hd Hf Hr Hra) as (t & e & Ht & HK & _ & _ & Hl & Hi & He). unfold table_id in Hid. rewrite Hid in Ht.
  unfold ReasonEntryViolatesConstraint in H. rewrite Ht in H. apply bind_ok in H as (r & H & Hr'). assert (r = text) as ->.
  { destruct (String.eqb_spec r "") as [->|]; cbn [negb] in Hr'; [rewrite Hact in Hr'|]; now apply Ok_inj in Hr'. }
  apply table_ok in H as [(E & _)|(e' & ctx & He' & Hty & Hpa & Hc)]; [congruence|]. assert (e' = e) as -> by congruence.
  pose proof (table_in_scope t ks HK) as HG. split; [exact (proj1 (entry_ok t ks HK entry ctx Hpa))|]. split.
  { apply (typed_ext (InTable (ti_keys_by_name t))); [now apply key_scope_same|]. rewrite <- Hty. exact (proj1 (infer_ok None (Some t) _ HG _ _ Hi)). }
  apply (den_scope (InTable (ti_keys_by_name t))); [now apply key_scope_same|]. eapply den_ext; [exact (entry_env_eq t ks entry ctx key HK Hpa Hkey)|].
  apply (ev_sound None (Some t) _ HG ctx e0 e); [exact Hi|exact Hl|]. apply ev_bool_ok. destruct (String.eqb_spec text "") as [->|Hne].
  - now apply check_accepts.
  - now apply (check_rejects ctx e text Hne) in Hc as [Hc _].
Qed.
Print Assumptions C26_verdict_sound.
(** The empty string is returned iff the constraint holds. Missing: constraints that order exact keys. *)
Theorem C26_accepted_iff_partial : forall pton p ci d ks cs e0 entry key, pton_ok pton -> P4ToConstraintInfo pton p = Ok ci ->
  In d (p4_tables p) -> table_id d = pe_table_id entry -> Forall2 key_decl (pt_match_fields d) ks ->
  restricted kTableConstraint (pt_preamble d) cs -> reads_as pton kTableConstraint cs e0 -> Typed (key_scope ks) e0 TBool ->
  (forall k w, In k ks -> width (k_type k) w -> (0 <= w)%Z) -> consistent ks (pe_match entry) ->
  (forall n v, key n = Some v <-> Assigned ks (pe_match entry) n v) -> pe_action entry = None ->
  ~ orders_exact (key_scope ks) e0 ->
  (ReasonEntryViolatesConstraint entry ci = Ok "" <-> Den (key_scope ks) (TableEnv key (pe_priority entry)) e0 (VBool true)).
Proof.
  intros pton p ci d ks cs e0 entry key Hp Hci Hd Hid Hf Hr Hra Hty Hw Hco Hkey Hact Ho. split.
  - intros H. now apply (C26_verdict_sound pton p ci d ks cs e0 entry key "") in H as (_ & _ & H).
  - intros H. destruct (declared_table _ _ _ _ _ _ _ Hp Hci Hd Hf Hr Hra) as (t & e & Ht & HK & _ & _ & Hl & Hi & He). unfold table_id in Hid. rewrite Hid in Ht.
    unfold ReasonEntryViolatesConstraint. rewrite Ht, Hact. apply bind_ok. exists "". split; [|reflexivity]. apply table_ok. right.
    destruct (entry_total t ks HK entry Hco) as [ctx Hpa]. exists e, ctx. split; [exact He|]. pose proof (table_in_scope t ks HK) as HG. pose proof (key_scope_same t ks HK) as HS. apply same_scope_sym in HS. split.
    { apply (typed_ext _ _ _ _ HS) in Hty. pose proof (proj1 (infer_ok None (Some t) _ HG _ _ Hi)) as Hty'. eapply (typed_fun None (Some t) _ HG); eauto. }
    split; [exact Hpa|]. apply check_accepts, ev_bool_ok. apply (ev_complete None (Some t) _ HG ctx e0 (VBool true)).
    + apply (entry_env t ks HK entry ctx Hpa). intros n k w Hk. apply (by_name t ks HK) in Hk as [Hk _]. now apply Hw.
    + apply (den_scope _ _ _ _ _ HS). eapply den_ext; [apply env_eq_sym; exact (entry_env_eq t ks entry ctx key HK Hpa Hkey)|exact H].
    + intros Hx. apply Ho. eapply orders_scope; [apply same_scope_sym; exact HS|exact Hx].
    + exact Hi.
Qed.
Print Assumptions C26_accepted_iff_partial.
(** The same for actions. *)
Theorem C26_action_sound : forall pton p ci d ps cs e0 x param text, pton_ok pton -> P4ToConstraintInfo pton p = Ok ci ->
  In d (p4_actions p) -> action_id d = pa_id x -> Forall2 param_decl (pad_params d) ps ->
  restricted kActionConstraint (pad_preamble d) cs -> reads_as pton kActionConstraint cs e0 ->
  (forall n z, param n = Some z <-> Passed ps (pa_params x) n z) -> ReasonActionViolates ci x = Ok text ->
  acceptable ps (pa_params x) /\ Typed (param_scope ps) e0 TBool /\ Den (param_scope ps) (ActionEnv param) e0 (VBool (String.eqb text "")).
Proof.
  intros pton p ci d ps cs e0 x param text Hp Hci Hd Hid Hf Hr Hra Hkey H.
  destruct (declared_action _ _ _ _ _ _ _ Hp Hci Hd Hf Hr Hra) as (t & e & Ht & HK & _ & _ & Hl & Hi & He). unfold action_id in Hid. rewrite Hid in Ht.
  apply action_verdict in H as (a & Ha & H). assert (a = t) as -> by congruence. destruct H as [(E & _)|(e' & ctx & He' & Hty & Hpa & Hc)]; [congruence|]. assert (e' = e) as -> by congruence.
  pose proof (action_in_scope t ps HK) as HG. split; [exact (proj1 (action_ok t ps HK x ctx Hpa))|]. split.
  { apply (typed_ext (InAction (ai_params_by_name t))); [now apply param_scope_same|]. rewrite <- Hty. exact (proj1 (infer_ok (Some t) None _ HG _ _ Hi)). }
  apply (den_scope (InAction (ai_params_by_name t))); [now apply param_scope_same|]. eapply den_ext; [exact (action_env_eq t ps x ctx param HK Hpa Hkey)|].
  apply (ev_sound (Some t) None _ HG ctx e0 e); [exact Hi|exact Hl|]. apply ev_bool_ok. destruct (String.eqb_spec text "") as [->|Hne].
  - now apply check_accepts.
  - now apply (check_rejects ctx e text Hne) in Hc as [Hc _].
Qed.
Print Assumptions C26_action_sound.
(** Every argument given. ([ActionEnv] gives attributes no meaning; see C21.) *)
Theorem C26_action_accepted_iff : forall pton p ci d ps cs e0 x param, pton_ok pton -> P4ToConstraintInfo pton p = Ok ci ->
  In d (p4_actions p) -> action_id d = pa_id x -> Forall2 param_decl (pad_params d) ps ->
  restricted kActionConstraint (pad_preamble d) cs -> reads_as pton kActionConstraint cs e0 -> Typed (param_scope ps) e0 TBool ->
  (forall k w, In k ps -> width (k_type k) w -> (0 <= w)%Z) -> acceptable ps (pa_params x) -> (forall k, In k ps -> In (k_id k) (map fst (pa_params x))) ->
  (forall n z, param n = Some z <-> Passed ps (pa_params x) n z) ->
  (ReasonActionViolates ci x = Ok "" <-> Den (param_scope ps) (ActionEnv param) e0 (VBool true)).
Proof.
  intros pton p ci d ps cs e0 x param Hp Hci Hd Hid Hf Hr Hra Hty Hw Hco Hall Hkey. split.
  - intros H. now apply (C26_action_sound pton p ci d ps cs e0 x param "") in H as (_ & _ & H).
  - intros H. destruct (declared_action _ _ _ _ _ _ _ Hp Hci Hd Hf Hr Hra) as (t & e & Ht & HK & _ & _ & Hl & Hi & He). unfold action_id in Hid. rewrite Hid in Ht.
    apply action_verdict. exists t. split; [exact Ht|]. right. destruct (action_total t ps HK x Hco) as [ctx Hpa]. exists e, ctx. split; [exact He|]. pose proof (action_in_scope t ps HK) as HG. pose proof (param_scope_same t ps HK) as HS. apply same_scope_sym in HS.
    assert (forall k, In k ps -> usable (k_type k) -> exists w, k_type k = TBit w) as Hbit.
    { intros k Hk Hu. clear -Hf Hk Hu. induction Hf as [|q k' l m (_ & _ & Ht) Hf IH]; [contradiction|]. destruct Hk as [->|Hk]; [|now apply IH]. destruct Ht as [(_ & E)|(_ & E)]; [eauto|]. exfalso. exact (proj2 Hu _ E). }
    assert (forall e1 t1, Typed (InAction (ai_params_by_name t)) e1 t1 -> forall w, t1 <> TExact w) as Hne.
    { intros e1 t1 HT w E1. subst t1. inversion HT; subst; try discriminate.
      - match goal with H : InAction _ = InAction _ |- _ => injection H as <- end. match goal with H : declared _ _ _ |- _ => destruct H as (k & Hk & E) end.
        apply (param_by_name t ps HK) in Hk as [Hk _]. destruct (Hbit k Hk) as (w' & E'); [rewrite E; split; discriminate|congruence].
      - match goal with H : has_field _ _ _ |- _ => inversion H end. }
    split.
    { apply (typed_ext _ _ _ _ HS) in Hty. pose proof (proj1 (infer_ok (Some t) None _ HG _ _ Hi)) as Hty'. eapply (typed_fun (Some t) None _ HG); eauto. }
    split; [exact Hpa|]. apply check_accepts, ev_bool_ok. apply (ev_complete (Some t) None _ HG ctx e0 (VBool true)).
    + apply (action_env t ps x ctx HK Hpa Hbit Hall Hw).
    + apply (den_scope _ _ _ _ _ HS). eapply den_ext; [apply env_eq_sym; exact (action_env_eq t ps x ctx param HK Hpa Hkey)|exact H].
    + exact (orders_exact_sub _ Hne e0).
    + exact Hi.
Qed.
Print Assumptions C26_action_accepted_iff.
(** A declaration that meets the hypotheses, an entry, and an action. *)
Definition demo_source : string := "e != 0 && (t::mask == 0 || ::priority > 3)".
Definition demo_decl : p4_table := mkP4Table (mkPre 3 "demo" [restriction "entry" [demo_source]])
  [mkMF 1 "e" 8 (MMatchType MTExact); mkMF 2 "t" 16 (MMatchType MTTernary); mkMF 3 "r" 4 (MMatchType MTRange)].
Definition demo_action : p4_action_decl := mkP4ActionDecl (mkPre 4 "act" [restriction "action" ["p < 3 || q == 0"]]) [mkAP 1 "p" 8 ""; mkAP 2 "q" 8 ""].
Definition demo_info : p4info := mkP4Info [demo_decl; mkP4Table (mkPre 5 "free" []) []] [demo_action].
Definition demo_keys : list key_info := [mkKey 1 "e" (TExact 8); mkKey 2 "t" (TTernary 16); mkKey 3 "r" (TRange 4)].
Definition demo_params : list key_info := [mkKey 1 "p" (TBit 8); mkKey 2 "q" (TBit 8)].
Definition demo_csource : csource := mkCSource demo_source (mkLoc 0 0 (SrcTable "demo")).
Definition demo_acsource : csource := mkCSource "p < 3 || q == 0" (mkLoc 0 0 (SrcAction "act")).
Definition demo_match : list field_match := [mkFM 1 (FMExact "a")].
Definition the {A} (d : A) (o : outcome A) : A := match o with Ok a => a | _ => d end.
Definition demo_ci : constraint_info := Eval vm_compute in the (mkInfo [] []) (P4ToConstraintInfo pton1 demo_info).
Definition demo_tree : expr := Eval vm_compute in the (ENotSet (mkMeta (mkLoc 0 0 SrcNone) (mkLoc 0 0 SrcNone) TNotSet)) (ParseConstraint pton1 kTableConstraint demo_csource).
Definition demo_atree : expr := Eval vm_compute in the (ENotSet (mkMeta (mkLoc 0 0 SrcNone) (mkLoc 0 0 SrcNone) TNotSet)) (ParseConstraint pton1 kActionConstraint demo_acsource).
Lemma demo_parsed : P4ToConstraintInfo pton1 demo_info = Ok demo_ci.
Proof. vm_compute. reflexivity. Qed.
Lemma no_special (c : ascii) s : existsb (Ascii.eqb c) (chars s) = false -> without c s.
Proof. intros H Hin. assert (existsb (Ascii.eqb c) (chars s) = true) as E; [|congruence]. apply existsb_exists. exists c. split; [exact Hin|apply Ascii.eqb_refl]. Qed.
Lemma demo_restricted : restricted kTableConstraint (pt_preamble demo_decl) demo_csource.
Proof.
  eexists (parts_text [demo_source]), "", 0%Z, [demo_source]. split; [apply nt_here; reflexivity|]. split; [split; [apply no_special; vm_compute; reflexivity|left; reflexivity]|].
  split; [discriminate|]. split; [constructor; [apply no_special; vm_compute; reflexivity|constructor]|reflexivity].
Qed.
Lemma demo_arestricted : restricted kActionConstraint (pad_preamble demo_action) demo_acsource.
Proof.
  eexists (parts_text ["p < 3 || q == 0"]), "", 0%Z, ["p < 3 || q == 0"]. split; [apply nt_here; reflexivity|]. split; [split; [apply no_special; vm_compute; reflexivity|left; reflexivity]|].
  split; [discriminate|]. split; [constructor; [apply no_special; vm_compute; reflexivity|constructor]|reflexivity].
Qed.
Lemma demo_reads : reads_as pton1 kTableConstraint demo_csource demo_tree.
Proof. apply (C08_parser_iff_grammar pton1 _ _ _ pton1_ok). vm_compute. reflexivity. Qed.
Lemma demo_areads : reads_as pton1 kActionConstraint demo_acsource demo_atree.
Proof. apply (C08_parser_iff_grammar pton1 _ _ _ pton1_ok). vm_compute. reflexivity. Qed.
Lemma demo_decls : Forall2 key_decl (pt_match_fields demo_decl) demo_keys.
Proof. repeat constructor. Qed.
Lemma demo_adecls : Forall2 param_decl (pad_params demo_action) demo_params.
Proof. repeat (constructor; [split; [reflexivity|split; [reflexivity|left; split; reflexivity]]|]). constructor. Qed.
Lemma demo_consistent : consistent demo_keys demo_match.
Proof.
  split.
  - intros f [<-|[]]. exists (mkKey 1 "e" (TExact 8)). eexists. split; [now left|]. split; [reflexivity|]. apply fv_exact.
  - repeat constructor. intros [].
  - intros k [<-|[<-|[<-|[]]]] Ho; [exfalso; exact (Ho _ (or_introl eq_refl) eq_refl)| |]; eexists; constructor; lia.
Qed.
Example C26_case : P4ToConstraintInfo pton1 demo_info = Ok demo_ci /\ In demo_decl (p4_tables demo_info) /\ Forall2 key_decl (pt_match_fields demo_decl) demo_keys /\
  restricted kTableConstraint (pt_preamble demo_decl) demo_csource /\ reads_as pton1 kTableConstraint demo_csource demo_tree /\ Typed (key_scope demo_keys) demo_tree TBool /\
  (forall k w, In k demo_keys -> width (k_type k) w -> (0 <= w)%Z) /\ consistent demo_keys demo_match /\ ~ orders_exact (key_scope demo_keys) demo_tree /\
  ReasonEntryViolatesConstraint (mkEntry 3 demo_match None 0) demo_ci = Ok "".
Proof.
  split; [exact demo_parsed|]. split; [now left|]. split; [exact demo_decls|]. split; [exact demo_restricted|]. split; [exact demo_reads|].
  assert (exists t, GetTableInfoOrNull demo_ci 3 = Some t /\ table_keys t demo_keys /\ exists e, InferTable demo_tree t = Ok e /\ e_type e = TBool) as (t & Ht & HK & e & Hi & Hty).
  { destruct (declared_table pton1 demo_info demo_ci demo_decl demo_keys demo_csource demo_tree pton1_ok demo_parsed (or_introl eq_refl) demo_decls demo_restricted demo_reads) as (t & e & Ht & HK & _ & _ & _ & Hi & _).
    exists t. split; [exact Ht|]. split; [exact HK|]. exists e. split; [exact Hi|]. vm_compute in Ht. injection Ht as <-. vm_compute in Hi. apply Ok_inj in Hi as <-. reflexivity. }
  split. { apply (typed_ext (InTable (ti_keys_by_name t))); [now apply key_scope_same|]. rewrite <- Hty. exact (proj1 (infer_ok None (Some t) _ (table_in_scope _ _ HK) _ _ Hi)). }
  split. { intros k w [<-|[<-|[<-|[]]]] Hw; inversion Hw; lia. }
  split; [exact demo_consistent|]. split; [|vm_compute; reflexivity].
  generalize (key_scope demo_keys). intros G Ho. repeat match goal with H : orders_exact _ _ |- _ => inversion H; clear H; subst end;
    repeat match goal with H : ordering ?o |- _ => inversion H; clear H; subst end;
    repeat match goal with H : Typed _ (EAttr _ _) _ |- _ => inversion H; clear H; subst | H : Typed _ (EInt _ _) _ |- _ => inversion H; clear H; subst end.
  match goal with H : common TInt TInt _ |- _ => apply no_common_exact in H; [exact H|discriminate..] end.
Qed.
Example C26_action_case : In demo_action (p4_actions demo_info) /\ Forall2 param_decl (pad_params demo_action) demo_params /\
  restricted kActionConstraint (pad_preamble demo_action) demo_acsource /\ reads_as pton1 kActionConstraint demo_acsource demo_atree /\
  acceptable demo_params [(1%N, "a"); (2%N, "")] /\ ReasonActionViolates demo_ci (mkP4Action 4 [(1%N, "a"); (2%N, "")]) = Ok "".
Proof.
  split; [now left|]. split; [exact demo_adecls|]. split; [exact demo_arestricted|]. split; [exact demo_areads|]. split; [|vm_compute; reflexivity]. split.
  - intros id s [[= <- <-]|[[= <- <-]|[]]]; [exists (mkKey 1 "p" (TBit 8))|exists (mkKey 2 "q" (TBit 8))]; (split; [cbn; tauto|reflexivity]).
  - repeat constructor; cbn; intuition discriminate.
Qed.
(** The iff fails for constraints that order exact keys. *)
Theorem C26_exact_order_refuted : exists ci ks cs e0 key m, P4ToConstraintInfo pton1 (mkP4Info [exact_decl] []) = Ok ci /\
  Forall2 key_decl (pt_match_fields exact_decl) ks /\ restricted kTableConstraint (pt_preamble exact_decl) cs /\ reads_as pton1 kTableConstraint cs e0 /\
  consistent ks [mkFM 1 (FMExact (String (ascii_of_nat 3) ""))] /\
  (forall n v, key n = Some v <-> Assigned ks [mkFM 1 (FMExact (String (ascii_of_nat 3) ""))] n v) /\
  Den (key_scope ks) (TableEnv key 0) e0 (VBool true) /\
  ReasonEntryViolatesConstraint (mkEntry 1 [mkFM 1 (FMExact (String (ascii_of_nat 3) ""))] None 0) ci = Err Internal m.
Proof.
  set (ks := [mkKey 1 "k" (TExact 8)]). set (l := [mkFM 1 (FMExact (String (ascii_of_nat 3) ""))]).
  eexists _, ks, (mkCSource "k < 5" (mkLoc 0 0 (SrcTable "t"))), _, (fun n => if String.eqb n "k" then Some (VExact 3) else None), _.
  split; [vm_compute; reflexivity|]. split; [repeat constructor|]. split.
  { eexists (parts_text ["k < 5"]), "", 0%Z, ["k < 5"]. split; [apply nt_here; reflexivity|]. split; [split; [apply no_special; vm_compute; reflexivity|left; reflexivity]|].
    split; [discriminate|]. split; [constructor; [apply no_special; vm_compute; reflexivity|constructor]|reflexivity]. }
  split. { apply (C08_parser_iff_grammar pton1 _ _ _ pton1_ok). vm_compute. reflexivity. }
  split.
  { split.
    - intros f [<-|[]]. exists (mkKey 1 "k" (TExact 8)). eexists. split; [now left|]. split; [reflexivity|]. apply fv_exact.
    - repeat constructor. intros [].
    - intros k [<-|[]] Ho; exfalso; exact (Ho _ (or_introl eq_refl) eq_refl). }
  split.
  { intros n v. split.
    - destruct (String.eqb_spec n "k") as [->|]; [|discriminate]. intros [= <-]. apply (as_present ks l (mkKey 1 "k" (TExact 8)) (mkFM 1 (FMExact (String (ascii_of_nat 3) "")))); [now left|now left|reflexivity|].
      exact (fv_exact 8 (String (ascii_of_nat 3) "")).
    - intros H. destruct H as [k f v [<-|[]] [<-|[]] _ Hv|k v [<-|[]] Ho _]; [|exfalso; exact (Ho _ (or_introl eq_refl) eq_refl)]. inversion Hv; subst. reflexivity. }
  split; [|vm_compute; reflexivity].
  eapply sem_compare with (ta := TExact 8) (tb := TInt) (t := TExact 8) (u := VExact 3) (u' := VExact 3) (v := VInt 5) (v' := VExact 5).
  - eapply T_key; [reflexivity|exists (mkKey 1 "k" (TExact 8)); split; [now left|reflexivity]|split; discriminate].
  - constructor.
  - split; [now left|]. split; [right; eapply below_trans; apply below_step; [apply (step_int 8)|apply step_bit; constructor]|]. intros x Hx _. exact Hx.
  - eapply sem_key; reflexivity.
  - apply (sem_int _ _ _ _ 5%N). split; [apply (reads_one 10 "5" 5); [exact (dchar_digit "5" ltac:(split; vm_compute; discriminate))|lia]|right; discriminate].
  - constructor.
  - apply (cv_trans TInt (TBit 8) (TExact 8) (VInt 5) (VInt 5) (VExact 5)); [exact (cv_int 8 5 ltac:(lia))|constructor].
  - right. split; [constructor|]. split; eexists; constructor.
  - split; [intros _|reflexivity]. eapply cp_lt; [constructor|constructor|lia].
Qed.
Print Assumptions C26_exact_order_refuted.

(** * C27 *)
(** Comparing something [w] bits wide with integers that are equal modulo 2^w. *)
Theorem C27_modulo : forall ai ti G ctx m o a b c a' b' c' eb ec w z z', in_scope ai ti G -> comparison o ->
  Infer ai ti a = Ok a' -> width (e_type a') w ->
  Infer ai ti b = Ok b' -> e_type b' = TInt -> value_of ctx b' = Ok (VInt z) ->
  Infer ai ti c = Ok c' -> e_type c' = TInt -> value_of ctx c' = Ok (VInt z') -> (z mod 2 ^ w = z' mod 2 ^ w)%Z ->
  (Infer ai ti (EBin m o a b) = Ok eb -> Infer ai ti (EBin m o a c) = Ok ec -> forall v, value_of ctx eb = Ok v <-> value_of ctx ec = Ok v) /\
  (Infer ai ti (EBin m o b a) = Ok eb -> Infer ai ti (EBin m o c a) = Ok ec -> forall v, value_of ctx eb = Ok v <-> value_of ctx ec = Ok v).
Proof.
  intros ai ti G ctx m o a b c a' b' c' eb ec w z z' HG Ho Ha Hw Hb Tb Vb Hc Tc Vc Hz. rewrite value_ev in Vb, Vc.
  assert (~ connective o) as Hnc by (intros Hn; destruct Ho as [? Hq|? Hq]; destruct Hq; inversion Hn).
  assert (forall u, ev ctx (CastTransitivelyTo b' (e_type a')) = Ok u <-> ev ctx (CastTransitivelyTo c' (e_type a')) = Ok u) as Hcast.
  { intros u. split; eapply ev_cast_mod; eauto. }
  split; intros Eb Ec v; rewrite !value_ev;
    (destruct (inv_bin ai ti G HG _ _ _ _ _ Eb) as (x1 & y1 & Hx1 & Hy1 & [(Hn & _)|(t1 & Hc1 & _ & E1)]); [contradiction|]);
    (destruct (inv_bin ai ti G HG _ _ _ _ _ Ec) as (x2 & y2 & Hx2 & Hy2 & [(Hn & _)|(t2 & Hc2 & _ & E2)]); [contradiction|]);
    rewrite Ha in *; rewrite Hb in *; rewrite Hc in *;
    repeat match goal with H : Ok _ = Ok _ |- _ => apply Ok_inj in H; subst end; subst; cbn [set_type].
  - rewrite Tb in Hc1. rewrite Tc in Hc2. apply (common_int _ w) in Hc1; [|exact Hw]. apply (common_int _ w) in Hc2; [|exact Hw]. subst.
    split; apply ev_bin_congr; auto; try reflexivity; intros u; symmetry; auto.
  - rewrite Tb in Hc1. rewrite Tc in Hc2. apply common_sym, (common_int _ w) in Hc1; [|exact Hw]. apply common_sym, (common_int _ w) in Hc2; [|exact Hw]. subst.
    split; apply ev_bin_congr; auto; try reflexivity; intros u; symmetry; auto.
Qed.
Print Assumptions C27_modulo.
(** The match an integer is converted to matches exactly that integer modulo 2^w. *)
Theorem C27_point : forall ctx b ty w z u, e_type b = TInt -> value_of ctx b = Ok (VInt z) -> match_type w ty -> (0 <= w)%Z ->
  value_of ctx (CastTransitivelyTo b ty) = Ok u -> forall x, (0 <= x < 2 ^ w)%Z -> (Matches w u x <-> x = z mod 2 ^ w)%Z.
Proof.
  intros ctx b ty w z u Hb Vb Hm Hw Hu x Hx. rewrite value_ev in *. apply ev_cast in Hu as (v & Hv & Hc).
  - rewrite Hb in Hc. assert (v = VInt z) as -> by congruence. eapply point; eauto.
  - rewrite Hb. right. eapply below_trans; apply below_step; [apply (step_int w)|now apply step_bit].
Qed.
Print Assumptions C27_point.
(** So a key equal to an integer matches exactly that. *)
Theorem C27_equal_is_point : forall ai ti G ctx m a b a' b' e w z, in_scope ai ti G ->
  Infer ai ti a = Ok a' -> match_type w (e_type a') -> (0 <= w)%Z -> Infer ai ti b = Ok b' -> e_type b' = TInt -> value_of ctx b' = Ok (VInt z) ->
  Infer ai ti (EBin m OEQ a b) = Ok e -> value_of ctx e = Ok (VBool true) ->
  exists u, value_of ctx a' = Ok u /\ forall x, (0 <= x < 2 ^ w)%Z -> (Matches w u x <-> x = z mod 2 ^ w)%Z.
Proof.
  intros ai ti G ctx m a b a' b' e w z HG Ha Hm Hw Hb Tb Vb He Hv.
  destruct (inv_bin ai ti G HG _ _ _ _ _ He) as (x1 & y1 & Hx1 & Hy1 & [(Hn & _)|(t1 & Hc1 & _ & E1)]); [inversion Hn|]. rewrite Ha in Hx1. rewrite Hb in Hy1. apply Ok_inj in Hx1 as <-. apply Ok_inj in Hy1 as <-.
  rewrite Tb in Hc1. assert (width (e_type a') w) as Hwd by (destruct Hm; constructor). apply (common_int _ w) in Hc1; [|exact Hwd]. subst t1 e. rewrite value_ev in Hv.
  cbn [set_type ev] in Hv. apply bind_ok in Hv as (v & Hv & Hd). apply dyn_ok in Hd as (_ & ->). apply bind_ok in Hv as (u & Hu & Hv). apply bind_ok in Hv as (u' & Hu' & Hv). apply Ok_inj in Hv. injection Hv as Hv. apply value_eqb_eq in Hv. subst u'.
  exists u. split.
  - rewrite value_ev. apply ev_cast in Hu as (u0 & Hu0 & Hcv); [|now left]. apply converts_inv in Hcv as [(_ & <-)|[Hcv|(n & v & E & _)]]; [exact Hu0| |].
    + apply conv1_step in Hcv. destruct Hm; inversion Hcv as [|? ? Hmt]; subst; inversion Hmt.
    + destruct Hm; discriminate.
  - rewrite <- value_ev in Hu'. eapply C27_point; eauto.
Qed.
Print Assumptions C27_equal_is_point.
(** An 8-bit key of a table compared with the literal -1, and with 255. *)
Definition nowhere : meta := at_ (mkLoc 0 0 SrcNone) (mkLoc 0 0 SrcNone).
Definition nowhere_at (t : ty) : meta := mkMeta (mkLoc 0 0 SrcNone) (mkLoc 0 0 SrcNone) t.
Example C27_case : exists t G eb ec, GetTableInfoOrNull demo_ci 3 = Some t /\ in_scope None (Some t) G /\ comparison OEQ /\
  Infer None (Some t) (EKey nowhere "e") = Ok (EKey (nowhere_at (TExact 8)) "e") /\ width (TExact 8) 8 /\
  Infer None (Some t) (ENeg nowhere (EInt nowhere "1")) = Ok (ENeg (nowhere_at TInt) (EInt (nowhere_at TInt) "1")) /\
  Infer None (Some t) (EInt nowhere "255") = Ok (EInt (nowhere_at TInt) "255") /\
  (forall ctx, value_of ctx (ENeg (nowhere_at TInt) (EInt (nowhere_at TInt) "1")) = Ok (VInt (-1))) /\ (forall ctx, value_of ctx (EInt (nowhere_at TInt) "255") = Ok (VInt 255)) /\ (-1 mod 2 ^ 8 = 255 mod 2 ^ 8)%Z /\
  Infer None (Some t) (EBin nowhere OEQ (EKey nowhere "e") (ENeg nowhere (EInt nowhere "1"))) = Ok eb /\ Infer None (Some t) (EBin nowhere OEQ (EKey nowhere "e") (EInt nowhere "255")) = Ok ec /\
  let ctx := mkCtx (CtxTable "demo" 0 [("e", VExact 255)]) demo_csource in value_of ctx eb = Ok (VBool true) /\ value_of ctx ec = Ok (VBool true).
Proof.
  destruct (GetTableInfoOrNull demo_ci 3) as [t|] eqn:E; [|vm_compute in E; discriminate E]. exists t, (InTable (ti_keys_by_name t)).
  vm_compute in E. injection E as E. assert (in_scope None (Some t) (InTable (ti_keys_by_name t))) as HG by (constructor; subst t; cbn; repeat constructor; cbn; intuition discriminate).
  eexists _, _. split; [reflexivity|]. split; [exact HG|]. clear HG. subst t. split; [repeat constructor|]. split; [vm_compute; reflexivity|]. split; [constructor|]. split; [vm_compute; reflexivity|]. split; [vm_compute; reflexivity|].
  split; [intros ctx; reflexivity|]. split; [intros ctx; reflexivity|]. split; [reflexivity|]. split; [vm_compute; reflexivity|]. split; [vm_compute; reflexivity|]. split; vm_compute; reflexivity.
Qed.

(** * C28 *)
(** The right operand counts only if the left one leaves the result open. *)
Theorem C28_short_circuit : forall ctx m o a b, connective o -> m_type m = TBool ->
  (forall x y, value_of ctx a = Ok (VBool x) -> (forall y', truth o x y' = y) -> value_of ctx (EBin m o a b) = Ok (VBool y)) /\
  (forall x, value_of ctx a = Ok (VBool x) -> (forall y, truth o x y = y) ->
     (forall y, value_of ctx (EBin m o a b) = Ok (VBool y) <-> value_of ctx b = Ok (VBool y)) /\
     (forall c t, value_of ctx b = Err c t -> value_of ctx (EBin m o a b) = Err c t) /\ (forall c, value_of ctx b = Crash c -> value_of ctx (EBin m o a b) = Crash c)) /\
  (forall c t, value_of ctx a = Err c t -> value_of ctx (EBin m o a b) = Err c t) /\ (forall c, value_of ctx a = Crash c -> value_of ctx (EBin m o a b) = Crash c).
Proof.
  intros ctx m o a b Ho Hm. rewrite !value_ev.
  assert (forall w, DynamicTypeCheck (ec_src ctx) (EBin m o a b) (VBool w) = Ok (VBool w)) as HD by (intros w; unfold DynamicTypeCheck, e_type; cbn; rewrite Hm; reflexivity).
  split; [|split; [|split]].
  - intros x y Hx Hy. destruct Ho; cbn [ev]; rewrite Hx; cbn [bind as_bool]; destruct x; cbn [bind as_bool];
      try (rewrite HD; specialize (Hy true); cbn in Hy; now subst); exfalso; pose proof (Hy true) as H1; pose proof (Hy false) as H2; cbn in *; congruence.
  - intros x Hx Hy. split; [intros y|split; intros c].
    + split; intros H; destruct Ho; cbn [ev] in *; rewrite Hx in *; cbn [bind as_bool] in *; destruct x; cbn [bind as_bool] in *; try (exfalso; pose proof (Hy true) as H1; pose proof (Hy false) as H2; cbn in *; congruence);
        try (rewrite H; cbn [bind as_bool]; now rewrite HD);
        apply bind_ok in H as (v & H & Hd); apply bind_ok in H as (y' & H & E); apply Ok_inj in E; subst v; rewrite HD in Hd; apply Ok_inj in Hd; injection Hd as ->; now apply ev_bool_ok.
    + intros t H. destruct Ho; cbn [ev] in *; rewrite Hx in *; cbn [bind as_bool] in *; destruct x; cbn [bind as_bool] in *; try (exfalso; pose proof (Hy true) as H1; pose proof (Hy false) as H2; cbn in *; congruence); now rewrite H.
    + intros H. destruct Ho; cbn [ev] in *; rewrite Hx in *; cbn [bind as_bool] in *; destruct x; cbn [bind as_bool] in *; try (exfalso; pose proof (Hy true) as H1; pose proof (Hy false) as H2; cbn in *; congruence); now rewrite H.
  - intros c t H. destruct Ho; cbn [ev]; now rewrite H.
  - intros c H. destruct Ho; cbn [ev]; now rewrite H.
Qed.
Print Assumptions C28_short_circuit.
(** ';' is '&&' but for its precedence. *)
Theorem C28_semicolon : forall pton ck src w1 w2 e1 e2 semi both l1 r1 l2 r2, pton_ok pton -> Forall numeral_text w1 -> Forall numeral_text w2 ->
  D pton ck 1 w1 e1 -> D pton ck 2 w2 e2 -> t_kind semi = SEMICOLON -> t_kind both = AND ->
  t_kind l1 = LPAR -> t_kind r1 = RPAR -> t_kind l2 = LPAR -> t_kind r2 = RPAR ->
  exists e, ParseTokens pton ck (w1 ++ semi :: w2) src = Ok e /\ ParseTokens pton ck ((l1 :: w1 ++ [r1]) ++ both :: (l2 :: w2 ++ [r2])) src = Ok e /\ exists m, e = EBin m OAND e1 e2.
Proof.
  intros pton ck src w1 w2 e1 e2 semi both l1 r1 l2 r2 Hp N1 N2 D1 D2 Ks Kb Kl1 Kr1 Kl2 Kr2.
  assert (forall t, (t_kind t = SEMICOLON \/ t_kind t = AND \/ t_kind t = LPAR \/ t_kind t = RPAR) -> numeral_text t) as HN by (intros t [E|[E|[E|E]]]; unfold numeral_text; rewrite E; exact I).
  exists (EBin (at_ (e_start e1) (e_end e2)) OAND e1 e2). split; [|split; [|eauto]].
  - apply (C08_tokens_iff_grammar pton ck _ src _ Hp); [apply Forall_app; split; [exact N1|constructor; auto]|]. exists (w1 ++ semi :: w2)%list. split; [|now left].
    apply D_up. eapply D_chain; [rewrite Ks; constructor|exact D1|exact D2].
  - apply (C08_tokens_iff_grammar pton ck _ src _ Hp).
    { apply Forall_app. split; [constructor; [auto|apply Forall_app; split; [exact N1|constructor; auto]]|]. constructor; [auto|]. constructor; [auto|]. apply Forall_app; split; [exact N2|constructor; auto]. }
    exists ((l1 :: w1 ++ [r1]) ++ both :: (l2 :: w2 ++ [r2]))%list. split; [|now left].
    apply D_up, D_up, D_up, D_up. eapply (D_chain pton ck 4); [rewrite Kb; constructor| |].
    + apply D_up, D_up, D_up, D_up, D_paren; [exact Kl1|now apply D_up|exact Kr1].
    + apply D_up, D_up, D_up, D_paren; [exact Kl2|now apply D_up, D_up|exact Kr2].
Qed.
Print Assumptions C28_semicolon.
Example C28_case : D pton1 kTableConstraint 1 [mkTok TRUE "true" (mkLoc 0 0 SrcNone) (mkLoc 0 4 SrcNone)] (EBool (at_ (mkLoc 0 0 SrcNone) (mkLoc 0 4 SrcNone)) true) /\
  D pton1 kTableConstraint 2 [mkTok FALSE "false" (mkLoc 0 5 SrcNone) (mkLoc 0 10 SrcNone)] (EBool (at_ (mkLoc 0 5 SrcNone) (mkLoc 0 10 SrcNone)) false) /\
  truth OAND false true = truth OAND false false /\ truth OOR true true = truth OOR true false /\ truth OIMPLIES false true = truth OIMPLIES false false.
Proof. split; [do 7 apply D_up; exact (D_true pton1 kTableConstraint (mkTok TRUE "true" (mkLoc 0 0 SrcNone) (mkLoc 0 4 SrcNone)) eq_refl)|]. split; [do 6 apply D_up; exact (D_false pton1 kTableConstraint (mkTok FALSE "false" (mkLoc 0 5 SrcNone) (mkLoc 0 10 SrcNone)) eq_refl)|]. auto. Qed.

(** * C29 *)
(** The states the caches can get into while the constraint [root] is evaluated
    and explained in context [ctx]; nodes are identified by their position. *)
Inductive Reached (ctx : eval_context) (root : expr) : eval_cache -> option size_cache -> Prop :=
| re_start : Reached ctx root (Some []) (Some [])
| re_eval c s q e : Reached ctx root c s -> At root q e -> Reached ctx root (snd (Eval ctx e (rev q) c)) s
| re_bool c s q e : Reached ctx root c s -> At root q e -> Reached ctx root (snd (EvalToBool ctx e (rev q) c)) s
| re_int c s q e : Reached ctx root c s -> At root q e -> Reached ctx root (snd (EvalToInt ctx e (rev q) c)) s
| re_size c s q e : Reached ctx root c s -> At root q e -> Reached ctx root c (snd (Size e (rev q) s))
| re_explain c s q e o c' s' : Reached ctx root c s -> At root q e -> MinimalSubexpression ctx e (rev q) c s = (o, c', s') -> Reached ctx root c' s'.
Lemma to_int_agrees ctx root e p c : at_path root p = Some e -> cache_ok ctx root c -> agrees ctx root (ev_int ctx e) c (EvalToInt ctx e p c).
Proof.
  intros Hp Hc. unfold EvalToInt, eval_to_int, ev_int. apply agrees_bind; [now apply Eval_agrees|]. intros v c' Hc'. destruct v; apply agrees_ret; exact Hc'.
Qed.
Lemma reached_ok ctx root c s : Reached ctx root c s -> cache_ok ctx root c /\ size_ok root s.
Proof.
  induction 1 as [|c s q e _ [IHc IHs] Hq|c s q e _ [IHc IHs] Hq|c s q e _ [IHc IHs] Hq|c s q e _ [IHc IHs] Hq|c s q e o c' s' _ [IHc IHs] Hq Hm].
  - split; intros p b H; discriminate.
  - apply at_path_iff in Hq. split; [|exact IHs]. apply (Eval_agrees ctx root e (rev q) c Hq IHc).
  - apply at_path_iff in Hq. split; [|exact IHs]. apply (EvalToBool_agrees ctx root e (rev q) c Hq IHc).
  - apply at_path_iff in Hq. split; [|exact IHs]. apply (to_int_agrees ctx root e (rev q) c Hq IHc).
  - apply at_path_iff in Hq. split; [exact IHc|]. apply (Size_spec root e (rev q) s Hq IHs).
  - apply at_path_iff in Hq. pose proof (minimal_agrees ctx root e (rev q) c s Hq IHc IHs) as H. rewrite Hm in H. split; apply H.
Qed.
Theorem C29_cache_transparent : forall ctx root c s q e, Reached ctx root c s -> At root q e ->
  fst (Eval ctx e (rev q) c) = fst (Eval ctx e (rev q) None) /\
  fst (EvalToBool ctx e (rev q) c) = fst (EvalToBool ctx e (rev q) None) /\
  fst (EvalToInt ctx e (rev q) c) = fst (EvalToInt ctx e (rev q) None) /\
  fst (Size e (rev q) s) = fst (Size e (rev q) None) /\
  fst (fst (MinimalSubexpression ctx e (rev q) c s)) = fst (fst (MinimalSubexpression ctx e (rev q) None None)).
Proof.
  intros ctx root c s q e HR Hq. apply reached_ok in HR as [Hc Hs]. apply at_path_iff in Hq. split; [|split; [|split; [|split]]].
  - now rewrite (proj1 (Eval_agrees ctx root e (rev q) c Hq Hc)), (proj1 (Eval_agrees ctx root e (rev q) None Hq I)).
  - now rewrite (proj1 (EvalToBool_agrees ctx root e (rev q) c Hq Hc)), (proj1 (EvalToBool_agrees ctx root e (rev q) None Hq I)).
  - now rewrite (proj1 (to_int_agrees ctx root e (rev q) c Hq Hc)), (proj1 (to_int_agrees ctx root e (rev q) None Hq I)).
  - now rewrite (proj1 (Size_spec root e (rev q) s Hq Hs)), (proj1 (Size_spec root e (rev q) None Hq I)).
  - pose proof (minimal_agrees ctx root e (rev q) c s Hq Hc Hs) as H1. pose proof (minimal_agrees ctx root e (rev q) None None Hq I I) as H2.
    destruct (MinimalSubexpression ctx e (rev q) c s) as [[o c1] s1], (MinimalSubexpression ctx e (rev q) None None) as [[o2 c2] s2]. destruct H1 as [-> _], H2 as [-> _]. reflexivity.
Qed.
Print Assumptions C29_cache_transparent.
(** What the caches hold. *)
Theorem C29_cache_correct : forall ctx root m k, Reached ctx root (Some m) (Some k) ->
  (forall p b, assoc_find path_eqb p m = Some b -> exists e, At root (rev p) e /\ value_of ctx e = Ok (VBool b)) /\
  (forall p n, assoc_find path_eqb p k = Some n -> exists e, At root (rev p) e /\ Nodes e n).
Proof.
  intros ctx root m k HR. apply reached_ok in HR as [Hc Hs]. split.
  - intros p b H. destruct (Hc p b H) as (e & He & Hb). exists e. split; [apply at_path_iff; now rewrite rev_involutive|]. rewrite value_ev. now apply ev_bool_ok.
  - intros p n H. destruct (Hs p n H) as (e & He & Hn). exists e. split; [apply at_path_iff; now rewrite rev_involutive|now apply size_Nodes].
Qed.
Print Assumptions C29_cache_correct.
(** Explanations, and whole checks. *)
Theorem C29_explanation : forall ctx root c s, Reached ctx root c s -> ExplainConstraintViolation ctx root c s = ExplainConstraintViolation ctx root None None.
Proof. intros ctx root c s HR. apply reached_ok in HR as [Hc Hs]. rewrite (explain_agrees ctx root c s Hc Hs). symmetry. exact (explain_agrees ctx root None None I I). Qed.
Print Assumptions C29_explanation.
Theorem C29_check : forall ctx e, check_constraint ctx e =
  match fst (EvalToBool ctx e [] None) with
  | Ok true => Ok ""
  | Ok false => ExplainConstraintViolation ctx e None None
  | Err c m => Err c m
  | Crash w => Crash w
  end.
Proof.
  intros ctx e. rewrite check_agrees. unfold check. rewrite (proj1 (EvalToBool_agrees ctx e e [] None eq_refl I)). destruct (ev_bool ctx e) as [[]| |]; try reflexivity. cbn [bind]. symmetry. exact (explain_agrees ctx e None None I I).
Qed.
Print Assumptions C29_check.
Definition demo_ctx : eval_context := mkCtx (CtxTable "demo" 0 [("e", VExact 97); ("t", VTernary 0 0); ("r", VRange 0 15)]) demo_csource.
Definition demo_constraint : expr := Eval vm_compute in the demo_tree (match GetTableInfoOrNull demo_ci 3 with Some t => InferTable demo_tree t | None => Crash GmpAbort end).
Example C29_case : exists m, Reached demo_ctx demo_constraint (Some m) (Some []) /\ (1 < List.length m)%nat.
Proof. eexists. split; [exact (re_bool _ _ _ _ [] _ (re_start _ _) (at_here _))|]. vm_compute. lia. Qed.

(** * C30 *)
(** Entries of one table that agree on the keys, and on the priority if an attribute
    is mentioned: the same verdict. *)
Definition verdict (o : outcome string) (v : bool) : Prop := exists text, o = Ok text /\ String.eqb text "" = v.
Lemma verdict_check c1 c2 e v : agree_on c1 c2 e -> verdict (check c1 e) v -> verdict (check c2 e) v.
Proof.
  intros HA (text & H & Hv). pose proof (minimal_frame c1 c2 e HA []) as Hm. pose proof (ev_bool_frame c1 c2 e HA) as He. destruct v.
  - apply String.eqb_eq in Hv. subst text. exists "". split; [|reflexivity]. apply check_accepts. rewrite <- He. now apply check_accepts.
  - apply String.eqb_neq in Hv. apply (check_rejects c1 e text Hv) in H as (Hf & s & q & b & r & Hs & Hb & Hq & _).
    assert (agree_on c1 c2 s) as HA'.
    { destruct (minimal_best c1 e [] s q Hs) as (q' & _ & [Hbl _]). apply Blamable_At in Hbl. clear -Hbl HA. induction Hbl as [|e d e' q s Hc _ IH]; [exact HA|]. apply IH. eapply agree_child; eauto. }
    exists (violation_text c2 s b r). split; [|apply String.eqb_neq, text_nonempty]. apply check_rejects; [apply text_nonempty|]. split; [congruence|]. exists s, q, b, r.
    split; [congruence|]. split; [now rewrite <- (ev_bool_frame c1 c2 s HA')|]. split; [|reflexivity]. destruct HA as [Esrc _]. now rewrite <- Esrc.
Qed.
Lemma verdict_table t entry v : verdict (ReasonTableViolates t entry) v <->
  (ti_constraint t = None /\ v = true) \/ exists e ctx, ti_constraint t = Some e /\ e_type e = TBool /\ ParseTableEntry entry t = Ok ctx /\ verdict (check ctx e) v.
Proof.
  unfold verdict. split.
  - intros (text & H & Hv). apply table_ok in H as [(E & ->)|(e & ctx & H1 & H2 & H3 & H4)]; [left; split; [exact E|now rewrite <- Hv]|right; exists e, ctx; eauto 6].
  - intros [(E & ->)|(e & ctx & H1 & H2 & H3 & text & H4 & Hv)]; [exists ""; split; [apply table_ok; now left|reflexivity]|exists text; split; [apply table_ok; right; eauto 6|exact Hv]].
Qed.
Theorem C30_unmentioned_keys : forall ci t ks e entry entry' v,
  GetTableInfoOrNull ci (pe_table_id entry) = Some t -> pe_table_id entry = pe_table_id entry' -> table_keys t ks -> ti_constraint t = Some e ->
  consistent ks (pe_match entry) -> consistent ks (pe_match entry') -> pe_action entry = pe_action entry' ->
  (forall n v, mentions e n -> (Assigned ks (pe_match entry) n v <-> Assigned ks (pe_match entry') n v)) ->
  (uses_attribute e -> pe_priority entry = pe_priority entry') ->
  (verdict (ReasonEntryViolatesConstraint entry ci) v <-> verdict (ReasonEntryViolatesConstraint entry' ci) v).
Proof.
  intros ci t ks e entry entry' v Ht Hid HK He Hc Hc' Hact Hag Hpr.
  assert (forall entry entry' v, consistent ks (pe_match entry) -> consistent ks (pe_match entry') ->
    (forall n v, mentions e n -> (Assigned ks (pe_match entry) n v <-> Assigned ks (pe_match entry') n v)) -> (uses_attribute e -> pe_priority entry = pe_priority entry') ->
    verdict (ReasonTableViolates t entry) v -> verdict (ReasonTableViolates t entry') v) as HT.
  { clear -HK He. intros x y v Hx Hy Hag Hpr H. apply verdict_table in H. apply verdict_table. destruct H as [(E & _)|(e' & ctx & He' & Hty & Hp & H)]; [congruence|]. assert (e' = e) as -> by congruence.
    right. destruct (entry_total t ks HK y Hy) as [ctx' Hp']. exists e, ctx'. split; [exact He|]. split; [exact Hty|]. split; [exact Hp'|]. revert H. apply verdict_check.
    destruct (entry_ok t ks HK x ctx Hp) as (_ & k1 & -> & N1 & A1). destruct (entry_ok t ks HK y ctx' Hp') as (_ & k2 & -> & N2 & A2). split; [reflexivity|]. cbn. split; [reflexivity|]. split; [exact Hpr|].
    intros n Hn. destruct (assoc_find String.eqb n k1) as [u|] eqn:E1.
    - symmetry. apply (afind_iff String.eqb String.eqb_eq); [exact N2|]. apply A2, Hag, A1; [exact Hn|]. now apply (afind_iff String.eqb String.eqb_eq) in E1.
    - destruct (assoc_find String.eqb n k2) as [u|] eqn:E2; [|reflexivity]. apply (afind_iff String.eqb String.eqb_eq) in E2; [|exact N2]. apply A2, Hag, A1 in E2; [|exact Hn]. apply (afind_iff String.eqb String.eqb_eq) in E2; [congruence|exact N1]. }
  assert (forall entry entry', GetTableInfoOrNull ci (pe_table_id entry) = Some t -> pe_table_id entry = pe_table_id entry' -> pe_action entry = pe_action entry' ->
    (forall v, verdict (ReasonTableViolates t entry) v -> verdict (ReasonTableViolates t entry') v) ->
    verdict (ReasonEntryViolatesConstraint entry ci) v -> verdict (ReasonEntryViolatesConstraint entry' ci) v) as HE.
  { clear. intros x y Ht Hid Ha HT (text & H & Hv). unfold ReasonEntryViolatesConstraint in *. rewrite Ht in H. rewrite <- Hid, Ht, <- Ha. apply bind_ok in H as (r & Hr & H).
    destruct (HT (String.eqb r "")) as (r' & Hr' & Eb); [exists r; auto|]. rewrite Hr'. cbn [bind]. rewrite Eb. destruct (String.eqb r "") eqn:E; cbn [negb] in *; [exists text; auto|]. apply Ok_inj in H as <-. exists r'. split; [reflexivity|congruence]. }
  split; apply HE; auto; try congruence; intros u; apply HT; auto; intros; symmetry; auto.
Qed.
Print Assumptions C30_unmentioned_keys.
(** Actions. *)
Theorem C30_unmentioned_params : forall ci a ps e x x' v, GetActionInfoOrNull ci (pa_id x) = Some a -> pa_id x = pa_id x' -> action_params a ps -> ai_constraint a = Some e ->
  acceptable ps (pa_params x) -> acceptable ps (pa_params x') ->
  (forall n z, mentions e n -> (Passed ps (pa_params x) n z <-> Passed ps (pa_params x') n z)) ->
  (verdict (ReasonActionViolates ci x) v <-> verdict (ReasonActionViolates ci x') v).
Proof.
  intros ci a ps e x x' v Ha Hid HP He Hc Hc' Hag.
  assert (forall x x', GetActionInfoOrNull ci (pa_id x) = Some a -> pa_id x = pa_id x' -> acceptable ps (pa_params x) -> acceptable ps (pa_params x') ->
    (forall n z, mentions e n -> (Passed ps (pa_params x) n z <-> Passed ps (pa_params x') n z)) -> verdict (ReasonActionViolates ci x) v -> verdict (ReasonActionViolates ci x') v) as HT.
  { clear -HP He. intros x y Ha Hid Hx Hy Hag (text & H & Hv). apply action_verdict in H as (a' & Ha' & [(E & _)|(e' & ctx & He' & Hty & Hp & H)]); assert (a' = a) as -> by congruence; [congruence|]. assert (e' = e) as -> by congruence.
    destruct (action_total a ps HP y Hy) as [ctx' Hp'].
    destruct (verdict_check ctx ctx' e v) as (text' & H' & Hv').
    - destruct (action_ok a ps HP x ctx Hp) as (_ & k1 & -> & N1 & A1). destruct (action_ok a ps HP y ctx' Hp') as (_ & k2 & -> & N2 & A2). split; [reflexivity|]. cbn. split; [reflexivity|].
      intros n Hn. destruct (assoc_find String.eqb n k1) as [u|] eqn:E1.
      + symmetry. apply (afind_iff String.eqb String.eqb_eq); [exact N2|]. apply A2, Hag, A1; [exact Hn|]. now apply (afind_iff String.eqb String.eqb_eq) in E1.
      + destruct (assoc_find String.eqb n k2) as [u|] eqn:E2; [|reflexivity]. apply (afind_iff String.eqb String.eqb_eq) in E2; [|exact N2]. apply A2, Hag, A1 in E2; [|exact Hn]. apply (afind_iff String.eqb String.eqb_eq) in E2; [congruence|exact N1].
    - exists text. auto.
    - exists text'. split; [|exact Hv']. apply action_verdict. exists a. split; [congruence|]. right. exists e, ctx'. auto. }
  split; apply HT; auto; try congruence. intros; symmetry; auto.
Qed.
Print Assumptions C30_unmentioned_params.
Example C30_case : (forall n, mentions demo_constraint n -> n <> "r") /\ uses_attribute demo_constraint /\
  verdict (ReasonEntryViolatesConstraint (mkEntry 3 demo_match None 0) demo_ci) true /\
  verdict (ReasonEntryViolatesConstraint (mkEntry 3 (mkFM 3 (FMRange "a" "b") :: demo_match) None 0) demo_ci) true.
Proof.
  split. { intros n H ->. apply GetVariables_in in H. vm_compute in H. intuition discriminate. }
  split; [apply ua_right, ua_right, ua_left; constructor|]. split; exists ""; (split; [vm_compute; reflexivity|reflexivity]).
Qed.
