(** Crash freedom (C64). *)
From Coq Require Import String Ascii List ZArith NArith Bool Lia.
From Verif Require Import Base Num Token Ast Lexer Quote AstConstructors Parser Info TypeChecker ConstraintInfo Interpreter Cli SpecLexer SpecGrammar SpecParser SpecQuote SpecTyping SpecSemantics SpecInfo SpecCrash
  ParserFacts4 TypeFacts EntryFacts InterpFacts InterpFacts2 InfoFacts2 CrashFacts PropertiesParser PropertiesInfo PropertiesVerdict PropertiesEntries.
Import ListNotations.
Open Scope string_scope.

Lemma key_widths p d ks k z : sane_widths p -> In d (p4_tables p) -> Forall2 key_decl (pt_match_fields d) ks -> In k ks -> width (k_type k) z -> (0 <= z)%Z.
Proof.
  intros [Hs _] Hd Hf Hk Hw. assert (exists f, In f (pt_match_fields d) /\ key_decl f k) as (f & Hin & (_ & _ & Ht)).
  { clear -Hf Hk. induction Hf as [|f k' l m H Hf IH]; [contradiction|]. destruct Hk as [->|Hk]; [exists f; split; [now left|exact H]|]. destruct (IH Hk) as (f' & H1 & H2). exists f'. split; [now right|exact H2]. }
  specialize (Hs d f Hd Hin). destruct Ht; inversion Hw; subst; exact Hs.
Qed.
Lemma param_widths p d ps k z : sane_widths p -> In d (p4_actions p) -> Forall2 param_decl (pad_params d) ps -> In k ps -> width (k_type k) z -> (0 <= z)%Z.
Proof.
  intros [_ Hs] Hd Hf Hk Hw. assert (exists f, In f (pad_params d) /\ param_decl f k) as (f & Hin & (_ & _ & Ht)).
  { clear -Hf Hk. induction Hf as [|f k' l m H Hf IH]; [contradiction|]. destruct Hk as [->|Hk]; [exists f; split; [now left|exact H]|]. destruct (IH Hk) as (f' & H1 & H2). exists f'. split; [now right|exact H2]. }
  specialize (Hs d f Hd Hin). destruct Ht as [[_ E]|[_ E]]; rewrite E in Hw; inversion Hw; subst; exact Hs.
Qed.
Lemma quote_unsafe pton p ck cs e a b w : pton_ok pton -> declares p ck cs -> ParseConstraint pton ck cs = Ok e -> spot e a b -> QuoteSubConstraint cs a b = Crash w -> unsafe pton p.
Proof.
  intros Hp Hd He Hs Hq. exists ck, cs, e, a, b. split; [exact Hd|]. split; [exact (proj1 (text_iff pton Hp _ _ _) He)|]. split; [exact Hs|].
  exact (spot_sprawls _ _ _ _ _ _ _ Hp He (declares_column _ _ _ Hd) Hs Hq).
Qed.
Lemma check_unsafe pton p ck cs e0 e ai ti G ctx w : pton_ok pton -> declares p ck cs -> ParseConstraint pton ck cs = Ok e0 -> in_scope ai ti G -> Infer ai ti e0 = Ok e ->
  (forall n k z, In (n, k) (names G) -> width (k_type k) z -> (0 <= z)%Z) -> ec_src ctx = cs -> check_constraint ctx e = Crash w -> unsafe pton p.
Proof.
  intros Hp Hd He HG Hi Hw Hc H. apply check_crash in H as [(s & Hs & Hq)|(m & a & z & Hs & Hz & Hneg)].
  - destruct (infer_sub ai ti G HG _ _ Hi _ Hs) as (s0 & Hs0 & E1 & E2). rewrite Hc, <- E1, <- E2 in Hq. exact (quote_unsafe _ _ _ _ _ _ _ _ Hp Hd He (sp_sub _ _ Hs0) Hq).
  - destruct (cast_origin ai ti G HG _ _ Hi _ _ _ Hs Hz) as (n & k & Hk & Hkz). specialize (Hw n k z Hk Hkz). lia.
Qed.

(** * C64 *)
(** Loading crashes only if an interval of a declared constraint spans lines and starts close to the
    end of its first line. *)
Theorem C64_loading : forall pton p w, pton_ok pton -> P4ToConstraintInfo pton p = Crash w -> unsafe pton p.
Proof.
  intros pton p w Hp H. destruct (C37_failure pton p) as [(m & E)|(w' & _ & [(d & cs & Hd & Hr & Hc)|(d & cs & Hd & Hr & Hc)])]; [intros ci E; congruence|congruence|..];
    (destruct Hc as [Hc|(e & t & He & <- & Hi)]; [exfalso; revert Hc; apply C13_never_crashes; exact (restricted_column _ _ _ Hr)|]).
  - unfold InferTable in Hi. apply (infer_crash None (Some t) (ti_source t)) in Hi as (a & b & Hs & Hq); [|reflexivity]. exact (quote_unsafe _ _ _ _ _ _ _ _ Hp (dc_table _ _ _ Hd Hr) He Hs Hq).
  - unfold InferAction in Hi. apply (infer_crash (Some t) None (ai_source t)) in Hi as (a & b & Hs & Hq); [|reflexivity]. exact (quote_unsafe _ _ _ _ _ _ _ _ Hp (dc_action _ _ _ Hd Hr) He Hs Hq).
Qed.
Print Assumptions C64_loading.
(** So does checking entries, if no width is negative. *)
Theorem C64_checking : forall pton p ci entry w, pton_ok pton -> sane_widths p -> P4ToConstraintInfo pton p = Ok ci ->
  ReasonEntryViolatesConstraint entry ci = Crash w -> unsafe pton p.
Proof.
  intros pton p ci entry w Hp Hs Hci H. destruct (C37_exact _ _ _ Hci) as (_ & Ht & _ & Ha).
  assert (forall x, ReasonActionViolates ci x = Crash w -> unsafe pton p) as HA.
  { intros x Hx. unfold ReasonActionViolates in Hx. destruct (GetActionInfoOrNull ci (pa_id x)) as [a|] eqn:Ea; [|discriminate]. destruct (Ha _ _ Ea) as (d & ps & Hd & _ & [_ _ Hf HK Hc]).
    destruct (ai_constraint a) as [e|] eqn:Ee; [|discriminate]. destruct Hc as [[_ E]|(e0 & e' & Hr & He & Hi & E)]; [discriminate|]. injection E as ->.
    destruct (negb _); [discriminate|]. apply bind_crash in Hx as [Hx|(ctx & Hctx & Hx)]; [apply annotate_crash in Hx; now apply params_crash in Hx|].
    apply (check_unsafe pton p kActionConstraint (ai_source a) e0 e' (Some a) None _ ctx w Hp (dc_action _ _ _ Hd Hr) He (action_in_scope a ps HK) Hi); [| |exact Hx].
    - intros n k z Hk Hz. cbn [names] in Hk. apply (param_by_name a ps HK) in Hk as [Hk _]. exact (param_widths _ _ _ _ _ Hs Hd Hf Hk Hz).
    - apply SemFacts.annotate_ok in Hctx. unfold ParseAction in Hctx. destruct (parse_params _ _ _); [|discriminate..]. now injection Hctx as <-. }
  unfold ReasonEntryViolatesConstraint in H. destruct (GetTableInfoOrNull ci (pe_table_id entry)) as [t|] eqn:Et; [|discriminate].
  apply bind_crash in H as [H|(r & _ & H)].
  - unfold ReasonTableViolates in H. destruct (Ht _ _ Et) as (d & ks & Hd & _ & [_ _ Hf HK Hc]).
    destruct (ti_constraint t) as [e|] eqn:Ee; [|discriminate]. destruct Hc as [[_ E]|(e0 & e' & Hr & He & Hi & E)]; [discriminate|]. injection E as ->.
    assert (forall k z, In k ks -> width (k_type k) z -> (0 <= z)%Z) as Hw by (intros k z Hk Hz; exact (key_widths _ _ _ _ _ Hs Hd Hf Hk Hz)).
    destruct (negb _); [discriminate|]. apply bind_crash in H as [H|(ctx & Hctx & H)].
    + apply annotate_crash, entry_crash in H as (k & z & Hk & Hz & Hneg). exfalso. enough (In k ks) as Hin by (specialize (Hw k z Hin Hz); lia).
      destruct Hk as [Hk|Hk]; apply in_map_iff in Hk as ([n k'] & E & Hk); cbn in E; subst k'; [apply (tk_by_id _ _ HK) in Hk|apply (tk_by_name _ _ HK) in Hk]; apply in_map_iff in Hk as (k' & [= _ ->] & Hk); exact Hk.
    + apply (check_unsafe pton p kTableConstraint (ti_source t) e0 e' None (Some t) _ ctx w Hp (dc_table _ _ _ Hd Hr) He (table_in_scope t ks HK) Hi); [| |exact H].
      * intros n k z Hk Hz. cbn [names] in Hk. apply (by_name t ks HK) in Hk as [Hk _]. eauto.
      * apply SemFacts.annotate_ok in Hctx. unfold ParseTableEntry in Hctx. destruct (parse_fields _ _ _); [|discriminate..]. cbn [bind] in Hctx. destruct (fill_defaults _ _); [|discriminate..]. now injection Hctx as <-.
  - destruct (negb _); [discriminate|]. destruct (pe_action entry) as [[a|?|?|l|]|]; try discriminate; [now apply HA in H|].
    clear -HA H. induction l as [|a l IH]; cbn [ReasonActionSetViolates] in H; [discriminate|]. apply bind_crash in H as [H|(r' & _ & H)]; [now apply HA in H|]. destruct (String.eqb r' ""); [auto|discriminate].
Qed.
Print Assumptions C64_checking.
(** And the command line tool. *)
Lemma declares_coerced p ck cs : declares (coerce_p4info p) ck cs -> declares p ck cs.
Proof.
  intros [d cs' Hd Hr|d cs' Hd Hr]; cbn in Hd; [|now apply dc_action with d].
  apply in_map_iff in Hd as (d' & <- & Hd). apply dc_table with d'; [exact Hd|]. destruct Hr as (r & f & n & ss & H). exists r, f, n, ss. exact H.
Qed.
Theorem C64_tool : forall pton flag p entries w, pton_ok pton -> sane_widths p -> p4check pton flag (FileOk p) entries = Crash w -> unsafe pton p.
Proof.
  intros pton flag p entries w Hp Hs H.
  assert (unsafe pton (coerce_p4info p) -> unsafe pton p) as Hu by (intros (ck & cs & e & a & b & Hd & Hx); exists ck, cs, e, a, b; split; [now apply declares_coerced|exact Hx]).
  assert (sane_widths (coerce_p4info p)) as Hs'. { destruct Hs as [H1 H2]. split; [|exact H2]. intros d f Hd Hf. cbn in Hd. apply in_map_iff in Hd as (d' & <- & Hd). exact (H1 d' f Hd Hf). }
  apply Hu. unfold p4check in H. destruct (String.eqb flag ""); [discriminate|]. destruct (P4ToConstraintInfo pton (coerce_p4info p)) as [ci|c m|w'] eqn:E; [|discriminate|exact (C64_loading _ _ _ Hp E)].
  apply bind_crash in H as [H|(out & _ & H)]; [|discriminate]. revert H. induction entries as [|[name f] l IH]; intros H; cbn [entry_reports] in H; [discriminate|].
  apply bind_crash in H as [H|(r & _ & H)].
  - destruct f as [| |e]; cbn [entry_report] in H; try discriminate. destruct (ReasonEntryViolatesConstraint (coerce_entry e) ci) as [r|c m|w1] eqn:Er; try discriminate. exact (C64_checking _ _ _ _ _ Hp Hs' E Er).
  - apply bind_crash in H as [H|(rest & _ & H)]; [auto|discriminate].
Qed.
Print Assumptions C64_tool.
(** Constraints written in one line are safe. *)
Theorem C64_one_line : forall pton p, pton_ok pton -> (forall ck cs, declares p ck cs -> one_line (cs_string cs)) -> ~ unsafe pton p.
Proof.
  intros pton p Hp Hl (ck & cs & e & a & b & Hd & Hr & Hs & [Hne _]). apply Hne. apply (one_line_spot pton ck cs e a b Hp (proj2 (text_iff pton Hp _ _ _) Hr) (declares_column _ _ _ Hd) (Hl _ _ Hd) Hs).
Qed.
Print Assumptions C64_one_line.
Theorem C64_never_crashes : forall pton p, pton_ok pton -> sane_widths p -> (forall ck cs, declares p ck cs -> one_line (cs_string cs)) ->
  (forall w, P4ToConstraintInfo pton p <> Crash w) /\
  (forall ci entry w, P4ToConstraintInfo pton p = Ok ci -> ReasonEntryViolatesConstraint entry ci <> Crash w) /\
  (forall flag entries w, p4check pton flag (FileOk p) entries <> Crash w).
Proof.
  intros pton p Hp Hs Hl. pose proof (C64_one_line pton p Hp Hl) as Hu. split; [|split].
  - intros w H. exact (Hu (C64_loading _ _ _ Hp H)).
  - intros ci entry w Hci H. exact (Hu (C64_checking _ _ _ _ _ Hp Hs Hci H)).
  - intros flag entries w H. exact (Hu (C64_tool _ _ _ _ _ Hp Hs H)).
Qed.
Print Assumptions C64_never_crashes.
Example C64_case : sane_widths demo_info /\ (forall ck cs, declares demo_info ck cs -> one_line (cs_string cs)) /\ P4ToConstraintInfo pton1 demo_info = Ok demo_ci /\
  declares demo_info kTableConstraint demo_csource /\ ReasonEntryViolatesConstraint (mkEntry 3 demo_match None 0) demo_ci = Ok "".
Proof.
  split. { split; intros d f Hd Hf; destruct Hd as [<-|Hd]; cbn in Hf; [|destruct Hd as [<-|[]]; contradiction| |contradiction]; repeat destruct Hf as [<-|Hf]; try contradiction; cbn; lia. }
  split. { assert (forall s, existsb (fun c => Ascii.eqb c LF || Ascii.eqb c CR)%bool (chars s) = false -> one_line s) as Hx.
    { intros s H. split; intros Hin; assert (existsb (fun c => Ascii.eqb c LF || Ascii.eqb c CR)%bool (chars s) = true) as E by (apply existsb_exists; eexists; split; [exact Hin|reflexivity]); congruence. }
    intros ck cs [d cs' Hd Hr|d cs' Hd Hr]; destruct Hd as [<-|Hd].
    - rewrite (restricted_fun _ _ _ _ Hr demo_restricted). apply Hx. vm_compute. reflexivity.
    - destruct Hd as [<-|[]]. exfalso. exact (restricted_not _ _ _ free_unrestricted Hr).
    - rewrite (restricted_fun _ _ _ _ Hr demo_arestricted). apply Hx. vm_compute. reflexivity.
    - contradiction. }
  split; [exact demo_parsed|]. split; [apply dc_table with demo_decl; [now left|exact demo_restricted]|]. vm_compute. reflexivity.
Qed.
