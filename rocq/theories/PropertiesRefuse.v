(** Which error a ConstraintSolver gives (C112). *)
From Coq Require Import String Ascii List ZArith NArith Bool Lia Sorted.
From Verif Require Import Base Num Token Ast Quote AstConstructors Info TypeChecker Parser ConstraintInfo Interpreter Z3 Symbolic SpecLexer SpecGrammar SpecParser SpecTyping TypeFacts NumFacts LiteralFacts SpecSemantics SpecInfo SpecSymbolic SpecSolver SpecRefuse
  ParserFacts4 ParserFacts5 ParserFacts7 SemFacts SemFacts2 EntryFacts ExplainFacts InfoFacts InfoFacts2 InterpFacts InterpFacts2 SymFacts SymFacts2 SymKeys SymState SymMeaning SymDemo OutcomeFacts3 IdiomFacts SolverFacts RefuseFacts PropertiesParser PropertiesInfo PropertiesVerdict PropertiesSymbolic PropertiesSolver.
Import ListNotations.
Open Scope string_scope.

Section Table.
  Variables (t : table_info) (ks : list key_info) (skip : string -> outcome bool).
  Hypothesis HK : table_keys t ks.
  Hypothesis Hskipped : forall k w, In k ks -> skipped skip k -> width (k_type k) w -> (0 < w)%Z.
  Section Built.
  Variables (env : sym_env) (base : list term).
  Hypothesis HB : built ks skip env base.
  Lemma known_found n : known ks skip n <-> assoc_find String.eqb n (se_keys env) <> None.
  Proof.
    split.
    - intros (k & Hk & <- & Hl). pose proof (b_repr _ _ _ _ HB k Hk Hl) as Hr. apply add_key_iff in Hr as ([sk a] & Ha). assert (assoc_find String.eqb (k_name k) (se_keys env) = Some sk) as -> by (apply (b_keys _ _ _ _ HB); eauto 6). discriminate.
    - intros H. destruct (assoc_find String.eqb n (se_keys env)) as [sk|] eqn:E; [|contradiction]. apply (b_keys _ _ _ _ HB) in E as (k & a & Hk & <- & Hl & _). exists k. auto.
  Qed.
  Lemma priority_found : prioritized ks <-> assoc_find String.eqb "priority" (se_attrs env) <> None.
  Proof.
    split.
    - intros H. rewrite (b_prio _ _ _ _ HB H). discriminate.
    - intros H. destruct (assoc_find String.eqb "priority" (se_attrs env)) as [u|] eqn:E; [|contradiction]. now destruct (env_prio ks skip env base HB u E).
  Qed.
  Lemma found_shaped n sk ty : assoc_find String.eqb n (se_keys env) = Some sk -> declared (ti_keys_by_name t) n ty -> shaped ty (RKey sk).
  Proof. intros Hn Hd. destruct (env_key t ks HK skip env base HB _ _ _ Hn Hd) as (k & a & _ & _ & <- & _ & Ha). exact (key_shaped k sk a Ha). Qed.
  Lemma found_prio u : assoc_find String.eqb "priority" (se_attrs env) = Some u -> sort_of u = SInt.
  Proof. intros Hu. destruct (env_prio ks skip env base HB u Hu) as [_ ->]. reflexivity. Qed.
  Lemma scoped e c s : Unknown (key_scope ks) (known ks skip) (prioritized ks) e c s <-> Unknown (InTable (ti_keys_by_name t)) (known ks skip) (prioritized ks) e c s.
  Proof. pose proof (key_scope_same t ks HK) as HS. split; apply unknown_ext; try (intros; reflexivity); auto using same_scope_sym; reflexivity. Qed.
  Lemma encode_first e0 e src : literals e0 -> InferTable e0 t = Ok e -> e_type e = TBool ->
    (exists u, EvaluateConstraintSymbolically env src e = Ok u /\ sort_of u = Z3.SBool /\ Clear (known ks skip) (prioritized ks) e0) \/
    (exists c s, EvaluateConstraintSymbolically env src e = Err c s /\ Unknown (key_scope ks) (known ks skip) (prioritized ks) e0 c s).
  Proof.
    intros Hl Hi Et. unfold EvaluateConstraintSymbolically. rewrite Et. cbn [is_bool_type negb].
    destruct (sym_first env src t (tk_by_name_unique _ _ HK) (known ks skip) (prioritized ks) known_found priority_found found_shaped found_prio e0 Hl) with (e' := e) as [(r & Hr & Hs & Hc)|(c & s & He & Hu)]; [|exact Hi| |].
    - intros n ty w Hn Hd Hw. apply (declared_in t ks HK) in Hd as (k & Hk & _ & <-). destruct (b_skip _ _ _ _ HB k Hk) as [[|] Hb]; [exact (Hskipped k w Hk Hb Hw)|].
      destruct (b_repr _ _ _ _ HB k Hk Hb) as (w' & Hw' & [E'|[E'|[E'|E']]]); rewrite E' in Hw; inversion Hw; subst; assumption.
    - left. rewrite Et in Hs. inversion Hs as [tm Htm| | | | | |]; subst. exists tm. rewrite Hr. auto.
    - right. exists c, s. rewrite He. split; [reflexivity|now apply scoped].
  Qed.
  Lemma not_both e c s : Unknown (key_scope ks) (known ks skip) (prioritized ks) e c s -> ~ Clear (known ks skip) (prioritized ks) e.
  Proof. intros H. apply scoped in H. exact (clear_unknown env t (known ks skip) (prioritized ks) known_found found_shaped e c s H). Qed.
  Lemma only_one e c s c' s' : Unknown (key_scope ks) (known ks skip) (prioritized ks) e c s -> Unknown (key_scope ks) (known ks skip) (prioritized ks) e c' s' -> c' = c /\ s' = s.
  Proof. intros H H'. apply scoped in H, H'. exact (unknown_fun env t (known ks skip) (prioritized ks) known_found found_shaped e c s H c' s' H'). Qed.
  End Built.
  (** Adding a checked tree. *)
  Lemma added check cs base e0 e src : built ks skip (cs_env cs) base -> literals e0 -> InferTable e0 t = Ok e ->
    (check (assertions (cs_stack cs)) = None -> AddConstraint check cs e src = (Err Internal contradictory, cs)) /\
    (check (assertions (cs_stack cs)) <> None -> e_type e <> TBool -> AddConstraint check cs e src = (Err InvalidArgument not_boolean, cs)) /\
    (check (assertions (cs_stack cs)) <> None -> e_type e = TBool -> forall c m, Unknown (key_scope ks) (known ks skip) (prioritized ks) e0 c m -> AddConstraint check cs e src = (Err c m, cs)) /\
    (check (assertions (cs_stack cs)) <> None -> e_type e = TBool -> Clear (known ks skip) (prioritized ks) e0 -> exists b, fst (AddConstraint check cs e src) = Ok b).
  Proof.
    intros HB Hl Hi. unfold AddConstraint, is_sat. destruct (check (assertions (cs_stack cs))) as [mo|]; cbn [negb]; [|repeat split; try reflexivity; intros H; now destruct H].
    split; [discriminate|]. split; [|split].
    - intros _ Ht. unfold EvaluateConstraintSymbolically. destruct (e_type e); try reflexivity. now destruct Ht.
    - intros _ Et c m Hu. destruct (encode_first _ _ HB e0 e src Hl Hi Et) as [(u & _ & _ & Hc)|(c' & s' & -> & Hu')]; [destruct (not_both _ _ HB _ _ _ Hu Hc)|]. destruct (only_one _ _ HB _ _ _ _ _ Hu Hu') as [-> ->]. reflexivity.
    - intros _ Et Hc. destruct (encode_first _ _ HB e0 e src Hl Hi Et) as [(u & -> & Hb & _)|(c' & s' & _ & Hu')]; [|destruct (not_both _ _ HB _ _ _ Hu' Hc)]. apply is_sbool_eq in Hb. rewrite Hb. cbn [negb].
      destruct (check _); cbn [negb fst]; eauto.
  Qed.
End Table.

(** * C112 *)
(** A constraint given as text: the solver's answer. *)
Theorem C112_text : forall check pton t ks skip cs l text e ty, pton_ok pton -> table_keys t ks -> (forall k w, In k ks -> skipped skip k -> width (k_type k) w -> (0 < w)%Z) ->
  History check pton t skip cs l -> reads_as pton kTableConstraint (text_source t text) e -> Typed (key_scope ks) e ty ->
  let r := AddConstraintString check pton cs text in
  let satisfied := check (assertions (cs_stack cs)) <> None in
  (~ satisfied -> r = (Err Internal contradictory, cs)) /\
  (satisfied -> ty <> TBool -> r = (Err InvalidArgument not_boolean, cs)) /\
  (satisfied -> ty = TBool -> forall c m, Unknown (key_scope ks) (known ks skip) (prioritized ks) e c m -> r = (Err c m, cs)) /\
  (satisfied -> ty = TBool -> Clear (known ks skip) (prioritized ks) e -> exists b, fst r = Ok b).
Proof.
  intros check pton t ks skip cs l text e0 ty Hp HK Hw HH Hra Hty. cbv zeta. pose proof (proj2 (text_iff pton Hp _ _ _) Hra) as Hpa. destruct (history_holds t ks HK skip check pton cs l HH) as (base & us & Hs). pose proof (h_table _ _ _ _ _ _ _ _ Hs) as Et.
  pose proof (table_in_scope t ks HK) as HG. pose proof (typed_ext _ _ _ _ (same_scope_sym _ _ (key_scope_same t ks HK)) Hty) as Hty'. destruct (infer_complete None (Some t) _ HG e0 ty Hty') as (e & Hi & Ht).
  assert (AddConstraintString check pton cs text = AddConstraint check cs e (text_source (cs_table cs) text)) as -> by (apply (add_text check pton cs text e0 e); rewrite Et; assumption).
  destruct (added t ks skip HK Hw check cs base e0 e (text_source (cs_table cs) text) (h_built _ _ _ _ _ _ _ _ Hs) (parse_literals _ _ _ _ Hp Hpa) Hi) as (H1 & H2 & H3 & H4). rewrite Ht in *.
  split; [intros Hn; apply H1; destruct (check (assertions (cs_stack cs))); [destruct Hn; discriminate|reflexivity]|auto].
Qed.
Print Assumptions C112_text.
(** Exactly one of the last two cases applies, to exactly one error. *)
Theorem C112_cases : forall check pton t ks skip cs l text e, pton_ok pton -> table_keys t ks -> (forall k w, In k ks -> skipped skip k -> width (k_type k) w -> (0 < w)%Z) ->
  History check pton t skip cs l -> reads_as pton kTableConstraint (text_source t text) e -> Typed (key_scope ks) e TBool ->
  (Clear (known ks skip) (prioritized ks) e /\ forall c m, ~ Unknown (key_scope ks) (known ks skip) (prioritized ks) e c m) \/
  (~ Clear (known ks skip) (prioritized ks) e /\ exists c m, Unknown (key_scope ks) (known ks skip) (prioritized ks) e c m /\ forall c' m', Unknown (key_scope ks) (known ks skip) (prioritized ks) e c' m' -> c' = c /\ m' = m).
Proof.
  intros check pton t ks skip cs l text e0 Hp HK Hw HH Hra Hty. pose proof (proj2 (text_iff pton Hp _ _ _) Hra) as Hpa. destruct (history_holds t ks HK skip check pton cs l HH) as (base & us & Hs). pose proof (h_built _ _ _ _ _ _ _ _ Hs) as HB.
  pose proof (table_in_scope t ks HK) as HG. pose proof (typed_ext _ _ _ _ (same_scope_sym _ _ (key_scope_same t ks HK)) Hty) as Hty'. destruct (infer_complete None (Some t) _ HG e0 _ Hty') as (e & Hi & Ht).
  destruct (encode_first t ks skip HK Hw _ _ HB e0 e (text_source t text) (parse_literals _ _ _ _ Hp Hpa) Hi Ht) as [(u & _ & _ & Hc)|(c & m & _ & Hu)].
  - left. split; [exact Hc|]. intros c m Hu. exact (not_both t ks skip HK _ _ HB _ _ _ Hu Hc).
  - right. split; [exact (not_both t ks skip HK _ _ HB _ _ _ Hu)|]. exists c, m. split; [exact Hu|]. intros c' m' Hu'. exact (only_one t ks skip HK _ _ HB _ _ _ _ _ Hu Hu').
Qed.
Print Assumptions C112_cases.

(** Asking for an entry. *)
Theorem C112_entry : forall check pton t ks skip cs l, table_keys t ks -> int32_widths ks -> sound_solver check -> History check pton t skip cs l ->
  (check (assertions (cs_stack cs)) = None /\ ConcretizeEntry check cs = Err Internal no_solution) \/
  (check (assertions (cs_stack cs)) <> None /\ exists entry, ConcretizeEntry check cs = Ok entry).
Proof.
  intros check pton t ks skip cs l HK Hw Hso HH. destruct (check (assertions (cs_stack cs))) as [mo|] eqn:E.
  - right. split; [discriminate|]. apply (C43_entry_exists check pton t ks skip cs l HK Hw Hso HH). rewrite E. discriminate.
  - left. split; [reflexivity|]. unfold ConcretizeEntry. rewrite E. reflexivity.
Qed.
Print Assumptions C112_entry.

(** Creating a solver. *)
Section Keys.
  Variables (ks : list key_info) (skip : string -> outcome bool).
  Hypothesis Hnonneg : forall k w, In k ks -> width (k_type k) w -> (0 <= w)%Z.
  Hypothesis Hbit : forall k w, In k ks -> k_type k <> TBit w.
  Hypothesis Hskip : forall k w, In k ks -> skip (k_name k) <> Crash w.
  Lemma key_cases k : In k ks -> live skip k -> (exists c m, Refused skip k c m /\ AddSymbolicKey k = Err c m) \/ ((forall c m, ~ Refused skip k c m) /\ exists r, AddSymbolicKey k = Ok r).
  Proof.
    intros Hk Hl. assert (forall c m, skip (k_name k) <> Err c m) as Hne by (intros c m E; unfold live in Hl; congruence).
    assert (representable k -> (forall c m, ~ Refused skip k c m) /\ exists r, AddSymbolicKey k = Ok r) as Hok.
    { intros Hr. split; [|now apply add_key_iff]. destruct Hr as (w & Hw & Et). intros c m [c' m' E|_ H|_ H|w' _ H _]; [exact (Hne _ _ E)| | |].
      - destruct Et as [Et|[Et|[Et|Et]]]; rewrite Et in H; apply (H w); constructor.
      - destruct Et as [Et|[Et|[Et|Et]]]; rewrite Et in H; inversion H; subst; now apply Z.lt_irrefl in Hw.
      - destruct Et as [Et|[Et|[Et|Et]]]; rewrite Et in H; discriminate H. }
    assert (forall w, width (k_type k) w -> w = 0%Z -> exists c m, Refused skip k c m /\ AddSymbolicKey k = Err c m) as Hz.
    { intros w Hw ->. do 2 eexists. split; [exact (rf_empty skip k Hl Hw)|]. unfold AddSymbolicKey, TypeBitwidthOrStatus. inversion Hw as [? E|? E|? E|? E|? E|? E]; subst; cbn [TypeBitwidth bind Z.eqb]; reflexivity. }
    assert ((forall w, ~ width (k_type k) w) -> TypeBitwidth (k_type k) = None -> exists c m, Refused skip k c m /\ AddSymbolicKey k = Err c m) as Hnw.
    { intros H E. do 2 eexists. split; [exact (rf_kind skip k Hl H)|]. unfold AddSymbolicKey, TypeBitwidthOrStatus. rewrite E. reflexivity. }
    destruct (k_type k) as [|n| | |w|w|w|w|w|w|] eqn:Et; try (left; apply Hnw; [intros x Hx; inversion Hx|reflexivity]); try (exfalso; exact (Hbit k w Hk Et)).
    all: destruct (Z.eq_dec w 0) as [Ez|Ez]; [left; apply (Hz w); [constructor|exact Ez]|].
    all: try (right; apply Hok; exists w; assert (0 <= w)%Z by (apply (Hnonneg k w Hk); rewrite Et; constructor); split; [clear - Ez H; lia|tauto]).
    left. do 2 eexists. split; [exact (rf_range skip k w Hl Et Ez)|]. unfold AddSymbolicKey, TypeBitwidthOrStatus. rewrite Et. cbn [TypeBitwidth bind]. destruct (Z.eqb_spec w 0); [contradiction|reflexivity].
  Qed.
  Lemma keys_cases l : (forall n k, In (n, k) l -> In k ks /\ k_name k = n) -> StronglySorted (@klt key_info) l ->
    (exists n k c m, In (n, k) l /\ Refused skip k c m /\ (forall n' k' c' m', In (n', k') l -> Refused skip k' c' m' -> k' = k \/ slt (k_name k) (k_name k')) /\ forall prio keys asserted, create_keys skip l prio keys asserted = Err c m) \/
    ((forall n k c m, In (n, k) l -> ~ Refused skip k c m) /\ forall prio keys asserted, exists r, create_keys skip l prio keys asserted = Ok r).
  Proof.
    induction l as [|[n k] l IH]; intros Hl Hs; [right; split; [intros ? ? ? ? []|intros; eexists; reflexivity]|]. inversion Hs as [|? ? Hs' Hf]; subst. destruct (Hl n k (or_introl eq_refl)) as [Hk <-]. rewrite Forall_forall in Hf.
    assert (forall n k, In (n, k) l -> In k ks /\ k_name k = n) as Hl' by (intros; apply Hl; now right). specialize (IH Hl' Hs').
    assert (forall n' k' c' m', In (n', k') ((k_name k, k) :: l) -> Refused skip k' c' m' -> k' = k \/ slt (k_name k) (k_name k')) as Hfirst.
    { intros n' k' c' m' [[= <- <-]|Hi] _; [now left|]. right. specialize (Hf _ Hi). unfold klt in Hf. cbn [fst] in Hf. now rewrite (proj2 (Hl' _ _ Hi)). }
    destruct (skip (k_name k)) as [[|]|c m|w] eqn:Es; [| | |destruct (Hskip k w Hk Es)].
    - assert (forall c m, ~ Refused skip k c m) as Hn by (intros c m [c' m' E|E _|E _|w E _ _]; unfold live in *; congruence).
      destruct IH as [(n' & k' & c & m & Hi & Hr & Hb & Hc)|[Hno Hc]].
      + left. exists n', k', c, m. split; [now right|]. split; [exact Hr|]. split; [|intros; cbn [create_keys]; rewrite Es; cbn [bind]; apply Hc]. intros n2 k2 c2 m2 [[= <- <-]|Hi2] H2; [destruct (Hn _ _ H2)|eauto].
      + right. split; [intros n2 k2 c2 m2 [[= <- <-]|Hi2]; [apply Hn|eauto]|]. intros. cbn [create_keys]. rewrite Es. cbn [bind]. apply Hc.
    - destruct (key_cases k Hk Es) as [(c & m & Hr & Ha)|(Hn & [sk a] & Ha)].
      + left. exists (k_name k), k, c, m. split; [now left|]. split; [exact Hr|]. split; [exact Hfirst|]. intros. cbn [create_keys]. rewrite Es. cbn [bind]. rewrite Ha. reflexivity.
      + destruct IH as [(n' & k' & c & m & Hi & Hr & Hb & Hc)|[Hno Hc]].
        * left. exists n', k', c, m. split; [now right|]. split; [exact Hr|]. split; [|intros; cbn [create_keys]; rewrite Es; cbn [bind]; rewrite Ha; cbn [bind]; apply Hc]. intros n2 k2 c2 m2 [[= <- <-]|Hi2] H2; [destruct (Hn _ _ H2)|eauto].
        * right. split; [intros n2 k2 c2 m2 [[= <- <-]|Hi2]; [apply Hn|eauto]|]. intros. cbn [create_keys]. rewrite Es. cbn [bind]. rewrite Ha. cbn [bind]. apply Hc.
    - left. exists (k_name k), k, c, m. split; [now left|]. split; [now apply rf_asked|]. split; [exact Hfirst|]. intros. cbn [create_keys]. rewrite Es. reflexivity.
  Qed.
  Lemma refused_fun k c m c' m' : Refused skip k c m -> Refused skip k c' m' -> c' = c /\ m' = m.
  Proof.
    intros [c1 m1 E|L E|L E|w L E N] [c2 m2 E'|L' E'|L' E'|w' L' E' N']; unfold live in *; try congruence; auto; try (split; congruence).
    all: exfalso; try (exact (E _ E')); try (exact (E' _ E)).
    all: try (rewrite E' in E; first [apply (E w'); constructor|inversion E; congruence]); try (rewrite E in E'; first [apply (E' w); constructor|inversion E'; congruence]).
  Qed.
End Keys.
Lemma first_fun ks skip k c m k' c' m' : first_refused ks skip k c m -> first_refused ks skip k' c' m' -> k' = k /\ c' = c /\ m' = m.
Proof.
  intros (Hk & Hr & Hb) (Hk' & Hr' & Hb'). assert (k' = k) as ->.
  { destruct (Hb _ _ _ Hk' Hr') as [E|E]; [exact E|]. destruct (Hb' _ _ _ Hk Hr) as [E'|E']; [auto|]. exfalso. pose proof (String.compare_antisym (k_name k) (k_name k')) as A. rewrite E, E' in A. discriminate A. }
  split; [reflexivity|]. exact (refused_fun skip k c m c' m' Hr Hr').
Qed.
Section Create.
  Variables (check : solver) (t : table_info) (ks : list key_info) (skip : string -> outcome bool).
  Hypothesis HK : table_keys t ks.
  Hypothesis Hnonneg : forall k w, In k ks -> width (k_type k) w -> (0 <= w)%Z.
  Hypothesis Hbit : forall k w, In k ks -> k_type k <> TBit w.
  Hypothesis Hskip : forall k w, In k ks -> skip (k_name k) <> Crash w.
  Lemma create_first : (exists k c m, first_refused ks skip k c m /\ Create check t skip = Err c m) \/
    ((forall k c m, In k ks -> ~ Refused skip k c m) /\ exists prio keys asserted, create_keys skip (Ordered (ti_keys_by_name t)) false [] [] = Ok (prio, keys, asserted)).
  Proof.
    destruct (keys_cases ks skip Hnonneg Hbit Hskip (Ordered (ti_keys_by_name t))) as [(n & k & c & m & Hi & Hr & Hb & Hc)|[Hn Hc]].
    - intros n k Hi. exact (proj1 (in_ordered t ks HK n k) Hi).
    - exact (ordered_strong _ (tk_by_name_unique _ _ HK)).
    - left. exists k, c, m. apply (in_ordered t ks HK) in Hi as [Hi _]. split.
      + split; [exact Hi|]. split; [exact Hr|]. intros k' c' m' Hk' Hr'. destruct (Hb (k_name k') k' c' m') as [H|H]; [now apply (in_ordered t ks HK)|exact Hr'|now left|right; now apply before_slt].
      + unfold Create. rewrite Hc. reflexivity.
    - right. split; [intros k c m Hk; apply (Hn (k_name k) k); now apply (in_ordered t ks HK)|]. destruct (Hc false [] []) as [[[prio keys] asserted] E]. eauto.
  Qed.
End Create.
Lemma decl_width d ks : Forall2 key_decl (pt_match_fields d) ks -> forall k w, In k ks -> k_type k <> TBit w.
Proof. induction 1 as [|f k fs ks (_ & _ & Ht) _ IH]; [intros k w []|]. intros k' w [<-|Hk] E; [rewrite E in Ht; inversion Ht|exact (IH k' w Hk E)]. Qed.

(** For a table of a P4Info: which key is complained about; and without a complaint, what becomes of its constraint. *)
Theorem C112_create : forall check pton p ci d ks t skip, pton_ok pton -> P4ToConstraintInfo pton p = Ok ci -> In d (p4_tables p) -> Forall2 key_decl (pt_match_fields d) ks ->
  GetTableInfoOrNull ci (pr_id (pt_preamble d)) = Some t -> int32_widths ks -> (forall k w, In k ks -> skip (k_name k) <> Crash w) -> (forall k w, In k ks -> skipped skip k -> width (k_type k) w -> (0 < w)%Z) ->
  (forall k c m, first_refused ks skip k c m -> Create check t skip = Err c m) /\
  ((forall k c m, In k ks -> ~ Refused skip k c m) ->
   exists cs, Create check (bare t) skip = Ok cs /\
   (unrestricted kTableConstraint (pt_preamble d) -> Create check t skip = Ok cs) /\
   forall src e ty, restricted kTableConstraint (pt_preamble d) src -> reads_as pton kTableConstraint src e -> Typed (key_scope ks) e ty ->
     let satisfied := check (assertions (cs_stack cs)) <> None in
     (~ satisfied -> Create check t skip = Err Internal contradictory) /\
     (satisfied -> ty <> TBool -> Create check t skip = Err InvalidArgument not_boolean) /\
     (satisfied -> ty = TBool -> forall c m, Unknown (key_scope ks) (known ks skip) (prioritized ks) e c m -> Create check t skip = Err c m) /\
     (satisfied -> ty = TBool -> Clear (known ks skip) (prioritized ks) e ->
        (exists cs', Create check t skip = Ok cs') \/ Create check t skip = Err InvalidArgument (unsatisfiable (cs_string src)))).
Proof.
  intros check pton p ci d ks t skip Hp Hci Hd Hf Hg Hw Hs Hsk. destruct (loaded_table _ _ _ _ _ _ Hp Hci Hd Hf Hg) as [_ [_ _ _ HK Hco]].
  destruct (create_first check t ks skip HK (fun k w Hk Hkw => proj1 (Hw k w Hk Hkw)) (decl_width d ks Hf) Hs) as [(k & c & m & Hfr & E)|[Hn (prio & keys & asserted & E)]].
  - split; [|intros Hn; destruct Hfr as (Hk & Hr & _); destruct (Hn _ _ _ Hk Hr)]. intros k' c' m' Hfr'. destruct (first_fun _ _ _ _ _ _ _ _ Hfr Hfr') as (-> & -> & ->). exact E.
  - split; [intros k c m (Hk & Hr & _); destruct (Hn _ _ _ Hk Hr)|]. intros _. pose proof (built_env t ks HK skip prio keys asserted E) as HB.
    set (env := mkEnv keys (if prio then [(kSymbolicPriorityAttributeName, fst AddSymbolicPriority)] else [])) in *. set (base := (if prio then asserted ++ snd AddSymbolicPriority else asserted)%list) in *.
    assert (forall u, ti_keys_by_name u = ti_keys_by_name t -> Create check u skip = match ti_constraint u with None => Ok (mkCS u env skip [base]) | Some e =>
      match AddConstraint check (mkCS u env skip [base]) e (ti_source u) with (Ok true, cs') => Ok cs' | (Ok false, _) => Err InvalidArgument (unsatisfiable (cs_string (ti_source u))) | (Err c m, _) => Err c m | (Crash w, _) => Crash w end end) as HC.
    { intros u Eu. unfold Create. rewrite Eu, E. cbn [bind]. subst env base. destruct prio; reflexivity. }
    pose proof (HC (bare t) eq_refl) as Hbare. specialize (HC t eq_refl). cbn [bare ti_constraint] in Hbare. exists (mkCS (bare t) env skip [base]). split; [exact Hbare|].
    assert (forall c, assertions (cs_stack (mkCS c env skip [base])) = assertions [base]) as Ea by reflexivity. split.
    + intros Hu. destruct Hco as [(_ & Et)|(e0 & e & Hr & _)]; [|exfalso; exact (restricted_not _ _ _ Hu Hr)]. rewrite Et in HC. rewrite HC. f_equal. f_equal. destruct t; cbn in *; subst; reflexivity.
    + intros src e0 ty Hr Hra Hty. cbv zeta. destruct Hco as [(Hu & _)|(e1 & e & Hr' & Hpa & Hi & Et)]; [exfalso; exact (restricted_not _ _ _ Hu Hr)|]. pose proof (restricted_fun _ _ _ _ Hr' Hr) as Es.
      assert (e1 = e0) as ->. { rewrite Es in Hpa. pose proof (proj2 (text_iff pton Hp _ _ _) Hra) as Hpa'. rewrite Hpa in Hpa'. now apply Ok_inj in Hpa'. }
      rewrite Et in HC. pose proof (table_in_scope t ks HK) as HG. pose proof (typed_ext _ _ _ _ (same_scope_sym _ _ (key_scope_same t ks HK)) Hty) as Hty'.
      assert (e_type e = ty) as Ety by (destruct (infer_complete None (Some t) _ HG e0 ty Hty') as (e' & Hi' & Ht'); unfold InferTable in Hi; rewrite Hi in Hi'; apply Ok_inj in Hi'; congruence).
      destruct (added t ks skip HK Hsk check (mkCS t env skip [base]) base e0 e (ti_source t) HB (parse_literals _ _ _ _ Hp Hpa) Hi) as (H1 & H2 & H3 & H4). rewrite Ety in *. rewrite !Ea in *. rewrite <- Es, HC.
      split; [|split; [|split]].
      * intros Hns. rewrite H1; [reflexivity|]. destruct (check (assertions [base])); [destruct Hns; discriminate|reflexivity].
      * intros Hsat Hb. now rewrite H2.
      * intros Hsat Hb c m Hu. now rewrite (H3 Hsat Hb c m Hu).
      * intros Hsat Hb Hc. destruct (H4 Hsat Hb Hc) as [b Eb]. destruct (AddConstraint check (mkCS t env skip [base]) e (ti_source t)) as [o cs'] eqn:EA. cbn [fst] in Eb. rewrite Eb. destruct b; eauto.
Qed.
Print Assumptions C112_create.
(** Either no key is complained about, or one is, in one way. *)
Theorem C112_key : forall d ks skip, Forall2 key_decl (pt_match_fields d) ks -> NoDup (map k_name ks) -> int32_widths ks -> (forall k w, In k ks -> skip (k_name k) <> Crash w) ->
  (forall k c m, In k ks -> ~ Refused skip k c m) \/
  (exists k c m, first_refused ks skip k c m /\ forall k' c' m', first_refused ks skip k' c' m' -> k' = k /\ c' = c /\ m' = m).
Proof.
  intros d ks skip Hf Hnd Hw Hs. set (by_n := map (fun k => (k_name k, k)) ks).
  assert (NoDup (map fst by_n)) as Hn by (unfold by_n; rewrite map_map; exact Hnd).
  assert (forall n k, In (n, k) (Ordered by_n) <-> In k ks /\ k_name k = n) as Ho.
  { intros n k. rewrite ordered_in. unfold by_n. rewrite in_map_iff. split; [intros (k' & [= <- <-] & H); auto|intros [H <-]; eauto]. }
  destruct (keys_cases ks skip (fun k w Hk Hkw => proj1 (Hw k w Hk Hkw)) (decl_width d ks Hf) Hs (Ordered by_n)) as [(n & k & c & m & Hi & Hr & Hb & _)|[H _]].
  - intros n k Hi. now apply Ho.
  - now apply ordered_strong.
  - right. exists k, c, m. assert (first_refused ks skip k c m) as Hfr.
    { apply Ho in Hi as [Hi _]. split; [exact Hi|]. split; [exact Hr|]. intros k' c' m' Hk' Hr'. destruct (Hb (k_name k') k' c' m') as [H|H]; [now apply Ho|exact Hr'|now left|right; now apply before_slt]. }
    split; [exact Hfr|]. intros k' c' m' Hfr'. exact (first_fun _ _ _ _ _ _ _ _ Hfr Hfr').
  - left. intros k c m Hk. apply (H (k_name k)). now apply Ho.
Qed.
Print Assumptions C112_key.
(** A skipped range key, mentioned on either side of a comparison, and not skipped; and a constraint that is no condition. *)
Definition rg_text : string := "e == 7 && 5 == r".
Definition rg_tree : expr := Eval vm_compute in the no_expr (ParseConstraint pton1 kTableConstraint (text_source sy_table rg_text)).
Lemma rg_parsed : ParseConstraint pton1 kTableConstraint (text_source sy_table rg_text) = Ok rg_tree.
Proof. vm_compute. reflexivity. Qed.
Definition rg_checked : expr := Eval vm_compute in the no_expr (InferTable rg_tree sy_table).
Lemma rg_inferred : InferTable rg_tree sy_table = Ok rg_checked.
Proof. vm_compute. reflexivity. Qed.
Definition nb_text : string := "5".
Definition nb_tree : expr := Eval vm_compute in the no_expr (ParseConstraint pton1 kTableConstraint (text_source sy_table nb_text)).
Lemma nb_parsed : ParseConstraint pton1 kTableConstraint (text_source sy_table nb_text) = Ok nb_tree.
Proof. vm_compute. reflexivity. Qed.
Lemma rf_typed e0 e : InferTable e0 sy_table = Ok e -> Typed (key_scope sy_keys) e0 (e_type e).
Proof. intros H. apply (typed_ext (scope_of sy_table)); [exact (key_scope_same _ _ sy_table_keys)|]. exact (proj1 (infer_ok None (Some sy_table) _ (table_in_scope _ _ sy_table_keys) _ _ H)). Qed.
Lemma rf_live : known sy_keys sy_skip "e" /\ ~ known sy_keys sy_skip "r".
Proof.
  split; [exists (mkKey 1 "e" (TExact 8)); split; [now left|split; reflexivity]|]. intros (k & Hk & En & Hl). unfold live, sy_skip in Hl. rewrite En in Hl. discriminate Hl.
Qed.
Lemma bool_alone t : ~ below TBool t.
Proof. intros H. remember TBool as b eqn:E. induction H as [a b0 H|a b0 c H1 IH1 H2 IH2]; [subst; inversion H|auto]. Qed.
Lemma rg_create : Create sy_check sy_table never_skip = Err Unimplemented no_ranges.
Proof. vm_compute. reflexivity. Qed.
Lemma rg_first : first_refused sy_keys never_skip (mkKey 3 "r" (TRange 4)) Unimplemented no_ranges.
Proof.
  split; [cbn; tauto|]. split; [apply (rf_range never_skip (mkKey 3 "r" (TRange 4)) 4); [reflexivity|reflexivity|discriminate]|].
  assert (forall k c m w, Refused never_skip k c m -> (0 < w)%Z -> k_type k = TExact w \/ k_type k = TTernary w \/ k_type k = TLpm w \/ k_type k = TOptional w -> False) as Hno.
  { intros k c m w [c' m' E|L E|L E|w' L E N] Hw H; [discriminate E| | |]; destruct H as [H|[H|[H|H]]]; rewrite H in E; try discriminate E; try (apply (E w); constructor); inversion E; subst; now apply Z.lt_irrefl in Hw. }
  intros k' c' m' Hk' Hr'. cbn in Hk'. destruct Hk' as [<-|[<-|[<-|[<-|[<-|[]]]]]].
  - destruct (Hno _ _ _ 8%Z Hr'); cbn; auto; reflexivity.
  - destruct (Hno _ _ _ 16%Z Hr'); cbn; auto; reflexivity.
  - now left.
  - destruct (Hno _ _ _ 32%Z Hr'); cbn; auto; reflexivity.
  - destruct (Hno _ _ _ 9%Z Hr'); cbn; auto 6; reflexivity.
Qed.
Example C112_case :
  (forall k w, In k sy_keys -> skipped sy_skip k -> width (k_type k) w -> (0 < w)%Z) /\
  reads_as pton1 kTableConstraint (text_source sy_table sk_text) sk_tree /\ Typed (key_scope sy_keys) sk_tree TBool /\ Unknown (key_scope sy_keys) (known sy_keys sy_skip) (prioritized sy_keys) sk_tree NotFound (absent "r") /\
  AddConstraintString sy_check pton1 sy_cs2 sk_text = (Err NotFound "Key not found: 'r'", sy_cs2) /\
  reads_as pton1 kTableConstraint (text_source sy_table rg_text) rg_tree /\ Typed (key_scope sy_keys) rg_tree TBool /\ Unknown (key_scope sy_keys) (known sy_keys sy_skip) (prioritized sy_keys) rg_tree Unimplemented no_ranges /\
  AddConstraintString sy_check pton1 sy_cs2 rg_text = (Err Unimplemented no_ranges, sy_cs2) /\
  reads_as pton1 kTableConstraint (text_source sy_table nb_text) nb_tree /\ Typed (key_scope sy_keys) nb_tree TInt /\
  AddConstraintString sy_check pton1 sy_cs2 nb_text = (Err InvalidArgument not_boolean, sy_cs2) /\
  first_refused sy_keys never_skip (mkKey 3 "r" (TRange 4)) Unimplemented no_ranges /\ Create sy_check sy_table never_skip = Err Unimplemented no_ranges.
Proof.
  destruct rf_live as [He Hr]. assert (check_some : sy_check (assertions (cs_stack sy_cs2)) <> None) by (vm_compute; discriminate).
  assert (Hpos : forall k w, In k sy_keys -> skipped sy_skip k -> width (k_type k) w -> (0 < w)%Z) by (intros k w Hk _ Hw; cbn in Hk; repeat (destruct Hk as [<-|Hk]; [cbn in Hw; inversion Hw; subst; lia|]); contradiction).
  assert (Hrs : reads_as pton1 kTableConstraint (text_source sy_table sk_text) sk_tree) by exact (proj1 (text_iff pton1 pton1_ok _ _ _) sk_parsed).
  assert (Hrr : reads_as pton1 kTableConstraint (text_source sy_table rg_text) rg_tree) by exact (proj1 (text_iff pton1 pton1_ok _ _ _) rg_parsed).
  assert (Hrn : reads_as pton1 kTableConstraint (text_source sy_table nb_text) nb_tree) by exact (proj1 (text_iff pton1 pton1_ok _ _ _) nb_parsed).
  pose proof (rf_typed _ _ sk_inferred) as Hts. pose proof (rf_typed _ _ rg_inferred) as Htr.
  assert (Htn : Typed (key_scope sy_keys) nb_tree TInt) by constructor.
  assert (Hnr : forall a b, Typed (key_scope sy_keys) a TBool -> ~ with_range (key_scope sy_keys) a b).
  { intros a b H (ta & tb & w & Ha & _ & Hc). assert (ta = TBool) as -> by (apply (typed_ext _ _ _ _ (same_scope_sym _ _ (key_scope_same _ _ sy_table_keys))) in Ha, H; exact (typed_fun None (Some sy_table) _ (table_in_scope _ _ sy_table_keys) _ _ _ Ha H)). destruct Hc as ([E|H1] & _); [discriminate E|]. exact (bool_alone _ H1). }
  assert (Hus : Unknown (key_scope sy_keys) (known sy_keys sy_skip) (prioritized sy_keys) sk_tree NotFound (absent "r")).
  { apply un_right.
    - split; [intros n H|intros H]; repeat match goal with H : mentions _ _ |- _ => inversion H; clear H; subst | H : has_attribute _ |- _ => inversion H; clear H; subst end. exact He.
    - apply Hnr. unfold sk_tree in Hts. inversion Hts; subst; try assumption; match goal with H : equality OOR |- _ => inversion H | H : ordering OOR |- _ => inversion H end.
    - apply un_left, un_field, un_key. exact Hr. }
  assert (Hur : Unknown (key_scope sy_keys) (known sy_keys sy_skip) (prioritized sy_keys) rg_tree Unimplemented no_ranges).
  { apply un_right.
    - split; [intros n H|intros H]; repeat match goal with H : mentions _ _ |- _ => inversion H; clear H; subst | H : has_attribute _ |- _ => inversion H; clear H; subst end. exact He.
    - apply Hnr. unfold rg_tree in Htr. inversion Htr; subst; try assumption; match goal with H : equality OAND |- _ => inversion H | H : ordering OAND |- _ => inversion H end.
    - apply un_range; [split; [intros n H|intros H]; inversion H|]. exists TInt, (TRange 4), 4%Z. split; [constructor|]. split.
      + apply (T_key _ (map (fun k => (k_name k, k)) sy_keys) _ "r"); [reflexivity| |split; discriminate]. exists (mkKey 3 "r" (TRange 4)). cbn. tauto.
      + apply InterpFacts.common_sym, (IdiomFacts.common_int 4). constructor. }
  destruct (C112_text sy_check pton1 sy_table sy_keys sy_skip sy_cs2 _ sk_text sk_tree _ pton1_ok sy_table_keys Hpos sy_history Hrs Hts) as (_ & _ & A1 & _).
  destruct (C112_text sy_check pton1 sy_table sy_keys sy_skip sy_cs2 _ rg_text rg_tree _ pton1_ok sy_table_keys Hpos sy_history Hrr Htr) as (_ & _ & A2 & _).
  destruct (C112_text sy_check pton1 sy_table sy_keys sy_skip sy_cs2 _ nb_text nb_tree _ pton1_ok sy_table_keys Hpos sy_history Hrn Htn) as (_ & A3 & _).
  split; [exact Hpos|]. split; [exact Hrs|]. split; [exact Hts|]. split; [exact Hus|]. split; [exact (A1 check_some eq_refl _ _ Hus)|].
  split; [exact Hrr|]. split; [exact Htr|]. split; [exact Hur|]. split; [exact (A2 check_some eq_refl _ _ Hur)|].
  split; [exact Hrn|]. split; [exact Htn|]. split; [exact (A3 check_some (fun E => eq_ind TInt (fun x => match x with TInt => True | _ => False end) I TBool E))|]. split; [exact rg_first|exact rg_create].
Qed.
