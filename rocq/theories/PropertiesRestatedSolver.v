(** C63, continued: the solver depends on the trees of constraints only. *)
From Coq Require Import String Ascii List ZArith NArith Bool Lia.
From Verif Require Import Base Num Token Ast Lexer AstConstructors Parser Quote Info TypeChecker ConstraintInfo Interpreter Z3 Symbolic SpecLexer SpecGrammar SpecInfo SpecRobust SpecLaws SpecSolver SpecRestatedSolver SpecQueries
  InfoFacts2 SymFacts SymDemo PropertiesParser PropertiesVerdict PropertiesInfo PropertiesRenumber PropertiesLexer PropertiesLaws PropertiesRobust PropertiesRenamedSolver.
Import ListNotations.
Open Scope string_scope.

(** * Expressions that differ in source positions only *)
Definition bare_meta (m : meta) : meta := mkMeta default_loc default_loc (m_type m).
Fixpoint bare (e : expr) : expr :=
  match e with
  | EBool m b => EBool (bare_meta m) b
  | EInt m s => EInt (bare_meta m) s
  | EKey m n => EKey (bare_meta m) n
  | EParam m n => EParam (bare_meta m) n
  | ENot m a => ENot (bare_meta m) (bare a)
  | ENeg m a => ENeg (bare_meta m) (bare a)
  | ECast m a => ECast (bare_meta m) (bare a)
  | EBin m o l r => EBin (bare_meta m) o (bare l) (bare r)
  | EField m f a => EField (bare_meta m) f (bare a)
  | EAttr m n => EAttr (bare_meta m) n
  | ENotSet m => ENotSet (bare_meta m)
  end.
Lemma bare_type e : e_type (bare e) = e_type e.
Proof. destruct e; reflexivity. Qed.
Lemma bare_types e e' : bare e = bare e' -> e_type e = e_type e'.
Proof. intros H. rewrite <- (bare_type e), <- (bare_type e'). now rewrite H. Qed.
Lemma bare_key e : e_key (bare e) = e_key e.
Proof. destruct e; reflexivity. Qed.
Lemma bare_cast e e' t : bare e = bare e' -> bare (CastTransitivelyTo e t) = bare (CastTransitivelyTo e' t).
Proof.
  intros H. unfold CastTransitivelyTo. rewrite <- (bare_types _ _ H).
  set (x := if StrictlyAbove t (e_type e) && _ then WrapWithCast e _ else e). set (x' := if StrictlyAbove t (e_type e) && _ then WrapWithCast e' _ else e').
  assert (bare x = bare x') as E by (unfold x, x'; destruct (StrictlyAbove t (e_type e) && _); [unfold WrapWithCast; cbn [bare]; now rewrite H|exact H]).
  cbv zeta. fold x x'. rewrite <- (bare_types _ _ E). destruct (StrictlyAbove t (e_type x) && _); [unfold WrapWithCast; cbn [bare]; now rewrite E|exact E].
Qed.
Lemma infer_bare t t' e e' : ti_keys_by_name t = ti_keys_by_name t' -> Renamed eq e e' -> forall f, InferTable e t = Ok f -> exists f', InferTable e' t' = Ok f' /\ bare f = bare f'.
Proof.
  intros HK. unfold InferTable. induction 1 as [m m' b|m m' s|m m' n n' E|m m' n n' E|m m' n|m m' a a' Ha IH|m m' a a' Ha IH|m m' o a b a' b' Ha IHa Hb IHb|m m' g a a' Ha IH]; intros f H; cbn [Infer GetConstraintSource bind] in *.
  - injection H as <-. eexists. split; reflexivity.
  - injection H as <-. eexists. split; reflexivity.
  - subst n'. rewrite <- HK. destruct (assoc_find String.eqb n (ti_keys_by_name t)) as [k|]; [|exfalso; revert H; unfold StaticTypeError, QuotedError; destruct (QuoteSubConstraint _ _ _); discriminate].
    destruct (illegal_type (k_type k)); [exfalso; revert H; unfold StaticTypeError, QuotedError; destruct (QuoteSubConstraint _ _ _); discriminate|]. injection H as <-. eexists. split; reflexivity.
  - exfalso. revert H. unfold StaticTypeError, QuotedError. destruct (QuoteSubConstraint _ _ _); discriminate.
  - destruct (GetAttributeInfo n) as [ty|]; [|exfalso; revert H; unfold StaticTypeError, QuotedError; destruct (QuoteSubConstraint _ _ _); discriminate].
    destruct (illegal_type ty); [exfalso; revert H; unfold QuotedError; destruct (QuoteSubConstraint _ _ _); discriminate|]. injection H as <-. eexists. split; reflexivity.
  - apply SemFacts.bind_ok in H as (x & Hx & H). destruct (IH x Hx) as (x' & -> & E). cbn [bind]. rewrite <- (bare_types _ _ E). destruct (is_bool_type (e_type x)); [|exfalso; revert H; unfold StaticTypeError, QuotedError; destruct (QuoteSubConstraint _ _ _); discriminate].
    injection H as <-. eexists. split; [reflexivity|]. cbn [set_type bare]. now rewrite E.
  - apply SemFacts.bind_ok in H as (x & Hx & H). destruct (IH x Hx) as (x' & -> & E). cbn [bind]. rewrite <- (bare_types _ _ E). destruct (is_int_type (e_type x)); [|exfalso; revert H; unfold StaticTypeError, QuotedError; destruct (QuoteSubConstraint _ _ _); discriminate].
    injection H as <-. eexists. split; [reflexivity|]. cbn [set_type bare]. now rewrite E.
  - apply SemFacts.bind_ok in H as (x & Hx & H). apply SemFacts.bind_ok in H as (y & Hy & H). destruct (IHa x Hx) as (x' & -> & Ex). destruct (IHb y Hy) as (y' & -> & Ey). cbn [bind]. unfold Unify in *. rewrite <- (bare_types _ _ Ex), <- (bare_types _ _ Ey).
    assert (forall {A} s u v w (z : A), StaticTypeError s u v w <> Ok z) as HE by (intros A s u v w z; unfold StaticTypeError, QuotedError; destruct (QuoteSubConstraint _ _ _); discriminate).
    destruct o; try discriminate H;
      try (destruct (negb (is_bool_type (e_type x))); [now apply HE in H|]; destruct (negb (is_bool_type (e_type y))); [now apply HE in H|]; injection H as <-; eexists; split; [reflexivity|]; cbn [set_type bare]; now rewrite Ex, Ey);
      (destruct (LeastUpperBound (e_type x) (e_type y)) as [ty|]; [|apply SemFacts.bind_ok in H as (? & H & _); now apply HE in H]); cbn [bind] in *;
      try (destruct (negb (TypeHasOrdering ty)); [now apply HE in H|]); injection H as <-; (eexists; split; [reflexivity|]; cbn [set_type bare]; now rewrite (bare_cast _ _ ty Ex), (bare_cast _ _ ty Ey)).
  - apply SemFacts.bind_ok in H as (x & Hx & H). destruct (IH x Hx) as (x' & -> & E). cbn [bind]. rewrite <- (bare_types _ _ E). destruct (FieldTypeOfCompositeType (e_type x) g) as [ty|]; [|exfalso; revert H; unfold StaticTypeError, QuotedError; destruct (QuoteSubConstraint _ _ _); discriminate].
    injection H as <-. eexists. split; [reflexivity|]. cbn [set_type bare]. now rewrite E.
Qed.
Lemma eval_bare env src src' e : forall r, EvalSymbolically env src e = Ok r -> EvalSymbolically env src' (bare e) = Ok r.
Proof.
  assert (forall a b r t, to_term src a r = Ok t -> to_term src' b r = Ok t) as HT by (intros a b r t H; apply to_term_ok in H as ->; reflexivity).
  induction e; cbn [EvalSymbolically bare]; intros r0 H; try exact H; try (rewrite bare_key; exact H);
    repeat match goal with H : bind _ _ = Ok _ |- _ => apply SemFacts.bind_ok in H as (? & ? & ?) end;
    repeat match goal with IH : forall r, EvalSymbolically _ src ?a = Ok r -> _, H : EvalSymbolically _ src ?a = Ok _ |- _ => rewrite (IH _ H); clear H end; cbn [bind];
    repeat match goal with H : to_term src _ _ = Ok _ |- context [to_term src' ?b _] => rewrite (HT _ b _ _ H); clear H end; cbn [bind];
    repeat match goal with H : ?x = Ok _ |- bind ?x _ = _ => rewrite H; cbn [bind] end; auto.
Qed.
Lemma eval_clad env src src' e : forall r, EvalSymbolically env src (bare e) = Ok r -> EvalSymbolically env src' e = Ok r.
Proof.
  assert (forall a b r t, to_term src a r = Ok t -> to_term src' b r = Ok t) as HT by (intros a b r t H; apply to_term_ok in H as ->; reflexivity).
  induction e; cbn [EvalSymbolically bare]; intros r0 H; try exact H; try (rewrite bare_key in H; exact H);
    repeat match goal with H : bind _ _ = Ok _ |- _ => apply SemFacts.bind_ok in H as (? & ? & ?) end;
    repeat match goal with IH : forall r, EvalSymbolically _ src (bare ?a) = Ok r -> _, H : EvalSymbolically _ src (bare ?a) = Ok _ |- _ => rewrite (IH _ H); clear H end; cbn [bind];
    repeat match goal with H : to_term src _ _ = Ok _ |- context [to_term src' ?b _] => rewrite (HT _ b _ _ H); clear H end; cbn [bind];
    repeat match goal with H : ?x = Ok _ |- bind ?x _ = _ => rewrite H; cbn [bind] end; auto.
Qed.
Lemma evaluate_bare env src src' e e' r : bare e = bare e' -> EvaluateConstraintSymbolically env src e = Ok r -> EvaluateConstraintSymbolically env src' e' = Ok r.
Proof.
  intros E. unfold EvaluateConstraintSymbolically. rewrite <- (bare_types _ _ E). destruct (negb _); [discriminate|]. intros H. apply SemFacts.bind_ok in H as (x & H1 & H2). apply (eval_bare env src src) in H1. rewrite E in H1. apply (eval_clad env src src') in H1. rewrite H1. cbn [bind]. apply to_term_ok in H2 as ->. reflexivity.
Qed.

(** * Solvers *)
Record akin (t t' : table_info) : Prop := mkAkin { ak_id : ti_id t = ti_id t'; ak_keys : ti_keys_by_name t = ti_keys_by_name t'; ak_constraint : option_map bare (ti_constraint t) = option_map bare (ti_constraint t') }.
Record kin (t t' : table_info) (cs cs' : constraint_solver) : Prop := mkKin {
  kin_left : cs_table cs = t; kin_right : cs_table cs' = t'; kin_env : cs_env cs = cs_env cs'; kin_skip : cs_skip cs = cs_skip cs'; kin_stack : cs_stack cs = cs_stack cs' }.
Lemma decision_refl o : same_decision o o.
Proof. intros b. tauto. Qed.
Lemma decision_fail o o' : (forall b, o <> Ok b) -> (forall b, o' <> Ok b) -> same_decision o o'.
Proof. intros H H' b. split; intros E; exfalso; [exact (H b E)|exact (H' b E)]. Qed.
Section Solver.
  Variable check : solver.
  Variable pton : inet_pton6.
  Hypothesis Hp : pton_ok pton.
  Variables t t' : table_info.
  Hypothesis HA : akin t t'.
  Lemma add_bare cs cs' e e' src src' : kin t t' cs cs' -> bare e = bare e' ->
    same_decision (fst (AddConstraint check cs e src)) (fst (AddConstraint check cs' e' src')) /\ kin t t' (snd (AddConstraint check cs e src)) (snd (AddConstraint check cs' e' src')).
  Proof.
    intros K E. pose proof K as [K1 K2 K3 K4 K5]. unfold AddConstraint. rewrite <- K5, <- K3. destruct (negb _); [split; [apply decision_refl|exact K]|].
    destruct (EvaluateConstraintSymbolically (cs_env cs) src e) as [u| |] eqn:F.
    - rewrite (evaluate_bare _ _ src' _ _ _ E F). destruct (negb _); [split; [apply decision_refl|exact K]|]. cbv zeta. destruct (negb _); (split; [apply decision_refl|]); constructor; cbn [snd set_stack cs_table cs_env cs_skip cs_stack]; auto; congruence.
    - destruct (EvaluateConstraintSymbolically (cs_env cs) src' e') as [u| |] eqn:F'; [apply (evaluate_bare _ _ src _ _ _ (eq_sym E)) in F'; congruence|..]; (split; [apply decision_fail; cbn; discriminate|exact K]).
    - destruct (EvaluateConstraintSymbolically (cs_env cs) src' e') as [u| |] eqn:F'; [apply (evaluate_bare _ _ src _ _ _ (eq_sym E)) in F'; congruence|..]; (split; [apply decision_fail; cbn; discriminate|exact K]).
  Qed.
  Lemma text_bare cs cs' text text' : kin t t' cs cs' -> same_reading pton t t' text text' ->
    same_decision (fst (AddConstraintString check pton cs text)) (fst (AddConstraintString check pton cs' text')) /\ kin t t' (snd (AddConstraintString check pton cs text)) (snd (AddConstraintString check pton cs' text')).
  Proof.
    intros K HR. pose proof K as [K1 K2 K3 K4 K5]. unfold AddConstraintString. rewrite K1, K2. fold (text_source t text) (text_source t' text'). cbv zeta.
    set (o := bind (ParseConstraint pton kTableConstraint (text_source t text)) _). set (o' := bind (ParseConstraint pton kTableConstraint (text_source t' text')) _).
    assert ((exists f f', o = Ok f /\ o' = Ok f' /\ bare f = bare f') \/ (forall f, o <> Ok f) /\ (forall f, o' <> Ok f)) as [(f & f' & -> & -> & E)|[N N']].
    { destruct HR as [(e & e' & R & R' & HR)|[N N']].
      - apply (C08_parser_iff_grammar pton _ _ _ Hp) in R. apply (C08_parser_iff_grammar pton _ _ _ Hp) in R'. subst o o'. rewrite R, R'. cbn [bind]. destruct (InferTable e t) as [f| |] eqn:F.
        + destruct (infer_bare t t' e e' (ak_keys _ _ HA) HR f F) as (f' & F' & E). left. exists f, f'. auto.
        + right. split; [discriminate|]. intros f' F'. destruct (infer_bare t' t e' e (eq_sym (ak_keys _ _ HA))  (RenameFacts.renamed_mono _ _ _ _ (fun a b H => eq_sym H) (RenameFacts.renamed_flip _ _ _ HR)) f' F') as (f2 & F2 & _). congruence.
        + right. split; [discriminate|]. intros f' F'. destruct (infer_bare t' t e' e (eq_sym (ak_keys _ _ HA))  (RenameFacts.renamed_mono _ _ _ _ (fun a b H => eq_sym H) (RenameFacts.renamed_flip _ _ _ HR)) f' F') as (f2 & F2 & _). congruence.
      - right. split; intros f H; apply SemFacts.bind_ok in H as (e & H & _); apply (C08_parser_iff_grammar pton _ _ _ Hp) in H; [exact (N e H)|exact (N' e H)]. }
    - exact (add_bare cs cs' f f' _ _ K E).
    - destruct o as [f| |], o' as [f'| |]; try (now elim (N f)); try (now elim (N' f')); (split; [apply decision_fail; cbn; discriminate|exact K]).
  Qed.
  Lemma texts_bare texts texts' : Forall2 (same_reading pton t t') texts texts' -> forall cs cs', kin t t' cs cs' ->
    Forall2 same_decision (fst (replies check pton cs (map AddText texts))) (fst (replies check pton cs' (map AddText texts'))) /\ kin t t' (snd (replies check pton cs (map AddText texts))) (snd (replies check pton cs' (map AddText texts'))).
  Proof.
    induction 1 as [|x x' l l' Hx H IH]; intros cs cs' K; cbn [map replies]; [split; [constructor|exact K]|]. cbn [perform]. destruct (text_bare cs cs' x x' K Hx) as (D & K1).
    destruct (AddConstraintString check pton cs x) as [b c]. destruct (AddConstraintString check pton cs' x') as [b' c']. cbn [fst snd] in *. destruct (IH c c' K1) as (D2 & K2).
    destruct (replies check pton c _) as [bs d]. destruct (replies check pton c' _) as [bs' d']. cbn [fst snd] in *. split; [constructor; auto|exact K2].
  Qed.
  Lemma create_bare skip : (forall cs, Create check t skip = Ok cs -> exists cs', Create check t' skip = Ok cs' /\ kin t t' cs cs').
  Proof.
    intros cs. unfold Create. rewrite <- (ak_keys _ _ HA). destruct (create_keys _ _ _ _ _) as [[[prio keys] asserted]| |]; cbn [bind]; try discriminate.
    destruct (if prio then _ else _) as [attrs asserted']. assert (kin t t' (mkCS t (mkEnv keys attrs) skip [asserted']) (mkCS t' (mkEnv keys attrs) skip [asserted'])) as K by (constructor; reflexivity).
    pose proof (ak_constraint _ _ HA) as HC. destruct (ti_constraint t) as [e|], (ti_constraint t') as [e'|]; try discriminate HC; [|intros [= <-]; eauto].
    assert (bare e = bare e') as E by (cbn in HC; congruence). destruct (add_bare _ _ e e' (ti_source t) (ti_source t') K E) as (D & K1).
    destruct (AddConstraint check (mkCS t _ _ _) e (ti_source t)) as [b c]. destruct (AddConstraint check (mkCS t' _ _ _) e' (ti_source t')) as [b' c']. cbn [fst snd] in *.
    destruct b as [[|]| |]; try discriminate. intros [= <-]. rewrite (proj1 (D true) eq_refl). eauto.
  Qed.
  Lemma entry_bare cs cs' : kin t t' cs cs' -> ConcretizeEntry check cs = ConcretizeEntry check cs'.
  Proof.
    intros [K1 K2 K3 K4 K5]. unfold ConcretizeEntry. rewrite <- K5, K1, K2, <- (ak_keys _ _ HA), <- (ak_id _ _ HA), <- K3. destruct (check _) as [m|]; [|reflexivity]. 
    assert (forall l acc, concretize_keys cs m l acc = concretize_keys cs' m l acc) as ->; [|reflexivity].
    induction l as [|[a k] l IH]; intros acc; cbn [concretize_keys]; [reflexivity|]. rewrite <- K3, <- K4. destruct (cs_skip cs a) as [[|]| |]; cbn [bind]; auto. destruct (FindPtrOrStatus _ _); cbn [bind]; auto. destruct (ConcretizeKey _ _ _); cbn [bind]; auto.
  Qed.
End Solver.

(** * Tables *)
Lemma insert_any what what' l : forall bi bn r, insert_keys what l bi bn = Ok r -> insert_keys what' l bi bn = Ok r.
Proof. induction l as [|o l IH]; intros bi bn r H; cbn [insert_keys] in *; [exact H|]. destruct o as [k| |]; cbn [bind] in *; try discriminate. destruct (assoc_insert N.eqb _ _ _); [|discriminate]. destruct (assoc_insert String.eqb _ _ _); [|discriminate]. auto. Qed.
Lemma table_akin pton d d' t t' : pton_ok pton -> restated_table pton d d' -> ParseTableInfo pton d = Ok t -> ParseTableInfo pton d' = Ok t' -> akin t t'.
Proof.
  intros Hp (E1 & E2 & HR) H H'. unfold ParseTableInfo in H, H'. rewrite <- E1, <- E2 in H'.
  apply SemFacts.bind_ok in H as ([bi bn] & I & H). apply SemFacts.bind_ok in H' as ([bi' bn'] & I' & H').
  assert ((bi, bn) = (bi', bn')) as [= <- <-]. { match type of I' with insert_keys ?w _ _ _ = _ => apply (insert_any _ w) in I end. rewrite I in I'. now injection I' as <- <-. }
  destruct HR as [Hu Hu'|cs cs' e e' Hr Hr' R R' HR].
  - apply InfoFacts.extract_none in Hu. apply InfoFacts.extract_none in Hu'. rewrite Hu in H. rewrite Hu' in H'. cbn [bind] in H, H'. injection H as <-. injection H' as <-. constructor; reflexivity.
  - apply InfoFacts.extract_some in Hr. apply InfoFacts.extract_some in Hr'. apply (C08_parser_iff_grammar pton _ _ _ Hp) in R. apply (C08_parser_iff_grammar pton _ _ _ Hp) in R'. rewrite Hr in H. rewrite Hr' in H'. cbn [bind] in H, H'. rewrite R in H. rewrite R' in H'. cbn [bind] in H, H'.
    apply SemFacts.bind_ok in H as (f & F & H). apply SemFacts.bind_ok in H' as (f' & F' & H'). injection H as <-. injection H' as <-. constructor; try reflexivity. cbn [ti_constraint option_map]. f_equal.
    match type of F with InferTable _ ?a = _ => match type of F' with InferTable _ ?b = _ => destruct (infer_bare a b e e' eq_refl HR f F) as (g & G & E) end end. rewrite G in F'. now injection F' as <-.
Qed.

(** Solvers made for a table and for the same table with its constraint written differently, with the same keys skipped. Both are made or neither is; given texts that read alike they decide alike, and then produce the same entry, or fail with the same error. *)
Theorem C63_solver : forall check pton p p' ci ci' id t skip, pton_ok pton -> restated pton p p' -> P4ToConstraintInfo pton p = Ok ci -> P4ToConstraintInfo pton p' = Ok ci' -> GetTableInfoOrNull ci id = Some t ->
  exists t', GetTableInfoOrNull ci' id = Some t' /\
    ((exists cs, Create check t skip = Ok cs) <-> (exists cs', Create check t' skip = Ok cs')) /\
    forall cs cs' texts texts', Create check t skip = Ok cs -> Create check t' skip = Ok cs' -> Forall2 (same_reading pton t t') texts texts' ->
      Forall2 same_decision (fst (replies check pton cs (map AddText texts))) (fst (replies check pton cs' (map AddText texts'))) /\
      ConcretizeEntry check (snd (replies check pton cs (map AddText texts))) = ConcretizeEntry check (snd (replies check pton cs' (map AddText texts'))).
Proof.
  intros check pton p p' ci ci' id t skip Hp HR H H' Ht. apply (proj1 (info_lookup _ _ _ H)) in Ht as (d & Hd & -> & Hpt). destruct (f2_in _ _ _ _ (proj1 HR) Hd) as (d' & Hd' & Hrd).
  assert (exists t', ParseTableInfo pton d' = Ok t') as [t' Hpt']. { destruct (proj1 (info_ok _ _ _) H') as (ts & _ & Hts & _). destruct (f2_in _ _ _ _ Hts Hd') as (t' & _ & E). now exists t'. }
  exists t'. split. { apply (proj1 (info_lookup _ _ _ H')). exists d'. split; [exact Hd'|]. split; [exact (proj1 Hrd)|exact Hpt']. }
  pose proof (table_akin pton d d' t t' Hp Hrd Hpt Hpt') as HA. assert (akin t' t) as HA' by (destruct HA; constructor; auto). split.
  - split; intros [cs E]; [destruct (create_bare check t t' HA skip cs E) as (c & E' & _)|destruct (create_bare check t' t HA' skip cs E) as (c & E' & _)]; eauto.
  - intros cs cs' texts texts' E E' HT. destruct (create_bare check t t' HA skip cs E) as (c & Ec & K). rewrite Ec in E'. injection E' as <-. destruct (texts_bare check pton Hp t t' HA texts texts' HT cs c K) as (D & K2). split; [exact D|]. exact (entry_bare check t t' HA _ _ K2).
Qed.
Print Assumptions C63_solver.
(** Texts of the same tokens read alike, where numerals may be written in another base. *)
Theorem C63_texts : forall pton t t' text text', pton_ok pton -> Forall2 same_token (Tokenize (text_source t text)) (Tokenize (text_source t' text')) -> same_reading pton t t' text text'.
Proof.
  intros pton t t' text text' Hp HT. assert (Forall2 same_token (Tokenize (text_source t' text')) (Tokenize (text_source t text))) as HT'.
  { revert HT. apply f2_flip. intros a b [(E1 & E2)|(u & v & n & X1 & X2 & X3 & X4)]; [left; auto|right; exists v, u, n; auto]. }
  destruct (ParseConstraint pton kTableConstraint (text_source t text)) as [e| |] eqn:E.
  - apply (C08_parser_iff_grammar pton _ _ _ Hp) in E. destruct (C63_numerals pton kTableConstraint _ _ e HT E) as (e' & E' & HR). left. exists e, e'. auto.
  - right. assert (forall x, ~ reads_as pton kTableConstraint (text_source t text) x) as N by (intros x Hx; apply (C08_parser_iff_grammar pton _ _ _ Hp) in Hx; congruence). split; [exact N|]. intros x Hx. destruct (C63_numerals pton kTableConstraint _ _ x HT' Hx) as (y & Hy & _). exact (N y Hy).
  - right. assert (forall x, ~ reads_as pton kTableConstraint (text_source t text) x) as N by (intros x Hx; apply (C08_parser_iff_grammar pton _ _ _ Hp) in Hx; congruence). split; [exact N|]. intros x Hx. destruct (C63_numerals pton kTableConstraint _ _ x HT' Hx) as (y & Hy & _). exact (N y Hy).
Qed.
Print Assumptions C63_texts.

(** * C55 *)
Lemma tokens_alike cs cs' : same_tokens cs cs' -> Forall2 same_token (Tokenize cs) (Tokenize cs').
Proof. unfold same_tokens. generalize (Tokenize cs) (Tokenize cs'). induction l as [|a l IH]; intros [|b m] H; try discriminate H; [constructor|]. cbn [map] in H. injection H as H1 H2 H. constructor; [left; auto|auto]. Qed.
Lemma name_free s l l' : same_tokens (mkCSource s l) (mkCSource s l').
Proof. unfold same_tokens. exact (C05_gap_in_front l l' "" s gap_nil). Qed.
Lemma retold_restriction pton ck pre pre' : same_restriction ck pre pre' -> (forall cs, restricted ck pre cs -> exists e, reads_as pton ck cs e) -> renamed_restriction pton ck eq pre pre'.
Proof.
  intros [Hu Hu'|cs cs' Hr Hr' HT] HE; [now apply rr_none|]. destruct (HE cs Hr) as [e He]. destruct (C63_numerals pton ck cs cs' e (tokens_alike _ _ HT) He) as (e' & He' & HR). exact (rr_some _ _ _ _ _ cs cs' e e' Hr Hr' He He' HR).
Qed.
Lemma f2_with {A B} (R S : A -> B -> Prop) l m : (forall a b, In a l -> R a b -> S a b) -> Forall2 R l m -> Forall2 S l m.
Proof. intros H HR. induction HR as [|a b l m Hab HR IH]; constructor; [apply H; [now left|exact Hab]|]. apply IH. intros x y Hx. apply H. now right. Qed.
Lemma retold_restated pton p p' ci : pton_ok pton -> retold p p' -> P4ToConstraintInfo pton p = Ok ci -> restated pton p p'.
Proof.
  intros Hp [HT HA] H. destruct (proj1 (info_ok _ _ _) H) as (ts & as_ & Hts & Has & _). split.
  - revert HT. apply f2_with. intros d d' Hd (E1 & E2 & HR). split; [exact E1|]. split; [exact E2|]. apply retold_restriction; [exact HR|]. intros cs Hr. destruct (f2_in _ _ _ _ Hts Hd) as (t & _ & Q). unfold ParseTableInfo in Q.
    apply SemFacts.bind_ok in Q as ([bi bn] & _ & Q). apply InfoFacts.extract_some in Hr. rewrite Hr in Q. cbn [bind] in Q. apply SemFacts.bind_ok in Q as (e & P & _). exists e. now apply (C08_parser_iff_grammar pton _ _ _ Hp).
  - revert HA. apply f2_with. intros d d' Hd (E1 & E2 & HR). split; [exact E1|]. split; [exact E2|]. apply retold_restriction; [exact HR|]. intros cs Hr. destruct (f2_in _ _ _ _ Has Hd) as (t & _ & Q). unfold ParseActionInfo in Q.
    apply SemFacts.bind_ok in Q as ([bi bn] & _ & Q). apply InfoFacts.extract_some in Hr. rewrite Hr in Q. cbn [bind] in Q. apply SemFacts.bind_ok in Q as (e & P & _). exists e. now apply (C08_parser_iff_grammar pton _ _ _ Hp).
Qed.
(** The names of tables and actions, the layout of constraints and their place in a file do not matter to the solver: whatever texts it is given, also ones that cannot be read, it decides alike, and it produces the same entries. *)
Theorem C55_solver : forall check pton p p' ci ci' id t skip, pton_ok pton -> retold p p' -> P4ToConstraintInfo pton p = Ok ci -> P4ToConstraintInfo pton p' = Ok ci' -> GetTableInfoOrNull ci id = Some t ->
  exists t', GetTableInfoOrNull ci' id = Some t' /\
    ((exists cs, Create check t skip = Ok cs) <-> (exists cs', Create check t' skip = Ok cs')) /\
    forall cs cs' texts, Create check t skip = Ok cs -> Create check t' skip = Ok cs' ->
      Forall2 same_decision (fst (replies check pton cs (map AddText texts))) (fst (replies check pton cs' (map AddText texts))) /\
      ConcretizeEntry check (snd (replies check pton cs (map AddText texts))) = ConcretizeEntry check (snd (replies check pton cs' (map AddText texts))).
Proof.
  intros check pton p p' ci ci' id t skip Hp HR H H' Ht. destruct (C63_solver check pton p p' ci ci' id t skip Hp (retold_restated pton p p' ci Hp HR H) H H' Ht) as (t' & Ht' & HC & HD). exists t'. split; [exact Ht'|]. split; [exact HC|].
  intros cs cs' texts E E'. apply (HD cs cs' texts texts E E'). clear - Hp. induction texts as [|x l IH]; constructor; [|exact IH]. apply C63_texts; [exact Hp|]. apply tokens_alike. apply name_free.
Qed.
Print Assumptions C55_solver.

(** The table with keys of all kinds under another name and with its constraint written differently: in three lines, with other numerals and more parentheses (or only in other lines). The solver accepts one constraint, refuses one and cannot read one. *)
Definition st_decl (lines : list string) : p4_table := mkP4Table (mkPre 3 "other" [restriction "entry" lines]) (pt_match_fields sy_decl).
Definition st_lines : list string := ["(e != 0b0) /* so"; "what */ && (t::mask == 0 || ::priority > 0x3)"; "  && (l::prefix_length >= 0o10)"].
Definition rt_lines : list string := ["e != 0 /* so"; "what */ && (t::mask == 0 || ::priority > 3)"; "  && l::prefix_length >= 8"].
Definition st_ci : constraint_info := Eval vm_compute in the (mkInfo [] []) (P4ToConstraintInfo pton1 (mkP4Info [st_decl st_lines] [])).
Definition rt_ci : constraint_info := Eval vm_compute in the (mkInfo [] []) (P4ToConstraintInfo pton1 (mkP4Info [st_decl rt_lines] [])).
Definition st_table : table_info := Eval vm_compute in match GetTableInfoOrNull st_ci 3 with Some t => t | None => no_table end.
Definition rt_table : table_info := Eval vm_compute in match GetTableInfoOrNull rt_ci 3 with Some t => t | None => no_table end.
Definition st_source (lines : list string) : csource := mkCSource (String.concat nl lines) (mkLoc 0 0 (SrcTable "other")).
Definition st_tree : expr := Eval vm_compute in the no_expr (ParseConstraint pton1 kTableConstraint (st_source st_lines)).
Definition st_cs : constraint_solver := the (mkCS no_table (mkEnv [] []) never_skip []) (Create sy_check st_table sy_skip).
Definition rt_cs : constraint_solver := the (mkCS no_table (mkEnv [] []) never_skip []) (Create sy_check rt_table sy_skip).
Definition st_texts : list string := ["e::value != 0x9 && o::mask == 511 ->" ++ nl ++ "::priority <= 12"; "false"; "nonsense ="].
Example C63_solver_case : restated pton1 (mkP4Info [sy_decl] []) (mkP4Info [st_decl st_lines] []) /\ retold (mkP4Info [sy_decl] []) (mkP4Info [st_decl rt_lines] []) /\
  P4ToConstraintInfo pton1 (mkP4Info [sy_decl] []) = Ok sy_ci /\ P4ToConstraintInfo pton1 (mkP4Info [st_decl st_lines] []) = Ok st_ci /\ P4ToConstraintInfo pton1 (mkP4Info [st_decl rt_lines] []) = Ok rt_ci /\
  GetTableInfoOrNull sy_ci 3 = Some sy_table /\ GetTableInfoOrNull st_ci 3 = Some st_table /\ GetTableInfoOrNull rt_ci 3 = Some rt_table /\ ti_constraint st_table <> ti_constraint sy_table /\
  Create sy_check sy_table sy_skip = Ok sy_cs /\ Create sy_check st_table sy_skip = Ok st_cs /\ Create sy_check rt_table sy_skip = Ok rt_cs /\
  Forall2 (same_reading pton1 sy_table st_table) [sy_more; "false"; "nonsense ="] st_texts /\
  (exists m, fst (replies sy_check pton1 st_cs (map AddText st_texts)) = [Ok true; Ok false; Err InvalidArgument m]) /\
  ConcretizeEntry sy_check (snd (replies sy_check pton1 st_cs (map AddText st_texts))) = Ok sy_entry.
Proof.
  assert (ParseConstraint pton1 kTableConstraint (st_source st_lines) = Ok st_tree) as Hst by (vm_compute; reflexivity).
  split. { split; [|constructor]. constructor; [|constructor]. split; [reflexivity|]. split; [reflexivity|]. apply (rr_some _ _ _ _ _ sy_source (st_source st_lines) sy_tree st_tree).
    - apply InfoFacts.extract_some. vm_compute. reflexivity.
    - apply InfoFacts.extract_some. vm_compute. reflexivity.
    - apply (C08_parser_iff_grammar pton1 _ _ _ pton1_ok). vm_compute. reflexivity.
    - apply (C08_parser_iff_grammar pton1 _ _ _ pton1_ok). exact Hst.
    - unfold sy_tree, st_tree. repeat match goal with |- Renamed _ _ _ => constructor end; reflexivity. }
  split. { split; [|constructor]. constructor; [|constructor]. split; [reflexivity|]. split; [reflexivity|]. apply (sr_some _ _ _ sy_source (st_source rt_lines)); [apply InfoFacts.extract_some; vm_compute; reflexivity..|]. vm_compute. reflexivity. }
  do 6 (split; [vm_compute; reflexivity|]). split; [vm_compute; discriminate|]. split; [exact sy_created|]. do 2 (split; [vm_compute; reflexivity|]).
  split. { constructor; [|constructor; [|constructor; [|constructor]]].
    - left. exists sy_more_tree, (the no_expr (ParseConstraint pton1 kTableConstraint (text_source st_table (List.hd "" st_texts)))). split; [apply (C08_parser_iff_grammar pton1 _ _ _ pton1_ok); exact sy_more_parsed|]. split; [apply (C08_parser_iff_grammar pton1 _ _ _ pton1_ok); vm_compute; reflexivity|].
      match goal with |- Renamed _ ?a ?b => let a' := eval vm_compute in a in let b' := eval vm_compute in b in change (Renamed eq a' b') end. repeat match goal with |- Renamed _ _ _ => constructor end; reflexivity.
    - apply (C63_texts pton1 _ _ _ _ pton1_ok). apply tokens_alike. apply name_free.
    - apply (C63_texts pton1 _ _ _ _ pton1_ok). apply tokens_alike. apply name_free. }
  split; [|vm_compute; reflexivity].
  exists (match fst (replies sy_check pton1 st_cs (map AddText st_texts)) with [_; _; Err _ m] => m | _ => "" end). vm_compute. reflexivity.
Qed.
