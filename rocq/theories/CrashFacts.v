(** Crashes of loading and checking. *)
From Coq Require Import String Ascii List ZArith NArith Bool Lia.
From Verif Require Import Base Num Token Ast Lexer Quote AstConstructors Parser Info TypeChecker ConstraintInfo Interpreter SpecLexer SpecGrammar SpecParser SpecQuote SpecTyping SpecSemantics SpecInfo SpecCrash
  StrFacts LexerFacts2 LexerFacts4 LexerFacts5 ParserFacts4 ParserFacts7 QuoteFacts QuoteFacts2 QuoteFacts3 TypeFacts EvalFacts SemFacts SemFacts2 EntryFacts ExplainFacts ExplainFacts2 InterpFacts InterpFacts2 PropertiesParser.
Import ListNotations.
Open Scope string_scope.

Lemma quoted_crash {A} c l src a b t w : @QuotedError A c l src a b t = Crash w -> QuoteSubConstraint src a b = Crash w.
Proof. unfold QuotedError. destruct (QuoteSubConstraint src a b); congruence. Qed.
Lemma bind_crash {A B} (o : outcome A) (f : A -> outcome B) w : bind o f = Crash w -> o = Crash w \/ exists a, o = Ok a /\ f a = Crash w.
Proof. destruct o; cbn; intros H; [right; eauto|discriminate|left; congruence]. Qed.
Lemma annotate_crash {A} (o : outcome A) s w : annotate o s = Crash w -> o = Crash w.
Proof. destruct o; cbn; congruence. Qed.

(** * The type checker *)
Lemma infer_loc ai ti e : forall e', Infer ai ti e = Ok e' -> e_start e' = e_start e /\ e_end e' = e_end e.
Proof.
  assert (forall (T : ty) x, e_start (set_type T x) = e_start x /\ e_end (set_type T x) = e_end x) as Hs by (intros T x; split; [apply start_set|apply end_set]).
  assert (forall c l src a b t e1, @QuotedError expr c l src a b t = Ok e1 -> False) as Hq by (intros; eapply quoted_not_ok; eassumption).
  destruct e as [m b|m s|m n|m n|m e|m e|m e|m o l r|m f e|m n|m]; intros e' H; cbn [Infer] in H;
    (destruct (GetConstraintSource ai ti) as [src| |]; cbn [bind] in H; [|discriminate..]);
    (destruct ai as [a|], ti as [t|]; try discriminate H).
  all: repeat match type of H with
    | bind _ _ = Ok _ => apply bind_ok in H as (? & ? & H)
    | context [match ?x with _ => _ end] => destruct x eqn:?; try discriminate H
    end.
  all: try (exfalso; unfold StaticTypeError in H; eapply Hq; exact H).
  all: injection H as <-; rewrite ?start_set, ?end_set; split; reflexivity.
Qed.
Lemma spot_mono e e' a b : (forall s, sub s e -> sub s e') -> spot e a b -> spot e' a b.
Proof. intros H [s Hs|m o l r Hs]; [apply sp_sub|eapply sp_operands]; eauto. Qed.
Lemma infer_crash ai ti src e : GetConstraintSource ai ti = Ok src -> forall w, Infer ai ti e = Crash w -> exists a b, spot e a b /\ QuoteSubConstraint src a b = Crash w.
Proof.
  intros Hsrc. 
  induction e as [m b|m s|m n|m n|m e IH|m e IH|m e IH|m o l IHl r IHr|m f e IH|m n|m]; intros w H; cbn [Infer] in H;
    rewrite Hsrc in H; cbn [bind] in H;
    (destruct ai as [a|], ti as [t|]; try discriminate H).
  all: repeat match type of H with
    | bind _ _ = Crash _ => apply bind_crash in H as [H|(? & ? & H)]
    | context [match ?x with _ => _ end] => destruct x eqn:?; try discriminate H
    | Unify _ _ _ = Crash _ => unfold Unify in H
    end.
  all: try (apply IH in H as (x1 & x2 & Hx & Hc); exists x1, x2; split; [|exact Hc]; eapply spot_mono; [|exact Hx]; intros; constructor; assumption).
  all: try (apply IHl in H as (x1 & x2 & Hx & Hc); exists x1, x2; split; [|exact Hc]; eapply spot_mono; [|exact Hx]; intros; now apply sub_left).
  all: try (apply IHr in H as (x1 & x2 & Hx & Hc); exists x1, x2; split; [|exact Hc]; eapply spot_mono; [|exact Hx]; intros; now apply sub_right).
  all: repeat match goal with E : Infer _ _ ?x = Ok ?y |- _ => apply infer_loc in E as [? ?] end.
  all: apply quoted_crash in H.
  all: try (do 2 eexists; split; [apply sp_sub, sub_refl|exact H]).
  all: try (do 2 eexists; split; [apply (sp_sub _ e); repeat constructor|congruence]).
  all: try (do 2 eexists; split; [apply (sp_sub _ l); repeat constructor|congruence]).
  all: try (do 2 eexists; split; [apply (sp_sub _ r); apply sub_right, sub_refl|congruence]).
  all: try (do 2 eexists; split; [eapply sp_operands, sub_refl|congruence]).
Qed.

(** * Quoting *)
Lemma sub_tr a b c : sub a b -> sub b c -> sub a c.
Proof. intros Ha Hb. induction Hb; [exact Ha|..]; first [apply sub_not; now apply IHHb|apply sub_neg; now apply IHHb|apply sub_cast; now apply IHHb|apply sub_left; now apply IHHb|apply sub_right; now apply IHHb|apply sub_field; now apply IHHb]. Qed.
Lemma no_later_tr a b c : no_later a b -> no_later b c -> no_later a c.
Proof. unfold no_later. lia. Qed.
Lemma nested_down e s : nested e -> sub s e -> nested s.
Proof. intros H Hs. revert H. induction Hs; intros H; cbn [nested] in H; tauto. Qed.
Lemma spot_order e a b : nested e -> spot e a b -> no_later a b.
Proof.
  intros Hn [s Hs|m o l r Hs]; [exact (nested_sub _ _ Hn Hs)|]. apply (nested_down _ _ Hn) in Hs. cbn [nested] in Hs. destruct Hs as (_ & _ & H1 & _ & H2 & H3).
  apply no_later_tr with (e_end l); [exact (nested_sub _ _ H2 (sub_refl _))|]. apply no_later_tr with (e_start r); [exact H1|exact (nested_sub _ _ H3 (sub_refl _))].
Qed.
Lemma spot_column pton ck c e a b : pton_ok pton -> ParseConstraint pton ck c = Ok e -> (0 <= l_col (cs_loc c))%Z -> spot e a b ->
  (0 <= l_col a)%Z /\ no_later a b /\ exists t, In t (Tokenize c) /\ a = t_start t.
Proof.
  intros Hp H Hc Hs. destruct (C12_source_intervals pton ck c e Hp H) as (w & last & Hw & Hsub & Hn). split; [|split; [exact (spot_order _ _ _ Hn Hs)|]].
  all: assert (exists s, sub s e /\ a = e_start s) as (s & Hs' & ->) by (destruct Hs as [s Hs|m o l r Hs]; [eauto|]; exists l; split; [|reflexivity]; apply (sub_tr _ (EBin m o l r)); [apply sub_left, sub_refl|exact Hs]).
  all: destruct (Hsub s Hs') as (a' & u & v & z & b' & n & Ew & _ & _ & _ & Hsp & _); destruct Hsp as ((first & v' & Ev & _ & Es) & _).
  all: assert (In first (Tokenize c)) as Hin by (rewrite Hw, Ew, Ev, !in_app_iff; cbn; tauto).
  - pose proof (Lex_cols _ _ _ (proj1 (Tokenize_Lex c _) eq_refl) Hc) as Hl. rewrite Forall_forall in Hl. rewrite Es. now apply Hl in Hin.
  - eauto.
Qed.
Lemma spot_sprawls pton ck c e a b w : pton_ok pton -> ParseConstraint pton ck c = Ok e -> (0 <= l_col (cs_loc c))%Z -> spot e a b ->
  QuoteSubConstraint c a b = Crash w -> sprawls c a b.
Proof.
  intros Hp H Hc Hs Hq. apply quote_sub_crash in Hq. assert (exists w, Quote c a b = Crash w) as Hx by eauto. apply Quote_crash in Hx as (_ & line & num & Hl & -> & Hx).
  destruct (spot_column _ _ _ _ _ _ Hp H Hc Hs) as (H1 & H2 & _). unfold no_later in H2. destruct Hx as [Hx|[Hx|Hx]]; [lia|lia|]. split; [tauto|]. exists line. tauto.
Qed.
Lemma restricted_column ck pre cs : restricted ck pre cs -> (0 <= l_col (cs_loc cs))%Z.
Proof. intros (r & f & n & ss & _ & _ & _ & _ & E). rewrite E. cbn. lia. Qed.
Lemma declares_column p ck cs : declares p ck cs -> (0 <= l_col (cs_loc cs))%Z.
Proof. intros [d cs' _ H|d cs' _ H]; exact (restricted_column _ _ _ H). Qed.

(** * The evaluator *)
Definition bad_cast (e : expr) : Prop := exists m a z, sub (ECast m a) e /\ width (m_type m) z /\ (z < 0)%Z.
Definition bad_quote (src : csource) (e : expr) (w : crash) : Prop := exists s, sub s e /\ QuoteSubConstraint src (e_start s) (e_end s) = Crash w.
Lemma bad_mono src e e' w : (forall s, sub s e -> sub s e') -> bad_quote src e w \/ bad_cast e -> bad_quote src e' w \/ bad_cast e'.
Proof. intros H [(s & Hs & Hq)|(m & a & z & Hs & Hz)]; [left; exists s|right; exists m, a, z]; auto. Qed.
Lemma cast_crash src m a v w : CastTo src (m_type m) a v = Crash w -> bad_quote src (ECast m a) w \/ bad_cast (ECast m a).
Proof.
  assert (forall t, @RuntimeTypeError value src a t = Crash w -> bad_quote src (ECast m a) w) as Hr by (intros t H; apply quoted_crash in H; exists a; split; [repeat constructor|exact H]).
  unfold CastTo. destruct v; try (intros H; left; eapply Hr; exact H). destruct (m_type m) eqn:Et; try (intros H; left; eapply Hr; exact H); try discriminate; unfold shl1;
    (destruct (Z.ltb_spec w0 0); cbn [bind]; [|discriminate]); intros _; right; exists m, a, w0; (split; [constructor|]); rewrite Et; (split; [constructor|assumption]).
Qed.
Section E.
  Variable ctx : eval_context.
  Notation src := (ec_src ctx).
  Lemma run_crash {A} e t w : @RuntimeTypeError A src e t = Crash w -> bad_quote src e w \/ bad_cast e.
  Proof. intros H. apply quoted_crash in H. left. exists e. split; [constructor|exact H]. Qed.
  Lemma as_bool_crash e v w : as_bool ctx e v = Crash w -> bad_quote src e w \/ bad_cast e.
  Proof. unfold as_bool. destruct v; try discriminate; apply run_crash. Qed.
  Lemma as_int_crash e v w : as_int ctx e v = Crash w -> bad_quote src e w \/ bad_cast e.
  Proof. unfold as_int. destruct v; try discriminate; apply run_crash. Qed.
  Lemma ev_crash e : forall w, ev ctx e = Crash w -> bad_quote src e w \/ bad_cast e.
  Proof.
    induction e as [m b|m s|m n|m n|m e IH|m e IH|m e IH|m o l IHl r IHr|m f e IH|m n|m]; intros w H; cbn [ev] in H;
      apply bind_crash in H as [H|(v & _ & H)];
      try (unfold DynamicTypeCheck in H; destruct (DynamicTypeOk _ _); [discriminate|now apply run_crash in H]).
    all: repeat match type of H with
      | bind _ _ = Crash _ => apply bind_crash in H as [H|(? & ? & H)]
      | annotate _ _ = Crash _ => apply annotate_crash in H
      | as_bool _ _ _ = Crash _ => apply as_bool_crash in H
      | as_int _ _ _ = Crash _ => apply as_int_crash in H
      | CastTo _ _ _ _ = Crash _ => apply cast_crash in H
      | ev _ ?x = Crash _ => match goal with IH' : forall w, ev _ x = Crash w -> _ |- _ => apply IH' in H end
      | RuntimeTypeError _ _ _ = Crash _ => apply run_crash in H
      | context [match ?x with _ => _ end] => destruct x eqn:?; try discriminate H
      end; try discriminate H; try exact H.
    all: try (revert H; apply bad_mono; intros; constructor; assumption).
    all: try (revert H; apply bad_mono; intros; now apply sub_right).
  Qed.
  Lemma ev_bool_crash e w : ev_bool ctx e = Crash w -> bad_quote src e w \/ bad_cast e.
  Proof. intros H. apply bind_crash in H as [H|(v & _ & H)]; [now apply ev_crash|now apply as_bool_crash in H]. Qed.
  Lemma size_no_crash e w : size e <> Crash w.
  Proof.
    revert w. induction e as [m b|m s|m n|m n|m e IH|m e IH|m e IH|m o l IHl r IHr|m f e IH|m n|m]; intros w H; cbn [size] in H; try discriminate H.
    - apply bind_crash in H as [H|(? & _ & H)]; [now apply IH in H|discriminate].
    - apply bind_crash in H as [H|(? & _ & H)]; [now apply IHl in H|]. apply bind_crash in H as [H|(? & _ & H)]; [now apply IHr in H|discriminate].
  Qed.
  Lemma minimal_crash e : forall p w, minimal ctx e p = Crash w -> bad_quote src e w \/ bad_cast e.
  Proof.
    induction e as [m b|m s|m n|m n|m e IH|m e IH|m e IH|m o l IHl r IHr|m f e IH|m n|m]; intros p w H; cbn [minimal] in H; try discriminate H.
    - apply IH in H. revert H. apply bad_mono. intros; constructor; assumption.
    - assert (bad_quote src l w \/ bad_cast l -> bad_quote src (EBin m o l r) w \/ bad_cast (EBin m o l r)) as Hl by (apply bad_mono; intros; now constructor).
      assert (bad_quote src r w \/ bad_cast r -> bad_quote src (EBin m o l r) w \/ bad_cast (EBin m o l r)) as Hr by (apply bad_mono; intros; now apply sub_right).
      repeat match type of H with
      | bind _ _ = Crash _ => apply bind_crash in H as [H|(? & ? & H)]
      | ev_bool _ _ = Crash _ => apply ev_bool_crash in H
      | minimal _ l _ = Crash _ => apply IHl in H
      | minimal _ r _ = Crash _ => apply IHr in H
      | size _ = Crash _ => now apply size_no_crash in H
      | context [match ?x with _ => _ end] => destruct x eqn:?; try discriminate H
      end; try discriminate H; auto.
  Qed.
  Lemma minimal_sub e : forall p s q, minimal ctx e p = Ok (s, q) -> sub s e.
  Proof.
    intros p s q H. apply minimal_best in H as (q' & _ & Hb & _). apply at_sub with q'. exact (Blamable_At _ _ _ _ Hb).
  Qed.
  Lemma check_crash e w : check_constraint ctx e = Crash w -> bad_quote src e w \/ bad_cast e.
  Proof.
    rewrite check_agrees. unfold check, explain. intros H. apply bind_crash in H as [H|(ok & _ & H)]; [now apply ev_bool_crash|]. destruct ok; [discriminate|].
    apply bind_crash in H as [H|([s q] & Hm & H)]; [now apply minimal_crash in H|]. apply minimal_sub in Hm.
    apply bind_crash in H as [H|(? & _ & H)]; [apply ev_bool_crash in H; revert H; apply bad_mono; intros s' Hs'; exact (sub_tr _ _ _ Hs' Hm)|].
    apply bind_crash in H as [H|(? & _ & H)]; [|discriminate]. left. exists s. auto.
  Qed.
End E.

(** * Widths of casts *)
Definition names (G : scope) : list (string * key_info) := match G with InTable l | InAction l => l end.
Lemma typed_origin G e t w : Typed G e t -> width t w -> exists n k, In (n, k) (names G) /\ width (k_type k) w.
Proof.
  intros Ht. revert w. induction Ht as [m b|m s|keys m n t Hk Hd Hu|params m n t Hk Hd Hu|m|m e H IH|m e H IH|m o a b Hc H1 IH1 H2 IH2
      |m o a b ta tb t Hc H1 IH1 H2 IH2 Hco|m o a b ta tb t Hc H1 IH1 H2 IH2 Hco Ho|m f e t t' H IH Hf]; intros w Hw; try now inversion Hw.
  - subst G. destruct Hd as (k & Hk' & <-). cbn. eauto.
  - subst G. destruct Hd as (k & Hk' & <-). cbn. eauto.
  - apply IH. inversion Hf; subst; inversion Hw; subst; constructor.
Qed.
Lemma cast_sub x t s : sub s (CastTransitivelyTo x t) -> sub s x \/ exists m a, s = ECast m a /\ forall z, width (m_type m) z -> width t z.
Proof.
  assert (forall x t, sub s (WrapWithCast x t) -> sub s x \/ exists m a, s = ECast m a /\ m_type m = t) as Hw.
  { intros x0 t0 H. unfold WrapWithCast in H. inversion H; subst; [right|now left]. do 2 eexists. split; reflexivity. }
  unfold CastTransitivelyTo. set (b := match TypeBitwidth t with Some w => w | None => (-1)%Z end).
  destruct (StrictlyAbove t (e_type x) && tycase_eqb (type_case (e_type x)) CInt)%bool eqn:E1; cbn [WrapWithCast e_type].
  - assert (forall z, width (TBit b) z -> width t z) as Hb.
    { intros z Hz. inversion Hz; subst z. subst b. apply andb_prop in E1 as [E1 _]. clear -E1. destruct t; cbn in E1; try discriminate; cbn; constructor. }
    match goal with |- context [if ?c then _ else _] => destruct c end; intros H.
    + apply Hw in H as [H|(m & a & -> & <-)]; [|right; do 2 eexists; split; [reflexivity|auto]]. apply Hw in H as [H|(m & a & -> & E)]; [now left|]. right. do 2 eexists. split; [reflexivity|]. now rewrite E.
    + apply Hw in H as [H|(m & a & -> & E)]; [now left|]. right. do 2 eexists. split; [reflexivity|]. now rewrite E.
  - match goal with |- context [if ?c then _ else _] => destruct c end; intros H; [|now left].
    apply Hw in H as [H|(m & a & -> & <-)]; [now left|right; do 2 eexists; split; [reflexivity|auto]].
Qed.
Lemma set_sub s t e : sub s (set_type t e) -> s = set_type t e \/ sub s e.
Proof. destruct e; cbn; intros H; inversion H; subst; auto; right; now constructor. Qed.
Lemma cast_origin ai ti G : in_scope ai ti G -> forall e e', Infer ai ti e = Ok e' -> forall m a z, sub (ECast m a) e' -> width (m_type m) z ->
  exists n k, In (n, k) (names G) /\ width (k_type k) z.
Proof.
  intros HG. induction e as [m b|m s|m n|m n|m e IH|m e IH|m e IH|m o l IHl r IHr|m f e IH|m n|m]; intros e' Hi mc ac z Hs Hw.
  all: try (pose proof (inv_atom ai ti G HG _ _ Hi) as Ha; cbn in Ha; try contradiction; first [subst e'|destruct Ha as (? & ->)]; now inversion Hs).
  - apply (inv_not ai ti G HG) in Hi as (x & Hx & _ & ->). apply set_sub in Hs as [Hs|Hs]; [discriminate|]. inversion Hs; subst. eauto.
  - apply (inv_neg ai ti G HG) in Hi as (x & Hx & _ & ->). apply set_sub in Hs as [Hs|Hs]; [discriminate|]. inversion Hs; subst. eauto.
  - apply (inv_bin ai ti G HG) in Hi as (x & y & Hx & Hy & [(_ & _ & _ & ->)|(t & Hco & _ & ->)]); (apply set_sub in Hs as [Hs|Hs]; [discriminate|]).
    + inversion Hs; subst; eauto.
    + assert (width t z -> exists n k, In (n, k) (names G) /\ width (k_type k) z) as Ht.
      { intros Hz. apply lub_iff in Hco. unfold LeastUpperBound in Hco.
        destruct (infer_ok ai ti G HG _ _ Hx) as (Tx & _). destruct (infer_ok ai ti G HG _ _ Hy) as (Ty & _).
        destruct (ty_eqb (e_type x) (e_type y)), (StrictlyAbove (e_type x) (e_type y)), (StrictlyAbove (e_type y) (e_type x)); try discriminate; injection Hco as <-; eauto using typed_origin. }
      inversion Hs as [|? ? ? H|? ? ? H|? ? ? H|? ? ? ? ? H|? ? ? ? ? H|? ? ? ? H]; subst; apply cast_sub in H as [H|(m1 & a1 & [= <- <-] & Hwz)]; eauto.
  - apply (inv_field ai ti G HG) in Hi as (x & t & Hx & _ & ->). apply set_sub in Hs as [Hs|Hs]; [discriminate|]. inversion Hs; subst. eauto.
Qed.

(** * Entries *)
Lemma entry_crash t entry w : ParseTableEntry entry t = Crash w -> exists k z, (In k (map snd (ti_keys_by_id t)) \/ In k (map snd (ti_keys_by_name t))) /\ width (k_type k) z /\ (z < 0)%Z.
Proof.
  unfold ParseTableEntry. intros H. apply bind_crash in H as [H|(keys & _ & H)].
  - revert H. generalize (@nil (string * value)). induction (pe_match entry) as [|f l IH]; intros keys H; cbn [parse_fields] in H; [discriminate|].
    apply bind_crash in H as [H|([n v] & _ & H)]; [|destruct (assoc_insert _ _ _ _); [eauto|discriminate]].
    unfold ParseKey in H. destruct (assoc_find N.eqb (fm_id f) (ti_keys_by_id t)) as [k|] eqn:Ek; [|discriminate].
    assert (In k (map snd (ti_keys_by_id t))) as Hk. { clear -Ek. induction (ti_keys_by_id t) as [|[i x] m IH]; cbn in *; [discriminate|]. destruct (N.eqb _ _); [left; congruence|right; auto]. }
    destruct (fm_value f), (k_type k) eqn:Et; try discriminate H. unfold MaxValueForBitwidth, shl1 in H. destruct (Z.ltb_spec w0 0); [|discriminate]. exists k, w0. rewrite Et. split; [now left|]. split; [constructor|assumption].
  - apply bind_crash in H as [H|(? & _ & H)]; [|discriminate]. revert keys H.
    assert (forall k, In k (map snd (ti_keys_by_name t)) -> In k (map snd (ti_keys_by_name t))) as Hin by auto. revert Hin. generalize (ti_keys_by_name t) at 1 3. intros l.
    induction l as [|[n k] l IH]; intros Hin keys H; cbn [fill_defaults] in H; [discriminate|]. destruct (assoc_find String.eqb n keys).
    + eapply IH; [|exact H]. intros k' Hk'. apply Hin. now right.
    + apply bind_crash in H as [H|(v & _ & H)]; [|eapply IH; [|exact H]; intros k' Hk'; apply Hin; now right].
      unfold default_value in H. destruct (k_type k) eqn:Et; try discriminate H. unfold MaxValueForBitwidth, shl1 in H. destruct (Z.ltb_spec w0 0); [|discriminate]. exists k, w0. rewrite Et. split; [right; apply Hin; now left|]. split; [constructor|assumption].
Qed.
Lemma params_crash a x w : ParseAction x a <> Crash w.
Proof.
  unfold ParseAction. intros H. apply bind_crash in H as [H|(? & _ & H)]; [|discriminate]. revert H. generalize (@nil (string * Z)). induction (pa_params x) as [|[i v] l IH]; intros ps H; cbn [parse_params] in H; [discriminate|].
  destruct (assoc_find N.eqb i (ai_params_by_id a)); [|discriminate]. destruct (assoc_find String.eqb _ _); [discriminate|eauto].
Qed.

(** * Locations of annotated trees *)
Lemma cast_loc x t s : sub s (CastTransitivelyTo x t) -> sub s x \/ (e_start s = e_start x /\ e_end s = e_end x).
Proof.
  assert (forall x t, sub s (WrapWithCast x t) -> sub s x \/ e_start s = e_start x /\ e_end s = e_end x) as Hw.
  { intros x0 t0 H. unfold WrapWithCast in H. inversion H; subst; [right|now left]. split; reflexivity. }
  unfold CastTransitivelyTo. intros H. destruct (_ && _)%bool; (destruct (_ && _)%bool in H).
  - apply Hw in H as [H|H]; [apply Hw in H as [H|H]; auto|right; exact H].
  - apply Hw in H. exact H.
  - apply Hw in H. exact H.
  - now left.
Qed.
Lemma infer_sub ai ti G : in_scope ai ti G -> forall e e', Infer ai ti e = Ok e' -> forall s, sub s e' -> exists s0, sub s0 e /\ e_start s0 = e_start s /\ e_end s0 = e_end s.
Proof.
  intros HG. assert (forall e e', Infer ai ti e = Ok e' -> (forall s, sub s e' -> s = e' \/ exists s0, sub s0 e /\ e_start s0 = e_start s /\ e_end s0 = e_end s) -> forall s, sub s e' -> exists s0, sub s0 e /\ e_start s0 = e_start s /\ e_end s0 = e_end s) as Hc.
  { intros e e' Hi H s Hs. destruct (H s Hs) as [->|H']; [|exact H']. apply infer_loc in Hi as [E1 E2]. exists e. split; [constructor|]. now rewrite E1, E2. }
  induction e as [m b|m s|m n|m n|m e IH|m e IH|m e IH|m o l IHl r IHr|m f e IH|m n|m]; intros e' Hi; apply Hc; try exact Hi; intros s' Hs.
  all: try (pose proof (inv_atom ai ti G HG _ _ Hi) as Ha; cbn in Ha; try contradiction; left; first [subst e'|destruct Ha as (? & ->)]; now inversion Hs).
  - apply (inv_not ai ti G HG) in Hi as (x & Hx & _ & ->). cbn in Hs. inversion Hs; subst; [now left|]. right. destruct (IH _ Hx _ H1) as (s0 & H0 & E). exists s0. split; [now constructor|exact E].
  - apply (inv_neg ai ti G HG) in Hi as (x & Hx & _ & ->). cbn in Hs. inversion Hs; subst; [now left|]. right. destruct (IH _ Hx _ H1) as (s0 & H0 & E). exists s0. split; [now constructor|exact E].
  - apply (inv_bin ai ti G HG) in Hi as (x & y & Hx & Hy & [(_ & _ & _ & ->)|(t & Hco & _ & ->)]); cbn in Hs; (inversion Hs as [|? ? ? H|? ? ? H|? ? ? H|? ? ? ? ? H|? ? ? ? ? H|? ? ? ? H]; subst; [now left|right..]).
    + destruct (IHl _ Hx _ H) as (s0 & H0 & E). exists s0. split; [now apply sub_left|exact E].
    + destruct (IHr _ Hy _ H) as (s0 & H0 & E). exists s0. split; [now apply sub_right|exact E].
    + apply cast_loc in H as [H|[E1 E2]]; [destruct (IHl _ Hx _ H) as (s0 & H0 & E); exists s0; split; [now apply sub_left|exact E]|]. apply infer_loc in Hx as [F1 F2]. exists l. split; [apply sub_left, sub_refl|]. split; congruence.
    + apply cast_loc in H as [H|[E1 E2]]; [destruct (IHr _ Hy _ H) as (s0 & H0 & E); exists s0; split; [now apply sub_right|exact E]|]. apply infer_loc in Hy as [F1 F2]. exists r. split; [apply sub_right, sub_refl|]. split; congruence.
  - apply (inv_field ai ti G HG) in Hi as (x & t & Hx & _ & ->). cbn in Hs. inversion Hs; subst; [now left|]. right. destruct (IH _ Hx _ H1) as (s0 & H0 & E). exists s0. split; [now constructor|exact E].
Qed.

(** * One line *)
Lemma one_line_spot pton ck c e a b : pton_ok pton -> ParseConstraint pton ck c = Ok e -> (0 <= l_col (cs_loc c))%Z -> one_line (cs_string c) -> spot e a b -> l_line a = l_line b.
Proof.
  intros Hp H Hcol [Hlf Hcr] Hs. assert (no_bare_CR (cs_string c)) as Hb.
  { intros x y E. exfalso. apply Hcr. rewrite E. clear. induction x as [|z x IH]; cbn; auto. }
  assert (forall s, ~ In LF (chars s) -> breaks s = 0%nat) as Hbr.
  { clear. induction s as [|x s IH]; [reflexivity|]. cbn [chars In breaks]. intros Hn. destruct (Ascii.eqb_spec x LF) as [->|]; [exfalso; apply Hn; now left|]. apply IH. intros Hin. apply Hn. now right. }
  assert (forall s, sub s e -> l_line (e_start s) = l_line (cs_loc c) /\ l_line (e_end s) = l_line (cs_loc c)) as Hl.
  { clear Hs. intros s Hs. destruct (C12_source_intervals pton ck c e Hp H) as (w & last & Hw & Hsub & _). destruct (Hsub s Hs) as (a' & u & v & z & b' & n & Ew & _ & _ & _ & Hsp & _).
    destruct Hsp as ((first & v' & Ev & _ & Es) & (v'' & final & Ev' & Ee & _)).
    pose proof (proj1 (Tokenize_Lex c _) eq_refl) as HL. pose proof (Lex_lines _ _ _ HL "" (cs_loc c) Hb ltac:(cbn; lia) Hcol) as Hlx. rewrite Forall_forall in Hlx.
    pose proof (lexemes_nonempty _ _ _ HL w last Hw) as Hne. rewrite Forall_forall in Hne.
    assert (forall t, In t w -> l_line (t_start t) = l_line (cs_loc c) /\ l_line (t_end t) = l_line (cs_loc c)) as Ht.
    { intros t Hin. destruct (Hlx t) as (F1 & F2 & F3 & F4); [rewrite Hw; apply in_or_app; now left|]. destruct F4 as [F4|(p & r & Ep & Hr & Hl)]; [destruct (Hne t Hin F4)|].
      change (cs_string c = p ++ r) in Ep. assert (breaks p = 0%nat) as E0. { pose proof (Hbr _ Hlf) as E. rewrite Ep, breaks_app in E. lia. } lia. }
    rewrite Es, Ee. destruct (Ht first) as [A _]; [rewrite Ew, Ev, !in_app_iff; cbn; tauto|]. destruct (Ht final) as [_ B]; [rewrite Ew, Ev', !in_app_iff; cbn; tauto|]. auto. }
  destruct Hs as [s Hs|m o l r Hs].
  - destruct (Hl s Hs). congruence.
  - destruct (Hl l) as [? _]; [apply (sub_tr _ _ _ (sub_left m o l l r (sub_refl l)) Hs)|]. destruct (Hl r) as [_ ?]; [apply (sub_tr _ _ _ (sub_right m o r l r (sub_refl r)) Hs)|]. congruence.
Qed.
