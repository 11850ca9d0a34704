(** Facts for C65 and C68: the solver's outcomes. *)
From Coq Require Import String Ascii List ZArith NArith Bool Lia.
From Verif Require Import Base Num Token Ast Quote AstConstructors Info TypeChecker Parser ConstraintInfo Interpreter Z3 Symbolic SpecLexer SpecGrammar SpecQuote SpecParser SpecTyping TypeFacts SpecSemantics SpecInfo SpecSymbolic SpecSolver SpecCrash
  ParserFacts7 QuoteFacts2 QuoteFacts3 EntryFacts EvalFacts SemFacts InfoFacts InfoFacts2 InterpFacts SymFacts SymFacts2 SymKeys SymState SymMeaning CrashFacts PropertiesParser.
Import ListNotations.
Open Scope string_scope.

Section Table.
  Variables (t : table_info) (ks : list key_info) (skip : string -> outcome bool).
  Hypothesis HK : table_keys t ks.
  Hypothesis Hskipped : forall k w, In k ks -> skipped skip k -> width (k_type k) w -> (0 < w)%Z.
  (** Encoding. *)
  Lemma encode_outcome env base e0 e src : built ks skip env base -> literals e0 -> InferTable e0 t = Ok e ->
    (exists u, EvaluateConstraintSymbolically env src e = Ok u /\ sort_of u = Z3.SBool) \/ exists c m, EvaluateConstraintSymbolically env src e = Err c m.
  Proof.
    intros HB Hl Hi. unfold EvaluateConstraintSymbolically. destruct (is_bool_type (e_type e)) eqn:Et; cbn [negb]; [|eauto].
    destruct (sym_total env src t (tk_by_name_unique _ _ HK)) with (e := e0) (e' := e) as [(r & Hr & Hs)|((c & s & He) & _)]; auto.
    - intros n sk ty Hn Hd. destruct (env_key t ks HK skip env base HB _ _ _ Hn Hd) as (k & a & _ & _ & <- & _ & Ha). exact (key_shaped k sk a Ha).
    - intros u Hu. destruct (env_prio ks skip env base HB u Hu) as [_ ->]. reflexivity.
    - intros n ty w Hn Hd Hw. apply (declared_in t ks HK) in Hd as (k & Hk & _ & <-). destruct (b_skip _ _ _ _ HB k Hk) as [[|] Hb]; [exact (Hskipped k w Hk Hb Hw)|].
      destruct (b_repr _ _ _ _ HB k Hk Hb) as (w' & Hw' & [E'|[E'|[E'|E']]]); rewrite E' in Hw; inversion Hw; subst; assumption.
    - left. assert (e_type e = TBool) as Eb by (destruct (e_type e); try discriminate Et; reflexivity). rewrite Eb in Hs. inversion Hs as [tm Htm| | | | | |]; subst. exists tm. rewrite Hr. split; [reflexivity|assumption].
    - right. exists c, s. rewrite He. reflexivity.
  Qed.
  Lemma add_safe check cs base e0 e src : built ks skip (cs_env cs) base -> literals e0 -> InferTable e0 t = Ok e -> forall w, fst (AddConstraint check cs e src) <> Crash w.
  Proof.
    intros HB Hl Hi w. unfold AddConstraint. destruct (is_sat check (cs_stack cs)); cbn [negb]; [|discriminate].
    destruct (encode_outcome _ _ e0 e src HB Hl Hi) as [(u & -> & Hb)|(c & m & ->)]; [|discriminate]. apply is_sbool_eq in Hb. rewrite Hb. cbn [negb]. destruct (is_sat check (solver_add u (solver_push (cs_stack cs)))); discriminate.
  Qed.
  Hypothesis Hnonneg : forall k w, In k ks -> width (k_type k) w -> (0 <= w)%Z.
  Hypothesis Hskip : forall k w, In k ks -> skip (k_name k) <> Crash w.
  Lemma create_keys_safe l : (forall n k, In (n, k) l -> In k ks /\ k_name k = n) -> forall prio keys asserted w, create_keys skip l prio keys asserted <> Crash w.
  Proof.
    induction l as [|[n k] l IH]; intros Hl prio keys asserted w; cbn [create_keys]; [discriminate|]. destruct (Hl n k (or_introl eq_refl)) as [Hk En].
    assert (forall n k, In (n, k) l -> In k ks /\ k_name k = n) as Hl' by (intros; apply Hl; now right).
    destruct (skip n) as [[|]|c m|w'] eqn:Es; cbn [bind]; [now apply IH| |discriminate|exfalso; rewrite <- En in Es; exact (Hskip k w' Hk Es)].
    destruct (AddSymbolicKey k) as [[sk a]|c m|w'] eqn:Ea; cbn [bind]; [now apply IH|discriminate|].
    exfalso. destruct (add_key_err k) as (c & s & E); [intros z Hz; eauto| |congruence]. intros Hr. apply add_key_iff in Hr as [r Hr]. congruence.
  Qed.
  Lemma create_safe check : (forall e, ti_constraint t = Some e -> exists e0, InferTable e0 t = Ok e /\ literals e0) -> forall w, Create check t skip <> Crash w.
  Proof.
    intros Hc w H. unfold Create in H. destruct (create_keys skip (Ordered (ti_keys_by_name t)) false [] []) as [[[prio keys] asserted]|c m|w'] eqn:Ek; cbn [bind] in H; [|discriminate|].
    - apply (built_env t ks HK) in Ek.
      assert ((if prio then ([(kSymbolicPriorityAttributeName, fst AddSymbolicPriority)], (asserted ++ snd AddSymbolicPriority)%list) else ([], asserted))
        = ((if prio then [(kSymbolicPriorityAttributeName, fst AddSymbolicPriority)] else []), (if prio then asserted ++ snd AddSymbolicPriority else asserted)%list)) as E by now destruct prio.
      rewrite E in H. clear E. destruct (ti_constraint t) as [e|]; [|discriminate]. destruct (Hc e eq_refl) as (e0 & Hi & Hl).
      match type of H with context [AddConstraint check ?cs e ?src] => pose proof (add_safe check cs _ e0 e src Ek Hl Hi) as Hs; destruct (AddConstraint check cs e src) as [[[|]|c m|w'] cs'] end; try discriminate.
      exact (Hs w' eq_refl).
    - revert Ek. apply create_keys_safe. intros n k Hi. now apply (in_ordered t ks HK).
  Qed.
End Table.

(** Quoting places of a text in another source. *)
Lemma text_spot pton name text e0 c a b w : pton_ok pton -> ParseConstraint pton kTableConstraint (mkCSource text (mkLoc 0 0 (SrcTable name))) = Ok e0 -> spot e0 a b ->
  QuoteSubConstraint c a b = Crash w -> sprawls c a b.
Proof.
  intros Hp Hpa Hs Hq. destruct (spot_column _ _ _ _ _ _ Hp Hpa (Z.le_refl _) Hs) as (Hc & Hno & _). unfold no_later in Hno. apply quote_sub_crash in Hq. assert (exists w, Quote c a b = Crash w) as Hx by eauto.
  apply Quote_crash in Hx as (_ & line & num & Hl & -> & Hx). destruct Hx as [Hx|[Hx|Hx]]; [lia|lia|]. split; [tauto|]. exists line. tauto.
Qed.
