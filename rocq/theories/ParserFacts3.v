(** Consequences for whole constraints. *)
From Coq Require Import String Ascii List ZArith NArith Bool Lia ZifyBool ZifyN ZifyNat.
From Verif Require Import Base Num Token Ast Lexer Quote AstConstructors Parser SpecLexer SpecGrammar SpecParser StrFacts LexerFacts4 LexerFacts5 LexerFacts7
  NumFacts LiteralFacts ParserFacts ParserFacts2.
Import ListNotations.
Open Scope string_scope.

Section Top.
  Variable pton : inet_pton6.
  Variable ck : constraint_kind.
  Variable src : csource.

  (** * Fuel *)
  Lemma PA_enough eof ts ctx f f' : (List.length ts < f)%nat -> (List.length ts < f')%nat ->
    parse_above pton ck src eof f ts ctx = parse_above pton ck src eof f' ts ctx.
  Proof.
    intros H H'. assert (forall g g', (List.length ts < g)%nat -> (g <= g')%nat ->
      parse_above pton ck src eof g ts ctx = parse_above pton ck src eof g' ts ctx) as Hg.
    { intros g g' Hl Hle. destruct (proj1 (fuel_le pton ck src eof g g' Hle) ts ctx) as [E|E]; [|exact E].
      exfalso. exact (proj1 (enough pton ck src eof g) ts ctx Hl E). }
    destruct (Nat.le_ge_cases f f'); [now apply Hg|symmetry; now apply Hg].
  Qed.
  Lemma parse_fuel_enough ts : (List.length ts < parse_fuel ts)%nat.
  Proof. unfold parse_fuel. lia. Qed.
  Lemma ParseTokens_fuel ts : ParseTokens pton ck ts src <> Crash ModelOutOfFuel.
  Proof.
    unfold ParseTokens. cbn zeta. apply (fueled_bind).
    - apply (proj1 (enough pton ck src _ _)). apply parse_fuel_enough.
    - intros [a ts'] _. apply fueled_bind; [apply fueled_expect|]. intros [? ?] _. discriminate.
  Qed.

  (** * Acceptance *)
  Lemma parse_iff ts e : pton_ok pton -> Forall numeral_text ts ->
    (ParseTokens pton ck ts src = Ok e <->
     exists w, D pton ck 0 w e /\ (ts = w \/ exists t rest, t_kind t = END_OF_INPUT /\ ts = (w ++ t :: rest)%list)).
  Proof.
    intros Hp Hn. unfold ParseTokens. cbn zeta. set (eof := eof_location ts). split.
    - intros H. apply bind_ok in H as ([a rest] & E & H). apply bind_ok in H as ([t rest'] & E2 & H). injection H as <-.
      apply (proj1 (sound pton Hp ck src eof _)) in E as (w & Ew & Hr); [|lia|exact Hn].
      exists w. split; [destruct Hr as [(n & Hn1 & _ & HD & _)|(_ & HD & _)]; [apply (D_down _ _ _ n); [exact HD|lia]|exact HD]|].
      apply Expect_ok in E2 as (-> & Hk & ->). destruct rest as [|t rest]; [left; rewrite Ew; apply app_nil_r|right; eauto].
    - intros (w & HD & Hts).
      assert (exists rest, ts = (w ++ rest)%list /\ t_kind (Peek eof rest) = END_OF_INPUT) as (rest & E & Hk).
      { destruct Hts as [->|(t & rest & Hk & ->)]; [exists []; split; [now rewrite app_nil_r|reflexivity]|exists (t :: rest); auto]. }
      destruct (proj2 (complete pton Hp ck src eof 0 w e HD) rest) as [N HN]; [now rewrite Hk|].
      rewrite (PA_enough eof ts 0 _ (Nat.max N (parse_fuel ts))); [|apply parse_fuel_enough|pose proof (parse_fuel_enough ts); lia].
      rewrite E at 2. rewrite HN by lia. cbn [bind]. unfold ExpectTokenKind. rewrite Hk. cbn [kind_eqb]. rewrite kind_eqb_refl. reflexivity.
  Qed.
  Lemma D_no_end n w e : D pton ck n w e -> Forall (fun t => ~ sentinel (t_kind t)) w.
  Proof.
    assert (forall k t, t_kind t = k -> k <> END_OF_INPUT -> k <> UNEXPECTED_CHAR -> ~ sentinel (t_kind t)) as Hs
      by (intros k t -> ? ? [?|?]; congruence).
    assert (forall w ids, Dots w ids -> Forall (fun t => ~ sentinel (t_kind t)) w) as Hd.
    { induction 1; constructor; [eapply Hs; eauto; discriminate|]. constructor; [eapply Hs; eauto; discriminate|assumption]. }
    induction 1; repeat match goal with
      | |- Forall _ (_ :: _) => apply Forall_cons
      | |- Forall _ (_ ++ _) => apply Forall_app; split
      | |- Forall _ [] => apply Forall_nil
      end; try assumption.
    all: try (eapply Hd; eassumption).
    all: try (eapply Hs; [eassumption|discriminate|discriminate]).
    all: match goal with H : base _ _ |- _ => inversion H | H : binary _ _ _ _ |- _ => inversion H end; intros [?|?]; congruence.
  Qed.

  (** * What follows the sentinel does not matter *)
  Section Sim.
    Variable t : token.
    Hypothesis Ht : t_kind t = END_OF_INPUT.
    Variables r1 r2 : list token.
    Variables eof1 eof2 : loc.
    Definition sim (a b : list token) : Prop := exists w, a = (w ++ t :: r1)%list /\ b = (w ++ t :: r2)%list.
    Definition rel {A} (x y : outcome (A * list token)) : Prop :=
      match x, y with
      | Ok (a, u), Ok (b, v) => a = b /\ sim u v
      | Err c m, Err c' m' => c = c' /\ m = m'
      | Crash w, Crash w' => w = w'
      | _, _ => False
      end.
    Lemma rel_refl_bad {A} (x : outcome (A * list token)) : bad x -> rel x x.
    Proof. destruct x as [[]| |]; cbn; [intros []|auto|auto]. Qed.
    Lemma rel_bind {A B} (x y : outcome (A * list token)) (f g : A * list token -> outcome (B * list token)) :
      rel x y -> (forall a u v, sim u v -> rel (f (a, u)) (g (a, v))) -> rel (bind x f) (bind y g).
    Proof.
      destruct x as [[a u]|c m|w], y as [[b v]|c' m'|w']; cbn; try tauto; auto.
      intros [-> Hs] H. auto.
    Qed.
    Lemma rel_pure {A B} (x : outcome A) (f g : A -> outcome (B * list token)) :
      (forall a, rel (f a) (g a)) -> rel (bind x f) (bind x g).
    Proof. destruct x; cbn; auto. Qed.
    Lemma sim_peek u v : sim u v -> Peek eof1 u = Peek eof2 v.
    Proof. intros (w & -> & ->). destruct w; reflexivity. Qed.
    Lemma sim_tl u v : sim u v -> t_kind (Peek eof1 u) <> END_OF_INPUT -> sim (tl u) (tl v).
    Proof. intros (w & -> & ->) H. destruct w as [|x w]; [cbn in H; congruence|]. exists w. auto. Qed.
    Lemma sim_expect k u v : k <> END_OF_INPUT -> sim u v -> rel (ExpectTokenKind src eof1 k u) (ExpectTokenKind src eof2 k v).
    Proof.
      intros Hk Hs. unfold ExpectTokenKind. rewrite <- (sim_peek _ _ Hs).
      destruct (kind_eqb_spec (t_kind (Peek eof1 u)) k) as [E|E]; [|apply rel_refl_bad, Unexpected_bad].
      cbn. split; [reflexivity|]. apply sim_tl; congruence.
    Qed.
    Lemma sim_ids n : forall w, (List.length w <= n)%nat -> rel (parse_ids src eof1 (w ++ t :: r1)) (parse_ids src eof2 (w ++ t :: r2)).
    Proof.
      assert (kind_eqb END_OF_INPUT DOT = false /\ kind_eqb END_OF_INPUT ID = false) as [K1 K2] by (split; reflexivity).
      induction n as [|n IH]; intros w Hl.
      - destruct w; [|cbn in Hl; lia]. cbn. rewrite Ht, K1. split; [reflexivity|]. now exists [].
      - destruct w as [|x w]; [cbn; rewrite Ht, K1; split; [reflexivity|]; now exists []|].
        cbn [app parse_ids]. destruct (kind_eqb (t_kind x) DOT); [|cbn; split; [reflexivity|]; now exists (x :: w)].
        destruct w as [|y w]; cbn [app]; [rewrite Ht, K2; apply rel_refl_bad, Unexpected_bad|].
        destruct (kind_eqb (t_kind y) ID); [|apply rel_refl_bad, Unexpected_bad].
        apply rel_bind; [apply IH; cbn in Hl; lia|]. intros a u v Hs. cbn. auto.
    Qed.
    Lemma sim_parse f : (forall u v ctx, sim u v -> rel (parse_above pton ck src eof1 f u ctx) (parse_above pton ck src eof2 f v ctx)) /\
      (forall e u v ctx, sim u v -> rel (extend pton ck src eof1 f e u ctx) (extend pton ck src eof2 f e v ctx)).
    Proof.
      induction f as [|f [IHp IHe]]; [split; intros; reflexivity|]. split.
      - intros u v ctx Hs. rewrite !PA_S. apply rel_bind; [|intros a u' v' Hs'; now apply IHe].
        unfold initial. cbn zeta. rewrite <- (sim_peek _ _ Hs).
        destruct (kind_eqb_spec (t_kind (Peek eof1 u)) END_OF_INPUT) as [E|E].
        { rewrite E. apply rel_refl_bad, Unexpected_bad. }
        pose proof (sim_tl _ _ Hs E) as Hs'. generalize dependent (tl u). generalize dependent (tl v). intros v' u' Hs'.
        destruct (t_kind (Peek eof1 u)); try (apply rel_refl_bad, Unexpected_bad);
          try (apply rel_pure; intros a; cbn; auto); try (apply rel_bind; [now apply IHp|]; intros a u2 v2 Hs2; apply rel_pure; intros a2; cbn; auto).
        + apply rel_bind; [apply sim_expect; [discriminate|exact Hs']|]. intros a u2 v2 Hs2. apply rel_pure. intros a2. cbn. auto.
        + apply rel_bind; [now apply IHp|]. intros a u2 v2 Hs2. apply rel_bind; [apply sim_expect; [discriminate|exact Hs2]|].
          intros a2 u3 v3 Hs3. cbn. auto.
        + rewrite <- (sim_peek _ _ Hs'). destruct (kind_eqb_spec (t_kind (Peek eof1 u')) LPAR) as [E2|E2].
          * apply rel_bind; [apply sim_expect; [discriminate|apply sim_tl; [exact Hs'|congruence]]|]. intros a u2 v2 Hs2.
            apply rel_bind; [apply sim_expect; [discriminate|exact Hs2]|]. intros a2 u3 v3 Hs3. apply rel_pure. intros a3. cbn. auto.
          * destruct Hs' as (w & -> & ->). apply rel_bind; [apply (sim_ids _ _ (le_n _))|]. intros a u2 v2 Hs2. apply rel_pure. intros a3. cbn. auto.
      - intros e u v ctx Hs. rewrite !EX_S. cbn zeta. rewrite <- (sim_peek _ _ Hs).
        destruct (stop_kind _) eqn:Es; [cbn; auto|]. destruct (ext_kind _); [|apply rel_refl_bad, Unexpected_bad].
        destruct (_ && _)%bool; [apply rel_refl_bad, ParseErrorAt_bad|]. destruct (_ || _)%bool; [cbn; auto|].
        assert (sim (tl u) (tl v)) as Hs' by (apply sim_tl; [exact Hs|intros E; rewrite E in Es; discriminate]).
        rewrite <- (sim_peek _ _ Hs'). generalize dependent (tl u). generalize dependent (tl v). intros v' u' Hs'.
        destruct (_ && _)%bool; [cbn; auto|]. destruct (kind_eqb _ DOUBLE_COLON).
        + apply rel_bind; [apply sim_expect; [discriminate|exact Hs']|]. intros a u2 v2 Hs2. apply rel_pure. intros a2. now apply IHe.
        + apply rel_bind; [now apply IHp|]. intros a u2 v2 Hs2. apply rel_pure. intros a2. now apply IHe.
    Qed.
  End Sim.
  Lemma after_sentinel w t r1 r2 : t_kind t = END_OF_INPUT ->
    ParseTokens pton ck (w ++ t :: r1) src = ParseTokens pton ck (w ++ t :: r2) src.
  Proof.
    intros Ht. unfold ParseTokens. cbn zeta.
    set (l1 := (w ++ t :: r1)%list). set (l2 := (w ++ t :: r2)%list).
    set (eof1 := eof_location l1). set (eof2 := eof_location l2).
    set (f := (Nat.max (parse_fuel l1) (parse_fuel l2))).
    pose proof (parse_fuel_enough l1). pose proof (parse_fuel_enough l2).
    rewrite (PA_enough eof1 l1 0 _ f), (PA_enough eof2 l2 0 _ f) by lia.
    pose proof (proj1 (sim_parse t Ht r1 r2 eof1 eof2 f) l1 l2 0%nat) as Hr.
    specialize (Hr ltac:(now exists w)).
    destruct (parse_above pton ck src eof1 f l1 0) as [[a u]|c m|cr], (parse_above pton ck src eof2 f l2 0) as [[b v]|c' m'|cr']; cbn in Hr; try tauto.
    - destruct Hr as [-> Hs]. cbn [bind]. unfold ExpectTokenKind. rewrite (sim_peek t r1 r2 eof1 eof2 _ _ Hs).
      destruct (kind_eqb _ _); [reflexivity|]. cbn.
      pose proof (@Unexpected_bad (token * list token) (Peek eof2 v) [END_OF_INPUT] src) as Hb. destruct (Unexpected _ _ _); [destruct Hb|reflexivity|reflexivity].
    - destruct Hr as [-> ->]. reflexivity.
    - now subst.
  Qed.
End Top.

(** * Tokens of the lexer *)
Lemma only_Reads (b : N) (q : ascii -> Prop) t : (b <= 36)%N -> (forall c, q c -> exists d, dchar c d /\ (d < b)%N) ->
  t <> "" -> only q t -> exists n, Reads b t n.
Proof.
  intros Hb Hq Hne Ho. apply Reads_total; [exact Hb|exact Hne|]. intros c Hc. apply Hq, Ho, Hc.
Qed.
