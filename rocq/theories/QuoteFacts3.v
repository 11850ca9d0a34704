(** Quoting subexpressions of parsed constraints. *)
From Coq Require Import String Ascii List ZArith NArith Bool Lia ZifyBool.
From Verif Require Import Base Num Token Ast Lexer Quote AstConstructors Parser SpecLexer SpecGrammar SpecParser SpecQuote SpecTyping SpecSemantics SpecExplain StrFacts LexerFacts2 LexerFacts4 LexerFacts5
  NumFacts LiteralFacts QuoteFacts QuoteFacts2 ParserFacts ParserFacts2 ParserFacts3 ParserFacts4 ParserFacts5 ParserFacts7 PropertiesParser.
Import ListNotations.
Open Scope string_scope.

Lemma nested_sub e s : nested e -> sub s e -> no_later (e_start s) (e_end s).
Proof.
  intros H Hs. revert H. induction Hs; intros H; cbn [nested] in H; try (destruct e; cbn [nested] in H; tauto); tauto.
Qed.
Lemma lexemes_nonempty l s ts : Lex l s ts -> forall w x, ts = (w ++ [x])%list -> Forall (fun t => t_start t <> t_end t) w.
Proof.
  induction 1 as [l|l c s Hno|l s lx rest ts Hx H IH|l s lx k t rest ts Hx H IH]; intros w x E.
  - destruct w as [|? []]; [constructor|discriminate..].
  - destruct w as [|? []]; [constructor|discriminate..].
  - eauto.
  - destruct w as [|y w]; [constructor|]. injection E as <- ->. constructor; [|now apply (IH w x)]. cbn. destruct (next_shape _ _ _ _ Hx) as [n Hn]. apply shape_nonempty in Hn. intros E. apply (f_equal l_col) in E. cbn in E.
    destruct lx; [congruence|cbn in E; lia].
Qed.
Lemma sub_quoted pton ck c e s : pton_ok pton -> no_bare_CR (cs_string c) -> l_src (cs_loc c) <> SrcNone -> (0 <= l_col (cs_loc c))%Z ->
  ParseConstraint pton ck c = Ok e -> sub s e -> ~ awkward c s -> exists r, QuoteSubConstraint c (e_start s) (e_end s) = Ok r.
Proof.
  intros Hp Hcr Hsrc Hcol H Hs Haw. destruct (C12_source_intervals pton ck c e Hp H) as (w & last & Hw & Hsub & Hn). destruct (Hsub s Hs) as (a & u & v & z & b & n & Ew & _ & _ & _ & Hsp & E1 & E2).
  destruct Hsp as ((first & v' & Ev & _ & Es) & (v'' & final & Ev' & Ee & _)).
  pose proof (proj1 (Tokenize_Lex c _) eq_refl) as HL. pose proof (Lex_lines _ _ _ HL "" (cs_loc c) Hcr ltac:(cbn; lia) Hcol) as Hlx. rewrite Forall_forall in Hlx.
  assert (lexed_at (cs_loc c) (cs_string c) first) as (F1 & F2 & F3 & F4).
  { apply (Hlx first). rewrite Hw, Ew, Ev. rewrite !in_app_iff. cbn. tauto. }
  assert (no_later (e_start s) (e_end s)) as Hnl by exact (nested_sub _ _ Hn Hs).
  unfold QuoteSubConstraint, HaveSameSource. rewrite E1, E2, source_eqb_refl. cbn [negb orb].
  assert (exists x, Explain (e_start s) (e_end s) = Ok x) as [x ->]. { unfold Explain. rewrite E1. destruct (l_src (cs_loc c)); eauto. congruence. }
  cbn [bind]. enough (exists q, Quote c (e_start s) (e_end s) = Ok q) as [q ->] by (cbn; eauto).
  destruct (loc_proto_equal (e_start s) (e_end s)) eqn:Eq; [unfold Quote; rewrite Eq; eauto|].
  destruct (nth_error (getlines (cs_string c)) (Z.to_nat (l_line (e_start s) - l_line (cs_loc c)))) as [line|] eqn:En.
  - rewrite (Quote_key _ _ _ line Eq En). unfold std_string_fill. replace (l_col (e_start s) <? 0)%Z with false by (rewrite Es; lia). cbn [bind].
    destruct (Z.eqb_spec (l_line (e_start s)) (l_line (e_end s))) as [El|El].
    + replace (l_col (e_end s) - l_col (e_start s) <? 0)%Z with false by (destruct Hnl; lia). cbn [bind]. eauto.
    + match goal with |- context [(?x <? 0)%Z] => destruct (Z.ltb_spec x 0) as [Hx|Hx] end; [|cbn [bind]; eauto]. exfalso. apply Haw. split; [exact El|]. exists line. split; [now apply nth_LineOf|].
      unfold slen in Hx. rewrite !slength_app in Hx. cbn [String.length] in Hx. rewrite !repeat_length in Hx. rewrite Es in *; lia.
  - exfalso. apply nth_error_None in En. destruct F4 as [F4|(p & r & Ep & Hr & Hl)].
    + pose proof (lexemes_nonempty _ _ _ HL w last Hw) as Hne. rewrite Forall_forall in Hne. apply (Hne first); [|exact F4]. rewrite Ew, Ev, !in_app_iff. cbn. tauto.
    + pose proof (getlines_count p r Hr) as Hg. rewrite <- Ep in Hg. rewrite Es in En. lia.
Qed.
Lemma one_line_displayable pton ck c e : pton_ok pton -> ParseConstraint pton ck c = Ok e -> (0 <= l_col (cs_loc c))%Z ->
  ~ In LF (chars (cs_string c)) -> ~ In CR (chars (cs_string c)) -> displayable c e.
Proof.
  intros Hp H Hcol Hlf Hcr. assert (no_bare_CR (cs_string c)) as Hb.
  { intros a b E. exfalso. apply Hcr. rewrite E. clear. induction a as [|x a IH]; cbn; auto. }
  assert (forall s, ~ In LF (chars s) -> breaks s = 0%nat) as Hbr.
  { clear. induction s as [|x s IH]; [reflexivity|]. cbn [chars In breaks]. intros Hn. destruct (Ascii.eqb_spec x LF) as [->|]; [exfalso; apply Hn; now left|]. apply IH. intros Hin. apply Hn. now right. }
  split; [exact Hb|]. intros s Hs [Hne _]. apply Hne. clear Hne. destruct (C12_source_intervals pton ck c e Hp H) as (w & last & Hw & Hsub & _). destruct (Hsub s Hs) as (a & u & v & z & b & n & Ew & _ & _ & _ & Hsp & _).
  destruct Hsp as ((first & v' & Ev & _ & Es) & (v'' & final & Ev' & Ee & _)).
  pose proof (proj1 (Tokenize_Lex c _) eq_refl) as HL. pose proof (Lex_lines _ _ _ HL "" (cs_loc c) Hb ltac:(cbn; lia) Hcol) as Hlx. rewrite Forall_forall in Hlx.
  pose proof (lexemes_nonempty _ _ _ HL w last Hw) as Hne. rewrite Forall_forall in Hne.
  assert (forall t, In t w -> l_line (t_start t) = l_line (cs_loc c) /\ l_line (t_end t) = l_line (cs_loc c)) as Ht.
  { intros t Hin. destruct (Hlx t) as (F1 & F2 & F3 & F4); [rewrite Hw; apply in_or_app; now left|]. destruct F4 as [F4|(p & r & Ep & Hr & Hl)]; [destruct (Hne t Hin F4)|].
    change (cs_string c = p ++ r) in Ep. assert (breaks p = 0%nat) as E0. { pose proof (Hbr _ Hlf) as E. rewrite Ep, breaks_app in E. lia. } lia. }
  rewrite Es, Ee. destruct (Ht first) as [A _]; [rewrite Ew, Ev, !in_app_iff; cbn; tauto|]. destruct (Ht final) as [_ B]; [rewrite Ew, Ev', !in_app_iff; cbn; tauto|]. congruence.
Qed.
