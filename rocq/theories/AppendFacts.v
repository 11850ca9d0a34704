(** Facts behind C105. *)
From Coq Require Import String Ascii List ZArith NArith Bool Lia.
From Verif Require Import Base Num Token Ast Lexer Quote AstConstructors Parser Info TypeChecker ConstraintInfo Interpreter SpecLexer SpecGrammar SpecParser SpecQuote SpecTyping SpecSemantics SpecInfo SpecMisc SpecLaws SpecAppend
  StrFacts NumFacts LexerFacts LexerFacts2 LexerFacts4 LexerFacts5 LexerFacts6 LiteralFacts QuoteFacts ParserFacts4 LawFacts CombineFacts.
Import ListNotations.
Open Scope string_scope.

(** * Tokens *)
Lemma ends_CR_tail lx rest : ends_CR rest -> ends_CR (lx ++ rest).
Proof. intros [a ->]. exists (lx ++ a). now rewrite sapp_assoc. Qed.
Lemma comment_tail s lx it rest : Next s lx it rest -> ends_in_comment rest -> ends_in_comment s.
Proof. intros Hx (cs & lx' & HT' & Hlx). exists ((lx, it) :: cs), lx'. split; [|exact Hlx]. cbn. econstructor; eauto. Qed.
(** What is skipped stays skipped when a line is added, unless it is an unfinished comment or half a line break. *)
Lemma next_skip_line a lx rest y : Next a lx Skip rest -> ~ ends_CR a -> ~ ends_in_comment a -> (rest <> "" -> exists c r, rest = String c r /\ (N_of_ascii c < 128)%N) ->
  Next (a ++ String LF y) lx Skip (rest ++ String LF y).
Proof.
  intros Hx Hcr Hc Hhead. pose proof Hx as Hx0. destruct Hx as (Ea & n & Hsh & Hmin & Hmax).
  assert (forall u, lx = u -> rest = "" -> ~ ((exists t, u = "//" ++ t) \/ (exists t, u = "/*" ++ t /\ ~ occurs "*/" t))) as Hlast.
  { intros u <- -> Hu. apply Hc. exists [], lx. split; [|exact Hu]. cbn. econstructor; [exact Hx0|]. constructor. intros. apply not_next_nil. }
  subst a. rewrite sapp_assoc.
  remember Skip as it eqn:Ei. destruct Hsh as [t Hne Ho|t Hl|t Ht|t Ht Ho|t Ht Ho|k t Hk|c t Hl Ho|q t Hq Hne Ho|q t Hq Hne Ho|q t Hq Hne Ho|q t Hq Hne Ho|t Ht]; try discriminate Ei.
  - split; [reflexivity|]. exists 0%nat. split; [now constructor|]. split; [intros; lia|]. intros lx' it' rest' E Hsh'.
    destruct (Nat.leb_spec (String.length lx') (String.length (t ++ rest))) as [Hle|Hgt].
    + rewrite <- sapp_assoc in E. symmetry in E. destruct (prefix_cases _ _ _ _ E Hle) as (e & E' & _). exact (Hmax lx' it' e E' Hsh').
    + exfalso. rewrite <- sapp_assoc in E. destruct (prefix_cases _ _ _ _ E ltac:(lia)) as (e & -> & He). destruct e as [|w e]; [rewrite sapp_nil_r in Hgt; lia|].
      cbn in He. injection He as <- _. inversion Hsh' as [u Hu Ho'| | | | | | | | | | |]; subst. specialize (Ho' LF). destruct Ho' as [H|H]; try discriminate H.
      unfold chars. rewrite chars_app. apply in_or_app. right. now left.
  - split; [reflexivity|]. exists 1%nat. split; [now constructor|]. split.
    + intros m lx' it' rest' Hm E Hsh'. assert (m = 0%nat) as -> by lia. inversion Hsh' as [u Hu Ho'| | | | | | | | | | |]; subst. destruct lx' as [|c lx']; [congruence|].
      pose proof (Ho' c (or_introl eq_refl)) as Hb. destruct Hl as [->|[->| ->]]; cbn in E; injection E as E _; subst c; destruct Hb; discriminate.
    + intros lx' it' rest' E Hsh'. inversion Hsh' as [|u Hl'| | | | | | | | | |]; subst.
      destruct Hl as [->|[->| ->]]; destruct Hl' as [->|[->| ->]]; cbn in E |- *; try lia; try discriminate E.
      injection E as E. destruct rest as [|c rest]; cbn in E.
      * exfalso. apply Hcr. exists "". reflexivity.
      * injection E as -> E. specialize (Hmax (String CR (String LF "")) Skip rest eq_refl (sh_newline _ (or_introl eq_refl))). cbn in Hmax. lia.
  - assert (rest = "" \/ exists c r, rest = String c r /\ (c = CR \/ c = LF)) as Hr.
    { destruct rest as [|c r]; [now left|right]. exists c, r. split; [reflexivity|]. destruct (Hhead ltac:(discriminate)) as (c' & r' & E & Hlt). injection E as <- <-.
      destruct (Ascii.eqb_spec c CR) as [|H1]; [auto|]. destruct (Ascii.eqb_spec c LF) as [|H2]; [auto|]. exfalso.
      specialize (Hmax ("//" ++ t ++ str1 c) Skip r). rewrite !slength_app in Hmax. cbn in Hmax.
      enough (S (S (String.length t + 1)) <= S (S (String.length t)))%nat by lia. apply Hmax.
      - rewrite !sapp_assoc. reflexivity.
      - apply (sh_line_comment (t ++ str1 c)). apply runes_snoc; [assumption|assumption|tauto]. }
    rewrite sapp_assoc. apply next_line_comment; [assumption|]. destruct Hr as [->|(c & r & -> & [->| ->])]; reflexivity.
  - rewrite !sapp_assoc. now apply next_block.
  - destruct (string_dec rest "") as [->|Hne]; [elim (Hlast _ eq_refl eq_refl); eauto|].
    destruct (Hhead Hne) as (c & r & -> & Hlt). exfalso.
    specialize (Hmax ("/*" ++ t ++ str1 c) Skip r). rewrite !slength_app in Hmax. cbn in Hmax.
    enough (S (S (String.length t + 1)) <= S (S (String.length t)))%nat by lia. apply Hmax.
    { rewrite !sapp_assoc. reflexivity. }
    assert (~ occurs "*/" (t ++ str1 c) \/ exists u, t = u ++ str1 "*" /\ c = "/"%char) as [Hocc|(u & -> & ->)].
    { destruct (snoc_dec t "*") as [[u Hu]|Hu]; [destruct (ascii_dec c "/"); [right; eauto|]|];
        left; intros Ho'; apply occurs_snoc in Ho' as (u' & Hu1 & Hu2); auto; apply Hu; eauto. }
    + apply (sh_open_comment (t ++ str1 c)); [|assumption]. apply runes_snoc; [assumption|assumption|tauto].
    + rewrite sapp_assoc. apply (sh_block_comment u).
      * eapply runes_snoc_inv; [|eassumption]. reflexivity.
      * intros (a & b & ->). apply Ho. exists a, (b ++ "*"). now rewrite !sapp_assoc.
Qed.
Lemma lex_head l s ts : Lex l s ts -> (exists w e, ts = (w ++ [e])%list /\ t_kind e = END_OF_INPUT) -> s <> "" -> exists c r, s = String c r /\ (N_of_ascii c < 128)%N.
Proof.
  intros H He Hne. destruct H as [l|l c s Hno|l s lx rest ts Hx H|l s lx k text rest ts Hx H]; [congruence| | |].
  - destruct He as (w & e & E & Hk). destruct w as [|? w]; [injection E as <-; discriminate Hk|destruct w; discriminate E].
  - pose proof (next_app _ _ _ _ Hx) as ->. apply next_shape in Hx as [m Hm]. apply shape_head in Hm as (c & t & -> & Hlt). cbn. eauto.
  - pose proof (next_app _ _ _ _ Hx) as ->. apply next_shape in Hx as [m Hm]. apply shape_head in Hm as (c & t & -> & Hlt). cbn. eauto.
Qed.
Lemma line_gap y : starts_gap (String LF y).
Proof. exists LF, y. split; [reflexivity|]. right. right. now left. Qed.
(** The tokens of a text are the first ones of the text with further lines, at the same places. *)
Lemma lex_line l a ts : Lex l a ts -> forall w e, ts = (w ++ [e])%list -> t_kind e = END_OF_INPUT -> ~ ends_CR a -> ~ ends_in_comment a ->
  exists l2, forall y tys, Lex l2 y tys -> Lex l (a ++ String LF y) (w ++ tys).
Proof.
  induction 1 as [l|l c s Hno|l s lx rest ts Hx HL IH|l s lx k text rest ts Hx HL IH]; intros w e E Hk Hcr Hc.
  - destruct w as [|? w]; [|destruct w; discriminate E]. exists (advance (String LF "") l). intros y tys Hy. cbn [app append]. apply (Lex_skip l _ (String LF "") y); [now apply next_newline|exact Hy].
  - destruct w as [|? w]; [injection E as <-; discriminate Hk|destruct w; discriminate E].
  - pose proof (next_app _ _ _ _ Hx) as Ea. destruct (IH w e E Hk) as [l2 H2].
    { intros H. apply Hcr. rewrite Ea. now apply ends_CR_tail. } { intros H. exact (Hc (comment_tail _ _ _ _ Hx H)). }
    exists l2. intros y tys Hy. apply (Lex_skip l _ lx (rest ++ String LF y)); [|now apply H2]. apply next_skip_line; [exact Hx|exact Hcr|exact Hc|]. apply (lex_head _ _ _ HL). eauto.
  - pose proof (next_app _ _ _ _ Hx) as Ea. destruct w as [|t0 w].
    { exfalso. injection E as E1 E2. destruct (Lex_sentinel _ _ _ HL) as (i & t & Ei & _). rewrite E2 in Ei. destruct i; discriminate Ei. }
    injection E as <- E. destruct (IH w e E Hk) as [l2 H2].
    { intros H. apply Hcr. rewrite Ea. now apply ends_CR_tail. } { intros H. exact (Hc (comment_tail _ _ _ _ Hx H)). }
    exists l2. intros y tys Hy. cbn [app]. apply (Lex_tok l _ lx k text (rest ++ String LF y)); [|now apply H2]. apply next_tok_extend; [exact Hx|apply line_gap].
Qed.
(** * Reading *)
Lemma kts_line b ib : kts b = (ib ++ [(END_OF_INPUT, "")])%list -> ~ ends_in_comment b -> kts ("; ( " ++ b ++ " )") = ((SEMICOLON, ";") :: (LPAR, "(") :: ib ++ [(RPAR, ")"); (END_OF_INPUT, "")])%list.
Proof.
  intros Hb Nb. change ("; ( " ++ b ++ " )") with (";" ++ " " ++ "(" ++ " " ++ b ++ " " ++ ")").
  rewrite (kts_fixed ";" SEMICOLON); [|apply next_single; cbn; tauto|apply blank_gap]. f_equal. rewrite kts_space, (kts_fixed "(" LPAR); [|apply next_single; cbn; tauto|apply blank_gap]. f_equal.
  rewrite kts_space, (kts_app b ib); [|assumption|assumption|apply blank_gap]. f_equal.
Qed.
Lemma D_0 pton ck w e : D pton ck 0 w e -> D pton ck 1 w e \/ exists w' t, w = (w' ++ [t])%list /\ t_kind t = SEMICOLON.
Proof.
  intros H. remember 0%nat as n eqn:En. destruct H; try discriminate En; [| |right; eauto|left].
  - subst. match goal with B : binary _ 0 _ _ |- _ => inversion B end.
  - subst. match goal with B : binary _ 0 _ _ |- _ => inversion B end.
  - subst. assumption.
Qed.
Lemma line_reads pton ck c b lb ea eb : ~ ends_in_comment (cs_string c) -> ~ ends_CR (cs_string c) -> ~ ends_in_comment b -> open_ended c ->
  reads_as pton ck c ea -> reads_as pton ck (mkCSource b lb) eb ->
  exists m eb', reads_as pton ck (mkCSource (with_line (cs_string c) b) (cs_loc c)) (EBin m OAND ea eb') /\ Alike eb eb'.
Proof.
  intros Na Ncr Nb Hop (w & t & E & Ht & Da) Hb. apply reads_kts in Hb as (wb & Db & Kb).
  destruct (lex_line _ _ _ (proj1 (Tokenize_Lex c _) eq_refl) w t E Ht Ncr Na) as [l2 H2]. specialize (H2 _ _ (Tokenize_Lex_at ("; ( " ++ b ++ " )") l2)).
  pose proof (kts_line b _ Kb Nb) as K. pose proof (kts_loc (mkCSource ("; ( " ++ b ++ " )") l2)) as KL. cbn [cs_string] in KL. rewrite <- KL in K. clear KL.
  destruct (Tokenize (mkCSource ("; ( " ++ b ++ " )") l2)) as [|t3 [|t4 r]] eqn:ET; try discriminate. injection K as K3 _ K4 _ K.
  apply map_eq_app in K as (wb' & r3 & -> & Eb & K). destruct r3 as [|t5 [|t6 [|? ?]]]; try discriminate. injection K as K5 _ K6 _.
  destruct (D_alike _ _ _ _ _ Db wb' (eq_sym Eb)) as (eb' & Db' & Ab).
  exists (at_ (e_start ea) (e_end eb')), eb'. split; [|exact Ab]. exists (w ++ t3 :: t4 :: wb' ++ [t5])%list, t6. split; [|split; [exact K6|]].
  - apply Tokenize_Lex. cbn [cs_loc cs_string]. unfold with_line. change (nl ++ "; ( " ++ b ++ " )") with (String LF ("; ( " ++ b ++ " )")).
    replace ((w ++ t3 :: t4 :: wb' ++ [t5]) ++ [t6])%list with (w ++ t3 :: t4 :: wb' ++ [t5; t6])%list by (rewrite <- app_assoc; cbn [app]; rewrite <- app_assoc; reflexivity). exact H2.
  - apply D_up. apply D_chain; [rewrite K3; constructor| |].
    + destruct (D_0 _ _ _ _ Da) as [H|(w' & t' & -> & Ht')]; [exact H|]. exfalso. apply (Hop w' t' t); [rewrite E, <- app_assoc; reflexivity|exact Ht'].
    + apply (D_low _ _ 2 8); [lia|]. now apply D_paren.
Qed.
(** * Quoting *)
Lemma lineof_more a y k line : LineOf a k line -> LineOf (a ++ String LF y) k line.
Proof.
  intros (u & v & -> & Hk & Hl & Hu & Hv & Hne). exists u, (v ++ String LF y). split; [now rewrite !sapp_assoc|]. split; [exact Hk|]. split; [exact Hl|]. split; [exact Hu|]. split.
  - right. destruct Hv as [->|[v' ->]]; cbn [append]; eauto.
  - intros H. apply sapp_eq_nil in H as [_ H]. apply sapp_eq_nil in H as [_ H]. discriminate H.
Qed.
Lemma prefix_nth {A} (l m : list A) : (forall k x, nth_error l k = Some x -> nth_error m k = Some x) -> exists r, m = (l ++ r)%list.
Proof.
  revert m. induction l as [|x l IH]; intros m H; [now exists m|]. destruct m as [|x' m]; [specialize (H 0%nat x eq_refl); discriminate H|].
  pose proof (H 0%nat x eq_refl) as H0. injection H0 as ->. destruct (IH m) as [r ->]; [intros k z; exact (H (S k) z)|]. now exists r.
Qed.
Lemma getlines_more a y : exists r, getlines (a ++ String LF y) = (getlines a ++ r)%list.
Proof. apply prefix_nth. intros k x H. apply LineOf_nth, lineof_more, nth_LineOf, H. Qed.
Lemma skipn_more {A} n (l r : list A) : (n <= List.length l)%nat -> skipn n (l ++ r) = (skipn n l ++ r)%list.
Proof. intros H. rewrite skipn_app. replace (n - List.length l)%nat with 0%nat by lia. reflexivity. Qed.
Lemma firstn_more {A} n (l r : list A) : (n <= List.length l)%nat -> firstn n (l ++ r) = firstn n l.
Proof. intros H. rewrite firstn_app. replace (n - List.length l)%nat with 0%nat by lia. cbn. apply app_nil_r. Qed.
Lemma quote_more c c' y from to q : cs_string c' = cs_string c ++ String LF y -> cs_loc c' = cs_loc c -> QuoteSubConstraint c from to = Ok q -> QuoteSubConstraint c' from to = Ok q.
Proof.
  intros Es El. unfold QuoteSubConstraint. rewrite El. destruct (_ || _); [discriminate|]. destruct (Explain from to) as [ex| |]; cbn [bind]; try discriminate.
  assert (forall r, Quote c from to = Ok r -> Quote c' from to = Ok r) as HQ.
  2: { destruct (Quote c from to) as [r| |]; cbn [bind]; try discriminate. now rewrite (HQ r eq_refl). }
  intros r. unfold Quote. rewrite El. destruct (loc_proto_equal from to); [exact (fun H => H)|]. rewrite Es. destruct (getlines_more (cs_string c) y) as [more ->]. cbv zeta.
  set (off := l_line (cs_loc c)). set (bef := if (l_line from =? off)%Z then 0%Z else 1%Z). set (n := Z.to_nat (l_line from - bef - off)%Z). set (ls := getlines (cs_string c)).
  destruct (Nat.ltb_spec (List.length ls) n) as [H1|H1]; [discriminate|]. assert ((List.length (ls ++ more) <? n)%nat = false) as -> by (apply Nat.ltb_ge; rewrite app_length; lia).
  rewrite (skipn_more n ls more H1). set (ls' := skipn n ls). set (k := Z.to_nat _).
  destruct (Nat.ltb_spec (List.length ls') k) as [H2|H2]; [discriminate|]. assert ((List.length (ls' ++ more) <? k)%nat = false) as -> by (apply Nat.ltb_ge; rewrite app_length; lia).
  rewrite (firstn_more k ls' more H2), (skipn_more k ls' more H2). destruct (skipn k ls') as [|line ls'']; [discriminate|]. cbn [app]. exact (fun H => H).
Qed.
