(** Which token a parse error blames, and what it says is expected (C69, C70). *)
From Coq Require Import String Ascii List ZArith NArith Bool Lia.
From Verif Require Import Base Num Token Ast Lexer Quote AstConstructors Parser SpecLexer SpecGrammar SpecParser SpecBlame SpecAddress AddressFacts
  LexerFacts4 LexerFacts5 LexerFacts7 ParserFacts ParserFacts2 ParserFacts3 ParserFacts4 ParserFacts5 ParserFacts7 ShapeFacts ShapeFacts2 BlameFacts BlameFacts2 PropertiesParser.
Import ListNotations.
Open Scope string_scope.

(** * C69 *)
Lemma parse_cases pton ck c : pton_ok pton ->
  (exists e, ParseConstraint pton ck c = Ok e) \/
  (exists u t h text, stuck_at pton ck (Tokenize c) u t /\ complaint t h text /\ hint_right pton ck (map t_kind u) h /\ ParseConstraint pton ck c = parse_error c t text) \/
  (exists u id st m, bad_address_at pton ck (Tokenize c) u id st /\ no_address pton id st m /\ ParseConstraint pton ck c = Err InvalidArgument m).
Proof.
  intros Hp. pose proof (proj1 (Tokenize_Lex c _) eq_refl) as HL. destruct (Lex_sentinel _ _ _ HL) as (i & z & E & Hz & _).
  exact (parse_blames pton Hp ck (Tokenize c) c z i (lexed_numeral _ _ _ HL) E Hz).
Qed.
(** Every text is a constraint, or has a first token that cannot come where it stands, or an address literal that is none. *)
Theorem C69_every_failure_has_a_place : forall pton ck c, pton_ok pton ->
  (exists e, ParseConstraint pton ck c = Ok e) \/
  (exists u t, stuck_at pton ck (Tokenize c) u t) \/
  (exists u id st, bad_address_at pton ck (Tokenize c) u id st).
Proof.
  intros pton ck c Hp. destruct (parse_cases pton ck c Hp) as [H|[(u & t & h & text & H & _)|(u & id & st & m & H & _)]]; eauto 6.
Qed.
Print Assumptions C69_every_failure_has_a_place.
(** The three exclude each other, and the place is unique. *)
Theorem C69_one_place : forall pton ck c, pton_ok pton ->
  (forall e, ParseConstraint pton ck c = Ok e -> (forall u t, ~ stuck_at pton ck (Tokenize c) u t) /\ (forall u id st, ~ bad_address_at pton ck (Tokenize c) u id st)) /\
  (forall u t u' t', stuck_at pton ck (Tokenize c) u t -> stuck_at pton ck (Tokenize c) u' t' -> u = u' /\ t = t') /\
  (forall u t u' id st, stuck_at pton ck (Tokenize c) u t -> ~ bad_address_at pton ck (Tokenize c) u' id st) /\
  (forall u id st u' id' st', bad_address_at pton ck (Tokenize c) u id st -> bad_address_at pton ck (Tokenize c) u' id' st' -> u = u' /\ id = id' /\ st = st').
Proof.
  intros pton ck c Hp. split; [|split; [|split]].
  - intros e He. apply (text_iff pton Hp ck) in He as (w & t0 & -> & H0 & HD). split; intros; [eapply whole_not_stuck|eapply whole_no_address]; eassumption.
  - intros. eapply stuck_unique; eassumption.
  - intros u t u' id st H H'. eapply stuck_or_address; eassumption.
  - intros. eapply address_unique; eassumption.
Qed.
Print Assumptions C69_one_place.
(** The token that cannot come where it stands is the one that is quoted and complained about. *)
Theorem C69_blames_that_token : forall pton ck c u t, pton_ok pton -> stuck_at pton ck (Tokenize c) u t ->
  exists h text, complaint t h text /\
    ParseConstraint pton ck c =
      match QuoteSubConstraint c (t_start t) (t_end t) with
      | Ok quote => Err InvalidArgument (quote ++ "Parse error: " ++ text)
      | Err k m => Err Internal ("Failed to quote sub-constraint: " ++ StableStatusToString k m ++ text)
      | Crash w => Crash w
      end.
Proof.
  intros pton ck c u t Hp H. destruct (C69_one_place pton ck c Hp) as (H1 & H2 & H3 & _). destruct (parse_cases pton ck c Hp) as [(e & He)|[(u' & t' & h & text & H' & Hc & _ & E)|(u' & id & st & m & H' & _)]].
  - exfalso. exact (proj1 (H1 e He) u t H).
  - destruct (H2 _ _ _ _ H H') as [_ <-]. exists h, text. split; [exact Hc|exact E].
  - exfalso. exact (H3 _ _ _ _ _ H H').
Qed.
Print Assumptions C69_blames_that_token.
(** A wrong address literal is reported if what precedes it is in order, with a message that says what is wrong with it. *)
Theorem C69_blames_that_address : forall pton ck c u id st, pton_ok pton -> bad_address_at pton ck (Tokenize c) u id st ->
  (exists m, address_error pton (t_text id) (t_text st) m) /\
  forall m, address_error pton (t_text id) (t_text st) m <-> ParseConstraint pton ck c = Err InvalidArgument m.
Proof.
  intros pton ck c u id st Hp H. destruct (C69_one_place pton ck c Hp) as (H1 & _ & H3 & H4). destruct (parse_cases pton ck c Hp) as [(e & He)|[(u' & t' & h & text & H' & _)|(u' & id' & st' & m & H' & (_ & s & e & Ha) & E)]].
  - exfalso. exact (proj2 (H1 e He) _ _ _ H).
  - exfalso. exact (H3 _ _ _ _ _ H' H).
  - destruct (H4 _ _ _ _ _ _ H H') as (_ & <- & <-). split; [exists m; apply address_error_iff in Ha; [exact Ha|exact Hp]|]. intros m'. rewrite E, <- (address_error_iff pton (t_text id) (t_text st) s e m' Hp), Ha. split; intros [= <-]; reflexivity.
Qed.
Print Assumptions C69_blames_that_address.
(** In the sources that are loaded from a P4Info the quotation succeeds, unless there are carriage returns without a line feed. *)
Theorem C69_blames_and_quotes : forall pton ck c u t, pton_ok pton ->
  no_bare_CR (cs_string c) -> l_src (cs_loc c) <> SrcNone -> (0 <= l_col (cs_loc c))%Z -> stuck_at pton ck (Tokenize c) u t ->
  exists h text quote, complaint t h text /\ QuoteSubConstraint c (t_start t) (t_end t) = Ok quote /\
    ParseConstraint pton ck c = Err InvalidArgument (quote ++ "Parse error: " ++ text).
Proof.
  intros pton ck c u t Hp Hcr Hs Hc H. destruct (C69_blames_that_token pton ck c u t Hp H) as (h & text & Ht & E).
  assert (quotable c t) as [q Hq].
  { destruct H as ((rest & Er) & _). pose proof (proj1 (Tokenize_Lex c _) eq_refl) as HL. destruct (Lex_order _ _ _ HL) as (r & _ & Hsrc).
    pose proof (Lex_lines _ _ _ HL "" (cs_loc c) Hcr ltac:(cbn; lia) Hc) as Hl. rewrite Forall_forall in *.
    assert (In t (Tokenize c)) as Hi by (rewrite Er; apply in_or_app; right; now left). destruct (Hsrc t Hi). apply lexed_quotable; auto. }
  rewrite Hq in E. exists h, text, q. auto.
Qed.
Print Assumptions C69_blames_and_quotes.
Lemma tok_at c k n : nth_error (map t_kind (Tokenize c)) n = Some k -> exists u t rest, Tokenize c = (u ++ t :: rest)%list /\ map t_kind u = firstn n (map t_kind (Tokenize c)) /\ t_kind t = k.
Proof.
  intros H. rewrite nth_error_map in H. destruct (nth_error (Tokenize c) n) as [t|] eqn:E; [|discriminate]. injection H as <-.
  apply nth_error_split in E as (u & rest & E & <-). exists u, t, rest. split; [exact E|]. split; [|reflexivity]. rewrite E, map_app, <- (map_length t_kind u), firstn_app, firstn_all, Nat.sub_diag. cbn. now rewrite app_nil_r.
Qed.
(** [a == b == c]: blamed is the second '=='; [a == b c]: blamed is the [c]. *)
Lemma shape_chain more : Par 0 ([ID; EQ; ID] ++ EQ :: more) (SBad HNon (EQ :: more)).
Proof.
  eapply p_ok; [apply i_var; [discriminate|constructor; discriminate]|]. eapply e_bin_bad; [reflexivity|cbn; lia|discriminate|].
  eapply p_ok; [apply i_var; [discriminate|constructor; discriminate]|]. apply (e_non (EQ :: more)); reflexivity.
Qed.
Lemma shape_two more : Par 0 ([ID; EQ; ID] ++ ID :: more) (SBad HExt (ID :: more)).
Proof.
  eapply p_ok; [apply i_var; [discriminate|constructor; discriminate]|]. eapply e_bin_bad; [reflexivity|cbn; lia|discriminate|].
  eapply p_ok; [apply i_var; [discriminate|constructor; discriminate]|]. apply e_bad; reflexivity.
Qed.
Lemma no_strings_ok pton w : ~ In STRING (map t_kind w) -> addresses_ok pton w.
Proof. intros H a id lp st rp b -> Hk. exfalso. apply H. injection Hk as _ _ K _. rewrite map_app. apply in_or_app. right. cbn. auto. Qed.
Lemma demo_stuck c ks k more h : map t_kind (Tokenize c) = (ks ++ k :: more)%list -> ~ In STRING ks -> (forall more, Par 0 (ks ++ k :: more) (SBad h (k :: more))) ->
  exists u t, stuck_at pton1 kTableConstraint (Tokenize c) u t /\ map t_kind u = ks /\ t_kind t = k.
Proof.
  intros E Hs HP. destruct (tok_at c k (List.length ks)) as (u & t & rest & E1 & E2 & E3); [rewrite E, nth_error_app2, Nat.sub_diag; [reflexivity|lia]|].
  rewrite E, firstn_app, firstn_all, Nat.sub_diag in E2. cbn in E2. rewrite app_nil_r in E2. exists u, t. split; [|auto]. split; [eauto|]. rewrite E2, E3.
  assert (stuck (ks ++ k :: more) h (k :: more)) as Hst by (left; apply HP).
  split; [exact (stuck_prefix pton1 pton1_ok kTableConstraint ks (k :: more) h Hst)|]. split; [apply no_strings_ok; now rewrite E2|].
  exact (stuck_blocked pton1 pton1_ok kTableConstraint ks (k :: more) h k Hst eq_refl).
Qed.
Example C69_case : (exists u t, stuck_at pton1 kTableConstraint (Tokenize (table_src "a == b == c")) u t /\ map t_kind u = [ID; EQ; ID] /\ t_kind t = EQ) /\
  (exists u t, stuck_at pton1 kTableConstraint (Tokenize (table_src "a == b c")) u t /\ map t_kind u = [ID; EQ; ID] /\ t_kind t = ID).
Proof.
  split; [eapply (demo_stuck (table_src "a == b == c") [ID; EQ; ID] EQ [ID; END_OF_INPUT])|eapply (demo_stuck (table_src "a == b c") [ID; EQ; ID] ID [END_OF_INPUT])];
    [vm_compute; reflexivity|cbn; intuition discriminate|exact shape_chain|vm_compute; reflexivity|cbn; intuition discriminate|exact shape_two].
Qed.

(** * C70 *)
(** Missing: the full claim is that the tokens listed are exactly those that may come next; see the refutations. Proved: what is named
    where an expression has to start, and where one particular token has to come, is right; of the list of what can follow an
    expression, '::', '&&', ';' and '||' are right, and one of "end" and ')' is. *)
Theorem C70_hints_partial : forall pton ck c u t, pton_ok pton -> stuck_at pton ck (Tokenize c) u t ->
  exists h text, complaint t h text /\ hint_right pton ck (map t_kind u) h /\
    ParseConstraint pton ck c =
      match QuoteSubConstraint c (t_start t) (t_end t) with
      | Ok quote => Err InvalidArgument (quote ++ "Parse error: " ++ text)
      | Err k m => Err Internal ("Failed to quote sub-constraint: " ++ StableStatusToString k m ++ text)
      | Crash w => Crash w
      end.
Proof.
  intros pton ck c u t Hp H. destruct (C69_one_place pton ck c Hp) as (H1 & H2 & H3 & _). destruct (parse_cases pton ck c Hp) as [(e & He)|[(u' & t' & h & text & H' & Hc & Hh & E)|(u' & id & st & m & H' & _)]].
  - exfalso. exact (proj1 (H1 e He) u t H).
  - destruct (H2 _ _ _ _ H H') as [<- <-]. exists h, text. split; [exact Hc|]. split; [exact Hh|exact E].
  - exfalso. exact (H3 _ _ _ _ _ H H').
Qed.
Print Assumptions C70_hints_partial.
Definition two_text : string := Eval vm_compute in "unexpected token: " ++ KindToKeyword ID ++ "." ++ expecting (map KindToKeyword (kinds_of HExt)).
(** The list of what can follow is too long: in [a == b c] it offers '==' and ')', which cannot follow [a == b]; *)
Theorem C70_refuted : exists c u t quote, stuck_at pton1 kTableConstraint (Tokenize c) u t /\
  ParseConstraint pton1 kTableConstraint c = Err InvalidArgument (quote ++ "Parse error: unexpected token: " ++ KindToKeyword (t_kind t) ++ "." ++ expecting (map KindToKeyword (kinds_of HExt))) /\
  In EQ (kinds_of HExt) /\ ~ follows pton1 kTableConstraint (map t_kind u) EQ /\ In RPAR (kinds_of HExt) /\ ~ follows pton1 kTableConstraint (map t_kind u) RPAR.
Proof.
  destruct (demo_stuck (table_src "a == b c") [ID; EQ; ID] ID [END_OF_INPUT] HExt) as (u & t & H & Hu & Ht); [vm_compute; reflexivity|cbn; intuition discriminate|exact shape_two|].
  exists (table_src "a == b c"), u, t. rewrite Hu, Ht.
  assert (exists quote, ParseConstraint pton1 kTableConstraint (table_src "a == b c") = Err InvalidArgument (quote ++ "Parse error: " ++ two_text)) as [quote E].
  { destruct (QuoteSubConstraint (table_src "a == b c") (t_start (nth 3 (Tokenize (table_src "a == b c")) (tok ID))) (t_end (nth 3 (Tokenize (table_src "a == b c")) (tok ID)))) as [q| |] eqn:Eq; [|vm_compute in Eq; discriminate..].
    exists q. vm_compute in Eq. apply LiteralFacts.Ok_inj in Eq. subst q. vm_compute. reflexivity. }
  exists quote. split; [exact H|]. split; [exact E|]. split; [cbn; tauto|]. split; [|split; [cbn; tauto|]].
  - exact (stuck_blocked pton1 pton1_ok kTableConstraint [ID; EQ; ID] (EQ :: []) HNon EQ (or_introl (shape_chain [])) eq_refl).
  - apply (stuck_blocked pton1 pton1_ok kTableConstraint [ID; EQ; ID] [RPAR] (HOne END_OF_INPUT) RPAR); [|reflexivity]. right. split; [|auto].
    eapply p_ok; [apply i_var; [discriminate|constructor; discriminate]|]. eapply e_bin; [reflexivity|cbn; lia|discriminate| |].
    + eapply p_ok; [apply i_var; [discriminate|constructor; discriminate]|]. now apply e_stop.
    + now apply e_stop.
Qed.
Print Assumptions C70_refuted.
(** and too short: after [a == b] also '.' may come, which is not listed. *)
Theorem C70_incomplete : exists c u t quote, stuck_at pton1 kTableConstraint (Tokenize c) u t /\
  ParseConstraint pton1 kTableConstraint c = Err InvalidArgument (quote ++ "Parse error: unexpected token: " ++ KindToKeyword (t_kind t) ++ "." ++ expecting (map KindToKeyword (kinds_of HExt))) /\
  ~ In DOT (kinds_of HExt) /\ follows pton1 kTableConstraint (map t_kind u) DOT.
Proof.
  destruct (demo_stuck (table_src "a == b c") [ID; EQ; ID] ID [END_OF_INPUT] HExt) as (u' & t' & H' & Hu & Ht); [vm_compute; reflexivity|cbn; intuition discriminate|exact shape_two|].
  exists (table_src "a == b c"), u', t'. rewrite Hu, Ht.
  destruct (QuoteSubConstraint (table_src "a == b c") (t_start (nth 3 (Tokenize (table_src "a == b c")) (tok ID))) (t_end (nth 3 (Tokenize (table_src "a == b c")) (tok ID)))) as [q| |] eqn:Eq; [|vm_compute in Eq; discriminate..].
  exists q. split; [exact H'|]. split; [vm_compute in Eq; apply LiteralFacts.Ok_inj in Eq; subst q; vm_compute; reflexivity|]. split; [cbn; intuition discriminate|].
  left. apply viable_iff; [exact pton1_ok|]. exists [ID]. cbn.
  eapply p_ok; [apply i_var; [discriminate|constructor; discriminate]|]. eapply e_bin; [reflexivity|cbn; lia|discriminate| |now apply e_stop].
  eapply p_ok; [apply i_var; [discriminate|apply dt_more, dt_end; discriminate]|]. now apply e_stop.
Qed.
Print Assumptions C70_incomplete.
Example C70_case : exists u t, stuck_at pton1 kTableConstraint (Tokenize (table_src "a == )")) u t /\ map t_kind u = [ID; EQ] /\ t_kind t = RPAR.
Proof.
  eapply (demo_stuck (table_src "a == )") [ID; EQ] RPAR [END_OF_INPUT] HStart); [vm_compute; reflexivity|cbn; intuition discriminate|].
  intros more. cbn. eapply p_ok; [apply i_var; [discriminate|constructor; discriminate]|]. eapply e_bin_bad; [reflexivity|cbn; lia|discriminate|]. apply p_bad, i_bad. reflexivity.
Qed.
