(** The tokens that may come next, and what a syntax error says about them (C70). *)
From Coq Require Import String Ascii List ZArith NArith Bool Lia.
From Verif Require Import Base Token Ast Lexer Quote AstConstructors Parser SpecLexer SpecGrammar SpecParser SpecBlame SpecNext
  LexerFacts4 LexerFacts5 LexerFacts7 ParserFacts ParserFacts2 ParserFacts3 ParserFacts4 ParserFacts5 ParserFacts7 BlameFacts BlameFacts2 NextFacts NextFacts2 PropertiesParser PropertiesBlame.
Import ListNotations.
Open Scope string_scope.

(** * C70: what may come next, exactly *)
(** The reader accepts exactly the beginnings of constraints, knows when a constraint may be over and which tokens may come next. *)
Theorem C70_next_exact : forall pton ck ks, pton_ok pton ->
  (viable pton ck ks <-> exists s, read start ks = Some s) /\
  (finished pton ck ks <-> exists s, read start ks = Some s /\ over s = true) /\
  (forall k, follows pton ck ks k <-> exists s, read start ks = Some s /\ may_come s k = true).
Proof. intros pton ck ks Hp. split; [now apply viable_read|]. split; [now apply finished_read|]. intros k. now apply follows_read. Qed.
Print Assumptions C70_next_exact.
(** The text of every syntax error, exactly: it depends on the place where the reader stands and on the token that comes there. *)
Theorem C70_message_exact : forall pton ck c u t, pton_ok pton -> stuck_at pton ck (Tokenize c) u t ->
  exists s text, read start (map t_kind u) = Some s /\ may_come s (t_kind t) = false /\ complaint t (message_for s (t_kind t)) text /\
    ParseConstraint pton ck c =
      match QuoteSubConstraint c (t_start t) (t_end t) with
      | Ok quote => Err InvalidArgument (quote ++ "Parse error: " ++ text)
      | Err k m => Err Internal ("Failed to quote sub-constraint: " ++ StableStatusToString k m ++ text)
      | Crash w => Crash w
      end.
Proof.
  intros pton ck c u t Hp H. destruct (C69_one_place pton ck c Hp) as (H1 & H2 & H3 & _).
  pose proof (proj1 (Tokenize_Lex c _) eq_refl) as HL. destruct (Lex_sentinel _ _ _ HL) as (i & z & E & Hz & _).
  destruct (parse_next pton Hp ck (Tokenize c) c z i (lexed_numeral _ _ _ HL) E Hz) as [(e & He)|[(u' & t' & s & text & H' & Hs & Hm & Hc & Er)|(u' & id & st & H')]].
  - exfalso. exact (proj1 (H1 e He) u t H).
  - destruct (H2 _ _ _ _ H H') as [<- <-]. exists s, text. split; [exact Hs|]. split; [exact Hm|]. split; [exact Hc|exact Er].
  - exfalso. exact (H3 _ _ _ _ _ H H').
Qed.
Print Assumptions C70_message_exact.
(** The complaint is determined by the hint. *)
Theorem C70_one_text : forall t h text text', complaint t h text -> complaint t h text' -> text = text'.
Proof. intros t h text text' H H'. inversion H; subst; inversion H'; subst; try congruence; try (exfalso; congruence). Qed.
Print Assumptions C70_one_text.
(** The list of expected tokens is exactly what may come next where an expression has to begin and where one token is required; it is
    wrong everywhere else: after a complete operand, and after ';'. *)
Theorem C70_list_right_iff : forall pton ck c u t s, pton_ok pton -> stuck_at pton ck (Tokenize c) u t ->
  read start (map t_kind u) = Some s -> message_for s (t_kind t) <> HNon ->
  ((forall k, In k (kinds_of (message_for s (t_kind t))) <-> follows pton ck (map t_kind u) k) <->
   In (at_place s) [Begin; NeedPart; NeedField; NeedString; NeedClose]).
Proof.
  intros pton ck c u t s Hp H Hs Hn. destruct (C70_message_exact _ _ _ _ _ Hp H) as (s' & text & E & Hm & _). rewrite Hs in E. injection E as <-.
  assert (forall k, follows pton ck (map t_kind u) k <-> may_come s k = true) as Hf.
  { intros k. rewrite follows_read by exact Hp. split; [intros (s' & E & Hk); congruence|intros Hk; exists s; auto]. }
  assert (levels s <> []) as Hl by (apply (read_levels _ _ _ Hs); discriminate).
  transitivity (list_right s (t_kind t)); [split; intros X k; [rewrite <- Hf|rewrite Hf]; apply X|].
  rewrite (right_iff s _ Hl Hm Hn). unfold fixed_place. destruct (at_place s); cbn; intuition discriminate.
Qed.
Print Assumptions C70_list_right_iff.
(** In [(a == b -> c) d] the reader stands after ')' when [d] comes: a comparison may come there, and an implication, but not ')'.
    In [(a == b c] it stands after [b]: neither a comparison nor the end may come, but ')' and '.' may. *)
Example C70_next_case :
  (exists u t, stuck_at pton1 kTableConstraint (Tokenize (table_src "(a == b c")) u t /\ map t_kind u = [LPAR; ID; EQ; ID]) /\
  (exists s, read start [LPAR; ID; EQ; ID] = Some s /\ may_come s EQ = false /\ may_come s END_OF_INPUT = false /\ may_come s RPAR = true /\ may_come s DOT = true /\ may_come s IMPLIES = true /\ message_for s ID = HExt) /\
  (exists s, read start [LPAR; ID; EQ; ID; IMPLIES; ID; RPAR] = Some s /\ may_come s EQ = true /\ may_come s IMPLIES = true /\ may_come s RPAR = false /\ may_come s END_OF_INPUT = true).
Proof.
  split; [|split; eexists; repeat split; reflexivity].
  destruct (C69_every_failure_has_a_place pton1 kTableConstraint (table_src "(a == b c") pton1_ok) as [(e & He)|[(u & t & H)|(u & id & st & (lp & rp & rest & E & Hk & _))]].
  - vm_compute in He. discriminate.
  - exists u, t. split; [exact H|]. pose proof H as ((rest & E) & Hv & _ & Hn). apply (f_equal (map t_kind)) in E. rewrite map_app in E. cbn [map] in E. set (k := t_kind t) in *. clearbody k. set (ks := map t_kind u) in *. clearbody ks. set (ks' := map t_kind rest) in *. clearbody ks'. clear H.
    apply viable_read in Hv as [s Hs]; [|exact pton1_ok]. rewrite (follows_read pton1 pton1_ok) in Hn. vm_compute in E.
    assert (forall s', read start ks = Some s' -> may_come s' k = false) as Hb by (intros s' E'; destruct (may_come s' k) eqn:Em; [exfalso; apply Hn; eauto|reflexivity]). clear Hn.
    do 4 (destruct ks as [|? ks]; [exfalso; injection E as <- _; specialize (Hb _ Hs); cbn in Hs; injection Hs as <-; discriminate|injection E as <- E]).
    destruct ks as [|? ks]; [reflexivity|exfalso]. injection E as <- E. discriminate Hs.
  - exfalso. apply (f_equal (map t_kind)) in E. rewrite !map_app, Hk in E. assert (In STRING (map t_kind (Tokenize (table_src "(a == b c")))) as Hi by (rewrite E; apply in_or_app; right; cbn; auto).
    vm_compute in Hi. repeat (destruct Hi as [Hi|Hi]; [discriminate Hi|]). destruct Hi.
Qed.
(** For C69_blames_that_address: in [a == ipv4('1.2.x.4') && b] the third part is at fault. *)
Definition address_src : csource := table_src "a == ipv4('1.2.x.4') && b".
Definition address_toks : list token := Eval vm_compute in Tokenize address_src.
Example C69_address_case : (exists u id st, bad_address_at pton1 kTableConstraint (Tokenize address_src) u id st /\ t_text st = "1.2.x.4") /\
  ParseConstraint pton1 kTableConstraint address_src = Err InvalidArgument "Invalid character in base-10 string: 'x' in string 'x'".
Proof.
  split; [|vm_compute; reflexivity]. assert (Tokenize address_src = address_toks) as -> by (vm_compute; reflexivity).
  exists (firstn 2 address_toks), (nth 2 address_toks (tok ID)), (nth 4 address_toks (tok ID)). split; [|reflexivity].
  exists (nth 3 address_toks (tok ID)), (nth 5 address_toks (tok ID)), (skipn 6 address_toks). split; [reflexivity|]. split; [reflexivity|]. split; [|split].
  - apply viable_read; [exact pton1_ok|]. eexists. reflexivity.
  - apply no_strings_ok. cbn. intuition discriminate.
  - intros n Ha. assert (MakeNetworkAddressIntegerConstant pton1 "ipv4" "1.2.x.4" default_loc default_loc = Ok (EInt (Located default_loc default_loc) (Num.dec (Z.of_N n)))) as E.
    { apply LiteralFacts.MakeNetworkAddress_spec; [exact pton1_ok|]. exists n, (Num.dec (Z.of_N n)). split; [exact Ha|]. split; [now apply NumFacts.dec_Decimal|reflexivity]. }
    discriminate E.
Qed.
