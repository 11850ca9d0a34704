(** C08-C16, C49, C50: parser, literals, quoting. *)
From Coq Require Import String Ascii List ZArith NArith Bool Lia.
From Verif Require Import Base Num Token Ast Lexer Quote AstConstructors Parser SpecLexer SpecGrammar SpecParser SpecQuote
  StrFacts LexerFacts4 LexerFacts5 LexerFacts7 NumFacts LiteralFacts ParserFacts ParserFacts2 ParserFacts3 ParserFacts4 ParserFacts5 ParserFacts6 ParserFacts7
  QuoteFacts QuoteFacts2.
Import ListNotations.
Open Scope string_scope.

(** An inet_pton that knows one address; used in examples. *)
Definition pton1 : inet_pton6 := fun s => if String.eqb s "::1" then Some (append (repeat_char 15 NUL) (String (ascii_of_N 1) "")) else None.
Lemma pton1_ok : pton_ok pton1.
Proof. intros s b. unfold pton1. destruct (String.eqb s "::1"); [|discriminate]. intros [= <-]. reflexivity. Qed.
Definition table_src (s : string) : csource := mkCSource s (mkLoc 0 0 (SrcTable "t")).

(** * C08 *)
(** The text [c] has the tree [e] iff the grammar derives [e] from its tokens. *)
Theorem C08_parser_iff_grammar : forall pton ck c e, pton_ok pton ->
  (ParseConstraint pton ck c = Ok e <->
   exists w t, Tokenize c = (w ++ [t])%list /\ t_kind t = END_OF_INPUT /\ D pton ck 0 w e).
Proof. intros pton ck c e Hp. exact (text_iff pton Hp ck c e). Qed.
Print Assumptions C08_parser_iff_grammar.
(** The same for arbitrary token sequences. *)
Theorem C08_tokens_iff_grammar : forall pton ck ts src e, pton_ok pton -> Forall numeral_text ts ->
  (ParseTokens pton ck ts src = Ok e <->
   exists w, D pton ck 0 w e /\ (ts = w \/ exists t rest, t_kind t = END_OF_INPUT /\ ts = (w ++ t :: rest)%list)).
Proof. intros pton ck ts src e Hp Hn. exact (parse_iff pton ck src ts e Hp Hn). Qed.
Print Assumptions C08_tokens_iff_grammar.
Theorem C08_grammar_unambiguous : forall pton ck w e e', pton_ok pton -> D pton ck 0 w e -> D pton ck 0 w e' -> e = e'.
Proof. intros pton ck w e e' Hp. exact (D_fun pton Hp ck w e e'). Qed.
Print Assumptions C08_grammar_unambiguous.
Example C08_case : pton_ok pton1 /\ exists e, ParseConstraint pton1 kTableConstraint (table_src "!a.b::mask == 0x1F -> true; false;") = Ok e.
Proof. split; [exact pton1_ok|]. eexists. vm_compute. reflexivity. Qed.

(** * C09 *)
(** The parser is a total function; the model's fuel is no limit: the result is
    the one of any larger fuel, and "out of fuel" never occurs. *)
Theorem C09_parser_terminates : forall pton ck ts src,
  ParseTokens pton ck ts src <> Crash ModelOutOfFuel /\
  (forall eof ctx f f', (List.length ts < f)%nat -> (List.length ts < f')%nat ->
     parse_above pton ck src eof f ts ctx = parse_above pton ck src eof f' ts ctx).
Proof. intros pton ck ts src. split; [apply ParseTokens_fuel|]. intros eof ctx f f'. apply PA_enough. Qed.
Print Assumptions C09_parser_terminates.
Theorem C09_nothing_after_sentinel : forall pton ck src w t r1 r2, t_kind t = END_OF_INPUT ->
  ParseTokens pton ck (w ++ t :: r1) src = ParseTokens pton ck (w ++ t :: r2) src.
Proof. intros pton ck src w t r1 r2. exact (after_sentinel pton ck src w t r1 r2). Qed.
Print Assumptions C09_nothing_after_sentinel.
Example C09_case : let tok k s := mkTok k s default_loc default_loc in
  ParseTokens pton1 kTableConstraint [tok TRUE "true"; tok END_OF_INPUT ""; tok RPAR ")"] default_csource = Ok (EBool (at_ default_loc default_loc) true).
Proof. vm_compute. reflexivity. Qed.

(** * C10 *)
Theorem C10_print_parse : forall pton ck num s l, pton_ok pton -> (forall n, Decimal (num n) n) -> printable s ->
  exists e, ParseConstraint pton ck (mkCSource (text_of (print num s)) l) = Ok e /\ Means ck s e.
Proof.
  intros pton ck num s l Hp Hnum Hs. apply (by_kinds pton Hp ck _ (print num s)).
  - apply kts_text_of. intros k t Hin. exact (print_spelling num s Hnum Hs k t Hin).
  - intros w Hw. destruct (print_D pton ck num s Hnum Hs w Hw) as (e & HD & HM). exists e. split; [|exact HM]. now do 8 apply D_up.
Qed.
Print Assumptions C10_print_parse.

Example C10_case : printable (SBin IMPLIES (SNot (SBool true)) (SBin EQ (SField (SVar "a" ["b"]) "mask") (SNeg (SNum 10)))) /\
  text_of (print dec_N (SBin IMPLIES (SNot (SBool true)) (SBin EQ (SField (SVar "a" ["b"]) "mask") (SNeg (SNum 10)))))
  = "( ( ! true ) -> ( ( a . b :: mask ) == ( - 10 ) ) ) ".
Proof.
  assert (forall c, ident (String c "") <-> letter c) as Hc.
  { intros c. split; [intros ((d & t & [= <- <-] & H & _) & _); exact H|]. intros H. split; [exists c, ""; repeat split; auto; intros d []|].
    split; intros u; destruct c as [[] [] [] [] [] [] [] []]; discriminate. }
  split; [|vm_compute; reflexivity]. cbn [printable]. split; [eexists _, _, _; constructor|]. split; [exact I|]. split; [eexists _, _, _; constructor|].
  split; [|exact I]. split.
  - repeat (apply Forall_cons; [apply Hc; right; left; split; discriminate|]). constructor.
  - split; [exists "m"%char, "ask"; split; [reflexivity|split; [right; left; split; discriminate|]]|split; intros u; discriminate].
    intros c [<-|[<-|[<-|[]]]]; left; right; left; split; discriminate.
Qed.

(** * C11 *)
(** Comparisons have level 5, '->' has level 2; see [binary]. *)
Theorem C11_no_chains : forall pton ck c w last p x t1 y t2 z ch1 o1 ch2 o2, pton_ok pton ->
  Tokenize c = (w ++ [last])%list -> w = (x ++ t1 :: y ++ t2 :: z)%list ->
  p = 2%nat \/ p = 5%nat -> binary (t_kind t1) p ch1 o1 -> binary (t_kind t2) p ch2 o2 -> beside p 0 y ->
  forall e, ParseConstraint pton ck c <> Ok e.
Proof.
  intros pton ck c w t p x t1 y t2 z ch1 o1 ch2 o2 Hpt E Ew Hp H1 H2 Hy e H. apply (text_iff pton Hpt ck) in H as (w' & t' & E' & _ & HD).
  rewrite E' in E. apply app_inj_tail in E as [-> _]. exact (no_chain pton ck p 0 w e Hp HD x t1 y t2 z ch1 o1 ch2 o2 H1 H2 Hy Ew).
Qed.
Print Assumptions C11_no_chains.
Example C11_case : exists w last x t1 y t2 z, Tokenize (table_src "true && a::value < (1 == 2) != b || c") = (w ++ [last])%list /\
  w = (x ++ t1 :: y ++ t2 :: z)%list /\ binary (t_kind t1) 5 false OLT /\ binary (t_kind t2) 5 false ONE /\ beside 5 0 y.
Proof.
  set (ts := Tokenize _). vm_compute in ts. exists (removelast ts), (List.last ts (mkTok ID "" default_loc default_loc)),
    (firstn 5 ts), (nth 5 ts (mkTok ID "" default_loc default_loc)), (firstn 5 (skipn 6 ts)), (nth 11 ts (mkTok ID "" default_loc default_loc)), (skipn 12 (removelast ts)).
  split; [reflexivity|]. split; [reflexivity|]. split; [constructor|]. split; [constructor|]. subst ts. cbn.
  repeat split; intros H; try discriminate H.
Qed.

(** * C12 *)
Theorem C12_source_intervals : forall pton ck c e, pton_ok pton -> ParseConstraint pton ck c = Ok e ->
  exists w last, Tokenize c = (w ++ [last])%list /\
    (forall s, sub s e -> exists a u v z b n, w = (a ++ (u ++ v ++ z) ++ b)%list /\ D pton ck n (u ++ v ++ z) s /\
       Forall (fun t => t_kind t = LPAR) u /\ Forall (fun t => t_kind t = RPAR \/ t_kind t = SEMICOLON) z /\ Spans v s /\
       l_src (e_start s) = l_src (cs_loc c) /\ l_src (e_end s) = l_src (cs_loc c)) /\
    nested e.
Proof.
  intros pton ck c e Hp H. apply (text_iff pton Hp ck) in H as (w & t & E & Ht & HD). exists w, t. split; [exact E|].
  pose proof (proj1 (Tokenize_Lex c _) eq_refl) as HL. rewrite E in HL. destruct (Lex_order _ _ _ HL) as (r & Ho & Hs). apply Forall_app in Hs as [Hs _]. split.
  - intros s Hsub. destruct (D_sub pton ck _ _ _ HD s Hsub) as (a & w' & b & n & Ew & HD'). destruct (D_core pton ck _ _ _ HD') as (u & v & z & -> & Hu & Hz & Hv).
    exists a, u, v, z, b, n. split; [exact Ew|]. split; [exact HD'|]. split; [exact Hu|]. split; [exact Hz|]. split; [exact Hv|].
    exact (D_locs pton ck (fun l => l_src l = l_src (cs_loc c)) _ _ _ HD Hs s Hsub).
  - apply in_order_app in Ho as (m & Ho & _). exact (proj2 (proj2 (D_nested pton ck _ _ _ HD _ _ Ho))).
Qed.
Print Assumptions C12_source_intervals.
Example C12_case : exists e, ParseConstraint pton1 kTableConstraint (table_src "(a == 1); (b::mask) != 2;") = Ok e /\ (l_col (e_start e), l_col (e_end e)) = (1, 24)%Z.
Proof. eexists. split; vm_compute; reflexivity. Qed.

(** * C13 *)
(** Missing: sources with carriage returns that are not part of \r\n, sources
    without a name and with a negative column offset; see the refutation. *)
Theorem C13_parse_failures_partial : forall pton ck c,
  no_bare_CR (cs_string c) -> l_src (cs_loc c) <> SrcNone -> (0 <= l_col (cs_loc c))%Z ->
  (exists e, ParseConstraint pton ck c = Ok e) \/ (exists m, ParseConstraint pton ck c = Err InvalidArgument m).
Proof.
  intros pton ck c Hcr Hs Hc. pose proof (proj1 (Tokenize_Lex c _) eq_refl) as HL. destruct (Lex_order _ _ _ HL) as (r & _ & Hsrc).
  apply parse_errors.
  - pose proof (Lex_lines _ _ _ HL "" (cs_loc c) Hcr ltac:(cbn; lia) Hc) as H. rewrite Forall_forall in *. intros t Ht.
    destruct (Hsrc t Ht). apply lexed_quotable; auto.
  - exact (lexed_numeral _ _ _ HL).
  - apply eof_quotable; [exact Hs|eapply Forall_impl; [|exact Hsrc]; cbn; tauto|].
    destruct (Lex_sentinel _ _ _ HL) as (i & z & -> & _). destruct i; discriminate.
Qed.
Print Assumptions C13_parse_failures_partial.
(** Arbitrary tokens: the same, if each of them can be quoted. *)
Theorem C13_token_failures_partial : forall pton ck ts src, Forall numeral_text ts ->
  (forall t, In t ts -> exists q, QuoteSubConstraint src (t_start t) (t_end t) = Ok q) ->
  (exists q, QuoteSubConstraint src (eof_location ts) (eof_location ts) = Ok q) ->
  (exists e, ParseTokens pton ck ts src = Ok e) \/ (exists m, ParseTokens pton ck ts src = Err InvalidArgument m).
Proof. intros pton ck ts src Hn Hq He. apply parse_errors; [now apply Forall_forall|exact Hn|exact He]. Qed.
Print Assumptions C13_token_failures_partial.
(** Without exception: a failure is InvalidArgument, or else a token of the source could not be quoted. *)
Theorem C13_outcome : forall pton ck c,
  (exists e, ParseConstraint pton ck c = Ok e) \/ (exists m, ParseConstraint pton ck c = Err InvalidArgument m) \/
  exists t s, In t (Tokenize c) /\ (s = t_start t \/ s = t_end t) /\
    ((exists code q text, QuoteSubConstraint c s (t_end t) = Err code q /\ ParseConstraint pton ck c = Err Internal ("Failed to quote sub-constraint: " ++ StableStatusToString code q ++ text)) \/
     exists w, QuoteSubConstraint c s (t_end t) = Crash w /\ ParseConstraint pton ck c = Crash w).
Proof.
  intros pton ck c. pose proof (proj1 (Tokenize_Lex c _) eq_refl) as HL. unfold ParseConstraint. destruct (parse_outcome pton ck (Tokenize c) c (lexed_numeral _ _ _ HL)) as [H|[H|(t & Ht & H)]]; [now left|right; now left|right; right].
  assert (exists t' s, In t' (Tokenize c) /\ (s = t_start t' \/ s = t_end t') /\ s = t_start t /\ t_end t' = t_end t) as (t' & s & H1 & H2 & E1 & E2).
  { destruct Ht as [Ht| ->]; [exists t, (t_start t); auto|]. destruct (Lex_sentinel _ _ _ HL) as (i & z & E & _). rewrite E. exists z, (t_end z). unfold eof_location. rewrite rev_app_distr. cbn [rev app t_start t_end]. split; [apply in_or_app; right; now left|auto]. }
  exists t', s. split; [exact H1|]. split; [exact H2|]. rewrite E1, E2. unfold quote_fails in H. destruct (ParseTokens pton ck (Tokenize c) c) as [|[] m|w]; try contradiction; [left|right; eauto].
  destruct H as (code & q & text & E & ->). eauto.
Qed.
Print Assumptions C13_outcome.
(** Parsing never crashes, whatever the text (locations given to the parser have columns, which are not negative). *)
Theorem C13_never_crashes : forall pton ck c w, (0 <= l_col (cs_loc c))%Z -> ParseConstraint pton ck c <> Crash w.
Proof.
  intros pton ck c w Hc E. destruct (C13_outcome pton ck c) as [(e & H)|[(m & H)|(t & s & Ht & Hs & [(code & q & text & _ & H)|(w' & Hq & _)])]]; try congruence.
  pose proof (proj1 (Tokenize_Lex c _) eq_refl) as HL. pose proof (Lex_cols _ _ _ HL Hc) as H. rewrite Forall_forall in H. destruct (H t Ht) as [Hl Hco].
  apply quote_sub_crash in Hq. assert (exists w, Quote c s (t_end t) = Crash w) as Hx by eauto. apply Quote_crash in Hx as (_ & line & num & _ & _ & Hx). destruct Hs as [-> | ->]; lia.
Qed.
Print Assumptions C13_never_crashes.
Example C13_case : no_bare_CR ("a ==" ++ String CR (String LF ")")) /\ exists m, ParseConstraint pton1 kTableConstraint (table_src ("a ==" ++ String CR (String LF ")"))) = Err InvalidArgument m.
Proof.
  split; [|eexists; vm_compute; reflexivity]. intros a b H. do 4 (destruct a as [|? a]; [discriminate|injection H as _ H]).
  destruct a as [|? a]; [injection H as <-; eauto|]. injection H as _ H. do 2 (destruct a as [|? a]; [discriminate|injection H as _ H]). destruct a; discriminate.
Qed.
Theorem C13_parse_failures_refuted : exists c m, l_src (cs_loc c) <> SrcNone /\ cs_loc c = mkLoc 0 0 (l_src (cs_loc c)) /\
  ParseConstraint pton1 kTableConstraint c = Err Internal m.
Proof. exists (table_src ("a ==" ++ String CR ")")). eexists. split; [discriminate|]. split; [reflexivity|]. vm_compute. reflexivity. Qed.
Print Assumptions C13_parse_failures_refuted.

(** * C14 *)
Inductive prefix : N -> string -> Prop :=
| px_b : prefix 2 "0b" | px_B : prefix 2 "0B" | px_o : prefix 8 "0o" | px_O : prefix 8 "0O"
| px_none : prefix 10 "" | px_d : prefix 10 "0d" | px_D : prefix 10 "0D" | px_x : prefix 16 "0x" | px_X : prefix 16 "0X".
Lemma numeral_lexed b p t n : prefix b p -> Reads b t n -> exists k, base k b /\ spelling k t (p ++ t).
Proof.
  intros Hp Ht. pose proof (Reads_nonempty _ _ _ Ht) as Hne. pose proof (ParserFacts6.Reads_only b t n) as Ho. destruct Hp.
  1,2: exists BINARY; split; [constructor|]; split; [|discriminate]; eexists; apply sh_binary; auto; apply Ho; auto; intros c d Hc Hd; exact (dchar_bound 2 c d Hc Hd ltac:(lia)).
  1,2: exists OCTARY; split; [constructor|]; split; [|discriminate]; eexists; apply sh_octary; auto; apply Ho; auto; intros c d Hc Hd; exact (dchar_bound 8 c d Hc Hd ltac:(lia)).
  1,2,3: exists DECIMAL; split; [constructor|]; split; [|discriminate]; eexists; apply sh_decimal; auto; apply Ho; auto; intros c d Hc Hd; exact (dchar_bound 10 c d Hc Hd ltac:(lia)).
  1,2: exists HEXADEC; split; [constructor|]; split; [|discriminate]; eexists; apply sh_hexadec; auto; apply Ho; auto; intros c d Hc Hd; unfold hexdigit, digit, between in *; destruct Hc; unfold between in *; lia.
Qed.
Theorem C14_numerals : forall pton ck l b p t n, pton_ok pton -> prefix b p -> Reads b t n ->
  exists m d, ParseConstraint pton ck (mkCSource (p ++ t) l) = Ok (EInt m d) /\ Decimal d n.
Proof.
  intros pton ck l b p t n Hpt Hp Ht. destruct (numeral_lexed b p t n Hp Ht) as (k & Hk & Hsp).
  destruct (by_kinds pton Hpt ck (mkCSource (p ++ t) l) [(k, t)] (fun e => exists m d, e = EInt m d /\ Decimal d n)) as (e & He & m & d & -> & Hd).
  - rewrite (kts_loc (mkCSource (p ++ t) l)). cbn [cs_string]. rewrite (kts_tok _ _ _ _ _ (spelling_next _ _ _ Hsp)). reflexivity.
  - intros w Hw. apply map_kt_cons in Hw as (x & w' & -> & Hk' & Hx & Hw'). apply map_kt_nil in Hw' as ->. subst k t. eexists. split; [|eexists _, _; split; [reflexivity|apply dec_N_Decimal]].
    do 8 apply D_up. eapply D_num; [exact Hk|exact Ht|apply dec_N_Decimal].
  - eauto.
Qed.
Print Assumptions C14_numerals.
Example C14_case : prefix 16 "0x" /\ Reads 16 "0aF" 175.
Proof.
  split; [constructor|]. apply (reads_snoc 16 "0a" 10 "F" 15); [|exact (dchar_upper "F" ltac:(split; discriminate))|reflexivity].
  apply (reads_snoc 16 "0" 0 "a" 10); [|exact (dchar_lower "a" ltac:(split; discriminate))|reflexivity].
  apply reads_one; [exact (dchar_digit "0" ltac:(split; discriminate))|reflexivity].
Qed.

(** * C15 *)
(** Any text whose tokens are those of  ty ( 's' ) . *)
Theorem C15_network_addresses : forall pton ck c ty s e, pton_ok pton ->
  map kt (Tokenize c) = [(ID, ty); (LPAR, "("); (STRING, s); (RPAR, ")"); (END_OF_INPUT, "")] ->
  (ParseConstraint pton ck c = Ok e <->
   exists n d t1 t2, Address pton ty s n /\ Decimal d n /\
     nth_error (Tokenize c) 0 = Some t1 /\ nth_error (Tokenize c) 3 = Some t2 /\ e = EInt (at_ (t_start t1) (t_end t2)) d).
Proof.
  intros pton ck c ty s e Hp E. unfold ParseConstraint.
  apply map_kt_cons in E as (t1 & ts & Et & K1 & X1 & E). apply map_kt_cons in E as (t2 & ts2 & -> & K2 & X2 & E).
  apply map_kt_cons in E as (t3 & ts3 & -> & K3 & X3 & E). apply map_kt_cons in E as (t4 & ts4 & -> & K4 & X4 & E).
  apply map_kt_cons in E as (t5 & ts5 & -> & K5 & X5 & E). apply map_kt_nil in E as ->. rewrite Et.
  assert (ParseTokens pton ck [t1; t2; t3; t4; t5] c = MakeNetworkAddressIntegerConstant pton ty s (t_start t1) (t_end t4)) as ->.
  { unfold ParseTokens. cbn zeta. change (parse_fuel [t1; t2; t3; t4; t5]) with 12%nat. rewrite PA_S. unfold initial, ExpectTokenKind. cbn [Peek hd tl]. rewrite K1. cbn [Peek hd tl].
    rewrite K2, kind_eqb_refl, K3, kind_eqb_refl. cbn [Peek hd tl bind]. rewrite K4, kind_eqb_refl. cbn [Peek hd tl bind]. rewrite X1, X3.
    destruct (MakeNetworkAddressIntegerConstant pton ty s (t_start t1) (t_end t4)) as [x| |]; cbn [bind]; try reflexivity.
    rewrite EX_S. cbn [Peek hd tl]. rewrite K5. cbn [stop_kind bind Peek hd tl]. rewrite K5, kind_eqb_refl. reflexivity. }
  rewrite (MakeNetworkAddress_spec pton ty s (t_start t1) (t_end t4) e Hp). cbn [nth_error]. split.
  - intros (n & d & H1 & H2 & H3). exists n, d, t1, t4. auto.
  - intros (n & d & u1 & u2 & H1 & H2 & [= <-] & [= <-] & H3). eauto.
Qed.
Print Assumptions C15_network_addresses.
Example C15_cases :
  map kt (Tokenize (table_src "ipv4('10.0.0.1')")) = [(ID, "ipv4"); (LPAR, "("); (STRING, "10.0.0.1"); (RPAR, ")"); (END_OF_INPUT, "")] /\
  (exists m, ParseConstraint pton1 kTableConstraint (table_src "ipv4('10.0.0.1')") = Ok (EInt m "167772161")) /\
  (exists m, ParseConstraint pton1 kTableConstraint (table_src "mac('00:00:00:00:0a:1')") = Ok (EInt m "2561")) /\
  (exists m, ParseConstraint pton1 kTableConstraint (table_src "ipv6('::1')") = Ok (EInt m "1")) /\
  (exists m, ParseConstraint pton1 kTableConstraint (table_src "ipv4('10.0.0.256')") = Err InvalidArgument m).
Proof. repeat split; try (eexists; vm_compute; reflexivity); vm_compute; reflexivity. Qed.

(** * C16 *)
Lemma path_parsed pton ck l id ids : pton_ok pton -> Forall ident (id :: ids) ->
  exists m, ParseConstraint pton ck (mkCSource (String.concat "." (id :: ids)) l) = Ok (variable ck m (id :: ids)).
Proof.
  intros Hp Hi. destruct (by_kinds pton Hp ck (mkCSource (String.concat "." (id :: ids)) l) ((ID, id) :: flat_map (fun i => [(DOT, "."); (ID, i)]) ids)
    (fun e => exists m, e = variable ck m (id :: ids))) as (e & He & m & ->); [| |eauto].
  - rewrite (kts_loc (mkCSource _ l)). exact (kts_path id ids Hi).
  - intros w Hw. apply map_kt_cons in Hw as (x & w' & -> & Hk & Hx & Hw'). apply dots_of in Hw' as (ts & Hd & Hts).
    eexists. split; [do 8 apply D_up; apply (D_var pton ck x w' ts Hk Hd)|]. cbn [map]. rewrite Hx, Hts. eauto.
Qed.
Theorem C16_table_keys : forall pton l path, pton_ok pton -> path <> [] -> Forall ident path ->
  (exists m, ParseConstraint pton kTableConstraint (mkCSource (String.concat "." path) l) = Ok (EKey m (String.concat "." path))) /\
  (forall path', path' <> [] -> Forall ident path' -> String.concat "." path' = String.concat "." path -> path' = path).
Proof.
  intros pton l [|id ids] Hp Hne Hi; [congruence|]. split; [exact (path_parsed pton kTableConstraint l id ids Hp Hi)|].
  intros path' Hne' Hi' E. exact (concat_dots_inj path' (id :: ids) Hi' Hi Hne' Hne E).
Qed.
Print Assumptions C16_table_keys.
Example C16_case : Forall ident ["hdr"; "x"].
Proof.
  assert (forall s, only letter s -> s <> "" -> (forall u, s <> "true" ++ u) -> (forall u, s <> "false" ++ u) -> ident s) as H.
  { intros s Hs Hne H1 H2. destruct s as [|c s]; [congruence|]. split; [|auto]. exists c, s. split; [reflexivity|]. split; [apply Hs; now left|]. intros d Hd. left. apply Hs. now right. }
  repeat constructor; apply H; try discriminate; intros c; cbn; intuition subst; right; left; split; discriminate.
Qed.
(** Dots in names of action parameters are dropped. *)
Theorem C16_action_parameters : forall pton l path, pton_ok pton -> path <> [] -> Forall ident path ->
  exists m, ParseConstraint pton kActionConstraint (mkCSource (String.concat "." path) l) = Ok (EParam m (String.concat "" path)).
Proof. intros pton l [|id ids] Hp Hne Hi; [congruence|]. exact (path_parsed pton kActionConstraint l id ids Hp Hi). Qed.
Print Assumptions C16_action_parameters.
Theorem C16_parameter_paths_collide : exists m m' n,
  ParseConstraint pton1 kActionConstraint (mkCSource "a.b" default_loc) = Ok (EParam m n) /\
  ParseConstraint pton1 kActionConstraint (mkCSource "ab" default_loc) = Ok (EParam m' n).
Proof. eexists _, _, _. split; vm_compute; reflexivity. Qed.
Print Assumptions C16_parameter_paths_collide.

(** * C49 *)
Theorem C49_quote_shows_line : forall c s e k line from to,
  l_line s = l_line e -> l_line s = (l_line (cs_loc c) + Z.of_nat k)%Z -> (0 <= l_line s)%Z -> LineOf (cs_string c) k line ->
  l_col s = Z.of_nat from -> l_col e = Z.of_nat to -> (from < to)%nat ->
  exists num prev out, Decimal num (Z.to_N (l_line s + 1)) /\
    match k with O => prev = None | S k' => exists p, prev = Some p /\ LineOf (cs_string c) k' p end /\
    Shown prev num line from to out /\ Quote c s e = Ok out.
Proof. exact Quote_shown. Qed.
Print Assumptions C49_quote_shows_line.
(** In particular the marker is exactly under the text of a token. *)
Theorem C49_tokens_stand_at_columns : forall c t, no_bare_CR (cs_string c) -> l_col (cs_loc c) = 0%Z ->
  (forall t, In t (Tokenize c) -> t_kind t = STRING -> no_line_break (t_text t)) ->
  In t (Tokenize c) -> t_kind t <> END_OF_INPUT -> stands (cs_string c) (cs_loc c) t.
Proof.
  intros c t Hcr Hc Hs Ht Hk. pose proof (proj1 (Tokenize_Lex c _) eq_refl) as HL.
  apply (Lex_stands _ _ _ HL "" (cs_loc c) Hcr); auto. exists "", "". split; [reflexivity|]. split; [now left|]. split; [intros d []|]. split; [cbn; lia|exact Hc].
Qed.
Print Assumptions C49_tokens_stand_at_columns.
Example C49_case : Quote (table_src ("a == 1;" ++ nl ++ "bc == 2")) (mkLoc 1 3 (SrcTable "t")) (mkLoc 1 5 (SrcTable "t"))
  = Ok ("  | a == 1;" ++ nl ++ "2 | bc == 2" ++ nl ++ "  |    ^^" ++ nl).
Proof. vm_compute. reflexivity. Qed.

(** * C50 *)
(** Exactly when quoting throws. *)
Theorem C50_quote_crash_partial : forall c s e, (exists w, Quote c s e = Crash w) <->
  s <> e /\ exists line num, LineOf (cs_string c) (Z.to_nat (l_line s - l_line (cs_loc c))) line /\ num = dec (l_line s + 1) /\
    (l_col s < 0 \/ (l_line s = l_line e /\ l_col e < l_col s) \/
     (l_line s <> l_line e /\ Z.of_nat (String.length line) < Z.of_nat (String.length num) + 3 + l_col s))%Z.
Proof. exact Quote_crash. Qed.
Print Assumptions C50_quote_crash_partial.
Theorem C50_quote_one_line_partial : forall c s e w, l_line s = l_line e -> (0 <= l_col s <= l_col e)%Z -> Quote c s e <> Crash w.
Proof. intros c s e w Hl Hc H. assert (exists w, Quote c s e = Crash w) as Hx by eauto. apply Quote_crash in Hx as (_ & line & num & _ & _ & Hx). lia. Qed.
Print Assumptions C50_quote_one_line_partial.
Example C50_case : (exists w, Quote (table_src ("a" ++ nl ++ "== 1")) (mkLoc 0 0 (SrcTable "t")) (mkLoc 1 4 (SrcTable "t")) = Crash w) /\
  exists q, Quote (table_src "a == 1") (mkLoc 0 0 (SrcTable "t")) (mkLoc 0 6 (SrcTable "t")) = Ok q.
Proof. split; eexists; vm_compute; reflexivity. Qed.
(** Quoting a parsed constraint throws. *)
Theorem C50_quote_crash_refuted : exists c e w, ParseConstraint pton1 kTableConstraint c = Ok e /\ QuoteSubConstraint c (e_start e) (e_end e) = Crash w.
Proof. exists (table_src ("a" ++ nl ++ "== 1")). eexists _, _. split; vm_compute; reflexivity. Qed.
Print Assumptions C50_quote_crash_refuted.
