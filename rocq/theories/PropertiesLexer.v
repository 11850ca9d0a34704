(** C01-C07, C54: the lexer. *)
From Coq Require Import String Ascii List ZArith NArith Bool Lia.
From Verif Require Import Base Token Lexer SpecLexer SpecLocations LexerFacts4 LexerFacts5 LexerFacts6 LexerFacts7 LexerFacts8.
Import ListNotations.
Open Scope string_scope.

(** [kts_at] is the sequence of token kinds and texts of a source. *)
Definition kts_at (l : loc) (s : string) : list (kind * string) := map kt (Tokenize (mkCSource s l)).
Lemma kts_at_kts l s : kts_at l s = kts s.
Proof. exact (kts_loc (mkCSource s l)). Qed.

(** The lexer computes exactly the specified tokens, with locations. *)
Theorem C02_lexer_meets_spec : forall c ts,
  Tokenize c = ts <-> Lex (cs_loc c) (cs_string c) ts.
Proof. exact Tokenize_Lex. Qed.
Print Assumptions C02_lexer_meets_spec.

Theorem C01_tokenize_total_one_sentinel : forall c, exists init last,
  Tokenize c = (init ++ [last])%list /\
  sentinel (t_kind last) /\
  (forall t, In t init -> ~ sentinel (t_kind t)) /\
  (t_kind last = END_OF_INPUT <-> exists chunks, Tiles (cs_string c) chunks "").
Proof.
  intros c. pose proof (proj1 (Tokenize_Lex c _) eq_refl) as H.
  destruct (Lex_sentinel _ _ _ H) as (init & last & E & H1 & H2).
  exists init, last. split; [exact E|]. split; [exact H1|]. split; [exact H2|]. exact (Lex_end_iff _ _ _ _ _ H E).
Qed.
Print Assumptions C01_tokenize_total_one_sentinel.
Example C01_end : map t_kind (Tokenize (mkCSource "a == 1" default_loc)) = [ID; EQ; DECIMAL; END_OF_INPUT].
Proof. vm_compute. reflexivity. Qed.
Example C01_stuck : map t_kind (Tokenize (mkCSource "a # 1" default_loc)) = [ID; UNEXPECTED_CHAR].
Proof. vm_compute. reflexivity. Qed.

(** The source is the lexemes, in order, and what is left behind an unexpected
    character; there is exactly one way to cut it. *)
Theorem C02_lexemes_tile_source : forall c, exists chunks rest,
  Tiles (cs_string c) chunks rest /\
  (forall chunks' rest', Tiles (cs_string c) chunks' rest' -> chunks' = chunks /\ rest' = rest) /\
  cs_string c = concat_strings (map fst chunks) ++ rest /\
  (forall lx it, In (lx, it) chunks -> exists n, shape n lx it) /\
  map kt (Tokenize c) =
    (tokens_of chunks ++
     [match rest with "" => (END_OF_INPUT, "") | String c _ => (UNEXPECTED_CHAR, String c "") end])%list.
Proof.
  intros c. pose proof (proj1 (Tokenize_Lex c _) eq_refl) as H.
  destruct (Lex_Tiles _ _ _ H) as (chunks & rest & HT & E). exists chunks, rest.
  split; [exact HT|]. split; [intros c' r' H'; destruct (Tiles_fun _ _ _ _ _ HT H'); auto|].
  split; [exact (Tiles_app _ _ _ HT)|]. split; [|exact E].
  clear - HT. induction HT as [s Hno|s lx it rest chunks stop Hx HT IH]; intros lx' it' Hin; [destruct Hin|].
  destruct Hin as [Hin|Hin]; [injection Hin as <- <-; exact (next_shape _ _ _ _ Hx)|eauto].
Qed.
Print Assumptions C02_lexemes_tile_source.
Example C02_case : map kt (Tokenize (mkCSource "a/* x */!=0x1F// z" default_loc))
  = [(ID, "a"); (NE, "!="); (HEXADEC, "1F"); (END_OF_INPUT, "")].
Proof. vm_compute. reflexivity. Qed.

(** Missing: quoted strings that contain a line break; see the refutation. *)
Theorem C03_token_locations_partial : forall c,
  (forall t, In t (Tokenize c) -> t_kind t = STRING -> no_line_break (t_text t)) ->
  Placed (cs_loc c) "" (cs_string c) (Tokenize c).
Proof.
  intros c H. apply (Lex_Placed _ _ (cs_loc c)); [now apply Tokenize_Lex|reflexivity| |exact H].
  intros [[z Hz] _]. destruct z; discriminate.
Qed.
Print Assumptions C03_token_locations_partial.
Example C03_case : map (fun t => (l_line (t_start t), l_col (t_start t))) (Tokenize (mkCSource ("a ==" ++ nl ++ "  1") default_loc))
  = [(0, 0); (0, 2); (1, 2); (1, 3)]%Z.
Proof. vm_compute. reflexivity. Qed.
(** The rule places exactly one token sequence's last location: the location of
    the end of input. *)
Lemma Placed_end_loc l0 pre s ts init last : Placed l0 pre s ts -> ts = (init ++ [last])%list ->
  t_kind last = END_OF_INPUT -> t_start last = advance (pre ++ s) l0.
Proof.
  intros H. revert init. induction H as [pre|pre c s|pre gap s ts H IH|pre n lx k t s ts Hn H IH]; intros init E Hk.
  - destruct init as [|x [|y init]]; try discriminate E. injection E as <-. cbn. now rewrite StrFacts.sapp_nil_r.
  - destruct init as [|x [|y init]]; try discriminate E. injection E as <-. discriminate Hk.
  - rewrite <- StrFacts.sapp_assoc. eauto.
  - rewrite <- StrFacts.sapp_assoc. destruct init as [|x init].
    + injection E as <- E. subst ts. exfalso. clear IH. remember [] as ts eqn:Ets. induction H; try discriminate; auto.
    + injection E as _ E. eauto.
Qed.
(** For every source: the rule, applied to the source with each byte of a quoted
    string counted as one column. (By C02 every source has its [Tiles].) *)
Theorem C03_all_sources : forall c chunks rest, Tiles (cs_string c) chunks rest ->
  (forall before lx k t after, chunks = (before ++ (lx, Tok k t) :: after)%list ->
     nth_error (Tokenize c) (List.length (tokens_of before)) =
     Some (mkTok k t (advance (seen before) (cs_loc c)) (advance (seen (before ++ [(lx, Tok k t)])) (cs_loc c)))) /\
  nth_error (Tokenize c) (List.length (tokens_of chunks)) =
    (let l := advance (seen chunks) (cs_loc c) in
     Some (match rest with
           | "" => mkTok END_OF_INPUT "" l l
           | String b _ => mkTok UNEXPECTED_CHAR (String b "") l (shift 1 l)
           end)) /\
  List.length (Tokenize c) = S (List.length (tokens_of chunks)).
Proof.
  intros c chunks rest HT. destruct (Tokenize_seen c chunks rest HT) as [H1 H2]. split; [exact H2|]. split; [exact H1|].
  rewrite <- (map_length kt), (kts_loc c), (kts_of_Tiles _ _ _ HT), app_length. cbn. lia.
Qed.
Print Assumptions C03_all_sources.
Example C03_case_all : map (fun t => (t_kind t, l_line (t_start t), l_col (t_start t)))
    (Tokenize (mkCSource ("'" ++ nl ++ "' x") default_loc))
  = [(STRING, 0, 0); (ID, 0, 4); (END_OF_INPUT, 0, 5)]%Z /\
  seen [("'" ++ nl ++ "'", Tok STRING nl); (" ", Skip)] = "xxx ".
Proof. vm_compute. auto. Qed.
Theorem C03_token_locations_refuted : exists c, ~ Placed (cs_loc c) "" (cs_string c) (Tokenize c).
Proof.
  exists (mkCSource ("'" ++ nl ++ "'") default_loc). intros H.
  set (ts := Tokenize _) in H. vm_compute in ts.
  pose proof (Placed_end_loc _ _ _ ts [List.hd (mkTok ID "" default_loc default_loc) ts] (List.last ts (mkTok ID "" default_loc default_loc)) H eq_refl eq_refl) as E.
  vm_compute in E. discriminate E.
Qed.
Print Assumptions C03_token_locations_refuted.

Theorem C04_render_relex : forall l toks,
  (forall k t sp sep, In (k, t, sp, sep) toks -> spelling k t sp /\ white sep /\ sep <> "") ->
  map kt (Tokenize (mkCSource (render toks) l)) =
  (map (fun '(k, t, _, _) => (k, t)) toks ++ [(END_OF_INPUT, "")])%list.
Proof. intros l toks H. rewrite (kts_loc (mkCSource (render toks) l)). exact (kts_render toks H). Qed.
Print Assumptions C04_render_relex.
Example C04_case : forall k t sp sep,
  In (k, t, sp, sep) [(MINUS, "-", "-", " "); (HEXADEC, "1f", "0x1f", " "); (ID, "b1", "b1", nl)] ->
  spelling k t sp /\ white sep /\ sep <> "".
Proof.
  intros k t sp sep [H|[H|[H|[]]]]; injection H as <- <- <- <-; (split; [split|split; [|discriminate]]).
  1,4,7: eexists; first
    [ apply sh_fixed; cbn; tauto
    | apply (sh_hexadec "0x" "1f"); [auto|discriminate|intros c [<-|[<-|[]]]; unfold hexdigit, digit, between; cbn; lia]
    | apply sh_id; [right; left; unfold between; cbn; lia|intros c [<-|[]]; right; unfold digit, between; cbn; lia] ].
  1,3,5: intros Hk; try discriminate Hk; split; intros u; discriminate.
  1,2,3: intros c [<-|[]]; unfold blank; tauto.
Qed.

(** A gap in front of a text, or between two texts of which the first is complete. *)
Theorem C05_gap_in_front : forall l l' g s, gap g ->
  map kt (Tokenize (mkCSource (g ++ s) l)) = map kt (Tokenize (mkCSource s l')).
Proof.
  intros l l' g s H. rewrite (kts_loc (mkCSource (g ++ s) l)), (kts_loc (mkCSource s l')). exact (kts_gap g s H).
Qed.
Print Assumptions C05_gap_in_front.
Theorem C05_gap_between : forall l la lb a g b init,
  map kt (Tokenize (mkCSource a la)) = (init ++ [(END_OF_INPUT, "")])%list ->
  ~ ends_in_comment a -> gap g -> g <> "" ->
  map kt (Tokenize (mkCSource (a ++ g ++ b) l)) =
  (init ++ map kt (Tokenize (mkCSource b lb)))%list.
Proof.
  intros l la lb a g b init Ha Hc Hg Hne.
  rewrite (kts_loc (mkCSource a la)) in Ha. rewrite (kts_loc (mkCSource (a ++ g ++ b) l)), (kts_loc (mkCSource b lb)).
  cbn [cs_string] in *. rewrite (kts_app a init (g ++ b) Ha Hc).
  - f_equal. exact (kts_gap g b Hg).
  - inversion Hg as [|c s Hb H|x s Hb H|t s Ht Ho H|t x s Ht Hb H]; subst; [congruence|..].
    + exists c, (s ++ b). auto.
    + destruct Hb as [->|[->| ->]]; eexists _, _; (split; [reflexivity|auto]).
    + eexists _, _; (split; [reflexivity|auto]).
    + eexists _, _; (split; [reflexivity|auto]).
Qed.
Print Assumptions C05_gap_between.
(** The text behind the line feed of a line comment and behind a closed comment
    is a gap, and "a" is a complete text that does not end in a comment. *)
Lemma runes_char (bad : ascii -> Prop) c s : (N_of_ascii c < 128)%N -> ~ bad c -> runes bad s -> runes bad (String c s).
Proof. intros Hc Hb Hs. apply (runes_cons bad (String c "")); [now constructor|now intros d [= <-]|exact Hs]. Qed.
Example C05_gap_case : gap ("/* x */" ++ nl ++ "// y" ++ nl).
Proof.
  apply (gap_block " x " (nl ++ "// y" ++ nl)).
  - repeat (apply runes_char; [reflexivity|intros []|]). constructor.
  - intros (a & b & H). repeat (destruct a as [|? a]; [discriminate|try discriminate; injection H as _ H]).
  - apply (gap_break nl ("// y" ++ nl)); [unfold line_break, nl, str1; auto|].
    apply (gap_line " y" nl ""); [|unfold line_break, nl, str1; auto|constructor].
    repeat (apply runes_char; [reflexivity|intros [H|H]; discriminate|]). constructor.
Qed.
Example C05_no_comment_case : ~ ends_in_comment "a".
Proof.
  intros (chunks & lx & H & Hlx).
  apply Tiles_app in H. rewrite StrFacts.sapp_nil_r, map_app in H.
  assert (forall l, concat_strings (l ++ [lx]) = concat_strings l ++ lx) as E.
  { induction l as [|x l IH]; cbn; [now rewrite StrFacts.sapp_nil_r|now rewrite IH, StrFacts.sapp_assoc]. }
  cbn [map] in H. rewrite E in H. destruct (concat_strings (map fst chunks)) as [|c x].
  - destruct Hlx as [[t ->]|[t [-> _]]]; discriminate.
  - injection H as _ H. symmetry in H. apply StrFacts.sapp_eq_nil in H as [_ ->].
    destruct Hlx as [[t Ht]|[t [Ht _]]]; discriminate.
Qed.

(** Missing: words that start with [true] or [false]; see the refutation. *)
Theorem C06_identifiers_partial : forall l w, word w ->
  (map kt (Tokenize (mkCSource w l)) = [(ID, w); (END_OF_INPUT, "")] <->
   (forall u, w <> "true" ++ u) /\ (forall u, w <> "false" ++ u)).
Proof. intros l w H. rewrite (kts_loc (mkCSource w l)). exact (kts_word w H). Qed.
Print Assumptions C06_identifiers_partial.
Theorem C06_identifiers_refuted : exists w, word w /\ w <> "true" /\ w <> "false" /\
  forall l, map kt (Tokenize (mkCSource w l)) = [(TRUE, "true"); (ID, "ish"); (END_OF_INPUT, "")].
Proof.
  exists "trueish". split; [|split; [discriminate|split; [discriminate|]]].
  - exists "t"%char, "rueish". split; [reflexivity|]. split; [right; left; split; discriminate|].
    intros c H. left. cbn in H. repeat (destruct H as [<-|H]; [right; left; split; discriminate|]). destruct H.
  - intros l. rewrite (kts_loc (mkCSource "trueish" l)). vm_compute. reflexivity.
Qed.
Print Assumptions C06_identifiers_refuted.
Example C06_case : word "x_1".
Proof.
  exists "x"%char, "_1". split; [reflexivity|]. split; [right; left; split; discriminate|].
  intros c [<-|[<-|[]]]; [left; now left|right; split; discriminate].
Qed.

Theorem C07_keywords_bijection :
  (forall k s, KindToKeyword k = s <-> KeywordToKind s = Some k) /\
  (forall k, In k kAllKinds) /\ NoDup kAllKinds /\
  (forall k t, In (k, t) fixed_spelling -> KindToKeyword k = t) /\
  (forall l k, ~ In k [ID; BINARY; OCTARY; DECIMAL; HEXADEC; STRING; END_OF_INPUT; UNEXPECTED_CHAR] ->
     map kt (Tokenize (mkCSource (KindToKeyword k) l)) = [(k, KindToKeyword k); (END_OF_INPUT, "")]).
Proof.
  split; [intros k s; split; [intros <-; apply keyword_inverse|apply keyword_inverse2]|].
  split; [exact kinds_complete|]. split; [exact kinds_nodup|]. split; [exact fixed_keyword|].
  intros l k H. rewrite (kts_loc (mkCSource (KindToKeyword k) l)). exact (keyword_lexed k H).
Qed.
Print Assumptions C07_keywords_bijection.
Example C07_case : ~ In IMPLIES [ID; BINARY; OCTARY; DECIMAL; HEXADEC; STRING; END_OF_INPUT; UNEXPECTED_CHAR] /\
  KindToKeyword IMPLIES = "->" /\ KeywordToKind "->" = Some IMPLIES /\
  map kt (Tokenize (mkCSource "->" (mkLoc 0 0 (SrcTable "t")))) = [(IMPLIES, "->"); (END_OF_INPUT, "")].
Proof. split; [intros H; repeat destruct H as [H|H]; try discriminate H; exact H|]. repeat split; vm_compute; reflexivity. Qed.

(** The debug assertion behind the comment loop (lexer.cc:64). *)
Theorem C54_comment_assertion_partial : forall s, runes (fun _ => False) s ->
  swallow_dcheck (String.length s) s = true.
Proof. exact swallow_dcheck_valid. Qed.
Print Assumptions C54_comment_assertion_partial.
Theorem C54_comment_assertion_refuted : exists s, swallow_dcheck (String.length s) s = false.
Proof. exists (String (ascii_of_N 128) ""). vm_compute. reflexivity. Qed.
Print Assumptions C54_comment_assertion_refuted.
