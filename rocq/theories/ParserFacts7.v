(** Parse failures. *)
From Coq Require Import String Ascii List ZArith NArith Bool Lia ZifyBool ZifyN ZifyNat.
From Verif Require Import Base Num Token Ast Lexer Quote AstConstructors Parser SpecLexer SpecGrammar SpecParser SpecQuote StrFacts LexerFacts2 LexerFacts4 LexerFacts5
  NumFacts LiteralFacts QuoteFacts ParserFacts ParserFacts2 ParserFacts3 ParserFacts4 ParserFacts5.
Import ListNotations.
Open Scope string_scope.

(** * Quoting a token of the lexer succeeds *)
Definition lexed_at (l0 : loc) (text : string) (t : token) : Prop :=
  l_line (t_start t) = l_line (t_end t) /\ (l_line l0 <= l_line (t_start t))%Z /\ (0 <= l_col (t_start t) <= l_col (t_end t))%Z /\
  (t_start t = t_end t \/ exists a b, text = a ++ b /\ b <> "" /\ (l_line (t_start t) <= l_line l0 + Z.of_nat (breaks a))%Z).
Lemma Lex_lines l s ts : Lex l s ts -> forall pre l0, no_bare_CR s -> (l_line l0 <= l_line l <= l_line l0 + Z.of_nat (breaks pre))%Z -> (0 <= l_col l)%Z ->
  Forall (lexed_at l0 (pre ++ s)) ts.
Proof.
  induction 1 as [l|l c s Hno|l s lx rest ts Hx H IH|l s lx k t rest ts Hx H IH]; intros pre l0 Hcr Hl Hc.
  - constructor; [|constructor]. unfold lexed_at. cbn. split; [reflexivity|]. split; [lia|]. split; [lia|]. now left.
  - constructor; [|constructor]. unfold lexed_at. cbn. split; [reflexivity|]. split; [lia|]. split; [lia|]. right. exists pre, (String c s).
    split; [reflexivity|]. split; [discriminate|lia].
  - pose proof (next_no_split _ _ _ _ Hx) as Hns. apply next_app in Hx. subst s.
    pose proof (no_bare_app_l _ _ Hcr Hns) as Hlx. apply no_bare_app in Hcr. rewrite <- sapp_assoc. apply IH; [exact Hcr| |].
    + rewrite (advance_line lx l Hlx), breaks_app. lia.
    + clear - Hc. revert l Hc. assert (forall n s l, (String.length s <= n)%nat -> (0 <= l_col l)%Z -> (0 <= l_col (advance s l))%Z) as H; [|eauto].
      induction n as [|n IH]; intros [|c t] l Hl Hc; cbn [advance]; try lia; [cbn in Hl; lia|]. cbn in Hl.
      destruct (Ascii.eqb c LF); [apply IH; cbn; lia|]. destruct (Ascii.eqb c CR); [|apply IH; cbn; lia].
      destruct t as [|d t]; [cbn; lia|]. destruct (Ascii.eqb d LF); apply IH; cbn in *; lia.
  - destruct (next_shape _ _ _ _ Hx) as [n Hn]. apply shape_nonempty in Hn. apply next_app in Hx. subst s. constructor.
    + unfold lexed_at. cbn. split; [reflexivity|]. split; [lia|]. split; [lia|]. right. exists pre, (lx ++ rest).
      split; [reflexivity|]. split; [destruct lx; [congruence|discriminate]|lia].
    + rewrite <- sapp_assoc. apply IH; [now apply no_bare_app in Hcr| |cbn; lia]. cbn. rewrite breaks_app. lia.
Qed.
Definition quotable (src : csource) (t : token) : Prop := exists q, QuoteSubConstraint src (t_start t) (t_end t) = Ok q.
Lemma source_eqb_refl s : source_eqb s s = true.
Proof. destruct s; cbn; auto using String.eqb_refl. Qed.
Lemma loc_proto_equal_refl l : loc_proto_equal l l = true.
Proof. unfold loc_proto_equal. now rewrite !Z.eqb_refl, source_eqb_refl. Qed.
Lemma lexed_quotable src t : l_src (cs_loc src) <> SrcNone -> lexed_at (cs_loc src) (cs_string src) t ->
  l_src (t_start t) = l_src (cs_loc src) -> l_src (t_end t) = l_src (cs_loc src) -> quotable src t.
Proof.
  intros Hs (H1 & H2 & H3 & H4) E1 E2. unfold quotable, QuoteSubConstraint, HaveSameSource. rewrite E1, E2, source_eqb_refl. cbn [negb orb].
  assert (exists x, Explain (t_start t) (t_end t) = Ok x) as [x ->].
  { unfold Explain. rewrite E1. destruct (l_src (cs_loc src)); eauto. congruence. }
  cbn [bind]. enough (exists q, Quote src (t_start t) (t_end t) = Ok q) as [q ->] by (cbn; eauto).
  destruct (loc_proto_equal (t_start t) (t_end t)) eqn:Eq; [unfold Quote; rewrite Eq; eauto|].
  destruct H4 as [E|(a & b & Es & Hb & Hl)]; [rewrite E, loc_proto_equal_refl in Eq; discriminate|].
  destruct (nth_error (getlines (cs_string src)) (Z.to_nat (l_line (t_start t) - l_line (cs_loc src)))) as [line|] eqn:En.
  - rewrite (Quote_key _ _ _ line Eq En). unfold std_string_fill. rewrite H1, Z.eqb_refl.
    replace (l_col (t_start t) <? 0)%Z with false by lia. cbn [bind].
    replace (l_col (t_end t) - l_col (t_start t) <? 0)%Z with false by lia. cbn [bind]. eauto.
  - exfalso. apply nth_error_None in En. pose proof (getlines_count a b Hb). rewrite <- Es in H. lia.
Qed.

Section S.
  Variable pton : inet_pton6.
  Variable ck : constraint_kind.
  Variable src : csource.
  Variable eof : loc.
  (** [Q]: the tokens that may be blamed. *)
  Variable Q : token -> Prop.
  Hypothesis Heof : Q (mkTok END_OF_INPUT "" eof eof).
  Notation PA := (parse_above pton ck src eof).
  Notation EX := (extend pton ck src eof).
  Definition good (ts : list token) : Prop := Forall Q ts /\ Forall numeral_text ts.
  Definition quote_fails (t : token) {A} (r : outcome A) : Prop :=
    match r with
    | Err Internal m => exists c q text, QuoteSubConstraint src (t_start t) (t_end t) = Err c q /\ m = "Failed to quote sub-constraint: " ++ StableStatusToString c q ++ text
    | Crash w => QuoteSubConstraint src (t_start t) (t_end t) = Crash w
    | _ => False
    end.
  Definition ia {A} (P : A -> Prop) (r : outcome A) : Prop :=
    match r with Ok a => P a | Err InvalidArgument _ | Crash ModelOutOfFuel => True | _ => exists t, Q t /\ quote_fails t r end.
  Lemma ia_bind {A B} (P : A -> Prop) (R : B -> Prop) (x : outcome A) (f : A -> outcome B) :
    ia P x -> (forall a, P a -> ia R (f a)) -> ia R (bind x f).
  Proof. destruct x as [a|[]|[]]; cbn; auto. Qed.
  Lemma ia_error {A} (P : A -> Prop) t text : Q t -> ia P (ParseError t src text).
  Proof.
    intros Ht. unfold ParseError, ParseErrorAt. destruct (QuoteSubConstraint src (t_start t) (t_end t)) as [q|c m|w] eqn:E; cbn [ia]; [exact I| |].
    - exists t. split; [exact Ht|]. cbn. exists c, m, text. split; [exact E|reflexivity].
    - destruct w; try exact I; exists t; (split; [exact Ht|exact E]).
  Qed.
  Lemma ia_unexpected {A} (P : A -> Prop) t l : Q t -> ia P (Unexpected t l src).
  Proof. intros H. unfold Unexpected. destruct (kind_eqb _ _); now apply ia_error. Qed.
  Lemma good_peek ts : good ts -> Q (Peek eof ts).
  Proof. intros [H _]. destruct H; [exact Heof|assumption]. Qed.
  Lemma good_tl ts : good ts -> good (tl ts).
  Proof. intros [H1 H2]. destruct ts; [split; assumption|]. inversion H1; inversion H2; split; assumption. Qed.
  Lemma good_num ts : good ts -> numeral_text (Peek eof ts).
  Proof. intros [_ H]. destruct H; [exact I|assumption]. Qed.
  Lemma ia_expect k ts : good ts -> ia (fun x => t_kind (fst x) = k /\ good (snd x)) (ExpectTokenKind src eof k ts).
  Proof.
    intros H. unfold ExpectTokenKind. destruct (kind_eqb_spec (t_kind (Peek eof ts)) k) as [E|E]; [|now apply ia_unexpected, good_peek].
    cbn. split; [exact E|now apply good_tl].
  Qed.
  Lemma ia_ids n : forall ts, (List.length ts <= n)%nat -> good ts ->
    ia (fun x => Forall (fun t => t_kind t = ID) (fst x) /\ good (snd x)) (parse_ids src eof ts).
  Proof.
    induction n as [|n IH]; intros ts Hl H.
    - destruct ts; [cbn; split; [constructor|exact H]|cbn in Hl; lia].
    - destruct ts as [|t ts]; [cbn; split; [constructor|exact H]|]. cbn [parse_ids].
      destruct (kind_eqb _ _); [|cbn; split; [constructor|exact H]].
      destruct ts as [|i ts]; [now apply ia_unexpected|]. apply good_tl in H as H'. cbn [tl] in H'.
      destruct (kind_eqb_spec (t_kind i) ID) as [E|E]; [|apply ia_unexpected; exact (good_peek _ H')].
      eapply ia_bind; [apply IH; [cbn in Hl; lia|exact (good_tl _ H')]|]. intros [ids rest] [A B]. cbn in *. split; [now constructor|exact B].
  Qed.
  Lemma ia_numeral b t : base (t_kind t) b -> numeral_text t -> ia (fun _ => True) (MakeIntegerConstant t).
  Proof.
    intros Hb Ht. assert (exists n, Reads b (t_text t) n) as [n Hn] by (unfold numeral_text in Ht; destruct Hb; exact Ht).
    unfold MakeIntegerConstant, ConvertNumeral. destruct Hb; rewrite (mpz_set_str_Reads _ _ _ Hn); exact I.
  Qed.
  Lemma ia_addr a b s e : ia (fun _ => True) (MakeNetworkAddressIntegerConstant pton a b s e).
  Proof.
    unfold MakeNetworkAddressIntegerConstant.
    assert (forall n conv ss z, (forall s, ia (fun _ => True) (conv s)) -> ia (fun _ => True) (push_bytes n conv ss z)) as Hpush.
    { intros n conv ss z Hc. revert z. induction ss as [|x ss IH]; intros z; cbn; [exact I|]. eapply ia_bind; [apply Hc|]. auto. }
    eapply (ia_bind (fun bits => exists v, Reads 2 bits v)).
    - destruct (String.eqb a "ipv4"); [|destruct (String.eqb a "ipv6"); [|destruct (String.eqb a "mac"); [|exact I]]].
      + unfold Ipv4StringToByteString. destruct (negb _); [exact I|]. eapply ia_bind; [apply Hpush|].
        * intros x. unfold Base10StringToByte. destruct (_ || _)%bool; [exact I|]. eapply (ia_bind (fun _ => True)).
          -- generalize 0%N. generalize x at 2. intros y. induction y as [|c y IH]; intros acc; cbn [base10_loop]; [exact I|].
             destruct (is_digit c); [apply IH|exact I].
          -- intros n _. destruct (_ <? _)%N; exact I.
        * intros v _. cbn [ia]. eexists. apply bits_string_Reads_mod. lia.
      + unfold Ipv6StringToByteString. destruct (pton _); [|exact I]. cbn [ia]. eexists. apply bits_string_Reads_mod. lia.
      + unfold MacStringToByteString. destruct (negb _); [exact I|]. eapply ia_bind; [apply Hpush|].
        * intros x. unfold Base16StringToByte. destruct (_ || _)%bool; [exact I|]. eapply (ia_bind (fun _ => True)).
          -- generalize 0%N. generalize x at 2. intros y. induction y as [|c y IH]; intros acc; cbn [base16_loop]; [exact I|].
             destruct (is_hex c); [apply IH|exact I].
          -- intros n _. exact I.
        * intros v _. cbn [ia]. eexists. apply bits_string_Reads_mod. lia.
    - intros bits [v Hv]. unfold ConvertNumeral. cbn [t_kind t_text]. rewrite (mpz_set_str_Reads _ _ _ Hv). exact I.
  Qed.
  Lemma ia_parse f : (forall ts ctx, good ts -> ia (fun x => good (snd x)) (PA f ts ctx)) /\
    (forall e ts ctx, good ts -> ia (fun x => good (snd x)) (EX f e ts ctx)).
  Proof.
    induction f as [|f [IHp IHe]]; [split; intros; exact I|]. split.
    - intros ts ctx H. rewrite PA_S. eapply (ia_bind (fun x => good (snd x))); [|intros [a ts'] H'; now apply IHe].
      unfold initial. cbn zeta. pose proof (good_peek _ H) as Hq. pose proof (good_num _ H) as Hn. pose proof (good_tl _ H) as Ht.
      destruct (t_kind (Peek eof ts)) eqn:Ek; try (now apply ia_unexpected).
      + unfold MakeBooleanConstant. rewrite Ek. exact Ht.
      + unfold MakeBooleanConstant. rewrite Ek. exact Ht.
      + eapply ia_bind; [now apply IHp|]. intros [a ts'] H'. unfold MakeBooleanNegation. rewrite Ek. exact H'.
      + eapply ia_bind; [now apply IHp|]. intros [a ts'] H'. unfold MakeArithmeticNegation. rewrite Ek. exact H'.
      + eapply ia_bind; [now apply ia_expect|]. intros [a ts'] [_ H']. exact H'.
      + eapply ia_bind; [now apply IHp|]. intros [a ts'] H'. eapply ia_bind; [now apply ia_expect|]. intros [a2 ts2] [_ H2]. exact H2.
      + destruct (kind_eqb _ _).
        * eapply ia_bind; [apply ia_expect; now apply good_tl|]. intros [a ts'] [_ H']. eapply ia_bind; [now apply ia_expect|].
          intros [a2 ts2] [_ H2]. eapply ia_bind; [apply ia_addr|]. intros ? _. exact H2.
        * eapply ia_bind; [now apply (ia_ids _ _ (le_n _))|]. intros [ids ts'] [Hids H']. cbn [fst snd] in *.
          eapply (ia_bind (fun _ => True)); [|intros ? _; exact H'].
          unfold MakeVariable. assert (forallb (fun t => kind_eqb (t_kind t) ID) (Peek eof ts :: ids) = true) as ->.
          { cbn [forallb]. rewrite Ek, kind_eqb_refl. cbn [andb]. clear - Hids. induction Hids as [|i l Hi H IH]; [reflexivity|]. cbn [forallb]. now rewrite Hi, kind_eqb_refl. }
          cbn. destruct ck; exact I.
      + eapply ia_bind; [apply (ia_numeral 2); [rewrite Ek; constructor|exact Hn]|]. intros ? _. exact Ht.
      + eapply ia_bind; [apply (ia_numeral 8); [rewrite Ek; constructor|exact Hn]|]. intros ? _. exact Ht.
      + eapply ia_bind; [apply (ia_numeral 10); [rewrite Ek; constructor|exact Hn]|]. intros ? _. exact Ht.
      + eapply ia_bind; [apply (ia_numeral 16); [rewrite Ek; constructor|exact Hn]|]. intros ? _. exact Ht.
    - intros e ts ctx H. rewrite EX_S. cbn zeta. pose proof (good_peek _ H) as Hq. pose proof (good_tl _ H) as Ht.
      destruct (stop_kind _); [exact H|]. destruct (ext_kind (t_kind (Peek eof ts))) eqn:Ex; [|now apply ia_unexpected].
      destruct (_ && _)%bool; [now apply ia_error|]. destruct (_ || _)%bool; [exact H|].
      destruct (_ && _)%bool; [exact Ht|]. destruct (kind_eqb_spec (t_kind (Peek eof ts)) DOUBLE_COLON) as [E|E].
      + eapply ia_bind; [now apply ia_expect|]. intros [a ts'] [Hk H']. cbn [fst snd] in *. unfold MakeFieldAccess. rewrite Hk. cbn [kind_eqb]. rewrite kind_eqb_refl.
        cbn [ret_check bind]. now apply IHe.
      + eapply ia_bind; [now apply IHp|]. intros [a ts'] H'. unfold MakeBinaryExpression.
        assert (exists o, ConvertBinaryOperator (t_kind (Peek eof ts)) = Ok o) as [o ->] by (destruct (t_kind (Peek eof ts)); try discriminate; try congruence; eexists; reflexivity).
        cbn [bind]. now apply IHe.
  Qed.
End S.
(** Every failure to parse is InvalidArgument, or a failure to quote a token. *)
Lemma parse_outcome pton ck ts src : Forall numeral_text ts ->
  (exists e, ParseTokens pton ck ts src = Ok e) \/ (exists m, ParseTokens pton ck ts src = Err InvalidArgument m) \/
  exists t, (In t ts \/ t = mkTok END_OF_INPUT "" (eof_location ts) (eof_location ts)) /\ quote_fails src t (ParseTokens pton ck ts src).
Proof.
  intros H2. pose proof (ParseTokens_fuel pton ck src ts) as Hf. set (Q := fun t => In t ts \/ t = mkTok END_OF_INPUT "" (eof_location ts) (eof_location ts)).
  assert (ia src Q (fun _ => True) (ParseTokens pton ck ts src)) as H.
  { unfold ParseTokens. cbn zeta. eapply (ia_bind src Q); [apply (proj1 (ia_parse pton ck src _ Q (or_intror eq_refl) _)); split; [|assumption]|].
    { apply Forall_forall. intros t Ht. now left. }
    intros [a rest] Hr. eapply (ia_bind src Q); [now apply (ia_expect src _ Q (or_intror eq_refl))|]. intros [? ?] _. exact I. }
  destruct (ParseTokens pton ck ts src) as [e|[] m|[]]; cbn [ia] in H; try tauto; try (right; right; exact H); eauto.
Qed.
Lemma parse_errors pton ck ts src : Forall (quotable src) ts -> Forall numeral_text ts ->
  quotable src (mkTok END_OF_INPUT "" (eof_location ts) (eof_location ts)) ->
  (exists e, ParseTokens pton ck ts src = Ok e) \/ (exists m, ParseTokens pton ck ts src = Err InvalidArgument m).
Proof.
  intros H1 H2 H3. destruct (parse_outcome pton ck ts src H2) as [H|[H|(t & Ht & H)]]; [now left|now right|exfalso].
  assert (quotable src t) as [q E] by (destruct Ht as [Ht| ->]; [rewrite Forall_forall in H1; auto|exact H3]).
  unfold quote_fails in H. destruct (ParseTokens pton ck ts src) as [|[]|]; try contradiction; [destruct H as (c & q' & text & E' & _)|]; congruence.
Qed.
Lemma eof_quotable src ts : l_src (cs_loc src) <> SrcNone -> Forall (fun t => l_src (t_end t) = l_src (cs_loc src)) ts -> ts <> [] ->
  quotable src (mkTok END_OF_INPUT "" (eof_location ts) (eof_location ts)).
Proof.
  intros Hs H Hne. destruct (exists_last Hne) as (l & z & ->). unfold eof_location. rewrite rev_app_distr. cbn [rev app].
  apply Forall_app in H as [_ H]. inversion H; subst. unfold quotable, QuoteSubConstraint, HaveSameSource. cbn [t_start t_end]. rewrite H2, source_eqb_refl. cbn [negb orb].
  assert (exists x, Explain (t_end z) (t_end z) = Ok x) as [x ->].
  { unfold Explain. rewrite H2. destruct (l_src (cs_loc src)); eauto. congruence. }
  unfold Quote. rewrite loc_proto_equal_refl. cbn. eauto.
Qed.

(** Whatever the source, tokens span one line, from left to right. *)
Lemma advance_col s l : (0 <= l_col l)%Z -> (0 <= l_col (advance s l))%Z.
Proof.
  revert l. assert (forall n s l, (String.length s <= n)%nat -> (0 <= l_col l)%Z -> (0 <= l_col (advance s l))%Z) as H; [|eauto].
  clear. induction n as [|n IH]; intros [|c t] l Hl Hc; cbn [advance]; try lia; [cbn in Hl; lia|]. cbn in Hl.
  destruct (Ascii.eqb c LF); [apply IH; cbn; lia|]. destruct (Ascii.eqb c CR); [|apply IH; cbn; lia].
  destruct t as [|d t]; [cbn; lia|]. destruct (Ascii.eqb d LF); apply IH; cbn in *; lia.
Qed.
Lemma Lex_cols l s ts : Lex l s ts -> (0 <= l_col l)%Z -> Forall (fun t => l_line (t_start t) = l_line (t_end t) /\ (0 <= l_col (t_start t) <= l_col (t_end t))%Z) ts.
Proof.
  induction 1 as [l|l c s Hno|l s lx rest ts Hx H IH|l s lx k t rest ts Hx H IH]; intros Hc.
  - constructor; [cbn; lia|constructor].
  - constructor; [cbn; lia|constructor].
  - apply IH. now apply advance_col.
  - constructor; [cbn; lia|]. apply IH. cbn. lia.
Qed.
Lemma quote_sub_crash c s e w : QuoteSubConstraint c s e = Crash w -> Quote c s e = Crash w.
Proof.
  unfold QuoteSubConstraint. destruct (_ || _)%bool; [discriminate|]. destruct (Explain s e) as [x|? ?|?] eqn:E; cbn [bind]; [|discriminate|unfold Explain in E; destruct (l_src s); discriminate].
  destruct (Quote c s e); cbn [bind]; congruence.
Qed.
