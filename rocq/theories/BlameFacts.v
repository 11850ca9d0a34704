(** The parser fails at the first token that does not fit. *)
From Coq Require Import String Ascii List ZArith NArith Bool Lia.
From Verif Require Import Base Num Token Ast Lexer Quote AstConstructors Parser SpecLexer SpecGrammar SpecBlame StrFacts NumFacts LiteralFacts ParserFacts ParserFacts2 ParserFacts7 ShapeFacts.
Import ListNotations.
Open Scope string_scope.
Opaque parse_above extend.

Notation kinds := (map t_kind).
Definition parse_error {A} (src : csource) (t : token) (text : string) : outcome A := ParseErrorAt src (t_start t) (t_end t) text.
Lemma hk_peek eof ts : hk (kinds ts) = t_kind (Peek eof ts).
Proof. destruct ts; reflexivity. Qed.
Lemma unexpected_says {A} t h src : h = HStart \/ h = HExt \/ (exists k, h = HOne k) ->
  exists text, Unexpected (A := A) t (kinds_of h) src = parse_error src t text /\ complaint t h text.
Proof.
  intros Hh. unfold Unexpected. destruct (kind_eqb_spec (t_kind t) UNEXPECTED_CHAR) as [E|E].
  - eexists. split; [reflexivity|]. constructor; [exact E|]. destruct Hh as [->|[->|[k ->]]]; discriminate.
  - eexists. split; [reflexivity|].
    assert (expected_text true (kinds_of h) = expecting (map KindToKeyword (kinds_of h))) as ->.
    { destruct Hh as [->|[->|[k ->]]]; reflexivity. }
    constructor; [exact E|]. destruct Hh as [->|[->|[k ->]]]; discriminate.
Qed.

(** * Address literals in what was read *)
Section Clean.
  Variable pton : inet_pton6.
  Notation clean := (addresses_ok pton).
  (** The last token is not a string. *)
  Definition closed (w : list token) : Prop := forall a st, w = (a ++ [st])%list -> t_kind st <> STRING.
  Lemma split_app {A} (w1 w2 a x : list A) : (w1 ++ w2 = a ++ x)%list -> (exists c, w1 = a ++ c /\ x = c ++ w2)%list \/ (exists c, a = w1 ++ c /\ w2 = c ++ x)%list.
  Proof.
    revert a. induction w1 as [|y w1 IH]; intros a E; [right; exists a; auto|]. destruct a as [|z a]; [left; exists (y :: w1); auto|].
    injection E as -> E. destruct (IH a E) as [(c & -> & ->)|(c & -> & ->)]; [left|right]; exists c; auto.
  Qed.
  Lemma clean_nil : clean [].
  Proof. intros a id lp st rp b E. destruct a; discriminate. Qed.
  Lemma closed_nil : closed [].
  Proof. intros a st E. destruct a; discriminate. Qed.
  Lemma clean_cons t w : t_kind t <> ID -> clean w -> clean (t :: w).
  Proof. intros Ht Hw a id lp st rp b E Hk. destruct a as [|y a]; injection E as E1 E2; [injection Hk; congruence|]. subst. eapply Hw; [reflexivity|exact Hk]. Qed.
  Lemma clean_app w w' : clean w -> closed w -> clean w' -> (forall t w2, w' = t :: w2 -> t_kind t <> LPAR /\ t_kind t <> STRING) -> clean (w ++ w').
  Proof.
    intros H1 H2 H3 H4 a id lp st rp b E Hk. pose proof Hk as Hk'. injection Hk' as K1 K2 K3 K4. apply split_app in E as [(c & E1 & E2)|(c & -> & ->)]; [|eapply H3; [reflexivity|exact Hk]].
    destruct c as [|c1 c]; [eapply (H3 []); [cbn in *; symmetry; exact E2|exact Hk]|]. injection E2 as <- E2.
    destruct c as [|c2 c]; [destruct (H4 _ _ (eq_sym E2)); congruence|]. injection E2 as <- E2.
    destruct c as [|c3 c]; [destruct (H4 _ _ (eq_sym E2)); congruence|]. injection E2 as <- E2.
    destruct c as [|c4 c]; [exfalso; apply (H2 (a ++ [id; lp])%list st); [rewrite E1, <- app_assoc; reflexivity|exact K3]|]. injection E2 as <- E2.
    eapply H1; [exact E1|exact Hk].
  Qed.
  Lemma closed_app w w' : closed w -> closed w' -> closed (w ++ w').
  Proof.
    intros H1 H2 a st E. destruct w' as [|y w']; [rewrite app_nil_r in E; eauto|]. destruct (exists_last (l := y :: w')) as (l & z & El); [discriminate|]. rewrite El in *.
    rewrite app_assoc in E. apply app_inj_tail in E as [_ <-]. eauto.
  Qed.
End Clean.

Section Sim.
  Variable pton : inet_pton6.
  Hypothesis Hpton : pton_ok pton.
  Variable ck : constraint_kind.
  Variable src : csource.
  Variable eof : loc.
  Notation PA := (parse_above pton ck src eof).
  Notation EX := (extend pton ck src eof).
  Notation Expect := (ExpectTokenKind src eof).
  Notation clean := (addresses_ok pton).
  Notation init := (initial pton ck src eof).

  (** A failure while reading [ts]: stuck at a token, or an address literal that is none. *)
  (** Not an address, and [m] is the error. *)
  Definition no_address (id st : token) (m : string) : Prop :=
    (forall n, ~ Address pton (t_text id) (t_text st) n) /\ exists s e, MakeNetworkAddressIntegerConstant pton (t_text id) (t_text st) s e = Err InvalidArgument m.
  Definition blame {A} (R : list kind -> sres -> Prop) (ts : list token) (r : outcome A) : Prop :=
    (exists w a h text, ts = (w ++ a)%list /\ clean w /\ R (kinds ts) (SBad h (kinds a)) /\ complaint (Peek eof a) h text /\ r = parse_error src (Peek eof a) text) \/
    (exists u id lp st rp a m, ts = (u ++ [id; lp; st; rp] ++ a)%list /\ kinds [id; lp; st; rp] = literal_kinds /\ clean u /\ no_address id st m /\
       R (kinds (u ++ [id; lp; st; rp]) ++ [UNEXPECTED_CHAR])%list (SBad HExt [UNEXPECTED_CHAR]) /\ r = Err InvalidArgument m).
  Definition reads (R : list kind -> sres -> Prop) (ts rest : list token) : Prop :=
    exists w, ts = (w ++ rest)%list /\ clean w /\ closed w /\ R (kinds ts) (SOk (kinds rest)).
  Definition sim (R : list kind -> sres -> Prop) (ts : list token) (r : outcome (expr * list token)) : Prop :=
    match r with
    | Ok (_, rest) => reads R ts rest
    | _ => r = Crash ModelOutOfFuel \/ blame R ts r
    end.
  Lemma parse_error_bind {A B} t text (f : A -> outcome B) : bind (parse_error src t text) f = parse_error src t text.
  Proof. unfold parse_error, ParseErrorAt. destruct (QuoteSubConstraint _ _ _); reflexivity. Qed.
  Lemma blame_bind {A B} R ts (r : outcome A) (f : A -> outcome B) : blame R ts r -> blame R ts (bind r f).
  Proof.
    intros [(w & a & h & text & E & Hw & HR & Hc & ->)|(u & id & lp & st & rp & a & m & H1 & H2 & H3 & H4 & H5 & ->)]; [left|right].
    - rewrite parse_error_bind. exists w, a, h, text. auto.
    - exists u, id, lp, st, rp, a, m. repeat (split; [assumption|]). reflexivity.
  Qed.
  (** The failure seen from further in front. *)
  Lemma blame_front {A} (R R' : list kind -> sres -> Prop) w ts (r : outcome A) :
    (forall ks h a, hk ks = hk (kinds ts) -> R ks (SBad h a) -> R' (kinds w ++ ks)%list (SBad h a)) ->
    (forall w' a, ts = (w' ++ a)%list -> clean w' -> (w' <> [] -> exists ks h a', hk ks = hk (kinds ts) /\ R ks (SBad h a') /\ a' <> ks) -> clean (w ++ w')) ->
    blame R ts r -> blame R' (w ++ ts) r.
  Proof.
    intros HR Hcl [(w' & a & h & text & E & Hw & Hb & Hc & ->)|(u & id & lp & st & rp & a & m & H1 & H2 & H3 & H4 & H5 & ->)]; [left|right].
    - exists (w ++ w')%list, a, h, text. split; [rewrite E; apply app_assoc|]. split.
      { eapply Hcl; [exact E|exact Hw|]. intros Hne. exists (kinds ts), h, (kinds a). split; [reflexivity|]. split; [exact Hb|]. intros E'. apply (f_equal (@List.length kind)) in E'.
        rewrite E in E'. rewrite !map_length, app_length in E'. destruct w'; [congruence|cbn in E'; lia]. }
      split; [rewrite map_app; apply HR; [reflexivity|exact Hb]|auto].
    - assert (hk (kinds (u ++ [id; lp; st; rp]) ++ [UNEXPECTED_CHAR]) = hk (kinds ts)) as Eh by (rewrite H1; destruct u; reflexivity).
      exists (w ++ u)%list, id, lp, st, rp, a, m. split; [rewrite H1; apply app_assoc|]. split; [exact H2|]. split.
      { eapply Hcl; [exact H1|exact H3|]. intros Hne. eexists _, _, _. split; [exact Eh|]. split; [exact H5|]. destruct u; [congruence|]. rewrite map_app. cbn. intros [= _ E]. destruct (map t_kind u); discriminate. }
      split; [exact H4|]. split; [|reflexivity]. rewrite <- app_assoc, map_app, <- app_assoc. apply HR; [exact Eh|exact H5].
  Qed.
  Lemma blame_cons {A} (R R' : list kind -> sres -> Prop) t ts (r : outcome A) : t_kind t <> ID ->
    (forall ks h a, hk ks = hk (kinds ts) -> R ks (SBad h a) -> R' (t_kind t :: ks) (SBad h a)) -> blame R ts r -> blame R' (t :: ts) r.
  Proof.
    intros Ht HR. apply (blame_front R R' [t]); [exact HR|]. intros w' a _ Hw _. now apply clean_cons.
  Qed.
  Lemma stuck_here {A} (R : list kind -> sres -> Prop) w a h text (r : outcome A) : clean w -> R (kinds (w ++ a)) (SBad h (kinds a)) -> complaint (Peek eof a) h text -> r = parse_error src (Peek eof a) text -> blame R (w ++ a) r.
  Proof. intros H1 H2 H3 ->. left. exists w, a, h, text. auto. Qed.
  Lemma expect_sim k ts : k <> END_OF_INPUT ->
    (exists t rest, ts = t :: rest /\ t_kind t = k /\ Expect k ts = Ok (t, rest)) \/
    (hk (kinds ts) <> k /\ exists text, complaint (Peek eof ts) (HOne k) text /\ Expect k ts = parse_error src (Peek eof ts) text).
  Proof.
    intros Hk. unfold ExpectTokenKind. destruct (kind_eqb_spec (t_kind (Peek eof ts)) k) as [E|E].
    - left. destruct ts as [|t rest]; [cbn in E; congruence|]. exists t, rest. auto.
    - right. split; [now rewrite (hk_peek eof)|]. destruct (@unexpected_says (token * list token) (Peek eof ts) (HOne k) src) as (text & E1 & E2); [eauto|]. exists text. split; [exact E2|exact E1].
  Qed.
  Lemma clean_ids w : Forall (fun t => t_kind t = ID \/ t_kind t = DOT) w -> clean w /\ closed w.
  Proof.
    intros H. split.
    - intros a id lp st rp b -> Hk. apply Forall_app in H as [_ H]. inversion H as [|? ? _ H2]; subst. inversion H2 as [|? ? H3 _]; subst. injection Hk as _ K _ _. destruct H3; congruence.
    - intros a st ->. apply Forall_app in H as [_ H]. inversion H as [|? ? [H2|H2] _]; subst; congruence.
  Qed.
  Lemma ids_sim n : forall ts, (List.length ts <= n)%nat ->
    match parse_ids src eof ts with
    | Ok (ids, rest) => exists w, ts = (w ++ rest)%list /\ Forall (fun t => t_kind t = ID \/ t_kind t = DOT) w /\ Forall (fun t => t_kind t = ID) ids /\ Dts (kinds ts) (SOk (kinds rest))
    | r => exists w a text, ts = (w ++ a)%list /\ Forall (fun t => t_kind t = ID \/ t_kind t = DOT) w /\ Dts (kinds ts) (SBad (HOne ID) (kinds a)) /\ complaint (Peek eof a) (HOne ID) text /\
        r = parse_error src (Peek eof a) text
    end.
  Proof.
    induction n as [|n IH]; intros ts Hn.
    - destruct ts; [|cbn in Hn; lia]. cbn. exists []. repeat split; try constructor. discriminate.
    - destruct ts as [|t ts]; [cbn; exists []; repeat split; try constructor; discriminate|]. cbn [parse_ids].
      destruct (kind_eqb_spec (t_kind t) DOT) as [Hd|Hd]; [|exists []; repeat split; try constructor; exact Hd].
      assert (forall ts', ts = ts' -> hk (kinds ts') <> ID -> match Unexpected (A := list token * list token) (Peek eof ts') [ID] src with
        | Ok (ids, rest) => exists w, t :: ts = (w ++ rest)%list /\ Forall (fun t => t_kind t = ID \/ t_kind t = DOT) w /\ Forall (fun t => t_kind t = ID) ids /\ Dts (kinds (t :: ts)) (SOk (kinds rest))
        | r => exists w a text, t :: ts = (w ++ a)%list /\ Forall (fun t => t_kind t = ID \/ t_kind t = DOT) w /\ Dts (kinds (t :: ts)) (SBad (HOne ID) (kinds a)) /\ complaint (Peek eof a) (HOne ID) text /\
            r = parse_error src (Peek eof a) text
        end) as Hbad.
      { intros ts' -> Hid. destruct (@unexpected_says (list token * list token) (Peek eof ts') (HOne ID) src) as (text & E1 & E2); [eauto|]. cbn [kinds_of] in E1. rewrite E1.
        destruct (parse_error src (Peek eof ts') text) as [x|c m|w] eqn:E; [exfalso; revert E; apply bad_not_ok, ParseErrorAt_bad| |];
          (exists [t], ts', text; split; [reflexivity|]; split; [constructor; auto|]; split; [cbn [map]; rewrite Hd; now constructor|]; split; [exact E2|now rewrite <- E]). }
      destruct ts as [|id ts]; [apply (Hbad []); [reflexivity|discriminate]|].
      destruct (kind_eqb_spec (t_kind id) ID) as [Hi|Hi]; [|apply (Hbad (id :: ts)); [reflexivity|exact Hi]]. clear Hbad.
      specialize (IH ts ltac:(cbn in Hn; lia)). destruct (parse_ids src eof ts) as [[ids rest]|c m|w']; cbn [bind].
      + destruct IH as (w & -> & Hw & Hids & HD). exists (t :: id :: w). split; [reflexivity|]. split; [constructor; [auto|constructor; auto]|]. split; [now constructor|].
        cbn [map app]. rewrite Hd, Hi. now constructor.
      + destruct IH as (w & a & text & -> & Hw & HD & Hc & E). exists (t :: id :: w), a, text. split; [reflexivity|]. split; [constructor; [auto|constructor; auto]|]. split; [cbn [map app]; rewrite Hd, Hi; now constructor|].
        split; [exact Hc|]. unfold parse_error, ParseErrorAt in *. destruct (QuoteSubConstraint _ _ _); congruence.
      + destruct IH as (w & a & text & -> & Hw & HD & Hc & E). exists (t :: id :: w), a, text. split; [reflexivity|]. split; [constructor; [auto|constructor; auto]|]. split; [cbn [map app]; rewrite Hd, Hi; now constructor|].
        split; [exact Hc|]. unfold parse_error, ParseErrorAt in *. destruct (QuoteSubConstraint _ _ _); congruence.
  Qed.

  Lemma Ext_stay c ks x : Ext c ks x -> ext_kind (hk ks) = false -> rest_of x = ks.
  Proof.
    intros H. inversion H; subst; intros E; try reflexivity; try discriminate E.
    all: cbn in E; match goal with Hb : bin_kind ?k = true |- _ => unfold bin_kind in Hb; rewrite E in Hb; discriminate Hb end.
  Qed.
  Lemma ext_head k : ext_kind k = true -> k <> LPAR /\ k <> STRING.
  Proof. destruct k; try discriminate; split; discriminate. Qed.
  Lemma sim_then (R : list kind -> sres -> Prop) c w rest r : clean w -> closed w ->
    (forall ks x, hk ks = hk (kinds rest) -> Ext c ks x -> R (kinds w ++ ks)%list x) -> sim (Ext c) rest r -> sim R (w ++ rest) r.
  Proof.
    intros H1 H2 HR.
    assert (forall w' a, rest = (w' ++ a)%list -> clean w' -> (w' <> [] -> exists ks x, hk ks = hk (kinds rest) /\ Ext c ks x /\ rest_of x <> ks) -> clean (w ++ w')) as Hcl.
    { intros w' a -> Hw Hne. apply clean_app; auto. intros t w2 ->. destruct Hne as (ks & x & E & HE & Hn); [discriminate|]. cbn in E. rewrite <- E.
      apply ext_head. destruct (ext_kind (hk ks)) eqn:Ex; [reflexivity|]. apply Ext_stay in HE; [contradiction|exact Ex]. }
    assert (blame (Ext c) rest r -> blame R (w ++ rest) r) as Hb.
    { apply blame_front; [intros; auto|]. intros w' a E Hw Hne. apply (Hcl w' a E Hw). intros Hn. destruct (Hne Hn) as (ks & h & a' & H3 & H4 & H5). exists ks, (SBad h a'). auto. }
    destruct r as [[e rest']|k m|k]; cbn [sim].
    - intros (w' & E & Hc & Hl & HE). exists (w ++ w')%list. split; [rewrite E; apply app_assoc|]. split; [|split].
      + apply (Hcl w' rest' E Hc). intros Hn. exists (kinds rest), (SOk (kinds rest')). split; [reflexivity|]. split; [exact HE|]. cbn. intros E'. apply (f_equal (@List.length kind)) in E'.
        rewrite E in E'. rewrite !map_length, app_length in E'. destruct w'; [congruence|cbn in E'; lia].
      + now apply closed_app.
      + rewrite map_app. now apply HR.
    - intros [Hf|Hx]; [now left|right; auto].
    - intros [Hf|Hx]; [now left|right; auto].
  Qed.
  Lemma ok_swap (R : list kind -> sres -> Prop) (u a a' : list kind) : (forall ks x, R ks x -> local R ks x) -> R (u ++ a)%list (SOk a) -> hk a' = hk a -> R (u ++ a')%list (SOk a').
  Proof. intros HR H E. destruct (HR _ _ H) as (u' & E' & Hl). cbn in *. apply app_inv_tail in E' as <-. apply Hl. now left. Qed.
  Lemma sim_unexpected (R : list kind -> sres -> Prop) w a h : h = HStart \/ h = HExt \/ (exists k, h = HOne k) -> clean w -> R (kinds (w ++ a)) (SBad h (kinds a)) ->
    sim R (w ++ a) (Unexpected (Peek eof a) (kinds_of h) src).
  Proof.
    intros Hh Hw HR. destruct (@unexpected_says (expr * list token) (Peek eof a) h src Hh) as (text & E & Hc).
    assert (blame R (w ++ a) (Unexpected (A := expr * list token) (Peek eof a) (kinds_of h) src)) as Hb by (eapply stuck_here; eassumption).
    destruct (Unexpected (Peek eof a) (kinds_of h) src) eqn:Eu; [|right; exact Hb|right; exact Hb].
    exfalso. revert Eu. apply bad_not_ok, Unexpected_bad.
  Qed.
  Lemma sim_bad R ts (r : outcome (expr * list token)) : bad r -> blame R ts r -> sim R ts r.
  Proof. destruct r; [contradiction|right; assumption..]. Qed.
  Lemma blame_bad {A} R ts (r : outcome A) : blame R ts r -> bad r.
  Proof. intros [(w & a & h & text & _ & _ & _ & _ & ->)|(u & id & lp & st & rp & a & m & _ & _ & _ & _ & _ & ->)]; [apply ParseErrorAt_bad|exact I]. Qed.
  Lemma bad_bind {A B} (r : outcome A) (f : A -> outcome B) : bad r -> bad (bind r f).
  Proof. destruct r; [contradiction|auto..]. Qed.
  Lemma sim_err {A} R ts (r : outcome A) (f : A -> outcome (expr * list token)) : blame R ts r -> sim R ts (bind r f).
  Proof. intros H. apply sim_bad; [apply bad_bind; eapply blame_bad; exact H|now apply blame_bind]. Qed.
  Lemma one_clean t : clean [t].
  Proof. intros a id lp st rp b E. destruct a as [|? [|? ?]]; discriminate. Qed.
  Lemma one_closed t : t_kind t <> STRING -> closed [t].
  Proof. intros H a st E. destruct a as [|? [|? ?]]; try discriminate. now injection E as <-. Qed.
  Lemma closed_cons t w : t_kind t <> STRING -> closed w -> closed (t :: w).
  Proof. intros H. apply (closed_app [t]). now apply one_closed. Qed.
  Lemma closed_last w t : t_kind t <> STRING -> closed (w ++ [t]).
  Proof. intros H a st E. apply app_inj_tail in E as [_ <-]. exact H. Qed.
  Lemma clean_last w t : clean w -> t_kind t <> RPAR -> clean (w ++ [t]).
  Proof.
    intros H Ht a id lp st rp b E Hk. destruct b as [|b0 b] using rev_ind.
    - change (a ++ [id; lp; st; rp] ++ [])%list with (a ++ [id; lp; st] ++ [rp])%list in E. rewrite app_assoc in E. apply app_inj_tail in E as [_ E]. injection Hk. congruence.
    - rewrite !app_assoc in E. apply app_inj_tail in E as [E _]. rewrite <- app_assoc in E. eapply H; eassumption.
  Qed.
  (** The initial part: read, or stuck already. *)
  Definition simI (c : nat) (ts : list token) (r : outcome (expr * list token)) : Prop :=
    match r with
    | Ok (_, rest) => reads Ini ts rest
    | _ => r = Crash ModelOutOfFuel \/ blame (Par c) ts r
    end.
  Lemma sim_I c ts r : bad r -> sim (Par c) ts r -> simI c ts r.
  Proof. destruct r; [contradiction|auto..]. Qed.
  Lemma simI_err {A} c ts (r : outcome A) (f : A -> outcome (expr * list token)) : blame (Par c) ts r -> simI c ts (bind r f).
  Proof. intros H. apply sim_I; [apply bad_bind; eapply blame_bad; exact H|now apply sim_err]. Qed.
  Lemma sim_init f : (forall ts ctx, (ctx <= 6)%nat -> Forall numeral_text ts -> sim (Par ctx) ts (PA f ts ctx)) ->
    forall c ts, Forall numeral_text ts -> simI c ts (init f ts).
  Proof.
    intros IH c ts Hnum.
    assert (start_kind (hk (kinds ts)) = false -> simI c ts (Unexpected (Peek eof ts) initial_kinds src)) as Hbad.
    { intros H. apply sim_I; [apply Unexpected_bad|]. apply (sim_unexpected (Par c) [] ts HStart); [auto|apply clean_nil|]. apply p_bad. now apply i_bad. }
    destruct ts as [|t ts]; [now apply Hbad|]. inversion Hnum as [|? ? Ht Hts]; subst. unfold initial. cbn [Peek tl]. cbn [map hk] in Hbad.
    assert (forall r, atom (t_kind t) = true -> (exists e, r = Ok e) -> simI c (t :: ts) (let* a := r in Ok (a, ts))) as Hatom.
    { intros r Ha [e ->]. cbn. exists [t]. split; [reflexivity|]. split; [apply one_clean|]. split; [apply one_closed; intros E; rewrite E in Ha; discriminate|]. cbn. now constructor. }
    assert (forall b, base (t_kind t) b -> exists e, MakeIntegerConstant t = Ok e) as Hint.
    { intros b Hb. assert (exists n, Reads b (t_text t) n) as [n Hn] by (unfold numeral_text in Ht; destruct Hb; exact Ht).
      eexists. apply (MakeInteger_spec t b); [exact Hb|exact Ht|]. exists n, (dec (Z.of_N n)). split; [exact Hn|]. split; [now apply dec_Decimal|reflexivity]. }
    assert (forall mk : expr -> outcome expr, unary (t_kind t) = true -> (forall a, exists e, mk a = Ok e) -> simI c (t :: ts) (let* (a, ts') := PA f ts 6 in let* a' := mk a in Ok (a', ts'))) as Hun.
    { intros mk Hu Hmk. specialize (IH ts 6%nat ltac:(lia) Hts). assert (t_kind t <> ID /\ t_kind t <> STRING) as [Hi Hs] by (split; intros E; rewrite E in Hu; discriminate).
      destruct (PA f ts 6) as [[a rest]|k m|k]; cbn [bind].
      - destruct (Hmk a) as [e ->]. destruct IH as (w & -> & H1 & H2 & H3). exists (t :: w). split; [reflexivity|]. split; [now apply clean_cons|]. split; [now apply closed_cons|].
        cbn [map]. now apply i_un.
      - right. destruct IH as [|IH]; [discriminate|]. apply (blame_bind (B := expr * list token) _ _ _ (fun _ => Crash ModelOutOfFuel)) in IH. cbn in IH. revert IH. apply blame_cons; [exact Hi|]. intros ks h a _ HR. eapply p_bad, i_un; eassumption.
      - destruct IH as [IH|IH]; [left; congruence|right]. apply (blame_bind (B := expr * list token) _ _ _ (fun _ => Crash ModelOutOfFuel)) in IH. cbn in IH. revert IH. apply blame_cons; [exact Hi|]. intros ks h a _ HR. eapply p_bad, i_un; eassumption. }
    destruct (t_kind t) eqn:Hk; try (now apply Hbad).
    - apply Hatom; [reflexivity|]. unfold MakeBooleanConstant. rewrite Hk. eexists; reflexivity.
    - apply Hatom; [reflexivity|]. unfold MakeBooleanConstant. rewrite Hk. eexists; reflexivity.
    - apply Hun; [reflexivity|]. intros a. unfold MakeBooleanNegation. rewrite Hk. eexists; reflexivity.
    - apply Hun; [reflexivity|]. intros a. unfold MakeArithmeticNegation. rewrite Hk. eexists; reflexivity.
    - destruct (expect_sim ID ts) as [(id & rest & -> & Hid & E)|(Hne & text & Hc & E)]; [discriminate|rewrite E|rewrite E].
      + cbn. exists [t; id]. split; [reflexivity|]. split; [apply clean_cons; [congruence|apply one_clean]|]. split; [apply closed_cons; [congruence|apply one_closed; congruence]|].
        cbn. rewrite Hk, Hid. constructor.
      + apply simI_err. apply (stuck_here (Par c) [t] ts (HOne ID) text); [apply one_clean| |exact Hc|reflexivity]. cbn. rewrite Hk. apply p_bad. now constructor.
    - specialize (IH ts 0%nat ltac:(lia) Hts). destruct (PA f ts 0) as [[a rest]|k m|k]; cbn [bind].
      + destruct IH as (w & -> & H1 & H2 & H3). destruct (expect_sim RPAR rest) as [(rp & rest' & -> & Hrp & E)|(Hne & text & Hc & E)]; [discriminate|rewrite E|rewrite E].
        * cbn. exists (t :: w ++ [rp])%list. split; [cbn; now rewrite <- app_assoc|]. split; [apply clean_cons; [congruence|]|].
          { apply clean_app; auto; [apply one_clean|]. intros t' w2 [= <- _]. split; congruence. }
          split; [apply closed_cons; [congruence|apply closed_last; congruence]|]. cbn. rewrite Hk. apply i_par. rewrite map_app in *. cbn [map] in *. rewrite Hrp in *. exact H3.
        * apply simI_err. apply (stuck_here (Par c) (t :: w) rest (HOne RPAR) text); [apply clean_cons; [congruence|exact H1]| |exact Hc|reflexivity]. cbn. rewrite Hk. apply p_bad. now apply i_par2.
      + right. destruct IH as [|IH]; [discriminate|]. apply (blame_bind (B := expr * list token) _ _ _ (fun _ => Crash ModelOutOfFuel)) in IH. cbn in IH. revert IH. apply blame_cons; [congruence|]. intros ks h a _ HR. rewrite Hk. eapply p_bad, i_par1; eassumption.
      + destruct IH as [IH|IH]; [left; congruence|right]. apply (blame_bind (B := expr * list token) _ _ _ (fun _ => Crash ModelOutOfFuel)) in IH. cbn in IH. revert IH. apply blame_cons; [congruence|]. intros ks h a _ HR. rewrite Hk. eapply p_bad, i_par1; eassumption.
    - destruct (kind_eqb_spec (t_kind (Peek eof ts)) LPAR) as [Hlp|Hlp].
      + destruct ts as [|lp ts]; [discriminate Hlp|]. cbn [Peek tl] in *. inversion Hts as [|? ? _ Hts2]; subst.
        assert (clean [t; lp]) as Hcl2 by (intros a id l st rp b E; destruct a as [|? [|? [|? ?]]]; discriminate).
        destruct (expect_sim STRING ts) as [(st & rest & -> & Hst & E)|(Hne & text & Hc & E)]; [discriminate|rewrite E|rewrite E].
        2: { apply simI_err. apply (stuck_here (Par c) [t; lp] ts (HOne STRING) text); [exact Hcl2| |exact Hc|reflexivity]. cbn. rewrite Hk, Hlp. apply p_bad. now constructor. }
        cbn [bind]. destruct (expect_sim RPAR rest) as [(rp & rest' & -> & Hrp & E2)|(Hne & text & Hc & E2)]; [discriminate|rewrite E2|rewrite E2].
        2: { apply simI_err. apply (stuck_here (Par c) [t; lp; st] rest (HOne RPAR) text); [intros a id l s rp b Ex; destruct a as [|? [|? [|? [|? ?]]]]; discriminate| |exact Hc|reflexivity].
             cbn. rewrite Hk, Hlp, Hst. apply p_bad. now constructor. }
        cbn [bind]. destruct (MakeNetworkAddressIntegerConstant pton (t_text t) (t_text st) (t_start t) (t_end rp)) as [e|c0 m|c0] eqn:Em; cbn [bind].
        * apply MakeNetworkAddress_spec in Em as (n & d & Ha & _); [|exact Hpton]. exists [t; lp; st; rp]. split; [reflexivity|]. split.
          { intros a id l s r b Ex _. destruct a as [|? [|? [|? [|? [|? ?]]]]]; try discriminate. injection Ex as <- <- <- <- <-. eauto. }
          split; [apply (closed_last [t; lp; st]); congruence|]. cbn. rewrite Hk, Hlp, Hst, Hrp. constructor.
        * right. right. exists [], t, lp, st, rp, rest', m. split; [reflexivity|]. cbn [map]. rewrite Hk, Hlp, Hst, Hrp. split; [reflexivity|]. split; [apply clean_nil|]. split; [|split].
          -- split; [|exists (t_start t), (t_end rp); pose proof (ia_addr pton src (fun _ => False) (t_text t) (t_text st) (t_start t) (t_end rp)) as Hia; rewrite Em in Hia |- *; destruct c0; try reflexivity; destruct Hia as (? & [] & _)].
             intros n Ha. assert (exists e, MakeNetworkAddressIntegerConstant pton (t_text t) (t_text st) (t_start t) (t_end rp) = Ok e) as [e Ee]; [|congruence].
             eexists. apply MakeNetworkAddress_spec; [exact Hpton|]. exists n, (dec (Z.of_N n)). split; [exact Ha|]. split; [now apply dec_Decimal|reflexivity].
          -- cbn. rewrite Hk, Hlp, Hst, Hrp. eapply p_ok; [apply i_addr|]. now constructor.
          -- pose proof (ia_addr pton src (fun _ => False) (t_text t) (t_text st) (t_start t) (t_end rp)) as Hia. rewrite Em in Hia. destruct c0; try reflexivity; destruct Hia as (? & [] & _).
        * left. pose proof (ia_addr pton src (fun _ => False) (t_text t) (t_text st) (t_start t) (t_end rp)) as Hia. rewrite Em in Hia. destruct c0; try reflexivity; destruct Hia as (? & [] & _).
      + pose proof (ids_sim _ ts (le_n _)) as Hids. destruct (parse_ids src eof ts) as [[ids rest]|c0 m|c0].
        * destruct Hids as (w & -> & Hw & Hi & HD). cbn [bind].
          assert (exists e, MakeVariable (t :: ids) ck = Ok e) as [e ->].
          { unfold MakeVariable. assert (forallb (fun t => kind_eqb (t_kind t) ID) (t :: ids) = true) as ->.
            { cbn [forallb]. rewrite Hk, kind_eqb_refl. cbn [andb]. clear - Hi. induction Hi as [|i l Hi H IH]; [reflexivity|]. cbn [forallb]. now rewrite Hi, kind_eqb_refl. }
            cbn. destruct ck; eexists; reflexivity. }
          cbn. destruct (clean_ids (t :: w)) as [Hc1 Hc2]; [constructor; auto|]. exists (t :: w). split; [reflexivity|]. split; [exact Hc1|]. split; [exact Hc2|].
          cbn. rewrite Hk. constructor; [|exact HD]. rewrite (hk_peek eof). exact Hlp.
        * destruct Hids as (w & a & text & -> & Hw & HD & Hc & E). rewrite E. apply simI_err. destruct (clean_ids (t :: w)) as [Hc1 Hc2]; [constructor; auto|].
          apply (stuck_here (Par c) (t :: w) a (HOne ID) text); [exact Hc1| |exact Hc|reflexivity]. cbn. rewrite Hk. apply p_bad, i_var; [rewrite (hk_peek eof); exact Hlp|exact HD].
        * destruct Hids as (w & a & text & -> & Hw & HD & Hc & E). rewrite E. apply simI_err. destruct (clean_ids (t :: w)) as [Hc1 Hc2]; [constructor; auto|].
          apply (stuck_here (Par c) (t :: w) a (HOne ID) text); [exact Hc1| |exact Hc|reflexivity]. cbn. rewrite Hk. apply p_bad, i_var; [rewrite (hk_peek eof); exact Hlp|exact HD].
    - apply Hatom; [reflexivity|]. apply (Hint 2%N). constructor.
    - apply Hatom; [reflexivity|]. apply (Hint 8%N). constructor.
    - apply Hatom; [reflexivity|]. apply (Hint 10%N). constructor.
    - apply Hatom; [reflexivity|]. apply (Hint 16%N). constructor.
  Qed.

  Lemma numeral_tl (w rest : list token) : Forall numeral_text (w ++ rest) -> Forall numeral_text rest.
  Proof. intros H. now apply Forall_app in H. Qed.
  Lemma sim_all f :
    (forall ts ctx, (ctx <= 6)%nat -> Forall numeral_text ts -> sim (Par ctx) ts (PA f ts ctx)) /\
    (forall ast ts ctx, (ctx <= 6)%nat -> Forall numeral_text ts -> sim (Ext ctx) ts (EX f ast ts ctx)).
  Proof.
    induction f as [|f [IHp IHe]]; [split; intros; left; reflexivity|]. split.
    - intros ts ctx Hctx Hnum. rewrite PA_S. pose proof (sim_init f IHp ctx ts Hnum) as Hi. destruct (init f ts) as [[ast rest]|c m|c]; cbn [bind].
      + destruct Hi as (w & -> & H1 & H2 & H3). apply (sim_then (Par ctx) ctx); [exact H1|exact H2| |apply IHe; [exact Hctx|eapply numeral_tl; exact Hnum]].
        intros ks x E HE. eapply p_ok; [|exact HE]. rewrite map_app in H3. eapply ok_swap; [apply shape_local|exact H3|exact E].
      + destruct Hi as [Hi|Hi]; [discriminate|]. right. exact Hi.
      + destruct Hi as [Hi|Hi]; [left; exact Hi|right; exact Hi].
    - intros ast ts ctx Hctx Hnum. rewrite EX_S. cbn zeta. rewrite <- (hk_peek eof ts).
      assert (Ext ctx (kinds ts) (SOk (kinds ts)) -> sim (Ext ctx) ts (Ok (ast, ts))) as Hstay.
      { intros H. exists []. split; [reflexivity|]. split; [apply clean_nil|]. split; [apply closed_nil|exact H]. }
      destruct (stop_kind (hk (kinds ts))) eqn:Es; [apply Hstay; now constructor|].
      destruct (ext_kind (hk (kinds ts))) eqn:Ex; [|apply (sim_unexpected (Ext ctx) [] ts HExt); [auto|apply clean_nil|now constructor]].
      destruct (_ && _)%bool eqn:E1.
      { apply andb_true_iff in E1 as [E1 E2]. apply Nat.eqb_eq in E1. apply sim_bad; [apply ParseErrorAt_bad|].
        apply (stuck_here (Ext ctx) [] ts HNon (nonassoc_text (hk (kinds ts)))); [apply clean_nil|rewrite E1; now constructor| |reflexivity].
        assert (exists o, binary (hk (kinds ts)) (TokenPrecedence (hk (kinds ts))) false o) as [o Ho].
        { destruct (hk (kinds ts)); try discriminate; eexists; constructor. }
        rewrite (hk_peek eof) in *. eapply cp_chain. exact Ho. }
      destruct (_ || _)%bool eqn:E2.
      { apply Hstay. apply e_ret; [exact Ex|]. apply orb_true_iff in E2 as [E2|E2]; [left; now apply Nat.ltb_lt|].
        apply andb_true_iff in E2 as [E2 E3]. apply Nat.eqb_eq in E2. right. now split. }
      assert (ctx < TokenPrecedence (hk (kinds ts)))%nat as Hlt.
      { apply orb_false_iff in E2 as [E2 E3]. apply Nat.ltb_ge in E2.
        destruct (Nat.eqb_spec ctx (TokenPrecedence (hk (kinds ts)))) as [E|E]; [|lia]. rewrite none_left in E1. cbn in *. rewrite E3 in E1. discriminate. }
      destruct ts as [|t ts]; [discriminate Es|]. cbn [map hk tl Peek] in *. inversion Hnum as [|? ? Ht Hts]; subst.
      assert (t_kind t <> ID /\ t_kind t <> STRING) as [Hi Hs] by (split; intros E; rewrite E in Ex; discriminate).
      pose proof (ext_prec _ Ex) as (Hr & Hn6 & Hn7 & _).
      destruct (kind_eqb (t_kind t) SEMICOLON && stop_kind (t_kind (Peek eof ts)))%bool eqn:E3.
      { apply andb_true_iff in E3 as [E3 E4]. destruct (kind_eqb_spec (t_kind t) SEMICOLON) as [Hk|]; [|discriminate].
        exists [t]. split; [reflexivity|]. split; [apply one_clean|]. split; [now apply one_closed|]. cbn. rewrite Hk in *. apply e_trail; [exact Hlt|now rewrite (hk_peek eof)]. }
      destruct (kind_eqb_spec (t_kind t) DOUBLE_COLON) as [Hk|Hk].
      + destruct (expect_sim ID ts) as [(id & rest & -> & Hid & E)|(Hne & text & Hc & E)]; [discriminate|rewrite E|rewrite E].
        * cbn [bind]. unfold MakeFieldAccess. rewrite Hid, kind_eqb_refl. cbn [ret_check bind].
          apply (sim_then (Ext ctx) ctx [t; id]); [apply clean_cons; [exact Hi|apply one_clean]|apply closed_cons; [exact Hs|apply one_closed; congruence]| |].
          -- intros ks x _ HE. cbn. rewrite Hk, Hid. apply e_field; [lia|exact HE].
          -- apply IHe; [exact Hctx|]. now inversion Hts.
        * apply sim_err. apply (stuck_here (Ext ctx) [t] ts (HOne ID) text); [apply one_clean| |exact Hc|reflexivity]. cbn. rewrite Hk. apply e_field_bad; [lia|exact Hne].
      + assert (bin_kind (t_kind t) = true) as Hb by (unfold bin_kind; rewrite Ex; destruct (kind_eqb_spec (t_kind t) DOUBLE_COLON); [contradiction|reflexivity]).
        assert (t_kind t = SEMICOLON -> stop_kind (hk (kinds ts)) = false) as Hsemi.
        { intros E. rewrite E, kind_eqb_refl in E3. rewrite (hk_peek eof). exact E3. }
        assert (TokenPrecedence (t_kind t) <> 7%nat) as Hp7 by (intros E; apply Hk, Hn7, E).
        specialize (IHp ts (TokenPrecedence (t_kind t)) ltac:(lia) Hts). destruct (PA f ts (TokenPrecedence (t_kind t))) as [[e2 rest]|c m|c]; cbn [bind].
        * destruct IHp as (w & -> & H1 & H2 & H3). unfold MakeBinaryExpression.
          assert (exists o, ConvertBinaryOperator (t_kind t) = Ok o) as [o ->] by (destruct (t_kind t); try discriminate; try congruence; eexists; reflexivity).
          cbn [bind]. apply (sim_then (Ext ctx) ctx (t :: w)); [now apply clean_cons|now apply closed_cons| |apply IHe; [exact Hctx|eapply numeral_tl; exact Hts]].
          intros ks x E HE. cbn [map app]. eapply e_bin; [exact Hb|exact Hlt| | |exact HE].
          -- intros E'. specialize (Hsemi E'). rewrite map_app in Hsemi. rewrite <- Hsemi. f_equal. apply hk_app. auto.
          -- rewrite map_app in H3. eapply ok_swap; [apply shape_local|exact H3|exact E].
        * destruct IHp as [IHp|IHp]; [discriminate|]. right. apply (blame_bind (B := expr * list token) _ _ _ (fun _ => Crash ModelOutOfFuel)) in IHp. cbn in IHp. revert IHp.
          apply blame_cons; [exact Hi|]. intros ks h a E HR. eapply e_bin_bad; [exact Hb|exact Hlt| |exact HR]. intros E'. rewrite E. auto.
        * destruct IHp as [IHp|IHp]; [left; congruence|]. right. apply (blame_bind (B := expr * list token) _ _ _ (fun _ => Crash ModelOutOfFuel)) in IHp. cbn in IHp. revert IHp.
          apply blame_cons; [exact Hi|]. intros ks h a E HR. eapply e_bin_bad; [exact Hb|exact Hlt| |exact HR]. intros E'. rewrite E. auto.
  Qed.
End Sim.
