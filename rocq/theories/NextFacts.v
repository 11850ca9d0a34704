(** The reader of [SpecNext] reads what the parser reads, and stops where the parser stops. *)
From Coq Require Import String List Bool Lia.
From Verif Require Import Base Token Parser SpecBlame SpecNext ParserFacts ParserFacts2 ShapeFacts ShapeFacts2.
Import ListNotations.

Lemma read_app u v s s' : read s u = Some s' -> read s (u ++ v) = read s' v.
Proof. revert s. induction u as [|k u IH]; intros s; cbn; [congruence|]. destruct (next s k); [apply IH|discriminate]. Qed.
Lemma read_app_inv u v s : read s (u ++ v) <> None -> exists s', read s u = Some s' /\ read s' v <> None.
Proof. revert s. induction u as [|k u IH]; intros s H; cbn in *; [eauto|]. destruct (next s k); [now apply IH|congruence]. Qed.
Lemma next_levels s k s' : next s k = Some s' -> levels s <> [] -> levels s' <> [].
Proof.
  destruct s as [p ls]. cbn. intros H Hl. assert (begin ls k = Some s' -> levels s' <> []) as Hb by (unfold begin; destruct (literal k); [|destruct k]; intros [= <-]; cbn; congruence).
  assert (close ls = Some s' -> levels s' <> []) as Hc by (destruct ls as [|? [|? ?]]; intros [= <-]; discriminate).
  assert (continue ls k = Some s' -> levels s' <> []) as Hn.
  { unfold continue. destruct ls as [|[cmp imp] up]; [discriminate|]. cbn [right_of_comparison right_of_implication] in *. destruct k; cbn [comparison]; destruct cmp, imp; try discriminate; try (intros [= <-]; discriminate); exact Hc. }
  unfold next in H. cbn [at_place levels] in H. destruct p, k; try discriminate H; auto; injection H as <-; exact Hl.
Qed.
Lemma read_levels u s s' : read s u = Some s' -> levels s <> [] -> levels s' <> [].
Proof.
  revert s. induction u as [|k u IH]; intros s; cbn; [congruence|]. destruct (next s k) as [s1|] eqn:E; [|discriminate]. intros H Hl. exact (IH s1 H (next_levels _ _ _ E Hl)).
Qed.

(** The rest [a] comes at a place where an operand is complete and cannot be longer. *)
Definition ends (p : place) (a : list kind) : Prop :=
  match p with Name => hk a <> DOT /\ hk a <> LPAR | Path => hk a <> DOT | Done => True | _ => False end.
(** Stuck at [s] in front of [a]. *)
Definition halts (s : reader) (h : hint) (a : list kind) : Prop := may_come s (hk a) = false /\ h = message_for s (hk a).
(** At the beginning of an expression. *)
Definition starts (q : place) (r : list kind) : Prop := q = Begin \/ q = Semi /\ stop_kind (hk r) = false.

Lemma next_ends p ls k r : ends p (k :: r) -> next (mkReader p ls) k = continue ls k.
Proof. destruct p; cbn; try tauto; destruct k; tauto. Qed.
Lemma come_ends p ls a : ends p a -> hk a <> END_OF_INPUT -> may_come (mkReader p ls) (hk a) = match continue ls (hk a) with Some _ => true | None => false end.
Proof. intros H Hk. destruct p; cbn in H; try tauto; destruct (hk a); try tauto; reflexivity. Qed.
Lemma next_starts q ls k r : starts q (k :: r) -> next (mkReader q ls) k = begin ls k.
Proof. intros [->|[-> H]]; [reflexivity|]. destruct k; try reflexivity. discriminate. Qed.
Lemma come_starts q ls a : starts q a -> start_kind (hk a) = false -> halts (mkReader q ls) HStart a.
Proof. intros [->|[-> H]] Hk; unfold halts, may_come, message_for; cbn [at_place]; destruct (hk a); try discriminate Hk; try discriminate H; split; reflexivity. Qed.

Lemma Dts_reads r x : Dts r x -> forall p ls, p = Name \/ p = Path -> (p = Name -> hk r <> LPAR) ->
  exists u s', r = (u ++ rest_of x)%list /\ read (mkReader p ls) u = Some s' /\
    match x with SOk a => exists p', s' = mkReader p' ls /\ ends p' a | SBad h a => halts s' h a end.
Proof.
  induction 1 as [r H|r x H IH|r H]; intros p ls Hp Hn.
  - exists [], (mkReader p ls). split; [reflexivity|]. split; [reflexivity|]. exists p. split; [reflexivity|]. destruct Hp as [-> | ->]; cbn; auto.
  - destruct (IH Path ls) as (u & s' & -> & E & Hx); [auto|discriminate|]. exists (DOT :: ID :: u), s'. split; [reflexivity|]. split; [|exact Hx]. destruct Hp as [-> | ->]; exact E.
  - exists [DOT], (mkReader NeedPart ls). split; [reflexivity|]. split; [destruct Hp as [-> | ->]; reflexivity|]. cbn. split; [|reflexivity]. unfold may_come, next. cbn. destruct (hk r); try reflexivity. congruence.
Qed.

(** The flags fit the precedence of the operator to the left. *)
Definition fit (c : nat) (cmp imp : bool) : Prop := (c < 5 -> cmp = false) /\ (c < 2 -> imp = false) /\ (c = 5 -> cmp = true) /\ (c = 2 -> imp = true).
Definition agree (c : nat) (k : kind) (cmp imp : bool) : Prop :=
  ext_kind k = true -> (c < 5 -> 5 <= TokenPrecedence k -> cmp = false) /\ (c < 2 -> 2 <= TokenPrecedence k -> imp = false) /\ (c = 5 -> cmp = true) /\ (c = 2 -> imp = true).
Lemma fit_agree c k cmp imp : fit c cmp imp -> agree c k cmp imp.
Proof. intros (H1 & H2 & H3 & H4) _. auto. Qed.
(** What is read at precedence [c] leaves the flags of weaker operators alone and stops in front of them. *)
Definition returns (c : nat) (cmp imp : bool) (up : list level) (s : reader) (a : list kind) : Prop :=
  exists p cmp' imp', s = mkReader p (mkLevel cmp' imp' :: up) /\ (ends p a \/ p = Semi /\ stop_kind (hk a) = true) /\
    (5 <= c -> cmp' = cmp) /\ (2 <= c -> imp' = imp) /\
    (stop_kind (hk a) = true \/ ext_kind (hk a) = true /\ (TokenPrecedence (hk a) < c \/ c = TokenPrecedence (hk a) /\ is_left (hk a) = true)) /\
    (p = Semi -> c = 0).
Definition ini_reads (r : list kind) (x : sres) : Prop := forall q ls, ls <> [] -> starts q r ->
  exists u s', r = (u ++ rest_of x)%list /\ read (mkReader q ls) u = Some s' /\
    match x with SOk a => exists p, s' = mkReader p ls /\ (ends p a \/ stop_kind (hk a) = true /\ False) | SBad h a => halts s' h a end.
Definition ext_reads (c : nat) (r : list kind) (x : sres) : Prop := forall p cmp imp up, ends p r -> agree c (hk r) cmp imp ->
  exists u s', r = (u ++ rest_of x)%list /\ read (mkReader p (mkLevel cmp imp :: up)) u = Some s' /\
    match x with SOk a => returns c cmp imp up s' a | SBad h a => halts s' h a end.
Definition par_reads (c : nat) (r : list kind) (x : sres) : Prop := forall q cmp imp up, starts q r -> fit c cmp imp ->
  exists u s', r = (u ++ rest_of x)%list /\ read (mkReader q (mkLevel cmp imp :: up)) u = Some s' /\
    match x with SOk a => returns c cmp imp up s' a | SBad h a => halts s' h a end.

Lemma ends_any p a a' : ends p a -> hk a' <> DOT -> hk a' <> LPAR -> ends p a'.
Proof. destruct p; cbn; tauto. Qed.
Lemma bin_next k cmp imp up c : bin_kind k = true -> c < TokenPrecedence k -> agree c k cmp imp ->
  exists q cmp' imp', continue (mkLevel cmp imp :: up) k = Some (mkReader q (mkLevel cmp' imp' :: up)) /\ fit (TokenPrecedence k) cmp' imp' /\
    (3 <= TokenPrecedence k -> imp' = imp) /\ (q = Begin \/ q = Semi /\ k = SEMICOLON).
Proof.
  intros Hb Hc Ha. destruct Ha as (H1 & H2 & _); [now apply kinds_apart in Hb|].
  destruct k; try discriminate Hb; cbn [TokenPrecedence] in *; try (rewrite (H1 ltac:(lia) ltac:(lia)) in *); try (rewrite (H2 ltac:(lia) ltac:(lia)) in *);
    cbn; repeat eexists; unfold fit; auto; try discriminate; try lia.
Qed.
Lemma bin_prec k : bin_kind k = true -> 1 <= TokenPrecedence k <= 5.
Proof. destruct k; try discriminate; cbn; lia. Qed.
Lemma none_kind k : ext_kind k = true -> is_none k = true -> k = IMPLIES \/ comparison k = true /\ TokenPrecedence k = 5.
Proof. destruct k; try discriminate; auto. Qed.
Lemma five_none k : ext_kind k = true -> is_left k = true -> TokenPrecedence k <> 5 /\ TokenPrecedence k <> 2.
Proof. destruct k; try discriminate; cbn; intros; split; discriminate. Qed.
Lemma agree_next c k k' cmp imp imp1 cmp' imp' : bin_kind k = true -> c < TokenPrecedence k -> agree c k cmp imp ->
  (3 <= TokenPrecedence k -> imp1 = imp) -> (2 <= TokenPrecedence k -> imp' = imp1) ->
  (TokenPrecedence k' < TokenPrecedence k \/ TokenPrecedence k = TokenPrecedence k' /\ is_left k' = true) -> agree c k' cmp' imp'.
Proof.
  intros Hb Hc Ha H1 H2 Hk Hk'. pose proof (bin_prec k Hb) as Hr. apply kinds_apart in Hb as (He & _). destruct (Ha He) as (_ & A2 & _ & A4). clear Ha.
  assert (TokenPrecedence k' <= TokenPrecedence k /\ (TokenPrecedence k' = TokenPrecedence k -> TokenPrecedence k' <> 5 /\ TokenPrecedence k' <> 2)) as (L1 & L2).
  { destruct Hk as [Hk|[Hk Hl]]; [split; lia|]. split; [lia|]. intros _. now apply five_none. }
  clear Hk. set (n := TokenPrecedence k) in *. set (m := TokenPrecedence k') in *. clearbody n m.
  assert (5 <= m -> False) as B1 by (intros B; assert (m = n) as E by lia; destruct (L2 E); lia).
  assert (2 <= m -> 3 <= n) as B2 by (intros B; destruct (PeanoNat.Nat.eq_dec m n) as [E|E]; [destruct (L2 E); lia|lia]).
  split; [|split; [|split]].
  - intros _ B. destruct (B1 B).
  - intros B B'. specialize (B2 B'). rewrite H2, H1 by lia. apply A2; lia.
  - intros ->. lia.
  - intros ->. rewrite H2, H1 by lia. auto.
Qed.
Lemma ends_stop p a : stop_kind (hk a) = true -> p = Name \/ p = Path \/ p = Done -> ends p a.
Proof. intros H. apply stop_not in H as (H1 & H2 & _). intros [->|[->| ->]]; cbn; auto. Qed.

Lemma shape_reads : (forall r x, Ini r x -> ini_reads r x) /\ (forall c r x, Ext c r x -> ext_reads c r x) /\ (forall c r x, Par c r x -> par_reads c r x).
Proof.
  apply shape_ind; unfold ini_reads, ext_reads, par_reads.
  - intros k r Hk q ls _ Hs. exists [k], (mkReader Done ls). split; [reflexivity|]. split; [|exists Done; cbn; auto]. cbn [read]. rewrite (next_starts _ _ _ _ Hs). destruct k; try discriminate Hk; reflexivity.
  - intros r q ls _ Hs. exists [ID; LPAR; STRING; RPAR], (mkReader Done ls). split; [reflexivity|]. split; [|exists Done; cbn; auto]. cbn [read]. rewrite (next_starts _ _ _ _ Hs). reflexivity.
  - intros r H q ls _ Hs. exists [ID; LPAR], (mkReader NeedString ls). split; [reflexivity|]. cbn [read]. rewrite (next_starts _ _ _ _ Hs). split; [reflexivity|]. split; [|reflexivity]. cbn. destruct (hk r); try reflexivity. congruence.
  - intros r H q ls _ Hs. exists [ID; LPAR; STRING], (mkReader NeedClose ls). split; [reflexivity|]. cbn [read]. rewrite (next_starts _ _ _ _ Hs). split; [reflexivity|]. split; [|reflexivity]. cbn. destruct (hk r); try reflexivity. congruence.
  - intros r x Hl H q ls _ Hs. destruct (Dts_reads _ _ H Name ls) as (u & s' & -> & E & Hx); [auto|auto|]. exists (ID :: u), s'. split; [reflexivity|]. cbn [read]. rewrite (next_starts _ _ _ _ Hs). split; [exact E|].
    destruct x; [|exact Hx]. destruct Hx as (p & -> & Hx). exists p. auto.
  - intros r q ls _ Hs. exists [DOUBLE_COLON; ID], (mkReader Done ls). split; [reflexivity|]. split; [|exists Done; cbn; auto]. cbn [read]. rewrite (next_starts _ _ _ _ Hs). reflexivity.
  - intros r H q ls _ Hs. exists [DOUBLE_COLON], (mkReader NeedField ls). split; [reflexivity|]. cbn [read]. rewrite (next_starts _ _ _ _ Hs). split; [reflexivity|]. split; [|reflexivity]. cbn. destruct (hk r); try reflexivity. congruence.
  - intros k r x Hk _ IH q ls Hls Hs. destruct ls as [|[cmp imp] up]; [congruence|]. destruct (IH Begin cmp imp up) as (u & s' & -> & E & Hx); [now left|unfold fit; lia|].
    exists (k :: u), s'. split; [reflexivity|]. cbn [read]. rewrite (next_starts _ _ _ _ Hs). split; [destruct k; try discriminate Hk; exact E|].
    destruct x as [a|]; [|exact Hx]. destruct Hx as (p & cmp' & imp' & -> & He & Hc & Hi & _ & Hq). rewrite (Hc ltac:(lia)), (Hi ltac:(lia)). exists p. split; [reflexivity|]. left. destruct He as [He|[He _]]; [exact He|]. specialize (Hq He). discriminate.
  - intros r r' _ IH q ls Hls Hs. destruct (IH Begin false false ls) as (u & s' & E & Hr & Hx); [now left|unfold fit; repeat split; auto; discriminate|]. cbn [rest_of] in E.
    exists (LPAR :: u ++ [RPAR])%list, (mkReader Done ls). split; [rewrite E; cbn; now rewrite <- app_assoc|]. split; [|exists Done; cbn; auto].
    cbn [read]. rewrite (next_starts _ _ _ _ Hs). change (begin ls LPAR) with (Some (mkReader Begin (mkLevel false false :: ls))). cbn iota. rewrite (read_app _ _ _ _ Hr).
    destruct Hx as (p & cmp' & imp' & -> & He & _). cbn [read]. destruct ls as [|l up]; [congruence|]. destruct He as [He|[-> _]]; [rewrite (next_ends _ _ _ r' He)|]; reflexivity.
  - intros r h r' _ IH q ls Hls Hs. destruct (IH Begin false false ls) as (u & s' & -> & Hr & Hx); [now left|unfold fit; repeat split; auto; discriminate|]. exists (LPAR :: u), s'. split; [reflexivity|]. cbn [read]. rewrite (next_starts _ _ _ _ Hs). split; [exact Hr|exact Hx].
  - intros r r' HP IH Hr q ls Hls Hs. destruct (IH Begin false false ls) as (u & s' & -> & Hrd & Hx); [now left|unfold fit; repeat split; auto; discriminate|]. exists (LPAR :: u), s'. split; [reflexivity|]. cbn [read]. rewrite (next_starts _ _ _ _ Hs). split; [exact Hrd|].
    destruct Hx as (p & cmp' & imp' & -> & He & _). apply Par_0_stop in HP. assert (hk r' = END_OF_INPUT) as E by (destruct (hk r'); try discriminate HP; congruence).
    unfold halts. rewrite E. destruct ls as [|l up]; [congruence|]. destruct He as [He|[-> _]]; [|split; reflexivity]. destruct p; try (exfalso; exact He); split; reflexivity.
  - intros r H q ls _ Hs. exists [], (mkReader q ls). split; [reflexivity|]. split; [reflexivity|]. now apply come_starts.
  - intros c r H p cmp imp up He _. exists [], (mkReader p (mkLevel cmp imp :: up)). split; [reflexivity|]. split; [reflexivity|]. exists p, cmp, imp. split; [reflexivity|]. split; [auto|]. split; [auto|]. split; [auto|]. split; [auto|]. intros ->. contradiction He.
  - intros c r H1 H2 p cmp imp up He _. exists [], (mkReader p (mkLevel cmp imp :: up)). split; [reflexivity|]. split; [reflexivity|].
    unfold halts. rewrite (come_ends _ _ _ He) by (intros E; rewrite E in H1; discriminate). unfold message_for. cbn [at_place]. destruct p; try (exfalso; exact He); destruct (hk r); try discriminate H1; try discriminate H2; split; reflexivity.
  - intros r H1 H2 p cmp imp up He Ha. exists [], (mkReader p (mkLevel cmp imp :: up)). split; [reflexivity|]. split; [reflexivity|].
    destruct (Ha H1) as (_ & _ & H5 & H6). unfold halts. rewrite (come_ends _ _ _ He) by (intros E; rewrite E in H1; discriminate). unfold message_for. cbn [at_place].
    destruct (none_kind _ H1 H2) as [E|[E1 E2]].
    + rewrite E in *. rewrite (H6 eq_refl). destruct p; try (exfalso; exact He); split; reflexivity.
    + rewrite (H5 E2). destruct (hk r); try discriminate E1; destruct p; try (exfalso; exact He); split; reflexivity.
  - intros c r H1 H2 p cmp imp up He _. exists [], (mkReader p (mkLevel cmp imp :: up)). split; [reflexivity|]. split; [reflexivity|]. exists p, cmp, imp. split; [reflexivity|]. split; [auto|]. split; [auto|]. split; [auto|]. split; [auto|]. intros ->. contradiction He.
  - intros c r Hc H p cmp imp up He _. exists [SEMICOLON], (mkReader Semi (mkLevel false false :: up)). split; [reflexivity|]. cbn [read]. rewrite (next_ends _ _ _ _ He). split; [reflexivity|].
    exists Semi, false, false. split; [reflexivity|]. split; [auto|]. split; [lia|]. split; [lia|]. split; [auto|]. lia.
  - intros c r x Hc _ IH p cmp imp up He Ha. destruct (IH Done cmp imp up) as (u & s' & -> & E & Hx).
    + exact I.
    + intros _. destruct (Ha eq_refl) as (H1 & H2 & H3 & H4). cbn in *. split; [intros; apply H1; lia|]. split; [intros; apply H2; lia|auto].
    + exists (DOUBLE_COLON :: ID :: u), s'. split; [reflexivity|]. cbn [read]. rewrite (next_ends _ _ _ _ He). split; [exact E|exact Hx].
  - intros c r Hc H p cmp imp up He _. exists [DOUBLE_COLON], (mkReader NeedField (mkLevel cmp imp :: up)). split; [reflexivity|]. cbn [read]. rewrite (next_ends _ _ _ _ He). split; [reflexivity|]. split; [|reflexivity]. cbn. destruct (hk r); try reflexivity. congruence.
  - intros c k r r' x Hb Hc Hsemi HP IH1 _ IH2 p cmp imp up He Ha. cbn [hk] in Ha. destruct (bin_next k cmp imp up c Hb Hc Ha) as (q & cmp1 & imp1 & En & Hf & Hi1 & Hq).
    destruct (IH1 q cmp1 imp1 up) as (u & s' & E & Hr & Hx); [destruct Hq as [->|[-> Ek]]; [now left|right; auto]|exact Hf|]. cbn [rest_of] in E.
    destruct Hx as (p' & cmp' & imp' & -> & He' & Hc' & Hi' & Hst & Hps). apply kinds_apart in Hb as Hk. destruct Hk as (Hk & _ & _).
    pose proof (bin_prec k Hb) as Hr5. clear IH1 HP.
    assert (ends p' r') as He2 by (destruct He' as [He'|[He' _]]; [exact He'|specialize (Hps He'); clear - Hps Hr5; lia]).
    destruct (IH2 p' cmp' imp' up He2) as (u' & s2 & E2 & Hr2 & Hx2).
    { intros Hk'. destruct Hst as [Hst|[_ Hst]]; [apply kinds_apart in Hst; congruence|]. exact (agree_next c k _ cmp imp imp1 cmp' imp' Hb Hc Ha Hi1 Hi' Hst Hk'). }
    clear IH2.
    exists (k :: u ++ u')%list, s2. split; [rewrite E, E2; cbn; now rewrite <- app_assoc|]. split; [cbn [read]; rewrite (next_ends _ _ _ _ He), En; rewrite (read_app _ _ _ _ Hr); exact Hr2|].
    destruct x as [a|]; [|exact Hx2]. destruct Hx2 as (p2 & cmp2 & imp2 & -> & Y1 & Y2 & Y3 & Y4 & Y5). exists p2, cmp2, imp2. split; [reflexivity|]. split; [exact Y1|]. split; [intros B; exfalso; clear - B Hc Hr5; lia|]. split; [|auto].
    intros H2. assert (3 <= TokenPrecedence k /\ 2 <= TokenPrecedence k) as [B1 B2] by (clear - H2 Hc; lia). rewrite (Y3 H2), (Hi' B2), (Hi1 B1). reflexivity.
  - intros c k r h r' Hb Hc Hsemi _ IH p cmp imp up He Ha. destruct (bin_next k cmp imp up c Hb Hc Ha) as (q & cmp1 & imp1 & En & Hf & Hi1 & Hq).
    destruct (IH q cmp1 imp1 up) as (u & s' & -> & Hr & Hx); [destruct Hq as [->|[-> Ek]]; [now left|right; auto]|exact Hf|].
    exists (k :: u), s'. split; [reflexivity|]. split; [cbn [read]; rewrite (next_ends _ _ _ _ He), En; exact Hr|exact Hx].
  - intros c r r' x _ IH1 _ IH2 q cmp imp up Hs Hf. destruct (IH1 q (mkLevel cmp imp :: up)) as (u & s' & E & Hr & p & -> & [He|[_ []]]); [discriminate|exact Hs|]. cbn [rest_of] in E.
    destruct (IH2 p cmp imp up He) as (u' & s2 & E2 & Hr2 & Hx2); [now apply fit_agree|]. exists (u ++ u')%list, s2. split; [rewrite E, E2; now rewrite <- app_assoc|]. split; [rewrite (read_app _ _ _ _ Hr); exact Hr2|exact Hx2].
  - intros c r h r' _ IH q cmp imp up Hs _. apply (IH q (mkLevel cmp imp :: up)); [discriminate|exact Hs].
Qed.

(** * The parser always gets somewhere *)
Lemma shape_shorter : (forall ks x, Ini ks x -> List.length (rest_of x) <= List.length ks /\ (is_ok x = true -> List.length (rest_of x) < List.length ks)) /\
  (forall c ks x, Ext c ks x -> List.length (rest_of x) <= List.length ks) /\
  (forall c ks x, Par c ks x -> List.length (rest_of x) <= List.length ks /\ (is_ok x = true -> List.length (rest_of x) < List.length ks)).
Proof.
  assert (forall ks x, Dts ks x -> List.length (rest_of x) <= List.length ks) as Hd by (induction 1; cbn in *; lia).
  apply shape_ind; intros; cbn [rest_of is_ok List.length] in *; try (split; [lia|intros; lia]); try lia; try (split; [lia|discriminate]).
  - specialize (Hd _ _ H0). lia.
Qed.
Lemma Dts_total n : forall ks, List.length ks <= n -> exists x, Dts ks x.
Proof.
  induction n as [|n IH]; intros ks Hn; [destruct ks; [|cbn in Hn; lia]; exists (SOk []); now constructor|].
  destruct (kind_eq_dec (hk ks) DOT) as [E|E]; [|exists (SOk ks); now constructor]. destruct ks as [|k r]; [discriminate|]. cbn in E. subst k.
  destruct (kind_eq_dec (hk r) ID) as [E|E]; [|eexists; now constructor]. destruct r as [|k r]; [discriminate|]. cbn in E. subst k. destruct (IH r) as [x Hx]; [cbn in Hn; lia|]. exists x. now constructor.
Qed.
Lemma shape_total n : (forall ks, List.length ks <= n -> exists x, Ini ks x) /\ (forall c ks, List.length ks <= n -> c <= 6 -> exists x, Ext c ks x) /\ (forall c ks, List.length ks <= n -> c <= 6 -> exists x, Par c ks x).
Proof.
  induction n as [|n (IHi & IHe & IHp)].
  - assert (forall ks : list kind, List.length ks <= 0 -> ks = []) as Hnil by (intros ks H; destruct ks; [reflexivity|cbn in H; lia]).
    split; [|split]; [intros ks H|intros c ks H _..]; rewrite (Hnil ks H); eexists; [now apply i_bad|now apply e_stop|now apply p_bad, i_bad].
  - assert (forall ks, List.length ks <= S n -> exists x, Ini ks x) as Hi.
    { intros ks Hn. destruct ks as [|k r]; [eexists; now apply i_bad|]. cbn in Hn. assert (List.length r <= n) as Hr by lia.
      destruct (start_kind k) eqn:Es; [|eexists; now apply i_bad]. destruct (atom k) eqn:Ea; [eexists; now apply i_atom|]. destruct (unary k) eqn:Eu; [destruct (IHp 6 r Hr (le_n _)) as [x Hx]; exists x; now apply i_un|].
      destruct k; try discriminate.
      - destruct (kind_eq_dec (hk r) ID) as [E|E]; [|eexists; now apply i_attr_bad]. destruct r as [|k r]; [discriminate|]. cbn in E. subst k. eexists. apply i_attr.
      - destruct (IHp 0 r Hr) as [[a|h a] Hx]; [lia| |eexists; apply i_par1; exact Hx].
        destruct (kind_eq_dec (hk a) RPAR) as [E|E]; [|eexists; now apply (i_par2 r a)]. destruct a as [|k a]; [discriminate|]. cbn in E. subst k. eexists. eapply i_par; exact Hx.
      - destruct (kind_eq_dec (hk r) LPAR) as [E|E]; [|destruct (Dts_total _ r (le_n _)) as [x Hx]; exists x; apply i_var; [exact E|exact Hx]]. destruct r as [|k r]; [discriminate|]. cbn in E. subst k.
        destruct (kind_eq_dec (hk r) STRING) as [E|E]; [|eexists; now apply i_addr1]. destruct r as [|k r]; [discriminate|]. cbn in E. subst k.
        destruct (kind_eq_dec (hk r) RPAR) as [E|E]; [|eexists; now apply i_addr2]. destruct r as [|k r]; [discriminate|]. cbn in E. subst k. eexists. apply i_addr. }
    assert (forall c ks, List.length ks <= S n -> c <= 6 -> exists x, Ext c ks x) as He.
    { intros c ks Hn Hc. destruct (stop_kind (hk ks)) eqn:Es; [eexists; now apply e_stop|]. destruct (ext_kind (hk ks)) eqn:Ee; [|eexists; now apply e_bad].
      destruct ks as [|k r]; [discriminate|]. cbn [hk] in *. cbn in Hn. assert (List.length r <= n) as Hr by lia. pose proof (none_left k) as Hnl.
      destruct (PeanoNat.Nat.lt_trichotomy c (TokenPrecedence k)) as [Hlt|[Heq|Hgt]].
      - destruct (kind_eq_dec k DOUBLE_COLON) as [->|Hk].
        + destruct (kind_eq_dec (hk r) ID) as [E|E]; [|eexists; apply e_field_bad; [exact Hlt|exact E]]. destruct r as [|k r]; [discriminate|]. cbn in E. subst k. destruct (IHe c r) as [x Hx]; [cbn in Hr; lia|exact Hc|]. exists x. now apply e_field.
        + assert (bin_kind k = true) as Hb by (destruct k; try discriminate Ee; try reflexivity; congruence).
          assert (TokenPrecedence k <= 6) as H6 by (pose proof (bin_prec k Hb); lia).
          destruct (kind_eq_dec k SEMICOLON) as [->|Hk2].
          * destruct (stop_kind (hk r)) eqn:E; [eexists; now apply e_trail|]. destruct (IHp 1 r Hr) as [[a|h a] Hx]; [lia| |eexists; eapply e_bin_bad; [exact Hb|exact Hlt|auto|exact Hx]].
            destruct (IHe c a) as [y Hy]; [apply shape_shorter in Hx as [Hx _]; cbn in Hx; lia|exact Hc|]. exists y. eapply e_bin; [exact Hb|exact Hlt|auto|exact Hx|exact Hy].
          * destruct (IHp (TokenPrecedence k) r Hr H6) as [[a|h a] Hx]; [|eexists; eapply e_bin_bad; [exact Hb|exact Hlt|congruence|exact Hx]].
            destruct (IHe c a) as [y Hy]; [apply shape_shorter in Hx as [Hx _]; cbn in Hx; lia|exact Hc|]. exists y. eapply e_bin; [exact Hb|exact Hlt|congruence|exact Hx|exact Hy].
      - destruct (is_none k) eqn:En; [subst c; eexists; now apply (e_non (k :: r))|]. eexists. apply (e_ret c (k :: r)); [exact Ee|]. right. split; [exact Heq|]. cbn. destruct (is_left k); [reflexivity|discriminate].
      - eexists. apply (e_ret c (k :: r)); [exact Ee|]. left. exact Hgt. }
    split; [exact Hi|]. split; [exact He|]. intros c ks Hn Hc. destruct (Hi ks Hn) as [[a|h a] Hx]; [|eexists; apply p_bad; exact Hx].
    destruct (He c a) as [y Hy]; [apply shape_shorter in Hx as [Hx _]; cbn in Hx; lia|exact Hc|]. exists y. eapply p_ok; [exact Hx|exact Hy].
Qed.
