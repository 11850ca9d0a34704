(** Quoting: what is shown, when it crashes, and where tokens are. *)
From Coq Require Import String Ascii List ZArith NArith Bool Lia ZifyBool ZifyN ZifyNat.
From Verif Require Import Base Num Token Ast Lexer Quote SpecLexer SpecGrammar SpecParser SpecQuote StrFacts LexerFacts LexerFacts2 LexerFacts4 LexerFacts5
  NumFacts LiteralFacts QuoteFacts.
Import ListNotations.
Open Scope string_scope.

Lemma slen_length s : slen s = Z.of_nat (String.length s).
Proof. reflexivity. Qed.
Lemma loc_proto_equal_iff a b : loc_proto_equal a b = true <-> a = b.
Proof.
  unfold loc_proto_equal. destruct a as [l1 c1 s1], b as [l2 c2 s2]. cbn [l_line l_col l_src]. rewrite !andb_true_iff, !Z.eqb_eq.
  assert (source_eqb s1 s2 = true <-> s1 = s2) as ->.
  { destruct s1, s2; cbn; try rewrite String.eqb_eq; split; congruence. }
  split; [intros [[-> ->] ->]; reflexivity|intros [= -> -> ->]; auto].
Qed.
Lemma Quote_shown c s e k line from to : l_line s = l_line e -> l_line s = (l_line (cs_loc c) + Z.of_nat k)%Z -> (0 <= l_line s)%Z ->
  LineOf (cs_string c) k line -> l_col s = Z.of_nat from -> l_col e = Z.of_nat to -> (from < to)%nat ->
  exists num prev out, Decimal num (Z.to_N (l_line s + 1)) /\
    match k with O => prev = None | S k' => exists p, prev = Some p /\ LineOf (cs_string c) k' p end /\
    Shown prev num line from to out /\ Quote c s e = Ok out.
Proof.
  intros Hl Hk Hpos HL Hs He Hft. apply LineOf_nth in HL as HK.
  assert (loc_proto_equal s e = false) as Hne.
  { destruct (loc_proto_equal s e) eqn:E; [|reflexivity]. apply loc_proto_equal_iff in E. subst e. lia. }
  pose proof (Quote_key c s e line Hne) as Q. cbn zeta in Q. replace (Z.to_nat (l_line s - l_line (cs_loc c))) with k in Q by lia.
  specialize (Q HK). rewrite Hl, Z.eqb_refl, <- Hl in Q. rewrite Hs, He in Q. unfold std_string_fill in Q.
  replace (Z.of_nat from <? 0)%Z with false in Q by lia. cbn [bind] in Q. replace (Z.of_nat to - Z.of_nat from <? 0)%Z with false in Q by lia. cbn [bind] in Q.
  replace (Z.to_nat (Z.of_nat from)) with from in Q by lia. replace (Z.to_nat (Z.of_nat to - Z.of_nat from)) with (to - from)%nat in Q by lia.
  exists (dec (l_line s + 1)). exists (match k with O => None | S k' => Some (nth k' (getlines (cs_string c)) "") end). eexists.
  split; [apply dec_Decimal; f_equal; lia|]. split; [|split; [|exact Q]].
  - destruct k as [|k']; [reflexivity|]. eexists. split; [reflexivity|]. apply nth_LineOf.
    apply nth_error_nth'. enough (S k' < List.length (getlines (cs_string c)))%nat by lia. apply nth_error_Some. congruence.
  - eexists _, _, _. split; [apply Times_repeat; reflexivity|]. split; [apply Times_repeat; reflexivity|]. split; [apply Times_repeat; reflexivity|].
    unfold context_of. destruct k; cbn [append]; rewrite ?sapp_assoc; reflexivity.
Qed.
(** When quoting crashes. *)
Lemma Quote_crash c s e : (exists w, Quote c s e = Crash w) <->
  s <> e /\ exists line num, LineOf (cs_string c) (Z.to_nat (l_line s - l_line (cs_loc c))) line /\ num = dec (l_line s + 1) /\
    (l_col s < 0 \/ (l_line s = l_line e /\ l_col e < l_col s) \/
     (l_line s <> l_line e /\ Z.of_nat (String.length line) < Z.of_nat (String.length num) + 3 + l_col s))%Z.
Proof.
  destruct (loc_proto_equal s e) eqn:Eq.
  { split; [intros [w H]; unfold Quote in H; rewrite Eq in H; discriminate|]. apply loc_proto_equal_iff in Eq. tauto. }
  assert (s <> e) as Hne by (intros E; apply loc_proto_equal_iff in E; congruence).
  destruct (nth_error (getlines (cs_string c)) (Z.to_nat (l_line s - l_line (cs_loc c)))) as [line|] eqn:En.
  - rewrite (Quote_key c s e line Eq En). apply nth_LineOf in En as HL. unfold std_string_fill.
    assert (forall line', LineOf (cs_string c) (Z.to_nat (l_line s - l_line (cs_loc c))) line' -> line' = line) as Hu by (intros l' H; apply LineOf_nth in H; congruence).
    destruct (Z.ltb_spec (l_col s) 0) as [H0|H0]; cbn [bind].
    + split; [intros _; split; [exact Hne|]; exists line, (dec (l_line s + 1)); auto|eauto].
    + rewrite !slen_length, !slength_app, !repeat_length. cbn [String.length]. destruct (Z.eqb_spec (l_line s) (l_line e)) as [El|El]; match goal with |- context [(?u <? 0)%Z] => destruct (Z.ltb_spec u 0) as [H1|H1] end; cbn [bind].
      * split; [intros _; split; [exact Hne|]; exists line, (dec (l_line s + 1)); split; [exact HL|split; [reflexivity|lia]]|eauto].
      * split; [intros [w Hw]; discriminate|]. intros (_ & l' & num & Hl' & -> & H). apply Hu in Hl' as ->. lia.
      * split; [intros _; split; [exact Hne|]; exists line, (dec (l_line s + 1)); split; [exact HL|split; [reflexivity|lia]]|eauto].
      * split; [intros [w Hw]; discriminate|]. intros (_ & l' & num & Hl' & -> & H). apply Hu in Hl' as ->. lia.
  - destruct (Quote_nokey c s e Eq En) as [m ->]. split; [intros [w H]; discriminate|]. intros (_ & l' & num & Hl' & _). apply LineOf_nth in Hl'. congruence.
Qed.

(** * Tokens and lines *)
Definition at_line (l0 : loc) (pre : string) (l : loc) : Prop :=
  exists a x, pre = a ++ x /\ (a = "" \/ exists a', a = a' ++ String LF "") /\ nobreak x /\
    l_line l = (l_line l0 + Z.of_nat (breaks a))%Z /\ l_col l = Z.of_nat (String.length x).
Lemma at_line_LF l0 pre l l' p : at_line l0 pre l -> p = str1 LF \/ p = String CR (str1 LF) -> l_line l' = (l_line l + 1)%Z -> l_col l' = 0%Z -> at_line l0 (pre ++ p) l'.
Proof.
  intros (a & x & -> & Ha & Hx & H1 & H2) Hp E1 E2. exists (a ++ x ++ p), "". rewrite !sapp_nil_r, !sapp_assoc. split; [reflexivity|].
  split; [right; destruct Hp as [->| ->]; [exists (a ++ x); now rewrite !sapp_assoc|exists (a ++ x ++ String CR ""); now rewrite !sapp_assoc]|].
  split; [intros c []|]. split; [|exact E2]. rewrite !breaks_app. assert (breaks p = 1%nat) as -> by (destruct Hp as [->| ->]; reflexivity).
  assert (breaks x = 0%nat) as ->; [|lia]. clear - Hx. induction x as [|c x IH]; [reflexivity|]. cbn [breaks].
  destruct (Ascii.eqb_spec c LF) as [->|_]; [destruct (Hx LF (or_introl eq_refl)); congruence|]. apply IH. intros d Hd. apply Hx. now right.
Qed.
Lemma at_line_advance l0 s : forall pre l, at_line l0 pre l -> no_bare_CR s -> at_line l0 (pre ++ s) (advance s l).
Proof.
  assert (forall n s pre l, (String.length s <= n)%nat -> at_line l0 pre l -> no_bare_CR s -> at_line l0 (pre ++ s) (advance s l)) as H; [|eauto].
  induction n as [|n IH]; intros [|c t] pre l Hl Ha Hb; cbn [advance]; try (rewrite sapp_nil_r; exact Ha); [cbn in Hl; lia|]. cbn in Hl.
  assert (no_bare_CR t) as Hb' by exact (no_bare_app (str1 c) t Hb).
  destruct (Ascii.eqb_spec c LF) as [->|Hn].
  - change (String LF t) with (str1 LF ++ t). rewrite <- sapp_assoc. apply IH; [lia| |exact Hb']. eapply at_line_LF; [exact Ha|now left|reflexivity|reflexivity].
  - destruct (Ascii.eqb_spec c CR) as [->|Hc].
    + destruct (Hb "" t eq_refl) as [t' ->]. rewrite Ascii.eqb_refl. change (String CR (String LF t')) with (String CR (str1 LF) ++ t'). rewrite <- sapp_assoc.
      apply IH; [cbn in Hl; lia| |exact (no_bare_app (str1 LF) t' Hb')]. eapply at_line_LF; [exact Ha|now right|reflexivity|reflexivity].
    + change (String c t) with (str1 c ++ t). rewrite <- sapp_assoc. apply IH; [lia| |exact Hb'].
      destruct Ha as (a & x & -> & Ha & Hx & H1 & H2). exists a, (x ++ str1 c). rewrite sapp_assoc. split; [reflexivity|]. split; [exact Ha|].
      split; [|split; [exact H1|cbn [l_col]; rewrite slength_app; cbn; lia]].
      intros d Hd. unfold chars in Hd. rewrite chars_app in Hd. apply in_app_iff in Hd as [Hd|[<-|[]]]; [now apply Hx|auto].
Qed.
Lemma nobreak_breaks x : nobreak x -> breaks x = 0%nat.
Proof.
  induction x as [|c x IH]; intros Hx; [reflexivity|]. cbn [breaks].
  destruct (Ascii.eqb_spec c LF) as [->|_]; [destruct (Hx LF (or_introl eq_refl)); congruence|]. apply IH. intros d Hd. apply Hx. now right.
Qed.
Lemma stands_intro l0 pre l lx rest t : at_line l0 pre l -> nobreak lx -> lx <> "" -> t_start t = l -> t_end t = shift (String.length lx) l ->
  ((exists n, shape n lx (Tok (t_kind t) (t_text t))) \/ (t_kind t = UNEXPECTED_CHAR /\ lx = t_text t)) -> stands (pre ++ lx ++ rest) l0 t.
Proof.
  intros (a & x & -> & Ha & Hx & H1 & H2) Hlx Hne Es Ee Hsh.
  assert (exists y b, rest = y ++ b /\ breaks y = 0%nat /\ (b = "" \/ exists b', b = String LF b')) as (y & b & -> & Hy & Hb).
  { destruct (first_break rest) as [Hs|(l1 & r & -> & Hl)]; [exists rest, ""; rewrite sapp_nil_r; auto|eauto 10]. }
  exists (breaks a), (x ++ lx ++ y), x, lx, y. rewrite Es, Ee. cbn [shift l_line l_col]. split; [exact H1|]. split; [reflexivity|].
  split; [|split; [reflexivity|split; [exact H2|split; [lia|exact Hsh]]]].
  exists a, b. rewrite !sapp_assoc. split; [reflexivity|]. split; [reflexivity|].
  split; [rewrite !breaks_app, (nobreak_breaks x Hx), (nobreak_breaks lx Hlx), Hy; reflexivity|]. split; [exact Ha|]. split; [exact Hb|].
  destruct x; [|discriminate]. destruct lx; [congruence|discriminate].
Qed.
Lemma Lex_stands l s ts : Lex l s ts -> forall pre l0, no_bare_CR s -> at_line l0 pre l ->
  (forall t, In t ts -> t_kind t = STRING -> no_line_break (t_text t)) ->
  forall t, In t ts -> t_kind t <> END_OF_INPUT -> stands (pre ++ s) l0 t.
Proof.
  induction 1 as [l|l c s Hno|l s lx rest ts Hx H IH|l s lx k x rest ts Hx H IH]; intros pre l0 Hcr Hl Hs t Ht Hk.
  - destruct Ht as [<-|[]]. cbn in Hk. congruence.
  - destruct Ht as [<-|[]]. change (String c s) with (String c "" ++ s). eapply stands_intro; [exact Hl| |discriminate|reflexivity|reflexivity|right; split; reflexivity].
    intros d [<-|[]]. split; intros ->.
    + destruct (Hcr "" s eq_refl) as [b' ->]. apply (Hno (String CR (str1 LF)) Skip b'). apply next_iff. exists 1%nat. split; [reflexivity|].
      intros m Hm. assert (m = 0%nat) as -> by lia. reflexivity.
    + apply (Hno (str1 LF) Skip s). apply next_iff. exists 1%nat. split; [reflexivity|]. intros m Hm. assert (m = 0%nat) as -> by lia. reflexivity.
  - pose proof (next_no_split _ _ _ _ Hx) as Hns. apply next_app in Hx. subst s. rewrite <- sapp_assoc.
    apply IH; [exact (no_bare_app _ _ Hcr)| |exact Hs|exact Ht|exact Hk]. apply at_line_advance; [exact Hl|exact (no_bare_app_l _ _ Hcr Hns)].
  - destruct (next_shape _ _ _ _ Hx) as [n Hn]. pose proof (shape_nonempty _ _ _ Hn) as Hne. apply next_app in Hx. subst s.
    assert (nobreak lx) as Hnb by (eapply shape_tok_nobreak; [exact Hn|]; intros Hk'; exact (Hs _ (or_introl eq_refl) Hk')).
    destruct Ht as [<-|Ht].
    + eapply stands_intro; [exact Hl|exact Hnb|exact Hne|reflexivity|reflexivity|left; exists n; exact Hn].
    + rewrite <- sapp_assoc. apply IH; [exact (no_bare_app _ _ Hcr)| |intros t' Ht'; apply Hs; now right|exact Ht|exact Hk].
      rewrite <- (advance_nobreak' lx l Hnb). apply at_line_advance; [exact Hl|].
      intros a b ->. exfalso. unfold nobreak in Hnb. destruct (Hnb CR); [|congruence]. unfold chars. rewrite chars_app. apply in_app_iff. right. now left.
Qed.
