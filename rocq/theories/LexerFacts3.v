(** Proofs about the lexer, continued: the scanner implements [Next], and
    [Tokenize] implements [Lex]. *)
From Coq Require Import String Ascii List ZArith NArith Bool Lia ZifyBool ZifyN ZifyNat.
From Verif Require Import Base Regex Token Lexer SpecLexer StrFacts LexerFacts LexerFacts2.
Import ListNotations.
Open Scope string_scope.

Definition best (n : nat) (s : string) (o : option (string * item * string)) : Prop :=
  match o with
  | Some (lx, it, rest) =>
      s = lx ++ rest /\ shape n lx it /\
      (forall lx' it' rest', s = lx' ++ rest' -> shape n lx' it' ->
         (String.length lx' <= String.length lx)%nat)
  | None => forall lx it rest, s = lx ++ rest -> ~ shape n lx it
  end.

Lemma is_blank_iff c : is_blank c = true <-> blank c.
Proof.
  unfold is_blank, blank. destruct (Ascii.eqb_spec c " "), (Ascii.eqb_spec c TAB); cbn; intuition congruence.
Qed.
Lemma is_alpha_iff c : is_alpha_ c = true <-> letter c.
Proof.
  unfold is_alpha_, letter, is_lower, is_upper. rewrite !orb_true_iff, !in_range_iff.
  destruct (Ascii.eqb_spec c "_"); intuition congruence.
Qed.
Lemma is_digit_iff c : is_digit c = true <-> digit c.
Proof. apply in_range_iff. Qed.
Lemma is_alnum_iff c : is_alnum_ c = true <-> letter c \/ digit c.
Proof. unfold is_alnum_. now rewrite orb_true_iff, is_alpha_iff, is_digit_iff. Qed.
Lemma is_hex_iff c : is_hex c = true <-> hexdigit c.
Proof. unfold is_hex, hexdigit. rewrite !orb_true_iff, is_digit_iff, !in_range_iff. tauto. Qed.
Lemma only_iff (p : ascii -> bool) (q : ascii -> Prop) t : (forall c, p c = true <-> q c) ->
  (forall c, In c (chars t) -> p c = true) <-> only q t.
Proof. intros H. unfold only. split; intros H' c Hc; apply H, H', Hc. Qed.

Lemma best_blank s : best 0 s (option_map (fun x => (fst x, Skip, snd x)) (plus_span is_blank s)).
Proof.
  destruct (plus_span is_blank s) as [[t r]|] eqn:E; cbn.
  - pose proof (plus_span_spec _ _ _ _ E) as (Hne & Hs & Ha & _). repeat split; auto.
    + constructor; [exact Hne|]. apply (only_iff is_blank blank _ is_blank_iff); assumption.
    + intros lx' it' rest' Hs' Hsh. inversion Hsh; subst. eapply plus_span_longest; eauto.
      eapply only_iff; [apply is_blank_iff|assumption].
  - intros lx it rest Hs Hsh. inversion Hsh as [t H1 H2| | | | | | | | | | |]; subst.
    eapply plus_span_none; eauto. eapply only_iff; [apply is_blank_iff|assumption].
Qed.
Lemma best_newline s : best 1 s (option_map (fun x => (fst x, Skip, snd x)) (scan_newline s)).
Proof.
  destruct (scan_newline s) as [[t r]|] eqn:E; cbn.
  - apply scan_newline_spec in E as (Hs & Hl & Hno). repeat split; auto; [now constructor|].
    intros lx' it' rest' Hs' Hsh. inversion Hsh as [|t' H1| | | | | | | | | |]; subst.
    destruct Hl as [->|[->| ->]], H1 as [->|[->| ->]]; cbn in *; try lia; try discriminate.
    injection Hs' as ->. elim Hno. split; [exists ""; reflexivity|eexists; reflexivity].
  - intros lx it rest Hs Hsh. inversion Hsh; subst. eapply scan_newline_none; eauto.
Qed.
Lemma is_crlf_iff c : is_crlf c = true <-> c = CR \/ c = LF.
Proof. unfold is_crlf. destruct (Ascii.eqb_spec c CR), (Ascii.eqb_spec c LF); cbn; intuition congruence. Qed.
Lemma best_line s : best 2 s (option_map (fun x => (fst x, Skip, snd x)) (scan_line_comment s)).
Proof.
  unfold scan_line_comment. destruct (strip_prefix "//" s) as [s'|] eqn:E.
  - apply strip_prefix_spec in E. subst s.
    destruct (rspan (String.length s') is_crlf s') as [t r] eqn:Er. cbn [option_map best fst snd].
    pose proof (rspan_spec _ _ _ _ _ _ is_crlf_iff (le_n _) Er) as (Hs & Ht & _).
    repeat split.
    + now rewrite sapp_assoc, <- Hs.
    + now constructor.
    + intros lx' it' rest' Hs' Hsh. inversion Hsh as [| |t' H1| | | | | | | | |]; subst lx'.
      rewrite sapp_assoc in Hs'. apply sapp_inv_head in Hs'.
      pose proof (rspan_longest _ _ _ _ _ _ _ _ is_crlf_iff (le_n _) Er H1 Hs').
      rewrite !slength_app. lia.
  - rewrite strip_prefix_None in E. intros lx it rest Hs Hsh.
    inversion Hsh; subst. eapply E. apply sapp_assoc.
Qed.
Lemma best_block s : best 3 s
  match strip_prefix "/*" s with
  | Some s' =>
      let (rest, _) := SwallowMultiLineComment (String.length s') s' default_loc in
      Some (substring 0 (String.length s - String.length rest) s, Skip, rest)
  | None => None
  end.
Proof.
  destruct (strip_prefix "/*" s) as [s'|] eqn:E.
  2: { rewrite strip_prefix_None in E. intros lx it rest Hs Hsh.
       inversion Hsh; subst; eapply E; rewrite sapp_assoc; reflexivity. }
  apply strip_prefix_spec in E. subst s.
  destruct (swallow_spec (String.length s') s' default_loc (le_n _)) as (body & closed & rest & -> & Hs & Hb & Ho & Hc & _).
  set (cl := if closed then "*/" else "") in *.
  assert (substring 0 (String.length ("/*" ++ s') - String.length rest) ("/*" ++ s') = "/*" ++ body ++ cl) as Hsub.
  { rewrite Hs at 2. rewrite <- (sapp_assoc body), <- sapp_assoc.
    replace (String.length ("/*" ++ s') - String.length rest)%nat with (String.length ("/*" ++ body ++ cl)).
    - apply substring_prefix.
    - rewrite Hs, !slength_app. lia. }
  rewrite Hsub. cbn [best]. split; [|split].
  - rewrite sapp_assoc, sapp_assoc. now rewrite <- Hs.
  - unfold cl. destruct closed; [now constructor|]. rewrite sapp_nil_r. now constructor.
  - intros lx' it' rest' Hs' Hsh.
    assert (forall t, lx' = "/*" ++ t -> (String.length t <= String.length (body ++ cl))%nat ->
      (String.length lx' <= String.length ("/*" ++ body ++ cl))%nat) as Hlen.
    { intros t -> Ht. rewrite !(slength_app "/*"). lia. }
    destruct closed; unfold cl in *; clear cl.
    + inversion Hsh as [| | |t H1 H2|t H1 H2| | | | | | |]; subst lx'; eapply Hlen; try reflexivity.
      * rewrite !slength_app. enough (String.length t <= String.length body)%nat by (cbn; lia).
        rewrite !sapp_assoc in Hs'. apply sapp_inv_head in Hs'. rewrite Hs in Hs'.
        destruct (Nat.leb_spec (String.length t) (String.length body)) as [|Hgt]; [assumption|].
        destruct (prefix_cases _ _ _ _ Hs' ltac:(lia)) as (e & -> & He).
        destruct e as [|e1 e]; [rewrite sapp_nil_r in Hgt; lia|].
        cbn in He. injection He as <- He. destruct e as [|e2 e]; [discriminate He|].
        cbn in He. injection He as <- He. exfalso. apply H2. exists body, e. reflexivity.
      * rewrite slength_app.
        destruct (Nat.leb_spec (String.length t) (String.length body + String.length "*/")) as [|Hgt]; [assumption|].
        rewrite !sapp_assoc in Hs'. apply sapp_inv_head in Hs'. rewrite Hs in Hs'.
        rewrite <- (sapp_assoc body) in Hs'.
        destruct (prefix_cases _ _ _ _ Hs' ltac:(rewrite slength_app; lia)) as (e & -> & He).
        exfalso. apply H2. exists body, e. apply sapp_assoc.
    + rewrite sapp_nil_r in *. cbn [append] in Hs.
      specialize (Hc eq_refl).
      assert (forall t r, runes (fun _ => False) t -> s' = t ++ r -> (String.length t <= String.length body)%nat) as Hmax.
      { intros t r Ht Hst. destruct (Nat.leb_spec (String.length t) (String.length body)) as [|Hgt]; [assumption|].
        rewrite Hs in Hst. destruct (prefix_cases _ _ _ _ Hst ltac:(lia)) as (e & -> & He).
        apply runes_app_inv in Ht; [|assumption].
        inversion Ht as [Hnil|ru u Hru Hbu Hu Hnil]; subst e.
        - rewrite sapp_nil_r in Hgt. lia.
        - rewrite sapp_assoc in He. rewrite He, match_rune_complete in Hc; [discriminate|assumption|auto]. }
      inversion Hsh as [| | |t H1 H2|t H1 H2| | | | | | |]; subst lx'.
      * exfalso. rewrite !sapp_assoc in Hs'. apply sapp_inv_head in Hs'.
        assert (runes (fun _ => False) (t ++ "*/")) as Ht.
        { apply runes_app; [assumption|]. apply (runes_app _ (str1 "*") (str1 "/")); apply runes_one; try reflexivity; tauto. }
        rewrite <- sapp_assoc in Hs'. pose proof (Hmax _ _ Ht Hs') as Hle.
        rewrite Hs in Hs'. symmetry in Hs'.
        destruct (prefix_cases _ _ _ _ Hs' Hle) as (e & He & _).
        apply Ho. exists t, e. now rewrite He, sapp_assoc.
      * eapply Hlen; [reflexivity|]. rewrite sapp_assoc in Hs'. apply sapp_inv_head in Hs'. eapply Hmax; eauto.
Qed.

Lemma scan_words_none ws s : scan_words ws s = None -> forall w r, In w ws -> s <> w ++ r.
Proof.
  induction ws as [|w ws IH]; cbn; intros H w' r; [tauto|].
  destruct (strip_prefix w s) as [r'|] eqn:E; [discriminate|]. cbn in H.
  intros [<-|Hin]; [|now apply IH]. rewrite strip_prefix_None in E. apply E.
Qed.
Lemma fixed_words_max w t e k : In w fixed_words -> In (k, t) fixed_spelling -> t = w ++ e -> e = "".
Proof.
  assert (forallb (fun w => forallb (fun kt =>
      match strip_prefix w (snd kt) with Some e => String.eqb e "" | None => true end)
    fixed_spelling) fixed_words = true) as H by reflexivity.
  intros Hw Ht He. rewrite forallb_forall in H. specialize (H w Hw).
  rewrite forallb_forall in H. specialize (H (k, t) Ht). cbn [snd] in H.
  apply strip_prefix_spec in He. rewrite He in H. now apply String.eqb_eq.
Qed.
Lemma fixed_word_or_char k t : In (k, t) fixed_spelling ->
  In t fixed_words \/ exists c, t = str1 c /\ mem_char "!()><.;-" c = true.
Proof.
  intros H. cbn in H.
  repeat (destruct H as [H|H]; [injection H as <- <-; first [left; cbn; tauto | right; eexists; split; reflexivity]|]).
  destruct H.
Qed.
Lemma best_keyword s : best 4 s (option_map (fun x => (fst x, Tok (kw_kind (fst x)) (fst x), snd x)) (scan_keyword s)).
Proof.
  destruct (scan_keyword s) as [[t r]|] eqn:E; cbn [option_map best fst snd].
  - pose proof (scan_keyword_fixed _ _ E) as [Hs Hin]. cbn [fst snd] in *. repeat split; auto; [now constructor|].
    intros lx' it' rest' Hs' Hsh. inversion Hsh as [| | | | |k t' Hin'| | | | | |]; subst lx' it'.
    unfold scan_keyword in E. destruct (scan_words fixed_words s) as [y|] eqn:Ew; cbn [orelse] in E.
    + injection E as ->. apply scan_words_in in Ew as [Hw _]. cbn in Hw.
      destruct (Nat.leb_spec (String.length t') (String.length t)) as [|Hgt]; [assumption|].
      rewrite Hs in Hs'. destruct (prefix_cases _ _ _ _ Hs' ltac:(lia)) as (e & He & _).
      pose proof (fixed_words_max _ _ _ _ Hw Hin' He) as ->. rewrite He, sapp_nil_r in Hgt. lia.
    + assert (String.length t = 1%nat) as ->.
      { unfold scan_char in E. destruct s as [|c s]; [discriminate|]. destruct (mem_char _ c); [|discriminate].
        injection E as <- <-. reflexivity. }
      apply fixed_word_or_char in Hin' as [Hw|(c & -> & _)]; [|cbn; lia].
      elim (scan_words_none _ _ Ew t' rest' Hw Hs').
  - intros lx it rest Hs Hsh. inversion Hsh as [| | | | |k t' Hin'| | | | | |]; subst lx it.
    unfold scan_keyword in E. destruct (scan_words fixed_words s) as [y|] eqn:Ew; cbn [orelse] in E; [discriminate|].
    apply fixed_word_or_char in Hin' as [Hw|(c & -> & Hc)].
    + elim (scan_words_none _ _ Ew t' rest Hw Hs).
    + subst s. cbn [append str1 scan_char] in E. rewrite Hc in E. discriminate.
Qed.
Lemma best_id s : best 5 s (option_map (fun x => (fst x, Tok ID (fst x), snd x)) (scan_id s)).
Proof.
  unfold scan_id. destruct s as [|c s].
  { intros lx it rest Hs Hsh. inversion Hsh; subst. discriminate. }
  destruct (is_alpha_ c) eqn:Ec.
  - destruct (span is_alnum_ s) as [t r] eqn:E. cbn.
    pose proof (span_spec _ _ _ _ E) as (Hs & Ha & _). split; [now rewrite Hs|]. split.
    + constructor; [now apply is_alpha_iff|].
      apply (only_iff is_alnum_ _ _ is_alnum_iff). assumption.
    + intros lx' it' rest' Hs' Hsh. inversion Hsh as [| | | | | |c' t' H1 H2| | | | |]; subst lx' it'.
      cbn in *. injection Hs' as <- Hs'. apply le_n_S. eapply span_longest; eauto.
      eapply only_iff; [apply is_alnum_iff|assumption].
  - intros lx it rest Hs Hsh. inversion Hsh as [| | | | | |c' t' H1 H2| | | | |]; subst lx it.
    cbn in Hs. injection Hs as <- _. apply is_alpha_iff in H1. congruence.
Qed.

Lemma best_num (b1 b2 : ascii) p (q : ascii -> Prop) n k s :
  (forall c, p c = true <-> q c) ->
  (forall lx it, shape n lx it <-> exists pr t, (pr = String "0" (str1 b1) \/ pr = String "0" (str1 b2)) /\
      t <> "" /\ only q t /\ lx = pr ++ t /\ it = Tok k t) ->
  best n s (option_map (fun x => let '(lx, t, r) := x in (lx, Tok k t, r))
              (scan_num (String b1 (str1 b2)) p s)).
Proof.
  intros Hp Hsh. unfold scan_num.
  assert (forall pr t rest, (pr = String "0" (str1 b1) \/ pr = String "0" (str1 b2)) -> s = (pr ++ t) ++ rest ->
     exists x, (x = b1 \/ x = b2) /\ s = String "0" (String x (t ++ rest)) /\ pr = String "0" (str1 x)) as Hdec.
  { intros pr t rest [-> | ->] ->; cbn; eauto. }
  destruct s as [|z [|x s]].
  - intros lx it rest Hs H. apply Hsh in H as (pr & t & Hpr & _ & _ & -> & _).
    destruct (Hdec _ _ _ Hpr Hs) as (? & _ & ? & _). discriminate.
  - intros lx it rest Hs H. apply Hsh in H as (pr & t & Hpr & _ & _ & -> & _).
    destruct (Hdec _ _ _ Hpr Hs) as (? & _ & ? & _). discriminate.
  - destruct (Ascii.eqb_spec "0" z) as [<-|Hz]; cbn [andb].
    2: { intros lx it rest Hs H. apply Hsh in H as (pr & t & Hpr & _ & _ & -> & _).
         destruct (Hdec _ _ _ Hpr Hs) as (? & _ & ? & _). congruence. }
    destruct (mem_char (String b1 (str1 b2)) x) eqn:Em.
    2: { intros lx it rest Hs H. apply Hsh in H as (pr & t & Hpr & _ & _ & -> & _).
         destruct (Hdec _ _ _ Hpr Hs) as (y & Hy & Hy' & _). injection Hy' as -> _.
         assert (mem_char (String b1 (str1 b2)) y = true); [|congruence].
         apply mem_char_in. cbn. intuition congruence. }
    apply mem_char_in in Em. cbn in Em.
    destruct (plus_span p s) as [[t r]|] eqn:E; cbn [option_map best fst snd].
    + pose proof (plus_span_spec _ _ _ _ E) as (Hne & Hs & Ha & _). split; [cbn; now rewrite Hs|]. split.
      * apply Hsh. exists (String "0" (str1 x)), t. repeat split; auto; [intuition congruence|].
        apply (only_iff p _ _ Hp). assumption.
      * intros lx' it' rest' Hs' H. apply Hsh in H as (pr & t' & Hpr & Hne' & Ha' & -> & _).
        destruct (Hdec _ _ _ Hpr Hs') as (y & Hy & Hy' & ->). injection Hy' as -> Hy'. cbn.
        do 2 apply le_n_S. eapply plus_span_longest; eauto. now apply (only_iff p q).
    + intros lx' it' rest' Hs' H. apply Hsh in H as (pr & t' & Hpr & Hne' & Ha' & -> & _).
      destruct (Hdec _ _ _ Hpr Hs') as (y & Hy & Hy' & ->). injection Hy' as -> Hy'.
      eapply plus_span_none; eauto. now apply (only_iff p q).
Qed.
Lemma is_bin_iff c : is_bin c = true <-> between 48 49 c.
Proof. apply in_range_iff. Qed.
Lemma is_oct_iff c : is_oct c = true <-> between 48 55 c.
Proof. apply in_range_iff. Qed.
Definition tokopt (k : kind) (x : string * string * string) : string * item * string :=
  let '(lx, t, r) := x in (lx, Tok k t, r).
Lemma best_bin s : best 6 s (option_map (tokopt BINARY) (scan_num "bB" is_bin s)).
Proof.
  apply (best_num "b" "B" is_bin (between 48 49)); [apply is_bin_iff|].
  intros lx it. split.
  - intros H. inversion H as [| | | | | | |p t|p t|p t| |]; subst; exists p, t; auto 6.
  - intros (pr & t & H1 & H2 & H3 & -> & ->). now constructor.
Qed.
Lemma best_oct s : best 7 s (option_map (tokopt OCTARY) (scan_num "oO" is_oct s)).
Proof.
  apply (best_num "o" "O" is_oct (between 48 55)); [apply is_oct_iff|].
  intros lx it. split.
  - intros H. inversion H as [| | | | | | |p t|p t|p t| |]; subst; exists p, t; auto 6.
  - intros (pr & t & H1 & H2 & H3 & -> & ->). now constructor.
Qed.
Lemma best_hex s : best 8 s (option_map (tokopt HEXADEC) (scan_num "xX" is_hex s)).
Proof.
  apply (best_num "x" "X" is_hex hexdigit); [apply is_hex_iff|].
  intros lx it. split.
  - intros H. inversion H as [| | | | | | |p t|p t|p t| |]; subst; exists p, t; auto 6.
  - intros (pr & t & H1 & H2 & H3 & -> & ->). now constructor.
Qed.
Lemma best_dec s : best 9 s (option_map (tokopt DECIMAL) (scan_dec s)).
Proof.
  unfold scan_dec, scan_num.
  assert (forall s t rest, only digit t -> t <> "" -> s = t ++ rest -> (String.length t <= String.length (fst (span is_digit s)))%nat) as Hplain.
  { intros s0 t rest Ht _ Hs. destruct (span is_digit s0) as [t0 r0] eqn:E. cbn.
    eapply span_longest; eauto. now apply (only_iff is_digit digit _ is_digit_iff). }
  assert (forall s, match plus_span is_digit s with
                    | Some (t, r) => t <> "" /\ s = t ++ r /\ only digit t /\ fst (span is_digit s) = t
                    | None => fst (span is_digit s) = "" end) as Hps.
  { intros s0. unfold plus_span. destruct (span is_digit s0) as [t r] eqn:E.
    destruct (String.eqb_spec t ""); [assumption|]. apply span_spec in E as (? & ? & _).
    split; [assumption|split; [assumption|split; [|reflexivity]]]. now apply (only_iff is_digit digit _ is_digit_iff). }
  set (o := match s with String z (String x s') => _ | _ => None end).
  assert (match o with
          | Some (lx, t, r) => exists x s', (x = "d"%char \/ x = "D"%char) /\ s = String "0" (String x s') /\
              plus_span is_digit s' = Some (t, r) /\ lx = String "0" (String x t)
          | None => forall x s', (x = "d"%char \/ x = "D"%char) -> s = String "0" (String x s') -> plus_span is_digit s' = None
          end) as Ho.
  { unfold o. destruct s as [|z [|x s']]; try (intros; discriminate).
    destruct (Ascii.eqb_spec "0" z) as [<-|]; cbn [andb]; [|intros; congruence].
    destruct (mem_char "dD" x) eqn:Em.
    - apply mem_char_in in Em. cbn in Em. destruct (plus_span is_digit s') as [[t r]|] eqn:E; cbn.
      + exists x, s'. repeat split; auto. intuition congruence.
      + intros x0 s0 _ [= <- <-]. exact E.
    - intros x0 s0 Hx [= <- <-]. assert (mem_char "dD" x = true); [|congruence]. apply mem_char_in. cbn. intuition congruence. }
  clearbody o. destruct o as [[[lx t] r]|]; cbn [orelse option_map tokopt best].
  - destruct Ho as (x & s' & Hx & -> & E & ->). pose proof (Hps s') as Hp. rewrite E in Hp.
    destruct Hp as (Hne & Hs & Ha & Hf). split; [cbn; now rewrite Hs|]. split.
    + change (String "0" (String x t)) with (String "0" (str1 x) ++ t). constructor; auto.
      destruct Hx as [->| ->]; auto.
    + intros lx' it' rest' Hs' H. inversion H as [| | | | | | | | | |p' t' Hp' Hn' Ha'|]; subst lx' it'.
      assert (forall y, y = "d"%char \/ y = "D"%char -> is_digit y = false) as Hnd
        by (intros y [->| ->]; reflexivity).
      destruct Hp' as [->|[->| ->]].
      * cbn [append] in *. pose proof (Hplain _ _ _ Ha' Hn' Hs') as Hle.
        cbn [span] in Hle. change (is_digit "0") with true in Hle. rewrite (Hnd x Hx) in Hle. cbn in Hle. cbn. lia.
      * cbn in Hs'. injection Hs' as _ Hs'. pose proof (Hplain _ _ _ Ha' Hn' Hs') as Hle. rewrite Hf in Hle. cbn. lia.
      * cbn in Hs'. injection Hs' as _ Hs'. pose proof (Hplain _ _ _ Ha' Hn' Hs') as Hle. rewrite Hf in Hle. cbn. lia.
  - pose proof (Hps s) as Hp. destruct (plus_span is_digit s) as [[t r]|] eqn:E; cbn [option_map tokopt best fst snd].
    + destruct Hp as (Hne & Hs & Ha & Hf). split; [exact Hs|]. split.
      * change t with ("" ++ t) at 1. constructor; auto.
      * intros lx' it' rest' Hs' H. inversion H as [| | | | | | | | | |p' t' Hp' Hn' Ha'|]; subst lx' it'.
        destruct Hp' as [->|[->| ->]].
        -- cbn [append] in *. rewrite <- Hf. eapply Hplain; eauto.
        -- exfalso. cbn in Hs'. specialize (Ho _ _ (or_introl eq_refl) Hs').
           eapply plus_span_none in Ho; [|reflexivity|exact Hn']. apply Ho. now apply (only_iff is_digit digit _ is_digit_iff).
        -- exfalso. cbn in Hs'. specialize (Ho _ _ (or_intror eq_refl) Hs').
           eapply plus_span_none in Ho; [|reflexivity|exact Hn']. apply Ho. now apply (only_iff is_digit digit _ is_digit_iff).
    + intros lx' it' rest' Hs' H. inversion H as [| | | | | | | | | |p' t' Hp' Hn' Ha'|]; subst lx' it'.
      destruct Hp' as [->|[->| ->]].
      * cbn [append] in *. eapply plus_span_none in E; [|exact Hs'|exact Hn']. apply E. now apply (only_iff is_digit digit _ is_digit_iff).
      * cbn in Hs'. specialize (Ho _ _ (or_introl eq_refl) Hs').
        eapply plus_span_none in Ho; [|reflexivity|exact Hn']. apply Ho. now apply (only_iff is_digit digit _ is_digit_iff).
      * cbn in Hs'. specialize (Ho _ _ (or_intror eq_refl) Hs').
        eapply plus_span_none in Ho; [|reflexivity|exact Hn']. apply Ho. now apply (only_iff is_digit digit _ is_digit_iff).
Qed.
Lemma is_quote_iff c : is_char SQUOTE c = true <-> c = SQUOTE.
Proof. unfold is_char. destruct (Ascii.eqb_spec SQUOTE c); intuition congruence. Qed.
Lemma rspan_exact p bad t r n : (forall c, p c = true <-> bad c) -> runes bad t -> match_rune p r = [] ->
  (String.length (t ++ r) <= n)%nat -> rspan n p (t ++ r) = (t, r).
Proof.
  intros Hp Ht Hr. revert n. induction Ht as [|u v Hu Hb Hv IH]; intros n Hn.
  - cbn [append]. destruct n; cbn; [reflexivity|]. now rewrite Hr.
  - rewrite sapp_assoc in *. destruct n as [|n].
    + apply rune_nonempty in Hu. destruct u; [congruence|cbn in Hn; lia].
    + cbn [rspan]. rewrite match_rune_complete; auto.
      * cbn [h_rest h_text]. rewrite IH; [reflexivity|].
        apply rune_nonempty in Hu. rewrite slength_app in Hn. destruct u; [congruence|cbn in Hn; lia].
      * intros c Hc. destruct (p c) eqn:E; [|reflexivity]. apply Hp in E. now elim (Hb c Hc).
Qed.
Lemma best_string s : best 10 s (option_map (tokopt STRING) (scan_string s)).
Proof.
  assert (forall t rest, runes (fun c => c = SQUOTE) t ->
    scan_string (str1 SQUOTE ++ t ++ str1 SQUOTE ++ rest) = Some (str1 SQUOTE ++ t ++ str1 SQUOTE, t, rest)) as Hc.
  { intros t rest Ht. unfold scan_string. cbn [append str1]. rewrite Ascii.eqb_refl.
    rewrite (rspan_exact _ _ t (String SQUOTE rest) _ is_quote_iff Ht); [|reflexivity|lia].
    rewrite Ascii.eqb_refl. reflexivity. }
  destruct (scan_string s) as [[[lx t] r]|] eqn:E; cbn [option_map tokopt best].
  - assert (s = lx ++ r /\ runes (fun c => c = SQUOTE) t /\ lx = str1 SQUOTE ++ t ++ str1 SQUOTE) as (Hs & Ht & Hlx).
    { unfold scan_string in E. destruct s as [|q s]; [discriminate|].
      destruct (Ascii.eqb_spec SQUOTE q) as [<-|]; [|discriminate].
      destruct (rspan (String.length s) (is_char SQUOTE) s) as [t' r'] eqn:Er.
      pose proof (rspan_spec _ _ _ _ _ _ is_quote_iff (le_n _) Er) as (Hs & Ht & _).
      destruct r' as [|q r']; [discriminate|]. destruct (Ascii.eqb_spec SQUOTE q) as [<-|]; [|discriminate].
      injection E as <- <- <-. repeat split; auto. cbn. rewrite Hs, sapp_assoc. reflexivity. }
    repeat split; [exact Hs|rewrite Hlx; now constructor|].
    intros lx' it' rest' Hs' H. inversion H as [| | | | | | | | | | |t' Ht']; subst lx' it'.
    rewrite !sapp_assoc in Hs'. rewrite Hs', Hc in E by assumption. assert (lx = str1 SQUOTE ++ t' ++ str1 SQUOTE) as -> by congruence. apply le_n.
  - intros lx it rest Hs H. inversion H as [| | | | | | | | | | |t' Ht']; subst lx it.
    rewrite !sapp_assoc in Hs. rewrite Hs, Hc in E by assumption. discriminate.
Qed.
