(** Proofs about the lexer, continued: consequences of the token relation. *)
From Coq Require Import String Ascii List ZArith NArith Bool Lia ZifyBool ZifyN ZifyNat.
From Verif Require Import Base Regex Token Lexer SpecLexer StrFacts LexerFacts LexerFacts2 LexerFacts3 LexerFacts4.
Import ListNotations.
Open Scope string_scope.

Lemma shape_tok_kind n lx k t : shape n lx (Tok k t) -> ~ sentinel k.
Proof.
  intros H. inversion H as [| | | | |? ? Hin| | | | | |]; subst; try (intros [?|?]; discriminate).
  cbn in Hin. repeat (destruct Hin as [Hin|Hin]; [injection Hin as <- <-; intros [?|?]; discriminate|]). destruct Hin.
Qed.
Lemma next_shape s lx it rest : Next s lx it rest -> exists n, shape n lx it.
Proof. intros (_ & n & H & _). eauto. Qed.
Lemma next_app s lx it rest : Next s lx it rest -> s = lx ++ rest.
Proof. now intros (H & _). Qed.

(** * C01 *)
Lemma Lex_sentinel l s ts : Lex l s ts ->
  exists init last, ts = (init ++ [last])%list /\ sentinel (t_kind last) /\
    (forall t, In t init -> ~ sentinel (t_kind t)).
Proof.
  induction 1 as [l|l c s Hno|l s lx rest ts Hx H IH|l s lx k t rest ts Hx H IH].
  - exists [], (mkTok END_OF_INPUT "" l l). cbn. repeat split; [now left|tauto].
  - eexists [], _. split; [reflexivity|]. cbn. split; [now right|tauto].
  - exact IH.
  - destruct IH as (init & last & -> & Hl & Hi). eexists (_ :: init), last. split; [reflexivity|].
    split; [exact Hl|]. intros t' [<-|Ht']; [|auto]. cbn. apply next_shape in Hx as [n Hn].
    eapply shape_tok_kind, Hn.
Qed.

(** * C02 *)
Lemma Tiles_app s chunks rest : Tiles s chunks rest -> s = concat_strings (map fst chunks) ++ rest.
Proof.
  induction 1 as [s Hno|s lx it rest chunks stop Hx H IH]; [reflexivity|].
  cbn. rewrite sapp_assoc, <- IH. now apply next_app in Hx.
Qed.
Lemma Lex_Tiles l s ts : Lex l s ts -> exists chunks rest, Tiles s chunks rest /\
  map kt ts = (tokens_of chunks ++
    [match rest with "" => (END_OF_INPUT, "") | String c _ => (UNEXPECTED_CHAR, String c "") end])%list.
Proof.
  induction 1 as [l|l c s Hno|l s lx rest ts Hx H IH|l s lx k t rest ts Hx H IH].
  - exists [], "". split; [|reflexivity]. constructor. intros. apply not_next_nil.
  - exists [], (String c s). split; [|reflexivity]. now constructor.
  - destruct IH as (chunks & r & HT & Hk). exists ((lx, Skip) :: chunks), r. split; [|exact Hk].
    econstructor; eauto.
  - destruct IH as (chunks & r & HT & Hk). exists ((lx, Tok k t) :: chunks), r. split.
    + econstructor; eauto.
    + cbn. unfold kt at 1. cbn. now rewrite Hk.
Qed.
Lemma Tiles_fun s c1 r1 c2 r2 : Tiles s c1 r1 -> Tiles s c2 r2 -> c1 = c2 /\ r1 = r2.
Proof.
  intros H. revert c2 r2. induction H as [s Hno|s lx it rest chunks stop Hx H IH]; intros c2 r2 H2.
  - inversion H2 as [|? ? ? ? ? ? Hx]; subst; [auto|]. elim (Hno _ _ _ Hx).
  - inversion H2 as [? Hno|? ? ? ? ? ? Hx']; subst; [elim (Hno _ _ _ Hx)|].
    destruct (next_fun _ _ _ _ _ _ _ Hx Hx') as (<- & <- & <-).
    destruct (IH _ _ H0) as [<- <-]. auto.
Qed.
(** The token kinds and texts as a function of the text. *)
Definition kts (s : string) : list (kind * string) := map kt (Tokenize (mkCSource s default_loc)).
Lemma Tokenize_Lex_at s l : Lex l s (Tokenize (mkCSource s l)).
Proof. now apply (Tokenize_Lex (mkCSource s l)). Qed.
Lemma kts_loc c : map kt (Tokenize c) = kts (cs_string c).
Proof.
  assert (Lex (cs_loc c) (cs_string c) (Tokenize c)) as H1 by now apply Tokenize_Lex.
  assert (Lex default_loc (cs_string c) (Tokenize (mkCSource (cs_string c) default_loc))) as H2
    by apply Tokenize_Lex_at.
  apply Lex_Tiles in H1 as (c1 & r1 & HT1 & ->). apply Lex_Tiles in H2 as (c2 & r2 & HT2 & Hk).
  unfold kts. rewrite Hk. destruct (Tiles_fun _ _ _ _ _ HT1 HT2) as [-> ->]. reflexivity.
Qed.
Lemma kts_Tiles s : exists chunks rest, Tiles s chunks rest /\
  kts s = (tokens_of chunks ++
    [match rest with "" => (END_OF_INPUT, "") | String c _ => (UNEXPECTED_CHAR, String c "") end])%list.
Proof.
  assert (Lex default_loc s (Tokenize (mkCSource s default_loc))) as H by apply Tokenize_Lex_at.
  apply Lex_Tiles in H. exact H.
Qed.
Lemma kts_of_Tiles s chunks rest : Tiles s chunks rest -> kts s = (tokens_of chunks ++
    [match rest with "" => (END_OF_INPUT, "") | String c _ => (UNEXPECTED_CHAR, String c "") end])%list.
Proof.
  intros H. destruct (kts_Tiles s) as (c & r & HT & ->). now destruct (Tiles_fun _ _ _ _ _ H HT) as [-> ->].
Qed.
Lemma kts_skip s lx rest : Next s lx Skip rest -> kts s = kts rest.
Proof.
  intros Hx. destruct (kts_Tiles rest) as (c & r & HT & ->).
  now rewrite (kts_of_Tiles _ _ _ (Tiles_cons _ _ _ _ _ _ Hx HT)).
Qed.
Lemma kts_tok s lx k t rest : Next s lx (Tok k t) rest -> kts s = (k, t) :: kts rest.
Proof.
  intros Hx. destruct (kts_Tiles rest) as (c & r & HT & ->).
  now rewrite (kts_of_Tiles _ _ _ (Tiles_cons _ _ _ _ _ _ Hx HT)).
Qed.
Lemma kts_nil : kts "" = [(END_OF_INPUT, "")].
Proof. reflexivity. Qed.

(** * C03 *)
Lemma runes_last_not (bad : ascii -> Prop) t : bad CR -> runes bad t -> ~ ends_CR t.
Proof.
  intros Hb Ht [z ->]. eapply (runes_not_in bad _ CR); [reflexivity|exact Ht|exact Hb|].
  unfold chars. rewrite chars_app. apply in_or_app. right. now left.
Qed.
Lemma ends_CR_last a c : ends_CR (a ++ str1 c) -> c = CR.
Proof.
  intros [z Hz]. assert (String.length a = String.length z) as Hl.
  { apply (f_equal String.length) in Hz. rewrite !slength_app in Hz. cbn in Hz. lia. }
  apply prefix_eq in Hz as [_ Hz]; [|exact Hl]. now injection Hz.
Qed.
Lemma ends_CR_app a b : b <> "" -> ends_CR (a ++ b) -> ends_CR b.
Proof.
  intros Hb [z Hz].
  destruct (Nat.leb_spec (String.length a) (String.length z)) as [Hle|Hgt].
  - destruct (prefix_cases _ _ _ _ Hz Hle) as (e & -> & ->). now exists e.
  - exfalso. apply (f_equal String.length) in Hz. rewrite !slength_app in Hz. cbn in Hz.
    destruct b; [congruence|cbn in Hz; lia].
Qed.
Lemma only_not_CR (q : ascii -> Prop) t : ~ q CR -> only q t -> ~ ends_CR t.
Proof.
  intros Hq Ht [z ->]. apply Hq, Ht. unfold chars. rewrite chars_app. apply in_or_app. right. now left.
Qed.
Lemma next_no_split s lx it rest : Next s lx it rest -> ~ (ends_CR lx /\ starts_LF rest).
Proof.
  intros (Hs & n & Hsh & _ & Hmax) [Hcr [z ->]].
  assert (forall it', ~ shape n (lx ++ str1 LF) it') as Hlonger.
  { intros it' Hit. specialize (Hmax (lx ++ str1 LF) it' z). rewrite slength_app in Hmax. cbn in Hmax.
    enough (String.length lx + 1 <= String.length lx)%nat by lia. apply Hmax; [|exact Hit].
    rewrite sapp_assoc. exact Hs. }
  inversion Hsh as [t Ht Ho|t Hl|t Ht|t Ht Ho|t Ht Ho|k t Hin|c t Hc Ho|p t Hp Ht Ho|p t Hp Ht Ho|p t Hp Ht Ho|p t Hp Ht Ho|t Ht]; subst.
  - eapply only_not_CR; [|exact Ho|exact Hcr]. intros [?|?]; discriminate.
  - destruct Hl as [->|[->| ->]].
    + apply (ends_CR_last (str1 CR) LF) in Hcr. discriminate.
    + apply (Hlonger Skip). constructor. left. reflexivity.
    + apply (ends_CR_last "" LF) in Hcr. discriminate.
  - destruct t as [|c t].
    + apply (ends_CR_last "/" "/") in Hcr. discriminate.
    + apply ends_CR_app in Hcr; [|discriminate]. eapply runes_last_not; [|exact Ht|exact Hcr]. now left.
  - rewrite <- sapp_assoc in Hcr. change "*/" with ("*" ++ str1 "/") in Hcr. rewrite <- sapp_assoc in Hcr.
    apply ends_CR_last in Hcr. discriminate.
  - apply (Hlonger Skip). rewrite sapp_assoc. apply sh_open_comment.
    + apply runes_app; [exact Ht|]. apply runes_one; [reflexivity|tauto].
    + intros (a & b & Hab). change "*/" with ("*" ++ "/") in Hab.
      destruct (string_dec b "") as [->|Hb].
      * rewrite sapp_nil_r in Hab. rewrite <- sapp_assoc in Hab.
        assert (String.length t = String.length (a ++ "*")) as Hl.
        { apply (f_equal String.length) in Hab. rewrite slength_app, slength_app in Hab. cbn in Hab. lia. }
        apply prefix_eq in Hab as [_ Hab]; [discriminate|exact Hl].
      * apply Ho. assert (exists b', b = b' ++ str1 LF) as [b' ->].
        { assert (String.length (a ++ "*/") <= String.length t)%nat as Hle.
          { apply (f_equal String.length) in Hab. rewrite !slength_app in Hab. rewrite slength_app. cbn in *.
            destruct b; [congruence|cbn in Hab; lia]. }
          symmetry in Hab. change ("*" ++ "/")%string with "*/" in Hab. rewrite <- sapp_assoc in Hab.
          destruct (prefix_cases _ _ _ _ Hab Hle) as (e & -> & ->). now exists e. }
        exists a, b'. rewrite <- !sapp_assoc in Hab. apply sapp_inv_tail in Hab. rewrite Hab.
        rewrite !sapp_assoc. reflexivity.
  - cbn in Hin. repeat (destruct Hin as [Hin|Hin]; [injection Hin as <- <-; destruct Hcr as [y Hy];
      do 6 (destruct y as [|? y]; [discriminate Hy|]; cbn in Hy; try (injection Hy as <- Hy); try discriminate Hy)|]). destruct Hin.
  - apply (only_not_CR (fun c => letter c \/ digit c) (String c t)); [|intros d [<-|Hd]; [now left|now apply Ho]|exact Hcr].
    unfold letter, digit, between. intros [[?|[?|?]]|?]; [discriminate|..]; cbn in *; lia.
  - apply ends_CR_app in Hcr; [|exact Ht]. eapply only_not_CR; [|exact Ho|exact Hcr]. unfold between. cbn. lia.
  - apply ends_CR_app in Hcr; [|exact Ht]. eapply only_not_CR; [|exact Ho|exact Hcr]. unfold between. cbn. lia.
  - apply ends_CR_app in Hcr; [|exact Ht]. eapply only_not_CR; [|exact Ho|exact Hcr]. unfold hexdigit, digit, between. cbn. lia.
  - apply ends_CR_app in Hcr; [|exact Ht]. eapply only_not_CR; [|exact Ho|exact Hcr]. unfold digit, between. cbn. lia.
  - rewrite <- sapp_assoc in Hcr. apply ends_CR_last in Hcr. discriminate.
Qed.
Lemma shape_tok_nobreak n lx k t : shape n lx (Tok k t) -> (k = STRING -> no_line_break t) -> nobreak lx.
Proof.
  intros Hsh Hstr c Hc.
  assert (forall q, only q lx -> ~ q CR -> ~ q LF -> c <> CR /\ c <> LF) as Honly.
  { intros q Hq H1 H2. specialize (Hq c Hc). split; intros ->; tauto. }
  inversion Hsh as [|t' Hl| | | |k' t' Hin|c' t' Hc' Ho|p t' Hp Ht Ho|p t' Hp Ht Ho|p t' Hp Ht Ho|p t' Hp Ht Ho|t' Ht]; subst.
  - cbn in Hin. repeat (destruct Hin as [Hin|Hin]; [injection Hin as <- <-; cbn in Hc;
      repeat (destruct Hc as [<-|Hc]; [split; discriminate|]); destruct Hc|]). destruct Hin.
  - apply (Honly (fun c => letter c \/ digit c)).
    + intros d [<-|Hd]; [now left|now apply Ho].
    + unfold letter, digit, between. intros [[?|[?|?]]|?]; [discriminate|..]; cbn in *; lia.
    + unfold letter, digit, between. intros [[?|[?|?]]|?]; [discriminate|..]; cbn in *; lia.
  - unfold chars in Hc. rewrite chars_app, in_app_iff in Hc. destruct Hc as [Hc|Hc].
    + destruct Hp as [->| ->]; cbn in Hc; repeat (destruct Hc as [<-|Hc]; [split; discriminate|]); destruct Hc.
    + apply Ho in Hc. unfold between in Hc. split; intros ->; cbn in Hc; lia.
  - unfold chars in Hc. rewrite chars_app, in_app_iff in Hc. destruct Hc as [Hc|Hc].
    + destruct Hp as [->| ->]; cbn in Hc; repeat (destruct Hc as [<-|Hc]; [split; discriminate|]); destruct Hc.
    + apply Ho in Hc. unfold between in Hc. split; intros ->; cbn in Hc; lia.
  - unfold chars in Hc. rewrite chars_app, in_app_iff in Hc. destruct Hc as [Hc|Hc].
    + destruct Hp as [->| ->]; cbn in Hc; repeat (destruct Hc as [<-|Hc]; [split; discriminate|]); destruct Hc.
    + apply Ho in Hc. unfold hexdigit, digit, between in Hc. split; intros ->; cbn in Hc; lia.
  - unfold chars in Hc. rewrite chars_app, in_app_iff in Hc. destruct Hc as [Hc|Hc].
    + destruct Hp as [->|[->| ->]]; cbn in Hc; repeat (destruct Hc as [<-|Hc]; [split; discriminate|]); destruct Hc.
    + apply Ho in Hc. unfold digit, between in Hc. split; intros ->; cbn in Hc; lia.
  - destruct (Hstr eq_refl) as [H1 H2]. unfold chars in *. rewrite !chars_app in Hc. cbn in Hc.
    destruct Hc as [<-|Hc]; [split; discriminate|]. rewrite in_app_iff in Hc. destruct Hc as [Hc|[<-|[]]].
    + split; intros ->; tauto.
    + split; discriminate.
Qed.
Lemma Lex_Placed l0 pre l s ts : Lex l s ts -> l = advance pre l0 -> ~ (ends_CR pre /\ starts_LF s) ->
  (forall t, In t ts -> t_kind t = STRING -> no_line_break (t_text t)) ->
  Placed l0 pre s ts.
Proof.
  intros H. revert pre. induction H as [l|l c s Hno|l s lx rest ts Hx H IH|l s lx k t rest ts Hx H IH]; intros pre -> Hsp Hs.
  - constructor.
  - assert (nobreak (String c "")) as Hnb.
    { intros d [<-|[]]. split; intros ->.
      - destruct (scan_newline (String CR s)) as [[a b]|] eqn:E.
        + eapply (Hno a Skip b). apply next_iff. exists 1%nat. unfold R. cbn [nth results].
          rewrite E. split; [reflexivity|]. intros m Hm. assert (m = 0%nat) as -> by lia. reflexivity.
        + eapply (scan_newline_none _ E (str1 CR)); [reflexivity|]. unfold line_break. auto.
      - eapply (Hno (str1 LF) Skip s). apply next_iff. exists 1%nat. split; [reflexivity|].
        intros m Hm. assert (m = 0%nat) as -> by lia. reflexivity. }
    replace (shift 1 (advance pre l0)) with (advance (pre ++ String c "") l0).
    + constructor.
    + rewrite advance_app.
      * rewrite advance_nobreak' by exact Hnb. reflexivity.
      * intros [_ [z Hz]]. injection Hz as -> _. destruct (Hnb LF (or_introl eq_refl)). congruence.
  - pose proof (next_app _ _ _ _ Hx) as ->. apply Placed_gap. apply IH; [| |exact Hs].
    + rewrite advance_app; [reflexivity|]. intros [Hcr [z Hz]]. apply Hsp. split; [exact Hcr|]. rewrite Hz. eexists. reflexivity.
    + intros [Hcr HLF]. apply (next_no_split _ _ _ _ Hx). split; [|exact HLF].
      eapply ends_CR_app; [|exact Hcr]. apply next_shape in Hx as [n Hn]. eapply shape_nonempty, Hn.
  - pose proof (next_app _ _ _ _ Hx) as ->. pose proof (next_shape _ _ _ _ Hx) as [n Hn].
    assert (nobreak lx) as Hnb by (eapply shape_tok_nobreak; [exact Hn|]; intros Hk; apply (Hs _ (or_introl eq_refl) Hk)).
    assert (shift (String.length lx) (advance pre l0) = advance (pre ++ lx) l0) as Hloc.
    { rewrite advance_app; [rewrite (advance_nobreak' lx) by exact Hnb; reflexivity|]. intros [Hcr [z ->]].
      destruct (Hnb LF (or_introl eq_refl)). congruence. }
    rewrite Hloc. eapply Placed_tok; [exact Hn|]. apply IH; [exact Hloc| |].
    + intros [Hcr HLF]. apply (next_no_split _ _ _ _ Hx). split; [|exact HLF].
      eapply ends_CR_app; [|exact Hcr]. eapply shape_nonempty, Hn.
    + intros t' Ht'. apply Hs. now right.
Qed.
