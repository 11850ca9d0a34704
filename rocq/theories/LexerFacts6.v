(** Proofs about the lexer, continued: gaps, separators, rendering. *)
From Coq Require Import String Ascii List ZArith NArith Bool Lia ZifyBool ZifyN ZifyNat.
From Verif Require Import Base Regex Token Lexer SpecLexer StrFacts LexerFacts LexerFacts2 LexerFacts3 LexerFacts4 LexerFacts5.
Import ListNotations.
Open Scope string_scope.

Lemma next_R s n lx it rest : R s n = Some (lx, it, rest) ->
  (forall m, (m < n)%nat -> R s m = None) -> Next s lx it rest.
Proof. intros. apply next_iff. eauto. Qed.
Ltac lt_cases Hm := repeat (let m := fresh in
  match type of Hm with (?m < _)%nat => destruct m as [|m]; [|] end); try lia.

(** * Gaps in front *)
Lemma kts_blank c s : blank c -> kts (String c s) = kts s.
Proof.
  intros Hc. apply is_blank_iff in Hc. destruct (span is_blank s) as [t r] eqn:E.
  assert (Next (String c s) (String c t) Skip r) as H1.
  { apply (next_R _ 0); [|intros; lia]. unfold R. cbn [nth results]. unfold plus_span. cbn [span]. now rewrite Hc, E. }
  rewrite (kts_skip _ _ _ H1). destruct t as [|d t].
  - apply span_spec in E as (-> & _). reflexivity.
  - symmetry. apply (kts_skip s (String d t)). apply (next_R _ 0); [|intros; lia].
    unfold R. cbn [nth results]. unfold plus_span. now rewrite E.
Qed.
Lemma next_newline s t r : scan_newline s = Some (t, r) -> Next s t Skip r.
Proof.
  intros E. apply (next_R _ 1).
  - unfold R. cbn [nth results]. now rewrite E.
  - intros m Hm. assert (m = 0%nat) as -> by lia. unfold R. cbn [nth results].
    apply scan_newline_spec in E as (-> & Hl & _).
    destruct Hl as [->|[->| ->]]; reflexivity.
Qed.
Lemma kts_break b s : line_break b -> kts (b ++ s) = kts s.
Proof.
  intros [->|[->| ->]].
  - apply (kts_skip _ (String CR (String LF ""))). now apply next_newline.
  - destruct s as [|c s].
    + apply (kts_skip _ (String CR "")). now apply next_newline.
    + destruct (Ascii.eqb LF c) eqn:E.
      * apply Ascii.eqb_eq in E. subst c.
        transitivity (kts s).
        -- apply (kts_skip _ (String CR (String LF ""))). now apply next_newline.
        -- symmetry. apply (kts_skip _ (String LF "")). now apply next_newline.
      * apply (kts_skip _ (String CR "")). apply next_newline. cbn [append].
        unfold scan_newline, scan_newline_of. rewrite Ascii.eqb_refl, E. reflexivity.
  - apply (kts_skip _ (String LF "")). now apply next_newline.
Qed.
Lemma block_max t rest lx it r : ~ occurs "*/" t -> "/*" ++ t ++ "*/" ++ rest = lx ++ r -> shape 3 lx it ->
  (String.length lx <= String.length ("/*" ++ t ++ "*/"))%nat.
Proof.
  intros Ho Hs Hsh. inversion Hsh as [| | |u Hu Hou|u Hu Hou| | | | | | |]; subst lx.
  - rewrite !slength_app. destruct (Nat.leb_spec (String.length u) (String.length t)) as [|Hgt]; [lia|].
    rewrite !sapp_assoc in Hs. apply sapp_inv_head in Hs.
    destruct (prefix_cases _ _ _ _ Hs ltac:(lia)) as (e & -> & He).
    destruct e as [|e1 e]; [rewrite sapp_nil_r in Hgt; lia|].
    cbn in He. injection He as <- He. destruct e as [|e2 e]; [discriminate He|].
    cbn in He. injection He as <- He. exfalso. apply Hou. exists t, e. reflexivity.
  - rewrite !slength_app. destruct (Nat.leb_spec (String.length u) (String.length (t ++ "*/"))) as [Hle|Hgt];
      [rewrite slength_app in Hle; lia|].
    rewrite !sapp_assoc in Hs. apply sapp_inv_head in Hs. rewrite <- (sapp_assoc t) in Hs.
    destruct (prefix_cases _ _ _ _ Hs ltac:(lia)) as (e & -> & He).
    exfalso. apply Hou. exists t, e. now rewrite sapp_assoc.
Qed.
Lemma next_block t rest : runes (fun _ => False) t -> ~ occurs "*/" t ->
  Next ("/*" ++ t ++ "*/" ++ rest) ("/*" ++ t ++ "*/") Skip rest.
Proof.
  intros Ht Ho. split; [now rewrite !sapp_assoc|]. exists 3%nat. split; [now constructor|]. split.
  - intros m lx' it' rest' Hm Hs' Hsh.
    assert (m = 0 \/ m = 1 \/ m = 2)%nat as Hcases by lia.
    destruct Hcases as [->|[->| ->]]; inversion Hsh as [u Hne Hu|u Hl|u Hu| | | | | | | | |]; subst.
    + destruct lx' as [|c u]; [congruence|]. cbn in Hs'. injection Hs' as <- _.
      destruct (Hu "/"%char (or_introl eq_refl)); discriminate.
    + destruct Hl as [->|[->| ->]]; discriminate Hs'.
    + discriminate Hs'.
  - intros lx' it' rest' Hs' Hsh. eapply block_max; eauto.
Qed.
Lemma next_line_comment t s : runes (fun c => c = CR \/ c = LF) t -> match_rune is_crlf s = [] ->
  Next ("//" ++ t ++ s) ("//" ++ t) Skip s.
Proof.
  intros Ht Hs. apply (next_R _ 2).
  - unfold R. cbn [nth results]. unfold scan_line_comment. cbn [strip_prefix append Ascii.eqb Bool.eqb].
    rewrite (rspan_exact _ _ t s _ is_crlf_iff Ht Hs (le_n _)). reflexivity.
  - intros m Hm. destruct m as [|[|m]]; [reflexivity|reflexivity|lia].
Qed.
Lemma break_no_rune b s : line_break b -> match_rune is_crlf (b ++ s) = [].
Proof. intros [->|[->| ->]]; reflexivity. Qed.
Lemma kts_gap g s : gap g -> kts (g ++ s) = kts s.
Proof.
  induction 1 as [|c g Hc H IH|b g Hb H IH|t g Ht Ho H IH|t b g Ht Hb H IH].
  - reflexivity.
  - cbn [append]. now rewrite kts_blank.
  - now rewrite sapp_assoc, kts_break.
  - rewrite !sapp_assoc. rewrite <- IH. apply (kts_skip _ ("/*" ++ t ++ "*/")). now apply next_block.
  - rewrite !sapp_assoc. rewrite <- IH, <- (kts_break b (g ++ s)) by assumption.
    apply (kts_skip _ ("//" ++ t)). apply next_line_comment; [assumption|now apply break_no_rune].
Qed.

(** * Text after a complete one *)
Definition whitec (c : ascii) : Prop := blank c \/ c = CR \/ c = LF \/ c = "/"%char.
Lemma whitec_low c : whitec c -> (N_of_ascii c <= 32 \/ N_of_ascii c = 47)%N.
Proof. intros [[->| ->]|[->|[->| ->]]]; cbn; lia. Qed.
Lemma shape_nonwhite n lx it c : shape n lx it -> (4 <= n <= 9)%nat -> In c (chars lx) -> ~ whitec c.
Proof.
  intros Hsh Hn Hc Hw. apply whitec_low in Hw. unfold chars in *.
  inversion Hsh as [| | | | |k' t' Hin|c' t' Hc' Ho|p t' Hp Ht Ho|p t' Hp Ht Ho|p t' Hp Ht Ho|p t' Hp Ht Ho|]; subst; try lia.
  - cbn in Hin. repeat (destruct Hin as [Hin|Hin]; [injection Hin as <- <-; cbn in Hc;
      repeat (destruct Hc as [<-|Hc]; [cbn in Hw; lia|]); destruct Hc|]). destruct Hin.
  - destruct Hc as [<-|Hc].
    + unfold letter, between in Hc'. destruct Hc' as [->|Hc']; [cbn in Hw|]; lia.
    + apply Ho in Hc. unfold letter, digit, between in Hc. destruct Hc as [[->|Hc]|Hc]; [cbn in Hw| |]; lia.
  - rewrite chars_app, in_app_iff in Hc. destruct Hc as [Hc|Hc].
    + destruct Hp as [->| ->]; cbn in Hc; repeat (destruct Hc as [<-|Hc]; [cbn in Hw; lia|]); destruct Hc.
    + apply Ho in Hc. unfold between in Hc. lia.
  - rewrite chars_app, in_app_iff in Hc. destruct Hc as [Hc|Hc].
    + destruct Hp as [->| ->]; cbn in Hc; repeat (destruct Hc as [<-|Hc]; [cbn in Hw; lia|]); destruct Hc.
    + apply Ho in Hc. unfold between in Hc. lia.
  - rewrite chars_app, in_app_iff in Hc. destruct Hc as [Hc|Hc].
    + destruct Hp as [->| ->]; cbn in Hc; repeat (destruct Hc as [<-|Hc]; [cbn in Hw; lia|]); destruct Hc.
    + apply Ho in Hc. unfold hexdigit, digit, between in Hc. lia.
  - rewrite chars_app, in_app_iff in Hc. destruct Hc as [Hc|Hc].
    + destruct Hp as [->|[->| ->]]; cbn in Hc; repeat (destruct Hc as [<-|Hc]; [cbn in Hw; lia|]); destruct Hc.
    + apply Ho in Hc. unfold digit, between in Hc. lia.
Qed.
Lemma shape_le n lx it : shape n lx it -> (n <= 10)%nat.
Proof. inversion 1; lia. Qed.
Lemma shape_tok_class n lx k t : shape n lx (Tok k t) -> (4 <= n <= 10)%nat.
Proof. inversion 1; lia. Qed.
Lemma shape_skip_class n lx : shape n lx Skip -> (n <= 3)%nat.
Proof. inversion 1; lia. Qed.
Lemma shape_tok_slash n t k tx : ~ shape n (String "/" t) (Tok k tx).
Proof.
  intros H. pose proof (shape_tok_class _ _ _ _ H) as Hn.
  destruct (Nat.eq_dec n 10) as [->|Hne]; [inversion H|].
  eapply (shape_nonwhite _ _ _ "/"%char H); [lia|now left|]. unfold whitec. auto.
Qed.
Lemma string_app_quote t t' e : runes (fun c => c = SQUOTE) t' ->
  t' ++ str1 SQUOTE = (t ++ str1 SQUOTE) ++ e -> e = "".
Proof.
  intros Ht' H. destruct e as [|c e]; [reflexivity|]. exfalso.
  assert (String.length (t ++ str1 SQUOTE) <= String.length t')%nat as Hle.
  { apply (f_equal String.length) in H. rewrite !slength_app in H. rewrite slength_app. cbn in *. lia. }
  symmetry in H. destruct (prefix_cases _ _ _ _ H Hle) as (e' & -> & _).
  eapply (runes_not_in (fun c => c = SQUOTE) _ SQUOTE); [reflexivity|exact Ht'|reflexivity|].
  unfold chars. rewrite !chars_app, !in_app_iff. cbn. tauto.
Qed.
Lemma next_tok_extend a lx k t rest x : Next a lx (Tok k t) rest -> starts_gap x ->
  Next (a ++ x) lx (Tok k t) (rest ++ x).
Proof.
  intros (Hs & n & Hsh & Hmin & Hmax) (w & y & -> & Hw).
  pose proof (shape_nonempty _ _ _ Hsh) as Hne. pose proof (shape_tok_class _ _ _ _ Hsh) as Hn.
  split; [rewrite Hs; apply sapp_assoc|]. exists n. split; [exact Hsh|].
  assert (a <> "") as Ha by (rewrite Hs; destruct lx; [congruence|discriminate]).
  assert (forall m lx' it' rest', a ++ String w y = lx' ++ rest' -> shape m lx' it' ->
     (m <= n)%nat -> exists r', a = lx' ++ r') as Hin.
  { intros m lx' it' rest' Hs' Hsh' Hmn.
    destruct (Nat.leb_spec (String.length lx') (String.length a)) as [Hle|Hgt].
    { symmetry in Hs'. destruct (prefix_cases _ _ _ _ Hs' Hle) as (e & -> & _). now exists e. }
    exfalso. destruct (prefix_cases _ _ _ _ Hs' ltac:(lia)) as (e & -> & He).
    destruct e as [|w' e]; [rewrite sapp_nil_r in Hgt; lia|]. cbn in He. injection He as <- He.
    assert (In w (chars (a ++ String w e))) as Hwin.
    { unfold chars. rewrite chars_app. apply in_or_app. right. now left. }
    destruct (Nat.leb_spec 4 m) as [H4|H4].
    { destruct (Nat.leb_spec m 9) as [H9|H9].
      - eapply shape_nonwhite; [exact Hsh'|lia|exact Hwin|exact Hw].
      - assert (m = 10 /\ n = 10)%nat as [-> ->] by (apply shape_le in Hsh'; lia).
        inversion Hsh as [| | | | | | | | | | |u Hu]; subst lx t k.
        inversion Hsh' as [| | | | | | | | | | |u' Hu' Ex E]; subst it'.
        change (str1 SQUOTE ++ (u' ++ str1 SQUOTE) = a ++ String w e) in E.
        rewrite Hs, !sapp_assoc in E. apply sapp_inv_head in E.
        rewrite <- (sapp_assoc u) in E. apply string_app_quote in E; [|exact Hu'].
        apply sapp_eq_nil in E as [_ E]. discriminate. }
    assert (m = 0 \/ m = 1 \/ m = 2 \/ m = 3)%nat as Hcases by lia.
    assert (forall c r, a = String c r -> blank c \/ c = CR \/ c = LF -> False) as Hnw.
    { intros c r Hac [Hc|Hc].
      - eapply (Hmin 0%nat (str1 c) Skip r); [lia|exact Hac|].
        constructor; [discriminate|]. intros d [<-|[]]. exact Hc.
      - eapply (Hmin 1%nat (str1 c) Skip r); [lia|exact Hac|]. constructor. unfold line_break, str1.
        destruct Hc as [->| ->]; auto. }
    destruct a as [|c a]; [congruence|].
    assert (c <> "/"%char) as Hsl.
    { intros ->. destruct lx as [|d lx]; [congruence|]. cbn in Hs. injection Hs as <- _.
      eapply shape_tok_slash; exact Hsh. }
    destruct Hcases as [->|[->|[->| ->]]].
    - inversion Hsh' as [u Hu Ho| | | | | | | | | | |]; subst. apply (Hnw c a eq_refl). left. apply Ho. now left.
    - inversion Hsh' as [|u Hl| | | | | | | | | |]; subst. apply (Hnw c a eq_refl). right.
      destruct Hl as [H|[H|H]]; cbn in H; injection H as -> _; auto.
    - assert (exists u, "//" ++ u = String c a ++ String w e) as [u E].
      { clear - Hsh'. revert Hsh'. generalize (String c a ++ String w e). intros z Hz.
        inversion Hz; subst; eauto. }
      cbn in E. injection E as <- E. congruence.
    - assert (exists u, "/*" ++ u = String c a ++ String w e) as [u E].
      { clear - Hsh'. revert Hsh'. generalize (String c a ++ String w e). intros z Hz.
        inversion Hz; subst; eauto. }
      cbn in E. injection E as <- E. congruence. }
  split.
  - intros m lx' it' rest' Hm Hs' Hsh'. destruct (Hin _ _ _ _ Hs' Hsh' ltac:(lia)) as [r' Hr'].
    eapply Hmin; eauto.
  - intros lx' it' rest' Hs' Hsh'. destruct (Hin _ _ _ _ Hs' Hsh' ltac:(lia)) as [r' Hr']. eapply Hmax; eauto.
Qed.
Lemma shape_head n lx it : shape n lx it -> exists c t, lx = String c t /\ (N_of_ascii c < 128)%N.
Proof.
  intros H. inversion H as [t Ht Ho|t [->|[->| ->]]| | | |k t Hin|c t Hc|p t Hp|p t Hp|p t Hp|p t Hp Ht Ho|]; subst; cbn;
    try (eexists _, _; split; [reflexivity|reflexivity]).
  - destruct lx as [|c t]; [congruence|]. eexists _, _. split; [reflexivity|].
    destruct (Ho c (or_introl eq_refl)) as [->| ->]; reflexivity.
  - cbn in Hin. repeat (destruct Hin as [Hin|Hin]; [injection Hin as <- <-; eexists _, _; split; reflexivity|]). destruct Hin.
  - eexists _, _. split; [reflexivity|]. unfold letter, between in Hc. destruct Hc as [->|Hc]; [cbn|]; lia.
  - destruct Hp as [->| ->]; eexists _, _; split; reflexivity.
  - destruct Hp as [->| ->]; eexists _, _; split; reflexivity.
  - destruct Hp as [->| ->]; eexists _, _; split; reflexivity.
  - destruct Hp as [->|[->| ->]]; [|eexists _, _; split; reflexivity..].
    destruct t as [|c t]; [congruence|]. eexists _, _. split; [reflexivity|].
    specialize (Ho c (or_introl eq_refl)). unfold digit, between in Ho. lia.
Qed.
Lemma kts_blanks t s : only blank t -> kts (t ++ s) = kts s.
Proof.
  induction t as [|c t IH]; intros Ho; [reflexivity|]. apply only_cons in Ho as [Hc Ho].
  cbn [append]. rewrite kts_blank by assumption. auto.
Qed.
Lemma runes_snoc bad t c : runes bad t -> (N_of_ascii c < 128)%N -> ~ bad c -> runes bad (t ++ str1 c).
Proof. intros. apply runes_app; [assumption|]. now apply runes_one. Qed.
Lemma occurs_snoc t c : ~ occurs "*/" t -> occurs "*/" (t ++ str1 c) -> exists u, t = u ++ "*" /\ c = "/"%char.
Proof.
  intros Ho (a & b & H). destruct (string_dec b "") as [->|Hb].
  - rewrite sapp_nil_r in H. change "*/" with ("*" ++ str1 "/") in H. rewrite <- sapp_assoc in H.
    assert (String.length t = String.length (a ++ "*")) as Hl.
    { apply (f_equal String.length) in H. rewrite !slength_app in *. cbn in *. lia. }
    apply prefix_eq in H as [-> H]; [|exact Hl]. injection H as ->. eauto.
  - exfalso. apply Ho. assert (String.length (a ++ "*/") <= String.length t)%nat as Hle.
    { apply (f_equal String.length) in H. rewrite !slength_app in *. destruct b; [congruence|]. cbn in *. lia. }
    symmetry in H. rewrite <- sapp_assoc in H. destruct (prefix_cases _ _ _ _ H Hle) as (e & -> & _).
    exists a, e. now rewrite sapp_assoc.
Qed.
Lemma runes_snoc_inv bad u c : (N_of_ascii c < 128)%N -> runes bad (u ++ str1 c) -> runes bad u.
Proof.
  intros Hc H. remember (u ++ str1 c) as x eqn:E. revert u E.
  induction H as [|r s Hr Hb H IH]; intros u E.
  - destruct u; [constructor|discriminate].
  - destruct (Nat.leb_spec (String.length r) (String.length u)) as [Hle|Hgt].
    + destruct (prefix_cases _ _ _ _ E Hle) as (e & -> & He). constructor; auto.
    + assert (s = "") as ->.
      { apply slength_0. apply (f_equal String.length) in E. rewrite !slength_app in E. cbn in E. lia. }
      rewrite sapp_nil_r in E. subst r. clear IH H Hgt.
      destruct u as [|d1 [|d2 [|d3 [|d4 u]]]]; cbn in Hr; [constructor|..]; exfalso;
        inversion Hr; subst; unfold cont, between in *; try lia.
      destruct u; discriminate.
Qed.
Lemma snoc_dec t c : (exists u, t = u ++ str1 c) \/ ~ (exists u, t = u ++ str1 c).
Proof.
  induction t as [|d t IH].
  - right. intros [u H]. destruct u; discriminate.
  - destruct IH as [[u ->]|IH]; [left; now exists (String d u)|].
    destruct (string_dec t "") as [->|Ht].
    + destruct (ascii_dec d c) as [->|Hd]; [left; now exists ""|].
      right. intros [u H]. destruct u as [|e u]; cbn in H; injection H; intros; [congruence|]. destruct u; discriminate.
    + right. intros [[|e u] H]; cbn in H; injection H; intros H1 H2; [congruence|]. apply IH. eauto.
Qed.
Lemma kts_app_Tiles a chunks x : Tiles a chunks "" -> ~ ends_in_comment a -> starts_gap x ->
  kts (a ++ x) = (tokens_of chunks ++ kts x)%list.
Proof.
  intros HT. remember "" as stop eqn:Hstop.
  induction HT as [s Hno|s lx it rest chunks stop Hx HT IH]; intros Hc Hw.
  - subst s. reflexivity.
  - specialize (IH Hstop).
    assert (~ ends_in_comment rest) as Hc'.
    { intros (cs & lx' & HT' & Hlx). apply Hc. exists ((lx, it) :: cs), lx'. split; [|exact Hlx].
      cbn. econstructor; eauto. }
    specialize (IH Hc' Hw). subst stop.
    assert (forall u, lx = u -> rest = "" -> it = Skip -> ~ ((exists t, u = "//" ++ t) \/ (exists t, u = "/*" ++ t /\ ~ occurs "*/" t))) as Hlast.
    { intros u <- -> -> Hu. apply Hc. exists [], lx. split; [|exact Hu]. cbn. econstructor; [exact Hx|].
      constructor. intros. apply not_next_nil. }
    assert (rest <> "" -> exists c r, rest = String c r /\ (N_of_ascii c < 128)%N) as Hhead.
    { intros Hne. inversion HT as [? Hno|? lx' it' ? ? ? Hx']; subst; [congruence|].
      pose proof (next_app _ _ _ _ Hx') as ->. apply next_shape in Hx' as [m Hm].
      apply shape_head in Hm as (c & t & -> & Hlt). cbn. eauto. }
    destruct it as [|k t].
    + cbn [tokens_of]. rewrite <- IH. pose proof Hx as Hx0. destruct Hx as (-> & n & Hsh & Hmin & Hmax).
      rewrite sapp_assoc.
      inversion Hsh as [t Hne Ho|t Hl|t Ht|t Ht Ho|t Ht Ho| | | | | | |]; subst.
      * now apply kts_blanks.
      * now apply kts_break.
      * destruct (string_dec rest "") as [->|Hne]; [elim (Hlast _ eq_refl eq_refl eq_refl); eauto|].
        destruct (Hhead Hne) as (c & r & -> & Hlt).
        assert (c = CR \/ c = LF) as Hcr.
        { destruct (Ascii.eqb_spec c CR) as [|H1]; [auto|]. destruct (Ascii.eqb_spec c LF) as [|H2]; [auto|]. exfalso.
          specialize (Hmax ("//" ++ t ++ str1 c) Skip r). rewrite !slength_app in Hmax. cbn in Hmax.
          enough (S (S (String.length t + 1)) <= S (S (String.length t)))%nat by lia. apply Hmax.
          - rewrite !sapp_assoc. reflexivity.
          - apply (sh_line_comment (t ++ str1 c)). apply runes_snoc; [assumption|assumption|tauto]. }
        apply (kts_skip _ ("//" ++ t)). rewrite sapp_assoc. apply next_line_comment; [assumption|].
        cbn [append]. destruct Hcr as [->| ->]; reflexivity.
      * apply (kts_skip _ ("/*" ++ t ++ "*/")). rewrite !sapp_assoc. now apply next_block.
      * destruct (string_dec rest "") as [->|Hne]; [elim (Hlast _ eq_refl eq_refl eq_refl); eauto|].
        destruct (Hhead Hne) as (c & r & -> & Hlt). exfalso.
        specialize (Hmax ("/*" ++ t ++ str1 c) Skip r). rewrite !slength_app in Hmax. cbn in Hmax.
        enough (S (S (String.length t + 1)) <= S (S (String.length t)))%nat by lia. apply Hmax.
        { rewrite !sapp_assoc. reflexivity. }
        assert (~ occurs "*/" (t ++ str1 c) \/ exists u, t = u ++ str1 "*" /\ c = "/"%char) as [Hocc|(u & -> & ->)].
        { destruct (snoc_dec t "*") as [[u Hu]|Hu]; [destruct (ascii_dec c "/"); [right; eauto|]|];
            left; intros Ho'; apply occurs_snoc in Ho' as (u' & Hu1 & Hu2); auto; apply Hu; eauto. }
        -- apply (sh_open_comment (t ++ str1 c)); [|assumption]. apply runes_snoc; [assumption|assumption|tauto].
        -- rewrite sapp_assoc. apply (sh_block_comment u).
           ++ eapply runes_snoc_inv; [|eassumption]. reflexivity.
           ++ intros (a & b & ->). apply Ho. exists a, (b ++ "*"). now rewrite !sapp_assoc.
    + cbn [tokens_of app]. rewrite <- IH. now apply (kts_tok _ lx), next_tok_extend.
Qed.

Lemma kts_app a init x : kts a = (init ++ [(END_OF_INPUT, "")])%list -> ~ ends_in_comment a -> starts_gap x ->
  kts (a ++ x) = (init ++ kts x)%list.
Proof.
  intros Ha Hc Hx. destruct (kts_Tiles a) as (chunks & rest & HT & E). rewrite E in Ha.
  apply app_inj_tail in Ha as [<- Hr]. destruct rest; [|discriminate]. now apply kts_app_Tiles.
Qed.

(** * Rendering *)
Lemma letter_not_white c : letter c -> ~ whitec c.
Proof. intros H Hw. apply whitec_low in Hw. unfold letter, between in H. destruct H as [->|H]; [cbn in Hw|]; lia. Qed.
Lemma fixed_head k t : In (k, t) fixed_spelling -> k = TRUE /\ t = "true" \/ k = FALSE /\ t = "false" \/
  exists c u, t = String c u /\ ~ letter c /\ ~ digit c /\ c <> SQUOTE.
Proof.
  intros Hin. cbn in Hin.
  do 2 (destruct Hin as [Hin|Hin]; [injection Hin as <- <-; auto|]).
  repeat (destruct Hin as [Hin|Hin]; [injection Hin as <- <-; right; right; eexists _, _;
    split; [reflexivity|]; split; [|split; [|discriminate]];
    [intros [H|[[H1 H2]|[H1 H2]]]; first [discriminate H|now apply H1|now apply H2]
    |intros [H1 H2]; first [now apply H1|now apply H2]]|]). destruct Hin.
Qed.
Lemma early_class m lx it c r : shape m lx it -> (m <= 3)%nat -> String c r = lx ++ "" \/ (exists rest, String c r = lx ++ rest) -> whitec c.
Proof.
  intros H Hm Hs. assert (exists rest, String c r = lx ++ rest) as [rest E] by (destruct Hs; eauto).
  inversion H as [t Hne Ho|t [->|[->| ->]]| | | |k t Hin|c' t Hc|p t Hp|p t Hp|p t Hp|p t Hp Ht Ho|]; subst; try lia; cbn in E;
    try (injection E as -> _; unfold whitec; auto; fail).
  destruct lx as [|d lx]; [congruence|]. cbn in E. injection E as -> _. left. apply Ho. now left.
Qed.
Lemma tok_head n sp k t : shape n sp (Tok k t) -> exists c u, sp = String c u /\ ~ whitec c /\
  (n = 5%nat -> letter c) /\ ((6 <= n <= 9)%nat -> digit c) /\ (n = 10%nat -> c = SQUOTE).
Proof.
  intros H. destruct (shape_head _ _ _ H) as (c & u & -> & _). exists c, u. split; [reflexivity|].
  pose proof (shape_tok_class _ _ _ _ H) as Hn.
  split; [|split; [|split]].
  - destruct (Nat.eq_dec n 10) as [->|Hne].
    + inversion H; subst. intros Hw. apply whitec_low in Hw. cbn in Hw. lia.
    + eapply (shape_nonwhite _ _ _ c H); [lia|now left].
  - intros ->. now inversion H.
  - intros Hn'. inversion H as [| | | | |k' t' Hin E|c' t' Hc E|p t' Hp ? ? E|p t' Hp ? ? E|p t' Hp ? ? E|p t' Hp Ht Ho E|]; subst; try lia.
    + destruct Hp as [->| ->]; cbn in *; congruence || (match goal with H : String _ _ = String c u |- _ => injection H as <- _ end; unfold digit, between; cbn; lia).
    + destruct Hp as [->| ->]; cbn in *; congruence || (match goal with H : String _ _ = String c u |- _ => injection H as <- _ end; unfold digit, between; cbn; lia).
    + destruct Hp as [->| ->]; cbn in *; congruence || (match goal with H : String _ _ = String c u |- _ => injection H as <- _ end; unfold digit, between; cbn; lia).
    + destruct Hp as [->|[->| ->]]; cbn in *.
      * subst. apply Ho. now left.
      * match goal with H : String _ _ = String c u |- _ => injection H as <- _ end; unfold digit, between; cbn; lia.
      * match goal with H : String _ _ = String c u |- _ => injection H as <- _ end; unfold digit, between; cbn; lia.
  - intros ->. now inversion H.
Qed.
