(** Proofs about the lexer, continued: comments, locations, the token relation. *)
From Coq Require Import String Ascii List ZArith NArith Bool Lia ZifyBool ZifyN ZifyNat.
From Verif Require Import Base Regex Token Lexer SpecLexer StrFacts LexerFacts.
Import ListNotations.
Open Scope string_scope.

(** * Locations *)
Definition nobreak (s : string) : Prop := forall c, In c (chars s) -> c <> CR /\ c <> LF.
Lemma shift_shift a b l : shift a (shift b l) = shift (b + a) l.
Proof. unfold shift. cbn. f_equal. lia. Qed.
Lemma shift_0 l : shift 0 l = l.
Proof. destruct l. unfold shift. cbn. f_equal. lia. Qed.
Lemma add_col_shift s l : add_col (slen s) l = shift (String.length s) l.
Proof. reflexivity. Qed.
Lemma advance_cons_plain c s l : c <> CR -> c <> LF -> advance (String c s) l = advance s (shift 1 l).
Proof.
  intros H1 H2. cbn [advance]. destruct (Ascii.eqb_spec c LF); [congruence|].
  destruct (Ascii.eqb_spec c CR); [congruence|]. reflexivity.
Qed.
Lemma advance_nobreak a b l : nobreak a -> advance (a ++ b) l = advance b (shift (String.length a) l).
Proof.
  revert l. induction a as [|c a IH]; intros l H.
  - cbn [append String.length]. now rewrite shift_0.
  - cbn [append]. destruct (H c (or_introl eq_refl)) as [H1 H2].
    rewrite advance_cons_plain, IH, shift_shift; auto. intros d Hd. apply H. now right.
Qed.
Lemma advance_nobreak' a l : nobreak a -> advance a l = shift (String.length a) l.
Proof. intros H. rewrite <- (sapp_nil_r a) at 1. now rewrite advance_nobreak. Qed.
Ltac nobreak_tac := intros c Hc; cbn in Hc; repeat destruct Hc as [<-|Hc]; try destruct Hc; split; discriminate.
Lemma next_line_eq l : next_line l = mkLoc (l_line l + 1) 0 (l_src l).
Proof. reflexivity. Qed.
Lemma advance_LF s l : advance (String LF s) l = advance s (next_line l).
Proof. reflexivity. Qed.
Lemma advance_CRLF s l : advance (String CR (String LF s)) l = advance s (next_line l).
Proof. reflexivity. Qed.
Definition starts_LF (s : string) : Prop := exists s', s = String LF s'.
Lemma advance_CR s l : ~ starts_LF s -> advance (String CR s) l = advance s (next_line l).
Proof.
  intros H. change (advance (String CR s) l) with
    (match s with
     | String d s'' => if Ascii.eqb d LF then advance s'' (next_line l) else advance s (next_line l)
     | "" => next_line l end).
  destruct s as [|d s]; [reflexivity|]. destruct (Ascii.eqb_spec d LF) as [->|]; [|reflexivity].
  elim H. eexists. reflexivity.
Qed.
Definition ends_CR (s : string) : Prop := exists a, s = a ++ str1 CR.
Lemma advance_app a b l : ~ (ends_CR a /\ starts_LF b) -> advance (a ++ b) l = advance b (advance a l).
Proof.
  remember (String.length a) as n eqn:Hn. revert a l Hn.
  induction n as [n IH] using lt_wf_ind. intros a l Hn H.
  destruct a as [|c a]; [reflexivity|].
  assert (~ (ends_CR a /\ starts_LF b)) as Ha.
  { intros [[z Hz] Hb]. apply H. split; [|exact Hb]. exists (String c z). cbn. now rewrite Hz. }
  cbn [append]. destruct (Ascii.eqb_spec c LF) as [->|H1].
  - rewrite !advance_LF. eapply IH; [|reflexivity|exact Ha]. cbn in Hn. lia.
  - destruct (Ascii.eqb_spec c CR) as [->|H2].
    + destruct a as [|d a].
      * cbn [append]. rewrite advance_CR; [reflexivity|]. intros Hb. apply H. split; [|exact Hb].
        exists "". reflexivity.
      * cbn [append]. destruct (Ascii.eqb_spec d LF) as [->|H3].
        -- rewrite !advance_CRLF. eapply IH; [|reflexivity|].
           ++ cbn in Hn. lia.
           ++ intros [[z Hz] Hb]. apply H. split; [|exact Hb]. exists (String CR (String LF z)). cbn. now rewrite Hz.
        -- rewrite !advance_CR.
           2,3: intros [z Hz]; congruence.
           change (String d (a ++ b)) with (String d a ++ b).
           eapply IH; [|reflexivity|exact Ha]. cbn in Hn. cbn. lia.
    + rewrite !advance_cons_plain by auto. eapply IH; [|reflexivity|exact Ha]. cbn in Hn. lia.
Qed.

(** * Multi-line comments *)
Lemma occurs_cons w c s : occurs w (String c s) -> (exists b, String c s = w ++ b) \/ occurs w s.
Proof.
  intros (a & b & H). destruct a as [|d a]; cbn in H; [left; eauto|].
  injection H as -> ->. right. exists a, b. reflexivity.
Qed.
Lemma occurs_app_r w a s : occurs w s -> occurs w (a ++ s).
Proof. intros (x & y & ->). exists (a ++ x), y. now rewrite sapp_assoc. Qed.
Lemma occurs_star_skip a s : ~ In "*"%char (chars a) -> occurs "*/" (a ++ s) -> occurs "*/" s.
Proof.
  induction a as [|c a IH]; cbn; intros Ha H; [exact H|].
  apply occurs_cons in H as [[b Hb]|H]; [|auto].
  cbn in Hb. injection Hb as -> _. tauto.
Qed.
Lemma runes_not_in (bad : ascii -> Prop) t c : (N_of_ascii c < 128)%N -> runes bad t -> bad c -> ~ In c (chars t).
Proof.
  intros Hc. induction 1 as [|r s Hr Hb Hs IH]; intros Hbad Hin; [destruct Hin|].
  unfold chars in *. rewrite chars_app, in_app_iff in Hin. destruct Hin as [Hin|Hin]; [|now apply IH].
  destruct Hr as [d Hd|d d1 Hd H1|d d1 d2 Hd H1 H2|d d1 d2 d3 Hd H1 H2 H3];
    unfold between, cont, between in *; cbn in Hin;
    repeat destruct Hin as [<-|Hin]; try lia; try tauto.
  now apply (Hb d).
Qed.
Lemma match_rune_weaken p s : match_rune p s = [] ->
  (forall c s', s = String c s' -> p c = false) -> match_rune (fun _ => false) s = [].
Proof.
  intros H Hp. unfold match_rune in *. destruct s as [|c s]; [reflexivity|].
  rewrite (Hp c s eq_refl) in H. destruct (N.ltb (byte c) 128); [discriminate|exact H].
Qed.

Definition star_class_p (c : ascii) : bool := (is_crlf c || Ascii.eqb c "*")%bool.
Lemma matches_neg p s : matches (RNeg p) s = match_rune p s.
Proof. reflexivity. Qed.
Lemma hd_plus_rune p s : hd_match (RPlus (RNeg p)) s =
  (let (t, r) := rspan (String.length s) p s in if String.eqb t "" then None else Some (mkHit t r [])).
Proof.
  unfold hd_match. rewrite matches_plus, matches_neg. destruct s as [|c s]; [reflexivity|].
  set (s0 := String c s). change (String.length s0) with (S (String.length s)). cbn [rspan].
  destruct (match_rune_cases p s0) as [E|[h E]]; rewrite E; cbn [flat_map hd_error]; [reflexivity|].
  rewrite app_nil_r. assert (In h (match_rune p s0)) as Hin by (rewrite E; now left).
  pose proof (match_rune_shorter _ _ _ Hin) as [Hsh Hne].
  apply match_rune_sound in Hin as (_ & Hc & _).
  unfold follow. rewrite hd_error_map, star_rune by lia. cbn [option_map h_text h_rest h_caps].
  assert (forall m1 m2 x, (String.length x <= m1)%nat -> (String.length x <= m2)%nat -> rspan m1 p x = rspan m2 p x) as Hfuel.
  { clear. induction m1 as [|m1 IH]; intros m2 x H1 H2.
    - destruct x; [|cbn in H1; lia]. destruct m2; reflexivity.
    - destruct m2 as [|m2]; [destruct x; [reflexivity|cbn in H2; lia]|]. cbn [rspan].
      destruct (match_rune_cases p x) as [E|[h E]]; rewrite E; [reflexivity|].
      assert (In h (match_rune p x)) as Hin by (rewrite E; now left).
      apply match_rune_shorter in Hin as [Hsh _]. rewrite (IH m2); [reflexivity|lia|lia]. }
  rewrite (Hfuel _ (String.length s)); [|lia|cbn in Hsh; lia].
  destruct (rspan (String.length s) p (h_rest h)) as [t r]. cbn [fst snd]. rewrite Hc. cbn [app].
  destruct (h_text h) as [|x y]; [congruence|]. reflexivity.
Qed.
Inductive csc := CEnd | CFrag | CNewline.
Definition cscan (s : string) : option (csc * string * string) :=
  match strip_prefix "*/" s with
  | Some r => Some (CEnd, "*/", r)
  | None =>
      let (t, r) := rspan (String.length s) star_class_p s in
      if negb (String.eqb t "") then Some (CFrag, t, r)
      else match scan_char (is_char "*") s with
           | Some (t, r) => Some (CFrag, t, r)
           | None => option_map (fun x => (CNewline, fst x, snd x)) (scan_newline s)
           end
  end.
Lemma cscan_match s : first_match kCommentRegexp s =
  option_map (fun x => let '(w, lx, r) := x in
    mkHit lx r [(match w with CEnd => "end_of_comment" | CFrag => "comment" | CNewline => "newline" end, lx)]) (cscan s).
Proof.
  change (first_match kCommentRegexp s) with (hd_match kCommentRegexp s). unfold kCommentRegexp, cscan.
  rewrite !hd_alts, hd_alts1, !hd_group, hd_lit, hd_newline.
  destruct (strip_prefix "*/" s) as [r|]; [reflexivity|]. cbn [option_map orelse].
  set (a := RPlus (RNeg _)). set (b := RClass (is_char "*")).
  assert (hd_match (RAlt a b) s = orelse (hd_match a s) (hd_match b s)) as -> by (apply hd_error_app).
  unfold a, b. change (RNeg _) with (RNeg star_class_p). rewrite hd_plus_rune, hd_class.
  destruct (rspan (String.length s) star_class_p s) as [t r].
  destruct (String.eqb t ""); [|reflexivity]. cbn [negb orelse].
  destruct (scan_char (is_char "*") s) as [[t' r']|]; [reflexivity|]. cbn [option_map orelse].
  rewrite !omap_omap. apply omap_ext. intros [t' r']. reflexivity.
Qed.
Lemma scan_newline_spec s t r : scan_newline s = Some (t, r) ->
  s = t ++ r /\ line_break t /\ ~ (ends_CR t /\ starts_LF r).
Proof.
  unfold scan_newline, scan_newline_of, line_break. destruct s as [|c s]; [discriminate|].
  destruct (Ascii.eqb_spec CR c) as [<-|H1].
  - destruct s as [|d s].
    + intros [= <- <-]. repeat split; auto. intros [_ [z Hz]]. discriminate.
    + destruct (Ascii.eqb_spec LF d) as [<-|H2]; intros [= <- <-]; repeat split; auto.
      * intros [[z Hz] _]. destruct z as [|? [|? [|? ?]]]; discriminate Hz.
      * intros [_ [z Hz]]. congruence.
  - destruct (Ascii.eqb_spec LF c) as [<-|H2]; [|discriminate]. intros [= <- <-]. repeat split; auto.
    intros [[z Hz] _]. destruct z as [|? [|? ?]]; discriminate Hz.
Qed.
Lemma scan_newline_none s : scan_newline s = None -> forall t r, s = t ++ r -> ~ line_break t.
Proof.
  unfold scan_newline, scan_newline_of, line_break. intros H t r -> [->|[->| ->]]; cbn in H; try discriminate.
  destruct r as [|d r]; [discriminate|]. match goal with H : (if ?b then _ else _) = None |- _ => destruct b end; discriminate.
Qed.
Lemma advance_break t l : line_break t -> advance t l = next_line l.
Proof. intros [->|[->| ->]]; reflexivity. Qed.
Lemma star_class_p_spec c : star_class_p c = true <-> (c = CR \/ c = LF) \/ c = "*"%char.
Proof.
  unfold star_class_p, is_crlf.
  destruct (Ascii.eqb_spec c CR), (Ascii.eqb_spec c LF), (Ascii.eqb_spec c "*"); cbn; intuition congruence.
Qed.
Lemma runes_nobreak (bad : ascii -> Prop) t : runes bad t -> bad CR -> bad LF -> nobreak t.
Proof.
  intros H H1 H2 c Hc. split; intros ->; [eapply (runes_not_in bad t CR)|eapply (runes_not_in bad t LF)];
    eauto; reflexivity.
Qed.
Lemma runes_one bad c : (N_of_ascii c < 128)%N -> ~ bad c -> runes bad (str1 c).
Proof.
  intros H Hb. change (str1 c) with (str1 c ++ ""). constructor; [now constructor| |constructor].
  intros d [= <-]. exact Hb.
Qed.

Lemma swallow_spec n : forall s l, (String.length s <= n)%nat ->
  exists body (closed : bool) rest,
    SwallowMultiLineComment n s l = (rest, advance (body ++ (if closed then "*/" else "")) l) /\
    s = body ++ (if closed then "*/" else "") ++ rest /\
    runes (fun _ => False) body /\ ~ occurs "*/" body /\
    (closed = false -> match_rune (fun _ => false) rest = []) /\
    swallow_dcheck n s = (closed || String.eqb rest "")%bool.
Proof.
  induction n as [|n IH]; intros s l Hn.
  - destruct s; [|cbn in Hn; lia]. exists "", false, "". repeat split; auto; [constructor|].
    intros (a & b & H). destruct a; discriminate H.
  - cbn [SwallowMultiLineComment swallow_dcheck]. rewrite cscan_match. unfold cscan.
    destruct (strip_prefix "*/" s) as [r|] eqn:E1.
    { apply strip_prefix_spec in E1. subst s. exists "", true, r.
      split; [cbn [append]; rewrite advance_nobreak' by nobreak_tac; reflexivity|]. split; [reflexivity|]. split; [constructor|]. split; [|split; [discriminate|reflexivity]].
      intros (a & b & H). destruct a; discriminate H. }
    rewrite strip_prefix_None in E1.
    destruct (rspan (String.length s) star_class_p s) as [t r] eqn:E2.
    pose proof (rspan_spec star_class_p _ _ _ _ _ star_class_p_spec (le_n _) E2) as (Hs & Ht & Hr).
    destruct (String.eqb_spec t "") as [->|Hne]; cbn [negb].
    2: { cbn [option_map]. unfold capture. cbn [assoc_find h_caps String.eqb Ascii.eqb Bool.eqb h_rest].
         unfold nonempty. destruct (String.eqb_spec t ""); [congruence|]. cbn [negb String.eqb].
         destruct (IH r (add_col (slen t) l)) as (body & closed & rest & -> & Hr' & Hb & Ho & Hc & Hd).
         { rewrite Hs, slength_app in Hn. destruct t; [congruence|cbn in Hn; lia]. }
         exists (t ++ body), closed, rest.
         assert (nobreak t) as Hnb by (eapply runes_nobreak; [exact Ht|cbn; auto..]).
         split; [rewrite sapp_assoc, (advance_nobreak t) by assumption; reflexivity|].
         split; [rewrite sapp_assoc, <- Hr'; exact Hs|].
         split; [apply runes_app; [eapply runes_weaken; [|exact Ht]; tauto|exact Hb]|].
         split; [|tauto].
         intros H. apply Ho. apply (occurs_star_skip t); [|exact H].
         eapply runes_not_in; [|exact Ht|cbn; auto]. reflexivity. }
    cbn [append] in Hs. subst r.
    destruct (scan_char (is_char "*") s) as [[t r]|] eqn:E3.
    { unfold scan_char in E3. destruct s as [|c s]; [discriminate|]. unfold is_char in E3.
      destruct (Ascii.eqb_spec "*" c) as [<-|]; [|discriminate]. injection E3 as <- <-.
      cbn [option_map]. unfold capture. cbn [assoc_find h_caps String.eqb Ascii.eqb Bool.eqb h_rest negb str1].
      unfold nonempty. cbn [String.eqb negb].
      destruct (IH s (add_col (slen (str1 "*")) l)) as (body & closed & rest & -> & Hr' & Hb & Ho & Hc & Hd).
      { cbn in Hn. lia. }
      exists (String "*" body), closed, rest. cbn [append].
      split; [rewrite advance_cons_plain by discriminate; reflexivity|].
      split; [congruence|].
      split; [change (String "*" body) with (str1 "*" ++ body); apply runes_app; [|exact Hb]; apply runes_one; [reflexivity|tauto]|].
      split; [|tauto].
      intros H. apply occurs_cons in H as [[b H]|H]; [|tauto].
      cbn in H. injection H as H. apply (E1 (b ++ (if closed then "*/" else "") ++ rest)).
      cbn. rewrite Hr', H. reflexivity. }
    destruct (scan_newline s) as [[t r]|] eqn:E4; cbn [option_map fst snd].
    { apply scan_newline_spec in E4 as (Hs & Hl & Hno).
      unfold capture. cbn [assoc_find h_caps String.eqb Ascii.eqb Bool.eqb h_rest].
      unfold nonempty. assert (t <> "") as Hne by (destruct Hl as [->|[->| ->]]; discriminate).
      destruct (String.eqb_spec t ""); [congruence|]. cbn [negb String.eqb].
      destruct (IH r (next_line l)) as (body & closed & rest & -> & Hr' & Hb & Ho & Hc & Hd).
      { rewrite Hs, slength_app in Hn. destruct t; [congruence|cbn in Hn; lia]. }
      exists (t ++ body), closed, rest.
      split.
      { rewrite sapp_assoc, (advance_app t), (advance_break t); auto.
        intros [Ha [z Hz]]. apply Hno. split; [exact Ha|]. exists (z ++ rest).
        rewrite Hr', <- sapp_assoc, Hz. reflexivity. }
      split; [rewrite sapp_assoc, <- Hr'; exact Hs|].
      split.
      { apply runes_app; [|exact Hb].
        destruct Hl as [->|[->| ->]].
        - apply (runes_app _ (str1 CR) (str1 LF)); apply runes_one; try reflexivity; tauto.
        - apply runes_one; [reflexivity|tauto].
        - apply runes_one; [reflexivity|tauto]. }
      split; [|tauto]. intros H. apply Ho. apply (occurs_star_skip t); [|exact H].
      destruct Hl as [->|[->| ->]]; cbn; intuition discriminate. }
    exists "", false, s. cbn [append]. split; [reflexivity|]. split; [reflexivity|]. split; [constructor|].
    split; [intros (a & b & H); destruct a; discriminate H|]. split; [|reflexivity]. intros _.
    eapply match_rune_weaken; [exact Hr|]. intros c s' ->.
    destruct (star_class_p c) eqn:Ep; [|reflexivity]. exfalso.
    apply star_class_p_spec in Ep as [[->| ->]| ->].
    + eapply (scan_newline_none _ E4 (str1 CR)); [reflexivity|]. unfold line_break. auto.
    + eapply (scan_newline_none _ E4 (str1 LF)); [reflexivity|]. unfold line_break. auto.
    + discriminate E3.
Qed.
