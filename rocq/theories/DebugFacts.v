(** The debug build of the lexer. *)
From Coq Require Import String Ascii List ZArith NArith Bool Lia.
From Verif Require Import Base Num Regex Token Ast Lexer StrFacts SpecLexer LexerFacts LexerFacts2 LexerFacts4 LexerFacts5 DebugBuild SpecInfo SpecDebug.
Import ListNotations.
Open Scope string_scope.

Lemma loc_eq_refl l : loc_eq l l = true.
Proof. unfold loc_eq. rewrite !Z.eqb_refl, !String.eqb_refl. destruct (l_src l); reflexivity. Qed.

(** The comment loop. *)
Lemma dswallow_eq n : forall s l, dSwallow n s l = if swallow_dcheck n s then Some (SwallowMultiLineComment n s l) else None.
Proof.
  induction n as [|n IH]; intros s l; cbn [dSwallow swallow_dcheck SwallowMultiLineComment]; [reflexivity|].
  destruct (first_match kCommentRegexp s) as [h|]; [|reflexivity].
  unfold nonempty. destruct (negb (String.eqb (capture "end_of_comment" h) "")); [reflexivity|].
  destruct (negb (String.eqb (capture "comment" h) "")); [apply IH|].
  destruct (negb (String.eqb (capture "newline" h) "")); apply IH.
Qed.

Lemma dscan_step fuel s l : dtokenize_loop (S fuel) s l l =
  match scan s with
  | None => Some ([], s, l, l)
  | Some (w, lx, rest) =>
      let cur := add_col (slen lx) l in
      match w with
      | SBlank | SLine => dtokenize_loop fuel rest cur cur
      | SNewline => dtokenize_loop fuel rest (next_line cur) (next_line cur)
      | SOpen => dlet (dSwallow (String.length rest) rest cur) (fun '(rest', cur') => dtokenize_loop fuel rest' cur' cur')
      | STok k text =>
          dlet (dtokenize_loop fuel rest cur cur) (fun '(ts, rem, s', c') => Some (mkTok k text l cur :: ts, rem, s', c'))
      end
  end.
Proof.
  cbn [dtokenize_loop]. rewrite first_match_scan, loc_eq_refl. unfold dcheck.
  destruct (scan s) as [[[w lx] rest]|] eqn:E; [|reflexivity]. cbn [option_map sc_hit h_text h_rest].
  unfold scan in E.
  destruct (plus_span is_blank s) as [[t r]|] eqn:E0; cbn [orelse option_map as_sc as_id as_tok fst snd] in E.
  { injection E as <- <- <-. apply plus_span_spec in E0 as (Ht & _).
    unfold capture. cbn. unfold nonempty. destruct (String.eqb_spec t ""); [congruence|reflexivity]. }
  destruct (scan_newline s) as [[t r]|] eqn:E1; cbn [orelse option_map as_sc as_id as_tok fst snd] in E.
  { injection E as <- <- <-. assert (t <> "") as Ht.
    { clear -E1. unfold scan_newline, scan_newline_of in E1. destruct s as [|c [|d s]]; [discriminate|..].
      all: repeat match goal with H : context [if ?b then _ else _] |- _ => destruct b end;
      try discriminate E1; injection E1 as <- <-; discriminate. }
    unfold capture. cbn. unfold nonempty. destruct (String.eqb_spec t ""); [congruence|reflexivity]. }
  destruct (scan_line_comment s) as [[t r]|] eqn:E2; cbn [orelse option_map as_sc as_id as_tok fst snd] in E.
  { injection E as <- <- <-. unfold scan_line_comment in E2.
    destruct (strip_prefix "//" s); [|discriminate]. destruct (rspan _ _ _) as [t' r']. injection E2 as <- <-. reflexivity. }
  destruct (strip_prefix "/*" s) as [r|] eqn:E3; cbn [orelse option_map as_sc as_id as_tok fst snd] in E.
  { injection E as <- <- <-. reflexivity. }
  destruct (scan_keyword s) as [[t r]|] eqn:E4; cbn [orelse option_map as_kw fst snd] in E.
  { apply scan_keyword_fixed in E4 as [_ Hin]. cbn [fst] in Hin. injection E as <- <- <-.
    unfold capture. cbn [h_caps]. fold (kw_kind t). generalize dependent (kw_kind t). intros k Hin.
    repeat (destruct Hin as [Hin|Hin]; [injection Hin as <- <-; reflexivity|]). destruct Hin. }
  destruct (scan_id s) as [[t r]|] eqn:E5; cbn [orelse option_map as_sc as_id as_tok fst snd] in E.
  { injection E as <- <- <-. unfold scan_id in E5. destruct s as [|c s]; [discriminate|].
    destruct (is_alpha_ c); [|discriminate]. destruct (span is_alnum_ s). injection E5 as <- <-. reflexivity. }
  assert (forall b p lx t r, scan_num b p s = Some (lx, t, r) -> t <> "") as Hnum.
  { intros b p lx' t r. unfold scan_num. destruct s as [|z [|x s']]; try discriminate.
    destruct (_ && _)%bool; [|discriminate]. destruct (plus_span p s') as [[t' r']|] eqn:Ep; [|discriminate].
    cbn. intros [= <- <- <-]. now apply plus_span_spec in Ep. }
  destruct (scan_num "bB" is_bin s) as [[[lx' t] r]|] eqn:E6; cbn [orelse option_map as_sc as_id as_tok fst snd] in E.
  { injection E as <- <- <-. apply Hnum in E6. unfold capture. cbn. unfold nonempty.
    destruct (String.eqb_spec t ""); [congruence|reflexivity]. }
  destruct (scan_num "oO" is_oct s) as [[[lx' t] r]|] eqn:E7; cbn [orelse option_map as_sc as_id as_tok fst snd] in E.
  { injection E as <- <- <-. apply Hnum in E7. unfold capture. cbn. unfold nonempty.
    destruct (String.eqb_spec t ""); [congruence|reflexivity]. }
  destruct (scan_num "xX" is_hex s) as [[[lx' t] r]|] eqn:E8; cbn [orelse option_map as_sc as_id as_tok fst snd] in E.
  { injection E as <- <- <-. apply Hnum in E8. unfold capture. cbn. unfold nonempty.
    destruct (String.eqb_spec t ""); [congruence|reflexivity]. }
  destruct (scan_dec s) as [[[lx' t] r]|] eqn:E9; cbn [orelse option_map as_sc as_id as_tok fst snd] in E.
  { injection E as <- <- <-. assert (t <> "") as Ht.
    { unfold scan_dec in E9. destruct (scan_num "dD" is_digit s) as [[[? ?] ?]|] eqn:E10; cbn in E9.
      - injection E9 as <- <- <-. eapply Hnum, E10.
      - destruct (plus_span is_digit s) as [[t' r']|] eqn:Ep; [|discriminate].
        cbn in E9. injection E9 as <- <- <-. now apply plus_span_spec in Ep. }
    unfold capture. cbn. unfold nonempty. destruct (String.eqb_spec t ""); [congruence|reflexivity]. }
  destruct (scan_string s) as [[[lx' t] r]|] eqn:E10; cbn [orelse option_map as_sc as_id as_tok fst snd] in E; [|discriminate].
  injection E as <- <- <-. unfold scan_string in E10. destruct s as [|q s]; [discriminate|].
  destruct (Ascii.eqb_spec SQUOTE q); [|discriminate]. destruct (rspan _ _ _) as [t' [|q' r']]; [discriminate|].
  destruct (Ascii.eqb SQUOTE q'); [|discriminate]. injection E10 as <- <- <-.
  unfold capture. cbn [assoc_find h_caps sc_caps String.eqb]. cbn -[slen dtokenize_loop].
  destruct (dtokenize_loop fuel r' _ _) as [[[[ts rem] l'] l'']|]; [|reflexivity]. cbn [dlet]. do 6 f_equal.
  unfold strip_quotes. cbn [String.length]. rewrite slength_app. cbn [String.length str1].
  replace (S (String.length t' + 1) - 2)%nat with (String.length t') by lia. cbn [substring].
  replace (String.length t' + 1 - 1)%nat with (String.length t') by lia. apply substring_prefix.
Qed.

(** Lexemes start with an ASCII character. *)
Lemma shape_ascii n lx it : shape n lx it -> exists c t, lx = String c t /\ (N_of_ascii c < 128)%N.
Proof.
  intros H. inversion H as [t Hne Ho| t Hl|t|t|t|k t Hin|c t Hc|p t Hp|p t Hp|p t Hp|p t Hp Ht Ho|t Ht]; subst.
  - destruct lx as [|c lx]; [congruence|]. exists c, lx. split; [reflexivity|].
    destruct (Ho c) as [->| ->]; [left; reflexivity|reflexivity..].
  - destruct Hl as [->|[->| ->]]; eexists _, _; (split; [reflexivity|]); reflexivity.
  - eexists _, _. split; [reflexivity|]. reflexivity.
  - eexists _, _. split; [reflexivity|]. reflexivity.
  - eexists _, _. split; [reflexivity|]. reflexivity.
  - cbn in Hin. repeat (destruct Hin as [Hin|Hin]; [injection Hin as <- <-; eexists _, _; (split; [reflexivity|]); reflexivity|]). destruct Hin.
  - eexists _, _. split; [reflexivity|]. destruct Hc as [->|[Hc|Hc]]; [reflexivity|unfold between in Hc; lia..].
  - destruct Hp as [->| ->]; eexists _, _; (split; [reflexivity|]); reflexivity.
  - destruct Hp as [->| ->]; eexists _, _; (split; [reflexivity|]); reflexivity.
  - destruct Hp as [->| ->]; eexists _, _; (split; [reflexivity|]); reflexivity.
  - destruct Hp as [->|[->| ->]]; [|eexists _, _; (split; [reflexivity|]); reflexivity..].
    destruct t as [|c t]; [congruence|]. exists c, t. split; [reflexivity|].
    pose proof (Ho c (or_introl eq_refl)) as Hd. unfold digit, between in Hd. lia.
  - eexists _, _. split; [reflexivity|]. reflexivity.
Qed.
Lemma no_rune_no_lexeme s : match_rune (fun _ => false) s = [] -> forall lx it rest, ~ Next s lx it rest.
Proof.
  intros Hm lx it rest (Hs & n & Hsh & _). destruct (shape_ascii _ _ _ Hsh) as (c & t & -> & Hc).
  assert (rune (String c "")) as Hr by (now constructor).
  rewrite Hs in Hm. change (String c t ++ rest) with (String c "" ++ (t ++ rest)) in Hm.
  rewrite match_rune_complete in Hm; [discriminate|exact Hr|reflexivity].
Qed.

Definition open_left (lx rest : string) : Prop := exists t, lx = "/*" ++ t /\ ~ occurs "*/" t /\ rest <> "".
Lemma dstep_spec n s l :
  (exists lx rest, Next s lx Skip rest /\ ~ open_left lx rest /\
     dtokenize_loop (S n) s l l = dtokenize_loop n rest (advance lx l) (advance lx l)) \/
  (exists lx rest, Next s lx Skip rest /\ open_left lx rest /\ match_rune (fun _ => false) rest = [] /\
     dtokenize_loop (S n) s l l = None) \/
  (exists lx k t rest, Next s lx (Tok k t) rest /\
     dtokenize_loop (S n) s l l =
       (dlet (dtokenize_loop n rest (shift (String.length lx) l) (shift (String.length lx) l)) (fun '(ts, rem, l', l'') =>
        Some (mkTok k t l (shift (String.length lx) l) :: ts, rem, l', l'')))) \/
  ((forall lx it rest, ~ Next s lx it rest) /\ dtokenize_loop (S n) s l l = Some ([], s, l, l)).
Proof.
  rewrite dscan_step. pose proof (scan_results s) as Hr.
  destruct (scan s) as [[[w lx] rest]|] eqn:E.
  - assert (w <> SOpen -> item_of w = Skip -> ~ open_left lx rest) as Hno.
    { intros Hw Hi (t & -> & _). clear Hr. unfold scan in E.
      assert (forall A (f : A -> scanned) (o : option A) k (P : Prop), (forall a, f a = (w, "/*" ++ t, rest) -> P) -> (k = Some (w, "/*" ++ t, rest) -> P) -> orelse (option_map f o) k = Some (w, "/*" ++ t, rest) -> P) as Hor.
      { intros A f [a|] k P H1 H2 H; cbn in H; [injection H as H; eauto|auto]. }
      destruct (plus_span is_blank s) as [[t' r]|] eqn:E0; cbn [option_map orelse] in E.
      { injection E as <- H2 <-. cbn [fst] in H2. subst t'. apply plus_span_spec in E0 as (_ & _ & Ha & _).
        specialize (Ha "/"%char (or_introl eq_refl)). discriminate. }
      destruct (scan_newline s) as [[t' r]|] eqn:E1; cbn [option_map orelse] in E.
      { injection E as <- H2 <-. cbn [fst] in H2. subst t'. apply scan_newline_spec in E1 as (_ & Hl & _). cbn [fst] in Hl. destruct Hl as [Hl|[Hl|Hl]]; discriminate. }
      destruct (scan_line_comment s) as [[t' r]|] eqn:E2; cbn [option_map orelse] in E.
      { injection E as <- H2 <-. unfold scan_line_comment in E2. destruct (strip_prefix "//" s) as [s'|]; [|discriminate].
        destruct (rspan (String.length s') is_crlf s') as [t2 r2]. injection E2 as <- <-. discriminate H2. }
      destruct (strip_prefix "/*" s) as [r|] eqn:E3; cbn [option_map orelse] in E.
      { injection E as <- _ _. congruence. }
      destruct (scan_keyword s) as [[? ?]|]; [injection E as <- _ _; discriminate|]. cbn [option_map orelse] in E.
      destruct (scan_id s) as [[? ?]|]; [injection E as <- _ _; discriminate|]. cbn [option_map orelse] in E.
      destruct (scan_num "bB" is_bin s) as [[[? ?] ?]|]; [injection E as <- _ _; discriminate|]. cbn [option_map orelse] in E.
      destruct (scan_num "oO" is_oct s) as [[[? ?] ?]|]; [injection E as <- _ _; discriminate|]. cbn [option_map orelse] in E.
      destruct (scan_num "xX" is_hex s) as [[[? ?] ?]|]; [injection E as <- _ _; discriminate|]. cbn [option_map orelse] in E.
      destruct (scan_dec s) as [[[? ?] ?]|]; [injection E as <- _ _; discriminate|]. cbn [option_map orelse] in E.
      destruct (scan_string s) as [[[? ?] ?]|]; [injection E as <- _ _; discriminate|]. discriminate. }
    destruct w as [| | | |k t].
    + left. exists lx, rest. split; [now apply next_first|]. split; [apply Hno; [discriminate|reflexivity]|].
      rewrite (skip_loc _ _ _ _ l E); [reflexivity|reflexivity|discriminate].
    + left. exists lx, rest. split; [now apply next_first|]. split; [apply Hno; [discriminate|reflexivity]|].
      rewrite (skip_loc _ _ _ _ l E); [reflexivity|reflexivity|discriminate].
    + left. exists lx, rest. split; [now apply next_first|]. split; [apply Hno; [discriminate|reflexivity]|].
      rewrite (skip_loc _ _ _ _ l E); [reflexivity|reflexivity|discriminate].
    + clear Hno. destruct Hr as (Hr & Hp & ->). unfold block_result in Hr. rewrite Hp in Hr. apply strip_prefix_spec in Hp. subst s.
      destruct (swallow_spec (String.length rest) rest default_loc (le_n _)) as (body & closed & rest' & Hsw & Hs & _).
      destruct (swallow_spec (String.length rest) rest (add_col (slen "/*") l) (le_n _)) as (body2 & closed2 & rest2 & Hsw2 & Hs2 & Hb2 & Ho2 & Hc2 & Hd2).
      rewrite Hsw in Hr.
      cbv zeta. rewrite dswallow_eq, Hd2, Hsw2.
      assert (forall n s l1 l2, fst (SwallowMultiLineComment n s l1) = fst (SwallowMultiLineComment n s l2)) as Hind.
      { clear. induction n as [|n IH]; intros s l1 l2; [reflexivity|]. cbn [SwallowMultiLineComment].
        destruct (first_match kCommentRegexp s) as [h|]; [|reflexivity].
        destruct (negb _); [reflexivity|]. destruct (negb _); [apply IH|]. destruct (negb _); apply IH. }
      pose proof (Hind (String.length rest) rest default_loc (add_col (slen "/*") l)) as Hi.
      rewrite Hsw, Hsw2 in Hi. cbn [fst] in Hi. subst rest2.
      set (c2 := body2 ++ (if closed2 then "*/" else "")) in *.
      assert (rest = c2 ++ rest') as Hrest by (unfold c2; rewrite sapp_assoc; exact Hs2).
      assert (substring 0 (String.length ("/*" ++ rest) - String.length rest') ("/*" ++ rest) = "/*" ++ c2) as Elx.
      { rewrite Hrest. rewrite <- sapp_assoc, slength_app.
        replace (String.length ("/*" ++ c2) + String.length rest' - String.length rest')%nat with (String.length ("/*" ++ c2)) by lia.
        apply substring_prefix. }
      rewrite Elx in Hr.
      assert (Next ("/*" ++ rest) ("/*" ++ c2) Skip rest') as Hx by (now apply next_first).
      assert (advance ("/*" ++ c2) l = advance c2 (add_col (slen "/*") l)) as Eadv.
      { rewrite (advance_nobreak "/*") by nobreak_tac. reflexivity. }
      destruct closed2; cbn [orb].
      { left. exists ("/*" ++ c2), rest'. split; [exact Hx|]. split; [|rewrite Eadv; reflexivity].
        intros (t & Et & Ho & _). apply sapp_inv_head in Et. apply Ho. subst t. exists body2, "". unfold c2. rewrite sapp_nil_r. reflexivity. }
      destruct (String.eqb_spec rest' "") as [->|Hne].
      { left. exists ("/*" ++ c2), "". split; [exact Hx|]. split; [|rewrite Eadv; reflexivity].
        intros (t & _ & _ & H). congruence. }
      right; left. exists ("/*" ++ c2), rest'. split; [exact Hx|]. split.
      { exists c2. split; [reflexivity|]. split; [unfold c2; rewrite sapp_nil_r; exact Ho2|exact Hne]. }
      split; [apply Hc2; reflexivity|reflexivity].
    + right; right; left. exists lx, k, t, rest. split; [now apply next_first|]. reflexivity.
  - right; right; right. split; [|reflexivity]. intros lx it rest H. apply next_first in H. congruence.
Qed.

Lemma dloop_spec n : forall s l, (String.length s < n)%nat ->
  (dtokenize_loop n s l l = None /\ trips s) \/
  (dtokenize_loop n s l l = (let '(ts, rem, l') := tokenize_loop n s l in Some (ts, rem, l', l')) /\ ~ trips s).
Proof.
  assert (forall s lx it rest, Next s lx it rest -> trips rest -> trips s) as Htail.
  { intros s lx it rest Hx (ch & t & r & Ht & Ho & Hne). exists ((lx, it) :: ch), t, r. split; [|auto]. cbn [app]. econstructor; eauto. }
  assert (forall s lx it rest, Next s lx it rest -> (it = Skip -> ~ open_left lx rest) -> trips s -> trips rest) as Hcut.
  { intros s lx it rest Hx Hno (ch & t & r & Ht & Ho & Hne). destruct ch as [|[lx' it'] ch]; cbn [app] in Ht; inversion Ht as [|? ? ? ? ? ? Hx' Ht']; subst.
    - destruct (next_fun _ _ _ _ _ _ _ Hx Hx') as (-> & -> & ->). inversion Ht' as [? Hn|]; subst. elim (Hno eq_refl). exists t. auto.
    - destruct (next_fun _ _ _ _ _ _ _ Hx Hx') as (-> & -> & ->). exists ch, t, r. auto. }
  induction n as [|n IH]; intros s l Hn; [lia|].
  destruct (dstep_spec n s l) as [(lx & rest & Hx & Hno & ->)|[(lx & rest & Hx & Hop & Hstop & ->)|[(lx & k & t & rest & Hx & ->)|(Hno & ->)]]];
    destruct (step_spec n s l) as [(lx2 & rest2 & Hx2 & ->)|[(lx2 & k2 & t2 & rest2 & Hx2 & ->)|(Hno2 & ->)]];
    try (destruct (next_fun _ _ _ _ _ _ _ Hx Hx2) as (E1 & E2 & E3); try discriminate E2; subst lx2 rest2);
    try (exfalso; eapply Hno2; eassumption); try (exfalso; eapply Hno; eassumption).
  - pose proof (next_shorter _ _ _ _ Hx). destruct (IH rest (advance lx l) ltac:(lia)) as [[E Ht]|[E Ht]].
    + left. split; [exact E|]. eapply Htail; eauto.
    + right. split; [exact E|]. intros H'. apply Ht. eapply Hcut; eauto.
  - left. split; [reflexivity|]. destruct Hop as (t & -> & Ho & Hne). exists [], t, rest. split; [|auto]. cbn [app].
    econstructor; [exact Hx|]. constructor. exact (no_rune_no_lexeme _ Hstop).
  - injection E2 as <- <-. pose proof (next_shorter _ _ _ _ Hx). destruct (IH rest (shift (String.length lx) l) ltac:(lia)) as [[E Ht]|[E Ht]].
    + left. rewrite E. split; [reflexivity|]. eapply Htail; eauto.
    + right. rewrite E. split.
      * destruct (tokenize_loop n rest _) as [[ts rem] l']. reflexivity.
      * intros H'. apply Ht. eapply Hcut; eauto. discriminate.
  - right. split; [reflexivity|]. intros (ch & t & r & Ht & _). inversion Ht as [? Hs Hch Hr|? ? ? ? ? ? Hx']; subst; [destruct ch; discriminate|]. elim (Hno _ _ _ Hx').
Qed.
Lemma dTokenize_spec c : (dTokenize c = None /\ trips (cs_string c)) \/ (dTokenize c = Some (Tokenize c) /\ ~ trips (cs_string c)).
Proof.
  unfold dTokenize, Tokenize. destruct (dloop_spec (S (String.length (cs_string c))) (cs_string c) (cs_loc c) (Nat.lt_succ_diag_r _)) as [[-> H]|[-> H]].
  - left. auto.
  - right. destruct (tokenize_loop _ _ _) as [[ts rem] l']. auto.
Qed.
