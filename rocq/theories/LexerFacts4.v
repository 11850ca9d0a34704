(** Proofs about the lexer, continued: [Tokenize] implements [Lex]. *)
From Coq Require Import String Ascii List ZArith NArith Bool Lia ZifyBool ZifyN ZifyNat.
From Verif Require Import Base Regex Token Lexer SpecLexer StrFacts LexerFacts LexerFacts2 LexerFacts3.
Import ListNotations.
Open Scope string_scope.

Definition block_result (s : string) : option (string * item * string) :=
  match strip_prefix "/*" s with
  | Some s' =>
      let (rest, _) := SwallowMultiLineComment (String.length s') s' default_loc in
      Some (substring 0 (String.length s - String.length rest) s, Skip, rest)
  | None => None
  end.
Definition results (s : string) : list (option (string * item * string)) :=
  [ option_map (fun x => (fst x, Skip, snd x)) (plus_span is_blank s);
    option_map (fun x => (fst x, Skip, snd x)) (scan_newline s);
    option_map (fun x => (fst x, Skip, snd x)) (scan_line_comment s);
    block_result s;
    option_map (fun x => (fst x, Tok (kw_kind (fst x)) (fst x), snd x)) (scan_keyword s);
    option_map (fun x => (fst x, Tok ID (fst x), snd x)) (scan_id s);
    option_map (tokopt BINARY) (scan_num "bB" is_bin s);
    option_map (tokopt OCTARY) (scan_num "oO" is_oct s);
    option_map (tokopt HEXADEC) (scan_num "xX" is_hex s);
    option_map (tokopt DECIMAL) (scan_dec s);
    option_map (tokopt STRING) (scan_string s) ].
Definition R (s : string) (n : nat) := nth n (results s) None.
Lemma best_R s n : best n s (R s n).
Proof.
  do 11 (destruct n as [|n]; [first [apply best_blank|apply best_newline|apply best_line|apply best_block
    |apply best_keyword|apply best_id|apply best_bin|apply best_oct|apply best_hex|apply best_dec|apply best_string]|]).
  assert (R s (S (S (S (S (S (S (S (S (S (S (S n))))))))))) = None) as -> by (destruct n; reflexivity).
  intros lx it rest Hs H. inversion H.
Qed.
Lemma fixed_fun k k' t : In (k, t) fixed_spelling -> In (k', t) fixed_spelling -> k = k'.
Proof.
  intros H H'. cbn in H.
  repeat (destruct H as [H|H]; [injection H as <- <-; cbn in H';
    repeat (destruct H' as [H'|H']; [congruence|]); destruct H'|]).
  destruct H.
Qed.
Lemma only_cons q c t : only q (String c t) -> q c /\ only q t.
Proof. intros H. split; [apply H; now left|]. intros d Hd. apply H. now right. Qed.
Lemma shape_fun n lx it it' : shape n lx it -> shape n lx it' -> it = it'.
Proof.
  intros H H'. inversion H; subst n; inversion H'; subst; try reflexivity.
  all: try (f_equal; eapply fixed_fun; now eauto).
  all: try (apply sapp_inv_head in H2; apply sapp_inv_tail in H2; congruence).
  all: repeat match goal with H : ?p = _ \/ ?p = _ |- _ => destruct H as [H|H]; subst p end.
  all: repeat match goal with H : ?p = _ \/ ?p = _ \/ ?p = _ |- _ => destruct H as [H|[H|H]]; subst p end.
  all: cbn [append] in *; try congruence; subst.
  all: repeat match goal with H : only digit (String _ _) |- _ => apply only_cons in H as [? H] end.
  all: try match goal with H : digit "d" |- _ => exfalso; destruct H as [_ H]; now apply H
                    | H : digit "D" |- _ => exfalso; destruct H as [_ H]; now apply H end.
  all: match goal with H : str1 SQUOTE ++ _ = str1 SQUOTE ++ _ |- _ => apply sapp_inv_head in H; apply sapp_inv_tail in H end;
    congruence.
Qed.
Lemma next_iff s lx it rest : Next s lx it rest <->
  exists n, R s n = Some (lx, it, rest) /\ forall m, (m < n)%nat -> R s m = None.
Proof.
  split.
  - intros (Hs & n & Hsh & Hmin & Hmax). exists n. split.
    + pose proof (best_R s n) as Hb. destruct (R s n) as [[[lx0 it0] rest0]|]; cbn in Hb.
      * destruct Hb as (Hs0 & Hsh0 & Hmax0).
        pose proof (Hmax _ _ _ Hs0 Hsh0). pose proof (Hmax0 _ _ _ Hs Hsh).
        assert (lx0 ++ rest0 = lx ++ rest) as He by congruence.
        apply prefix_eq in He as [-> ->]; [|lia].
        now rewrite (shape_fun _ _ _ _ Hsh Hsh0).
      * elim (Hb _ _ _ Hs Hsh).
    + intros m Hm. pose proof (best_R s m) as Hb. destruct (R s m) as [[[lx0 it0] rest0]|]; [|reflexivity].
      destruct Hb as (Hs0 & Hsh0 & _). elim (Hmin _ _ _ _ Hm Hs0 Hsh0).
  - intros (n & Hn & Hmin). pose proof (best_R s n) as Hb. rewrite Hn in Hb. destruct Hb as (Hs & Hsh & Hmax).
    split; [exact Hs|]. exists n. repeat split; auto.
    intros m lx' it' rest' Hm Hs' Hsh'. pose proof (best_R s m) as Hb. rewrite (Hmin m Hm) in Hb.
    elim (Hb _ _ _ Hs' Hsh').
Qed.
Lemma next_fun s lx it rest lx' it' rest' : Next s lx it rest -> Next s lx' it' rest' ->
  lx = lx' /\ it = it' /\ rest = rest'.
Proof.
  rewrite !next_iff. intros (n & Hn & Hm) (n' & Hn' & Hm').
  destruct (lt_eq_lt_dec n n') as [[Hlt|Heq]|Hlt].
  - rewrite (Hm' n Hlt) in Hn. discriminate.
  - subst n'. rewrite Hn in Hn'. injection Hn' as -> -> ->. auto.
  - rewrite (Hm n' Hlt) in Hn'. discriminate.
Qed.

(** The scanner of the model, with comments taken as a whole. *)
Definition item_of (w : sc) : item := match w with STok k t => Tok k t | _ => Skip end.
Lemma first_R (s : string) n x : R s n = Some x -> (forall m, (m < n)%nat -> R s m = None) ->
  fold_right orelse None (results s) = Some x.
Proof.
  unfold R. generalize (results s) as l. intros l. revert n. induction l as [|o l IH]; intros n Hn Hm.
  - destruct n; discriminate.
  - destruct n as [|n].
    + cbn in *. now rewrite Hn.
    + cbn. assert (o = None) as -> by (apply (Hm 0%nat); lia). cbn. apply (IH n); [exact Hn|].
      intros m Hlt. apply (Hm (S m)). lia.
Qed.
Lemma R_first (s : string) x : fold_right orelse None (results s) = Some x ->
  exists n, R s n = Some x /\ forall m, (m < n)%nat -> R s m = None.
Proof.
  unfold R. generalize (results s) as l. intros l. induction l as [|o l IH]; cbn; [discriminate|].
  destruct o as [y|]; cbn.
  - intros [= ->]. exists 0%nat. split; [reflexivity|lia].
  - intros H. destruct (IH H) as (n & Hn & Hm). exists (S n). split; [exact Hn|].
    intros [|m] Hlt; [reflexivity|]. apply Hm. lia.
Qed.
Lemma next_first s lx it rest : Next s lx it rest <->
  fold_right orelse None (results s) = Some (lx, it, rest).
Proof.
  rewrite next_iff. split.
  - intros (n & Hn & Hm). eapply first_R; eauto.
  - apply R_first.
Qed.
Lemma scan_results s : match scan s with
  | None => fold_right orelse None (results s) = None
  | Some (SOpen, lx, rest) => fold_right orelse None (results s) = block_result s /\ strip_prefix "/*" s = Some rest /\ lx = "/*"
  | Some (w, lx, rest) => fold_right orelse None (results s) = Some (lx, item_of w, rest)
  end.
Proof.
  unfold scan, results. cbn [fold_right].
  destruct (plus_span is_blank s) as [[? ?]|]; [reflexivity|]. cbn [option_map orelse].
  destruct (scan_newline s) as [[? ?]|]; [reflexivity|]. cbn [option_map orelse].
  destruct (scan_line_comment s) as [[? ?]|]; [reflexivity|]. cbn [option_map orelse].
  unfold block_result. destruct (strip_prefix "/*" s) as [s'|] eqn:E; cbn [option_map orelse].
  { destruct (SwallowMultiLineComment (String.length s') s' default_loc) as [r l0]. auto. }
  destruct (scan_keyword s) as [[? ?]|]; [reflexivity|]. cbn [option_map orelse].
  destruct (scan_id s) as [[? ?]|]; [reflexivity|]. cbn [option_map orelse].
  destruct (scan_num "bB" is_bin s) as [[[? ?] ?]|]; [reflexivity|]. cbn [option_map orelse].
  destruct (scan_num "oO" is_oct s) as [[[? ?] ?]|]; [reflexivity|]. cbn [option_map orelse].
  destruct (scan_num "xX" is_hex s) as [[[? ?] ?]|]; [reflexivity|]. cbn [option_map orelse].
  destruct (scan_dec s) as [[[? ?] ?]|]; [reflexivity|]. cbn [option_map orelse].
  destruct (scan_string s) as [[[? ?] ?]|]; reflexivity.
Qed.

Lemma shape_nonempty n lx it : shape n lx it -> lx <> "".
Proof.
  intros H. inversion H as [| t [->|[->| ->]]| | | |k t Hin| |p t Hp|p t Hp|p t Hp|p t Hp Ht|]; subst; try assumption; try discriminate.
  - cbn in Hin. repeat (destruct Hin as [Hin|Hin]; [injection Hin as <- <-; discriminate|]). destruct Hin.
  - destruct Hp as [->| ->]; discriminate.
  - destruct Hp as [->| ->]; discriminate.
  - destruct Hp as [->| ->]; discriminate.
  - destruct Hp as [->|[->| ->]]; try discriminate. exact Ht.
Qed.
Lemma next_shorter s lx it rest : Next s lx it rest -> (String.length rest < String.length s)%nat.
Proof.
  intros (-> & n & H & _). apply shape_nonempty in H. rewrite slength_app. destruct lx; [congruence|cbn; lia].
Qed.
(** Location after a skipped lexeme. *)
Lemma skip_loc s w lx rest l : scan s = Some (w, lx, rest) -> item_of w = Skip -> w <> SOpen ->
  advance lx l = (if match w with SNewline => true | _ => false end then next_line (add_col (slen lx) l) else add_col (slen lx) l).
Proof.
  intros E Hi Ho. pose proof (scan_results s) as Hr. rewrite E in Hr.
  unfold scan in E.
  destruct (plus_span is_blank s) as [[t r]|] eqn:E0.
  { injection E as <- <- <-. apply plus_span_spec in E0 as (_ & _ & Ha & _).
    cbn [fst]. rewrite add_col_shift. apply advance_nobreak'. intros c Hc. apply Ha in Hc. apply is_blank_iff in Hc as [->| ->]; split; discriminate. }
  cbn [option_map orelse] in E.
  destruct (scan_newline s) as [[t r]|] eqn:E1; cbn [option_map orelse] in E.
  { injection E as <- <- <-. apply scan_newline_spec in E1 as (_ & Hl & _). cbn [fst]. rewrite advance_break by assumption. reflexivity. }
  destruct (scan_line_comment s) as [[t r]|] eqn:E2; cbn [option_map orelse] in E.
  { injection E as <- <- <-. cbn [fst]. rewrite add_col_shift. apply advance_nobreak'.
    unfold scan_line_comment in E2. destruct (strip_prefix "//" s) as [s'|]; [|discriminate].
    destruct (rspan (String.length s') is_crlf s') as [t' r'] eqn:Er. injection E2 as <- <-.
    pose proof (rspan_spec _ _ _ _ _ _ is_crlf_iff (le_n _) Er) as (_ & Ht & _).
    intros c Hc. cbn [append chars list_ascii_of_string In] in Hc. destruct Hc as [<-|[<-|Hc]]; [split; discriminate..|].
    eapply runes_nobreak; [exact Ht|cbn; auto|cbn; auto|exact Hc]. }
  destruct (strip_prefix "/*" s) as [r|] eqn:E3; cbn [option_map orelse] in E.
  { injection E as <- <- <-. congruence. }
  exfalso. destruct (scan_keyword s) as [[? ?]|]; [injection E as <- _ _; discriminate|]. cbn [option_map orelse] in E.
  destruct (scan_id s) as [[? ?]|]; [injection E as <- _ _; discriminate|]. cbn [option_map orelse] in E.
  destruct (scan_num "bB" is_bin s) as [[[? ?] ?]|]; [injection E as <- _ _; discriminate|]. cbn [option_map orelse] in E.
  destruct (scan_num "oO" is_oct s) as [[[? ?] ?]|]; [injection E as <- _ _; discriminate|]. cbn [option_map orelse] in E.
  destruct (scan_num "xX" is_hex s) as [[[? ?] ?]|]; [injection E as <- _ _; discriminate|]. cbn [option_map orelse] in E.
  destruct (scan_dec s) as [[[? ?] ?]|]; [injection E as <- _ _; discriminate|]. cbn [option_map orelse] in E.
  destruct (scan_string s) as [[[? ?] ?]|]; [injection E as <- _ _; discriminate|]. discriminate.
Qed.

(** One step of the tokenizer's loop, in terms of the specification. *)
Definition finish (x : list token * string * loc) : list token :=
  let '(ts, rem, l) := x in
  (ts ++ match rem with
         | "" => [mkTok END_OF_INPUT "" l l]
         | String ch _ => [mkTok UNEXPECTED_CHAR (str1 ch) l (add_col 1 l)]
         end)%list.
Lemma Tokenize_finish c :
  Tokenize c = finish (tokenize_loop (S (String.length (cs_string c))) (cs_string c) (cs_loc c)).
Proof. unfold Tokenize, finish. now destruct (tokenize_loop _ _ _) as [[ts rem] l]. Qed.

Lemma step_spec n s l :
  (exists lx rest, Next s lx Skip rest /\
     tokenize_loop (S n) s l = tokenize_loop n rest (advance lx l)) \/
  (exists lx k t rest, Next s lx (Tok k t) rest /\
     tokenize_loop (S n) s l =
       (let '(ts, rem, l') := tokenize_loop n rest (shift (String.length lx) l) in
        (mkTok k t l (shift (String.length lx) l) :: ts, rem, l'))) \/
  ((forall lx it rest, ~ Next s lx it rest) /\ tokenize_loop (S n) s l = ([], s, l)).
Proof.
  rewrite scan_step. pose proof (scan_results s) as Hr.
  destruct (scan s) as [[[w lx] rest]|] eqn:E.
  - destruct w as [| | | |k t].
    + left. exists lx, rest. split; [now apply next_first|].
      rewrite (skip_loc _ _ _ _ l E); [reflexivity|reflexivity|discriminate].
    + left. exists lx, rest. split; [now apply next_first|].
      rewrite (skip_loc _ _ _ _ l E); [reflexivity|reflexivity|discriminate].
    + left. exists lx, rest. split; [now apply next_first|].
      rewrite (skip_loc _ _ _ _ l E); [reflexivity|reflexivity|discriminate].
    + destruct Hr as (Hr & Hp & ->). unfold block_result in Hr. rewrite Hp in Hr. apply strip_prefix_spec in Hp. subst s.
      destruct (swallow_spec (String.length rest) rest default_loc (le_n _)) as (body & closed & rest' & Hsw & Hs & _).
      destruct (swallow_spec (String.length rest) rest (add_col (slen "/*") l) (le_n _)) as (body2 & closed2 & rest2 & Hsw2 & Hs2 & Hb2 & Ho2 & Hc2 & _).
      left. exists (substring 0 (String.length ("/*" ++ rest) - String.length rest') ("/*" ++ rest)), rest'.
      rewrite Hsw in Hr. split; [now apply next_first|].
      cbv zeta. rewrite Hsw2.
      (* the remaining input does not depend on the location *)
      assert (forall n s l1 l2, fst (SwallowMultiLineComment n s l1) = fst (SwallowMultiLineComment n s l2)) as Hind.
      { clear. induction n as [|n IH]; intros s l1 l2; [reflexivity|]. cbn [SwallowMultiLineComment].
        destruct (first_match kCommentRegexp s) as [h|]; [|reflexivity].
        destruct (negb _); [reflexivity|]. destruct (negb _); [apply IH|]. destruct (negb _); apply IH. }
      pose proof (Hind (String.length rest) rest default_loc (add_col (slen "/*") l)) as Hi.
      rewrite Hsw, Hsw2 in Hi. cbn [fst] in Hi. subst rest2.
      set (c2 := body2 ++ (if closed2 then "*/" else "")) in *.
      assert (rest = c2 ++ rest') as Hrest by (unfold c2; rewrite sapp_assoc; exact Hs2).
      assert (substring 0 (String.length ("/*" ++ rest) - String.length rest') ("/*" ++ rest) = "/*" ++ c2) as ->.
      { rewrite Hrest. rewrite <- sapp_assoc, slength_app.
        replace (String.length ("/*" ++ c2) + String.length rest' - String.length rest')%nat with (String.length ("/*" ++ c2)) by lia.
        apply substring_prefix. }
      rewrite (advance_nobreak "/*") by nobreak_tac. reflexivity.
    + right; left. exists lx, k, t, rest. split; [now apply next_first|]. reflexivity.
  - right; right. split; [|reflexivity]. intros lx it rest H. apply next_first in H. congruence.
Qed.

Lemma not_next_nil lx it rest : ~ Next "" lx it rest.
Proof.
  intros (Hs & n & Hsh & _). symmetry in Hs. apply sapp_eq_nil in Hs as [-> _].
  now apply shape_nonempty in Hsh.
Qed.
Lemma loop_Lex n : forall s l, (String.length s < n)%nat -> Lex l s (finish (tokenize_loop n s l)).
Proof.
  induction n as [|n IH]; intros s l Hn; [lia|].
  destruct (step_spec n s l) as [(lx & rest & Hx & ->)|[(lx & k & t & rest & Hx & ->)|(Hno & ->)]].
  - eapply Lex_skip; [exact Hx|]. apply IH. apply next_shorter in Hx. lia.
  - pose proof (IH rest (shift (String.length lx) l)) as H. apply next_shorter in Hx as Hlt.
    destruct (tokenize_loop n rest (shift (String.length lx) l)) as [[ts rem] l'].
    unfold finish in *. cbn [app]. eapply Lex_tok; [exact Hx|]. apply H. lia.
  - destruct s as [|c s]; cbn [finish app]; [constructor|]. apply Lex_stuck. exact Hno.
Qed.
Lemma Lex_fun l s ts ts' : Lex l s ts -> Lex l s ts' -> ts = ts'.
Proof.
  intros H. revert ts'. induction H as [l|l c s Hno|l s lx rest ts Hx H IH|l s lx k t rest ts Hx H IH]; intros ts' H'.
  - inversion H' as [|? ? ? Hno'|? ? ? ? ? Hx|? ? ? ? ? ? ? Hx]; subst; [reflexivity|..]; elim (not_next_nil _ _ _ Hx).
  - inversion H' as [|? ? ? Hno'|? ? ? ? ? Hx|? ? ? ? ? ? ? Hx]; subst; [reflexivity|..]; elim (Hno _ _ _ Hx).
  - inversion H' as [|? ? ? Hno'|? ? lx' rest' ? Hx' HL|? ? lx' k' t' rest' ? Hx' HL]; subst.
    + elim (not_next_nil _ _ _ Hx).
    + elim (Hno' _ _ _ Hx).
    + destruct (next_fun _ _ _ _ _ _ _ Hx Hx') as (<- & _ & <-). now apply IH.
    + destruct (next_fun _ _ _ _ _ _ _ Hx Hx') as (_ & ? & _). discriminate.
  - inversion H' as [|? ? ? Hno'|? ? lx' rest' ? Hx' HL|? ? lx' k' t' rest' ? Hx' HL]; subst.
    + elim (not_next_nil _ _ _ Hx).
    + elim (Hno' _ _ _ Hx).
    + destruct (next_fun _ _ _ _ _ _ _ Hx Hx') as (_ & ? & _). discriminate.
    + destruct (next_fun _ _ _ _ _ _ _ Hx Hx') as (<- & [= <- <-] & <-). f_equal. now apply IH.
Qed.
Lemma Tokenize_Lex c ts : Tokenize c = ts <-> Lex (cs_loc c) (cs_string c) ts.
Proof.
  assert (Lex (cs_loc c) (cs_string c) (Tokenize c)) as H
    by (rewrite Tokenize_finish; apply loop_Lex; lia).
  split; [now intros <-|]. intros H'. eapply Lex_fun; eauto.
Qed.
