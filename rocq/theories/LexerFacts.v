(** Proofs about the lexer: regular expressions, scanning, tokenizing. *)
From Coq Require Import String Ascii List ZArith NArith Bool Lia ZifyBool ZifyN ZifyNat.
From Verif Require Import Base Regex Token Lexer SpecLexer StrFacts.
Import ListNotations.
Open Scope string_scope.

(** * Runs of characters *)
Fixpoint span (p : ascii -> bool) (s : string) : string * string :=
  match s with
  | "" => ("", "")
  | String c s' => if p c then let (t, r) := span p s' in (String c t, r) else ("", s)
  end.
Definition head_fails (p : ascii -> bool) (r : string) : Prop :=
  match r with "" => True | String c _ => p c = false end.

Lemma span_spec p s : forall t r, span p s = (t, r) ->
  s = t ++ r /\ (forall c, In c (chars t) -> p c = true) /\ head_fails p r.
Proof.
  induction s as [|c s IH]; cbn; intros t r H.
  - injection H as <- <-. cbn. tauto.
  - destruct (p c) eqn:Ep.
    + destruct (span p s) as [t' r'] eqn:Es. injection H as <- <-.
      destruct (IH t' r' eq_refl) as (-> & Ha & Hh). cbn. repeat split; auto.
      intros d [->|Hd]; auto.
    + injection H as <- <-. cbn. repeat split; auto; intros d [].
Qed.
Lemma span_longest p s t r t' r' : span p s = (t, r) -> s = t' ++ r' ->
  (forall c, In c (chars t') -> p c = true) -> (String.length t' <= String.length t)%nat.
Proof.
  revert t r t' r'. induction s as [|c s IH]; cbn; intros t r t' r' H Hs Ha.
  - symmetry in Hs. apply sapp_eq_nil in Hs as [-> _]. cbn. lia.
  - destruct t' as [|d t']; [cbn; lia|]. cbn in Hs. injection Hs as <- Hs.
    assert (p c = true) as Ep by (apply Ha; left; reflexivity). rewrite Ep in H.
    destruct (span p s) as [t0 r0] eqn:Es. injection H as <- <-. cbn.
    enough (String.length t' <= String.length t0)%nat by lia.
    apply (IH t0 r0 t' r' eq_refl Hs). intros e He. apply Ha. right. exact He.
Qed.
Lemma span_app p t r : (forall c, In c (chars t) -> p c = true) -> head_fails p r ->
  span p (t ++ r) = (t, r).
Proof.
  induction t as [|c t IH]; cbn; intros Ha Hr.
  - destruct r as [|c r]; cbn in *; [reflexivity|]. now rewrite Hr.
  - rewrite (Ha c (or_introl eq_refl)), IH; auto.
Qed.

Lemma star_class p n s : (String.length s <= n)%nat ->
  hd_error (star n (matches (RClass p)) s) = Some (mkHit (fst (span p s)) (snd (span p s)) []).
Proof.
  revert s. induction n as [|n IH]; cbn; intros s Hn.
  - destruct s; cbn in *; [reflexivity|lia].
  - destruct s as [|c s]; cbn in *; [reflexivity|].
    destruct (p c) eqn:Ep; cbn; [|reflexivity].
    rewrite app_nil_r. unfold follow. cbn. rewrite hd_error_app, hd_error_map.
    rewrite IH by lia. cbn. destruct (span p s). reflexivity.
Qed.
Definition plus_span (p : ascii -> bool) (s : string) : option (string * string) :=
  let (t, r) := span p s in if String.eqb t "" then None else Some (t, r).
Lemma matches_plus a s : matches (RPlus a) s =
  flat_map (fun h => follow h (star (String.length (h_rest h)) (matches a))) (matches a s).
Proof. reflexivity. Qed.
Lemma matches_class p s : matches (RClass p) s =
  match s with String c s' => if p c then [mkHit (str1 c) s' []] else [] | "" => [] end.
Proof. reflexivity. Qed.
Lemma plus_class p s :
  hd_error (matches (RPlus (RClass p)) s) =
  option_map (fun x => mkHit (fst x) (snd x) []) (plus_span p s).
Proof.
  unfold plus_span. rewrite matches_plus, matches_class.
  destruct s as [|c s]; [reflexivity|]. cbn [span].
  destruct (p c) eqn:Ep; [|reflexivity]. cbn [flat_map h_rest].
  rewrite app_nil_r. unfold follow. rewrite hd_error_map. cbn [h_rest].
  rewrite star_class by lia. cbn.
  destruct (span p s). reflexivity.
Qed.
Lemma plus_span_spec p s t r : plus_span p s = Some (t, r) ->
  t <> "" /\ s = t ++ r /\ (forall c, In c (chars t) -> p c = true) /\ head_fails p r.
Proof.
  unfold plus_span. destruct (span p s) as [t' r'] eqn:E.
  destruct (String.eqb_spec t' ""); [discriminate|]. injection 1 as <- <-.
  apply span_spec in E as (? & ? & ?). auto.
Qed.
Lemma plus_span_longest p s t r t' r' : plus_span p s = Some (t, r) -> s = t' ++ r' ->
  (forall c, In c (chars t') -> p c = true) -> (String.length t' <= String.length t)%nat.
Proof.
  unfold plus_span. destruct (span p s) as [t0 r0] eqn:E.
  destruct (String.eqb_spec t0 ""); [discriminate|]. injection 1 as <- <-.
  intros. eapply span_longest; eauto.
Qed.
Lemma plus_span_none p s t r : plus_span p s = None -> s = t ++ r -> t <> "" ->
  ~ (forall c, In c (chars t) -> p c = true).
Proof.
  unfold plus_span. destruct (span p s) as [t0 r0] eqn:E.
  destruct (String.eqb_spec t0 "") as [->|]; [|discriminate]. intros _ Hs Ht Ha.
  pose proof (span_longest _ _ _ _ _ _ E Hs Ha). destruct t; cbn in *; [congruence|lia].
Qed.
Lemma plus_span_app p t r : t <> "" -> (forall c, In c (chars t) -> p c = true) ->
  head_fails p r -> plus_span p (t ++ r) = Some (t, r).
Proof.
  intros. unfold plus_span. rewrite span_app by auto.
  destruct (String.eqb_spec t ""); congruence.
Qed.

(** * Runes *)
Lemma in_range_iff lo hi c : in_range lo hi c = true <-> between lo hi c.
Proof. unfold in_range, between, byte. lia. Qed.

Lemma match_rune_sound p s h : In h (match_rune p s) ->
  match_rune p s = [h] /\ h_caps h = [] /\ s = h_text h ++ h_rest h /\ rune (h_text h) /\
  (forall c, h_text h = String c "" -> p c = false).
Proof.
  unfold match_rune. destruct s as [|c s]; [intros []|].
  destruct (N.ltb_spec (byte c) 128) as [Hlt|Hge].
  { destruct (p c) eqn:Ep; [intros []|]. intros [<-|[]]. cbn.
    split; [reflexivity|]. repeat split. - now constructor. - intros d [= <-]. exact Ep. }
  destruct (in_range 194 223 c) eqn:E2.
  { destruct s as [|c1 s]; [intros []|]. destruct (is_cont c1) eqn:E; [|intros []].
    intros [<-|[]]. cbn. split; [reflexivity|]. repeat split; [|discriminate].
    apply in_range_iff in E2. apply in_range_iff in E. now constructor. }
  destruct (in_range 224 239 c) eqn:E3.
  { destruct s as [|c1 [|c2 s]]; [intros []..|].
    destruct (is_cont c1 && is_cont c2)%bool eqn:E; [|intros []].
    intros [<-|[]]. cbn. split; [reflexivity|]. repeat split; [|discriminate].
    apply andb_prop in E as [Ea Eb]. apply in_range_iff in E3, Ea, Eb. now constructor. }
  destruct (in_range 240 244 c) eqn:E4.
  { destruct s as [|c1 [|c2 [|c3 s]]]; [intros []..|].
    destruct (is_cont c1 && is_cont c2 && is_cont c3)%bool eqn:E; [|intros []].
    intros [<-|[]]. cbn. split; [reflexivity|]. repeat split; [|discriminate].
    apply andb_prop in E as [E Ec]. apply andb_prop in E as [Ea Eb].
    apply in_range_iff in E4, Ea, Eb, Ec. now constructor. }
  intros [].
Qed.
Lemma match_rune_complete p r s : rune r -> (forall c, r = String c "" -> p c = false) ->
  match_rune p (r ++ s) = [mkHit r s []].
Proof.
  intros Hr Hp. destruct Hr as [c Hc|c c1 Hc H1|c c1 c2 Hc H1 H2|c c1 c2 c3 Hc H1 H2 H3]; cbn.
  - unfold byte. destruct (N.ltb_spec (N_of_ascii c) 128); [|lia]. now rewrite (Hp c eq_refl).
  - unfold between, cont in *. unfold is_cont, in_range, byte.
    destruct (N.ltb_spec (N_of_ascii c) 128); [lia|].
    replace (_ && _)%bool with true by lia. now replace (_ && _)%bool with true by (unfold between in *; lia).
  - unfold between, cont in *. unfold is_cont, in_range, byte.
    destruct (N.ltb_spec (N_of_ascii c) 128); [lia|].
    replace ((194 <=? N_of_ascii c)%N && (N_of_ascii c <=? 223)%N)%bool with false by lia.
    replace ((224 <=? N_of_ascii c)%N && (N_of_ascii c <=? 239)%N)%bool with true by lia.
    now replace (_ && _)%bool with true by (unfold between in *; lia).
  - unfold between, cont in *. unfold is_cont, in_range, byte.
    destruct (N.ltb_spec (N_of_ascii c) 128); [lia|].
    replace ((194 <=? N_of_ascii c)%N && (N_of_ascii c <=? 223)%N)%bool with false by lia.
    replace ((224 <=? N_of_ascii c)%N && (N_of_ascii c <=? 239)%N)%bool with false by lia.
    replace ((240 <=? N_of_ascii c)%N && (N_of_ascii c <=? 244)%N)%bool with true by lia.
    now replace (_ && _)%bool with true by (unfold between in *; lia).
Qed.
Lemma match_rune_cases p s : match_rune p s = [] \/ exists h, match_rune p s = [h].
Proof.
  destruct (match_rune p s) as [|h l] eqn:E; [now left|right].
  exists h. assert (In h (match_rune p s)) as Hin by (rewrite E; now left).
  apply match_rune_sound in Hin as [Hin _]. congruence.
Qed.
Lemma rune_nonempty r : rune r -> r <> "".
Proof. destruct 1; discriminate. Qed.

Fixpoint rspan (n : nat) (p : ascii -> bool) (s : string) : string * string :=
  match n with
  | O => ("", s)
  | S n' =>
      match match_rune p s with
      | h :: _ => let (t, r) := rspan n' p (h_rest h) in (h_text h ++ t, r)
      | [] => ("", s)
      end
  end.
Lemma match_rune_shorter p s h : In h (match_rune p s) ->
  (String.length (h_rest h) < String.length s)%nat /\ h_text h <> "".
Proof.
  intros H. apply match_rune_sound in H as (_ & _ & Hs & Hr & _).
  apply rune_nonempty in Hr. split; [|exact Hr].
  rewrite Hs, slength_app. destruct (h_text h); [congruence|cbn; lia].
Qed.
Lemma rspan_spec (p : ascii -> bool) bad n s t r :
  (forall c, p c = true <-> bad c) -> (String.length s <= n)%nat ->
  rspan n p s = (t, r) -> s = t ++ r /\ runes bad t /\ match_rune p r = [].
Proof.
  intros Hp. revert s t r. induction n as [|n IH]; cbn; intros s t r Hn H.
  - injection H as <- <-. destruct s; cbn in *; [|lia]. repeat split. constructor.
  - destruct (match_rune_cases p s) as [E|[h E]]; rewrite E in H.
    + injection H as <- <-. repeat split; auto. constructor.
    + destruct (rspan n p (h_rest h)) as [t' r'] eqn:Er. injection H as <- <-.
      assert (In h (match_rune p s)) as Hin by (rewrite E; now left).
      pose proof (match_rune_shorter _ _ _ Hin) as [Hsh _].
      apply match_rune_sound in Hin as (_ & _ & Hs & Hr & Hb).
      apply IH in Er as (Hs' & Hr' & Hm); [|lia].
      split; [|split]; [|constructor|exact Hm]; auto.
      * rewrite Hs at 1. rewrite Hs', sapp_assoc. reflexivity.
      * intros c Hc Hbad. apply Hb in Hc. apply Hp in Hbad. congruence.
Qed.
Lemma rspan_longest (p : ascii -> bool) bad n s t r t' r' :
  (forall c, p c = true <-> bad c) -> (String.length s <= n)%nat ->
  rspan n p s = (t, r) -> runes bad t' -> s = t' ++ r' ->
  (String.length t' <= String.length t)%nat.
Proof.
  intros Hp Hn H Ht'. revert n s t r r' Hn H.
  induction Ht' as [|u v Hu Hub Hv IH]; intros n s t r r' Hn H Hs; [cbn; lia|].
  rewrite sapp_assoc in Hs. destruct n as [|n].
  - apply rune_nonempty in Hu. rewrite Hs, slength_app in Hn. destruct u; [congruence|cbn in Hn; lia].
  - cbn in H. rewrite Hs, match_rune_complete in H; auto.
    + cbn in H. destruct (rspan n p (v ++ r')) as [t0 r0] eqn:E. injection H as <- <-.
      rewrite !slength_app.
      enough (String.length v <= String.length t0)%nat by lia.
      eapply IH; [|exact E|reflexivity].
      apply rune_nonempty in Hu. rewrite Hs, slength_app in Hn. destruct u; [congruence|cbn in Hn; lia].
    + intros c Hc. destruct (p c) eqn:Ep; [|reflexivity]. apply Hp in Ep. now elim (Hub c Hc).
Qed.
Lemma star_rune p n s : (String.length s <= n)%nat ->
  hd_error (star n (matches (RNeg p)) s) = Some (mkHit (fst (rspan n p s)) (snd (rspan n p s)) []).
Proof.
  cbn [matches]. revert s. induction n as [|n IH]; cbn; intros s Hn; [reflexivity|].
  destruct (match_rune_cases p s) as [E|[h E]]; rewrite E; cbn; [reflexivity|].
  rewrite app_nil_r. assert (In h (match_rune p s)) as Hin by (rewrite E; now left).
  pose proof (match_rune_shorter _ _ _ Hin) as [Hsh Hne].
  destruct (String.eqb_spec (h_text h) ""); [congruence|].
  apply match_rune_sound in Hin as (_ & Hc & _).
  unfold follow. rewrite hd_error_app, hd_error_map, IH by lia. cbn. rewrite Hc. cbn.
  destruct (rspan n p (h_rest h)). reflexivity.
Qed.
Lemma runes_app bad a b : runes bad a -> runes bad b -> runes bad (a ++ b).
Proof. induction 1; cbn; intros; [auto|]. rewrite sapp_assoc. constructor; auto. Qed.
Lemma runes_weaken (bad bad' : ascii -> Prop) a : (forall c, bad' c -> bad c) -> runes bad a -> runes bad' a.
Proof. intros H. induction 1 as [|r s Hr Hb]; constructor; auto. intros c Hc Hc'. apply (Hb c Hc). auto. Qed.
(** Runes are a prefix code. *)
Lemma rune_app_inv r s r' s' : rune r -> rune r' -> r ++ s = r' ++ s' -> r = r' /\ s = s'.
Proof.
  intros Hr Hr' E.
  assert (match_rune (fun _ => false) (r ++ s) = [mkHit r s []]) as H1
    by (apply match_rune_complete; auto).
  assert (match_rune (fun _ => false) (r' ++ s') = [mkHit r' s' []]) as H2
    by (apply match_rune_complete; auto).
  rewrite E, H2 in H1. injection H1 as -> ->. auto.
Qed.
Lemma runes_app_inv bad a b : runes bad a -> runes bad (a ++ b) -> runes bad b.
Proof.
  intros Ha. revert b. induction Ha as [|r s Hr Hb Hs IH]; cbn; intros b H; [exact H|].
  rewrite sapp_assoc in H. inversion H as [E|r' s' Hr' Hb' Hs' E].
  - symmetry in E. apply sapp_eq_nil in E as [E _]. now apply rune_nonempty in Hr.
  - apply rune_app_inv in E as [_ E]; auto. subst s'. auto.
Qed.

(** * Alternatives of the token pattern *)
Lemma matches_lit w s :
  matches (RLit w) s = match strip_prefix w s with Some r => [mkHit w r []] | None => [] end.
Proof.
  revert s. induction w as [|c w IH]; intros s; [reflexivity|].
  destruct w as [|d w].
  - cbn. destruct s as [|x s]; [reflexivity|]. unfold is_char. destruct (Ascii.eqb_spec c x) as [->|]; reflexivity.
  - change (RLit (String c (String d w))) with (RSeq (RClass (is_char c)) (RLit (String d w))).
    cbn [matches]. destruct s as [|x s]; [reflexivity|]. unfold is_char.
    change (strip_prefix (String c (String d w)) (String x s)) with
      (if Ascii.eqb c x then strip_prefix (String d w) s else None).
    destruct (Ascii.eqb_spec c x) as [->|]; [|reflexivity].
    cbn [flat_map]. rewrite app_nil_r. unfold follow. cbn [h_rest].
    change (match w with "" => _ | String _ _ => _ end) with (RLit (String d w)). rewrite IH.
    destruct (strip_prefix (String d w) s); reflexivity.
Qed.
Definition hd_match (r : re) (s : string) : option hit := hd_error (matches r s).
Definition orelse {A} (a b : option A) : option A := match a with Some x => Some x | None => b end.
Lemma hd_alts a b l s : hd_match (RAlts (a :: b :: l)) s = orelse (hd_match a s) (hd_match (RAlts (b :: l)) s).
Proof.
  unfold hd_match. change (RAlts (a :: b :: l)) with (RAlt a (RAlts (b :: l))).
  cbn [matches]. apply hd_error_app.
Qed.
Lemma hd_alts1 a s : hd_match (RAlts [a]) s = hd_match a s.
Proof. reflexivity. Qed.
Lemma hd_group n a s : hd_match (RGroup n a) s =
  option_map (fun h => mkHit (h_text h) (h_rest h) ((n, h_text h) :: h_caps h)) (hd_match a s).
Proof. unfold hd_match. cbn [matches]. apply hd_error_map. Qed.
Lemma hd_lit w s : hd_match (RLit w) s = option_map (fun r => mkHit w r []) (strip_prefix w s).
Proof. unfold hd_match. rewrite matches_lit. destruct (strip_prefix w s); reflexivity. Qed.

Definition scan_newline_of (CR LF : ascii) (s : string) : option (string * string) :=
  match s with
  | String c s' =>
      if Ascii.eqb CR c then
        match s' with
        | String d s'' => if Ascii.eqb LF d then Some (String CR (str1 LF), s'') else Some (str1 CR, s')
        | "" => Some (str1 CR, "")
        end
      else if Ascii.eqb LF c then Some (str1 LF, s') else None
  | "" => None
  end.
Definition scan_newline := scan_newline_of CR LF.
Definition plain (x : string * string) : hit := mkHit (fst x) (snd x) [].
Lemma hd_newline s : hd_match re_newline s = option_map plain (scan_newline s).
Proof.
  unfold hd_match, re_newline, scan_newline. generalize CR LF. intros cr lf.
  destruct s as [|c s]; [reflexivity|]. cbn -[Ascii.eqb]. unfold is_char.
  destruct (Ascii.eqb_spec cr c) as [<-|]; cbn -[Ascii.eqb].
  - destruct s as [|d s]; cbn -[Ascii.eqb]; [reflexivity|].
    destruct (Ascii.eqb_spec lf d) as [<-|]; reflexivity.
  - destruct (Ascii.eqb_spec lf c) as [<-|]; reflexivity.
Qed.

Definition scan_line_comment (s : string) : option (string * string) :=
  match strip_prefix "//" s with
  | Some s' => let (t, r) := rspan (String.length s') is_crlf s' in Some ("//" ++ t, r)
  | None => None
  end.
Lemma hd_seq_lit w b s : hd_match (RSeq (RLit w) b) s =
  match strip_prefix w s with
  | Some s' => option_map (fun h => mkHit (w ++ h_text h) (h_rest h) (h_caps h)) (hd_match b s')
  | None => None
  end.
Proof.
  unfold hd_match. cbn [matches]. rewrite matches_lit. destruct (strip_prefix w s); [|reflexivity].
  cbn [flat_map]. rewrite app_nil_r. unfold follow. rewrite hd_error_map. reflexivity.
Qed.
Lemma hd_star_rune p s : hd_match (RStar (RNeg p)) s =
  Some (plain (rspan (String.length s) p s)).
Proof.
  unfold hd_match.
  change (matches (RStar (RNeg p)) s) with (star (String.length s) (matches (RNeg p)) s).
  rewrite star_rune by lia. reflexivity.
Qed.
Lemma hd_line_comment s : hd_match (RSeq (RLit "//") (RStar (RNeg is_crlf))) s =
  option_map plain (scan_line_comment s).
Proof.
  rewrite hd_seq_lit. unfold scan_line_comment. destruct (strip_prefix "//" s) as [s'|]; [|reflexivity].
  rewrite hd_star_rune. destruct (rspan (String.length s') is_crlf s') as [t r]. reflexivity.
Qed.

Definition fixed_words : list string :=
  ["true"; "false"; "&&"; "||"; "->"; "::"; "=="; "!="; ">="; "<="].
Fixpoint scan_words (ws : list string) (s : string) : option (string * string) :=
  match ws with
  | [] => None
  | w :: ws' => orelse (option_map (fun r => (w, r)) (strip_prefix w s)) (scan_words ws' s)
  end.
Definition scan_char (p : ascii -> bool) (s : string) : option (string * string) :=
  match s with String c s' => if p c then Some (str1 c, s') else None | "" => None end.
Definition scan_keyword (s : string) : option (string * string) :=
  orelse (scan_words fixed_words s) (scan_char (mem_char "!()><.;-") s).
Lemma hd_class p s : hd_match (RClass p) s = option_map plain (scan_char p s).
Proof. unfold hd_match. rewrite matches_class. destruct s as [|c s]; [reflexivity|]. cbn. destruct (p c); reflexivity. Qed.
Lemma orelse_assoc {A} (a b c : option A) : orelse (orelse a b) c = orelse a (orelse b c).
Proof. destruct a; reflexivity. Qed.
Lemma map_orelse {A B} (f : A -> B) a b :
  option_map f (orelse a b) = orelse (option_map f a) (option_map f b).
Proof. destruct a; reflexivity. Qed.
Lemma omap_omap {A B C} (f : A -> B) (g : B -> C) o : option_map g (option_map f o) = option_map (fun x => g (f x)) o.
Proof. destruct o; reflexivity. Qed.
Lemma omap_ext {A B} (f g : A -> B) o : (forall x, f x = g x) -> option_map f o = option_map g o.
Proof. intros H. destruct o; cbn; now rewrite ?H. Qed.
Lemma orelse_cong {A} (a b c d : option A) : a = c -> b = d -> orelse a b = orelse c d.
Proof. congruence. Qed.
Lemma hd_keyword s : hd_match keyword_alternatives s = option_map plain (scan_keyword s).
Proof.
  unfold keyword_alternatives, scan_keyword. rewrite !hd_alts, hd_alts1, !hd_lit, hd_class.
  unfold fixed_words. cbn [scan_words]. rewrite !map_orelse, !orelse_assoc, !omap_omap. reflexivity.
Qed.

Definition scan_id (s : string) : option (string * string) :=
  match s with
  | String c s' => if is_alpha_ c then let (t, r) := span is_alnum_ s' in Some (String c t, r) else None
  | "" => None
  end.
Lemma hd_id s : hd_match (RSeq (RClass is_alpha_) (RStar (RClass is_alnum_))) s = option_map plain (scan_id s).
Proof.
  unfold hd_match.
  change (matches (RSeq (RClass is_alpha_) (RStar (RClass is_alnum_))) s) with
    (flat_map (fun h => follow h (matches (RStar (RClass is_alnum_)))) (matches (RClass is_alpha_) s)).
  rewrite matches_class. destruct s as [|c s]; [reflexivity|]. cbn [scan_id].
  destruct (is_alpha_ c); [|reflexivity]. cbn [flat_map]. rewrite app_nil_r. unfold follow.
  rewrite hd_error_map. cbn [h_rest].
  change (matches (RStar (RClass is_alnum_)) s) with (star (String.length s) (matches (RClass is_alnum_)) s).
  rewrite star_class by lia. destruct (span is_alnum_ s) as [t r]. reflexivity.
Qed.

(** "0" followed by a base letter in [b], then a nonempty run of [p]:
    lexeme, digits, rest. *)
Definition scan_num (b : string) (p : ascii -> bool) (s : string) : option (string * string * string) :=
  match s with
  | String z (String x s') =>
      if (Ascii.eqb "0" z && mem_char b x)%bool then
        option_map (fun y => (String z (String x (fst y)), fst y, snd y)) (plus_span p s')
      else None
  | _ => None
  end.
Definition num_hit (n : string) (x : string * string * string) : hit :=
  let '(lx, t, r) := x in mkHit lx r [(n, t)].
Lemma matches_prefix b s : matches (RSeq (RClass (is_char "0")) (RClass (mem_char b))) s =
  match s with
  | String z (String x s') =>
      if (Ascii.eqb "0" z && mem_char b x)%bool then [mkHit (String z (str1 x)) s' []] else []
  | _ => []
  end.
Proof.
  cbn -[Ascii.eqb mem_char]. destruct s as [|z s]; [reflexivity|]. unfold is_char.
  destruct (Ascii.eqb "0" z); cbn -[Ascii.eqb mem_char]; [|now destruct s].
  destruct s as [|x s]; [reflexivity|]. destruct (mem_char b x); reflexivity.
Qed.
Lemma hd_num b n p s :
  hd_match (RSeq (RSeq (RClass (is_char "0")) (RClass (mem_char b))) (RGroup n (RPlus (RClass p)))) s =
  option_map (num_hit n) (scan_num b p s).
Proof.
  unfold hd_match.
  change (matches (RSeq (RSeq (RClass (is_char "0")) (RClass (mem_char b))) (RGroup n (RPlus (RClass p)))) s)
    with (flat_map (fun h => follow h (matches (RGroup n (RPlus (RClass p)))))
                   (matches (RSeq (RClass (is_char "0")) (RClass (mem_char b))) s)).
  rewrite matches_prefix. destruct s as [|z [|x s]]; try reflexivity. cbn [scan_num].
  destruct (Ascii.eqb "0" z && mem_char b x)%bool; [|reflexivity].
  cbn [flat_map]. rewrite app_nil_r. unfold follow. rewrite hd_error_map. cbn [h_rest].
  fold (hd_match (RGroup n (RPlus (RClass p))) s). rewrite hd_group. unfold hd_match. rewrite plus_class.
  destruct (plus_span p s) as [[t r]|]; reflexivity.
Qed.
Definition scan_dec (s : string) : option (string * string * string) :=
  orelse (scan_num "dD" is_digit s)
         (option_map (fun y => (fst y, fst y, snd y)) (plus_span is_digit s)).
Lemma hd_dec s :
  hd_match (RSeq (ROpt (RSeq (RClass (is_char "0")) (RClass (mem_char "dD"))))
                 (RGroup "decimal" (RPlus (RClass is_digit)))) s =
  option_map (num_hit "decimal") (scan_dec s).
Proof.
  unfold scan_dec. rewrite map_orelse, <- hd_num. unfold hd_match.
  set (g := RGroup "decimal" (RPlus (RClass is_digit))).
  set (q := RSeq (RClass (is_char "0")) (RClass (mem_char "dD"))).
  change (matches (RSeq (ROpt q) g) s) with
    (flat_map (fun h => follow h (matches g)) (matches q s ++ [mkHit "" s []])).
  change (matches (RSeq q g) s) with (flat_map (fun h => follow h (matches g)) (matches q s)).
  rewrite flat_map_app, hd_error_app. cbn [flat_map]. rewrite app_nil_r.
  unfold orelse. destruct (hd_error (flat_map _ _)); [reflexivity|].
  unfold follow. rewrite hd_error_map. cbn [h_rest]. fold (hd_match g s). unfold g.
  rewrite hd_group. unfold hd_match. rewrite plus_class.
  destruct (plus_span is_digit s) as [[t r]|]; reflexivity.
Qed.

(** lexeme, content, rest. *)
Definition scan_string (s : string) : option (string * string * string) :=
  match s with
  | String q s' =>
      if Ascii.eqb SQUOTE q then
        let (t, r) := rspan (String.length s') (is_char SQUOTE) s' in
        match r with
        | String q' r' => if Ascii.eqb SQUOTE q' then Some (String q (t ++ str1 q'), t, r') else None
        | "" => None
        end
      else None
  | "" => None
  end.
Lemma quoted_star n s : (String.length s <= n)%nat ->
  hd_error (flat_map (fun h => follow h (matches (RClass (is_char SQUOTE))))
                     (star n (matches (RNeg (is_char SQUOTE))) s)) =
  (let (t, r) := rspan n (is_char SQUOTE) s in
   match r with
   | String q' r' => if Ascii.eqb SQUOTE q' then Some (mkHit (t ++ str1 q') r' []) else None
   | "" => None
   end).
Proof.
  revert s. induction n as [|n IH]; intros s Hn.
  - destruct s; [reflexivity|cbn in Hn; lia].
  - cbn [star rspan]. change (matches (RNeg (is_char SQUOTE)) s) with (match_rune (is_char SQUOTE) s).
    destruct (match_rune_cases (is_char SQUOTE) s) as [E|[h E]]; rewrite E.
    + cbn [flat_map app]. rewrite app_nil_r. unfold follow. cbn [h_rest h_text h_caps].
      rewrite matches_class. destruct s as [|q s]; [reflexivity|].
      unfold is_char. destruct (Ascii.eqb SQUOTE q); reflexivity.
    + assert (In h (match_rune (is_char SQUOTE) s)) as Hin by (rewrite E; now left).
      pose proof (match_rune_shorter _ _ _ Hin) as [Hsh Hne].
      apply match_rune_sound in Hin as (_ & Hc & Hs & Hr & Hb).
      cbn [flat_map]. destruct (String.eqb_spec (h_text h) ""); [congruence|].
      rewrite app_nil_r, flat_map_app, hd_error_app.
      assert (flat_map (fun h0 => follow h0 (matches (RClass (is_char SQUOTE)))) [mkHit "" s []] = []) as Hlast.
      { cbn [flat_map]. rewrite app_nil_r. unfold follow. cbn [h_rest]. rewrite matches_class.
        rewrite Hs. destruct (h_text h) as [|c t] eqn:Et; [congruence|]. cbn [append].
        unfold is_char. destruct (Ascii.eqb_spec SQUOTE c) as [<-|]; [|reflexivity].
        exfalso. inversion Hr as [c' H0|c' ? H0|c' ? ? H0|c' ? ? ? H0]; subst.
        - specialize (Hb SQUOTE eq_refl). discriminate Hb.
        - unfold between in H0. cbn in H0. lia.
        - unfold between in H0. cbn in H0. lia.
        - unfold between in H0. cbn in H0. lia. }
      rewrite Hlast. cbn [hd_error].
      specialize (IH (h_rest h) ltac:(lia)).
      assert (hd_error (flat_map (fun h0 => follow h0 (matches (RClass (is_char SQUOTE))))
                (follow h (star n (matches (RNeg (is_char SQUOTE)))))) =
              option_map (fun g => mkHit (h_text h ++ h_text g) (h_rest g) (h_caps g))
                (hd_error (flat_map (fun h0 => follow h0 (matches (RClass (is_char SQUOTE))))
                  (star n (matches (RNeg (is_char SQUOTE))) (h_rest h))))) as ->.
      { unfold follow at 2. generalize (star n (matches (RNeg (is_char SQUOTE))) (h_rest h)) as l.
        induction l as [|g l IHl]; [reflexivity|]. cbn [map flat_map]. rewrite !hd_error_app.
        unfold follow at 1 3. cbn [h_rest h_text h_caps]. rewrite !hd_error_map.
        destruct (hd_error (matches (RClass (is_char SQUOTE)) (h_rest g))) as [x|]; cbn.
        - rewrite Hc, sapp_assoc. reflexivity.
        - exact IHl. }
      rewrite IH. destruct (rspan n (is_char SQUOTE) (h_rest h)) as [t r].
      destruct r as [|q r]; [reflexivity|]. destruct (Ascii.eqb SQUOTE q); [|reflexivity].
      cbn. rewrite sapp_assoc. reflexivity.
Qed.
Lemma flat_map_map {A B C} (f : B -> list C) (g : A -> B) l :
  flat_map f (map g l) = flat_map (fun x => f (g x)) l.
Proof. induction l; cbn; congruence. Qed.
Definition string_hit (x : string * string * string) : hit :=
  let '(lx, t, r) := x in mkHit lx r [("string", lx); ("string_content", t)].
Lemma substring_prefix t u : substring 0 (String.length t) (t ++ u) = t.
Proof. induction t as [|d t IH]; cbn; [now destruct u|]. now rewrite IH. Qed.
Lemma hd_string s :
  hd_match (RGroup "string"
        (RSeq (RClass (is_char SQUOTE))
              (RSeq (RGroup "string_content" (RStar (RNeg (is_char SQUOTE))))
                    (RClass (is_char SQUOTE))))) s = option_map string_hit (scan_string s).
Proof.
  rewrite hd_group. unfold hd_match.
  set (c := RClass (is_char SQUOTE)). set (g := RGroup "string_content" (RStar (RNeg (is_char SQUOTE)))).
  change (matches (RSeq c (RSeq g c)) s) with
    (flat_map (fun h => follow h (matches (RSeq g c))) (matches c s)).
  unfold c at 2. rewrite matches_class. destruct s as [|q s]; [reflexivity|].
  unfold scan_string. unfold is_char at 1.
  destruct (Ascii.eqb SQUOTE q); [|reflexivity]. cbn [flat_map]. rewrite app_nil_r.
  unfold follow. rewrite hd_error_map. cbn [h_rest].
  change (matches (RSeq g c) s) with (flat_map (fun h => follow h (matches c)) (matches g s)).
  change (matches g s) with
    (map (fun h => mkHit (h_text h) (h_rest h) (("string_content", h_text h) :: h_caps h))
       (star (String.length s) (matches (RNeg (is_char SQUOTE))) s)).
  pose proof (quoted_star (String.length s) s (le_n _)) as Hq. fold c in Hq.
  assert (forall l : list hit, (forall x, In x l -> h_caps x = []) ->
    hd_error (flat_map (fun h => follow h (matches c))
      (map (fun h => mkHit (h_text h) (h_rest h) (("string_content", h_text h) :: h_caps h)) l)) =
    option_map (fun g => mkHit (h_text g) (h_rest g)
        [("string_content", String.substring 0 (String.length (h_text g) - 1) (h_text g))])
      (hd_error (flat_map (fun h => follow h (matches c)) l))) as Hmap.
  { induction l as [|x l IHl]; intros Hl; [reflexivity|]. cbn [map flat_map]. rewrite !hd_error_app.
    unfold follow at 1 3. cbn [h_rest h_text h_caps]. rewrite !hd_error_map.
    unfold c at 1 3. rewrite !matches_class. destruct (h_rest x) as [|q' r']; cbn [hd_error option_map].
    - apply IHl. intros; apply Hl; now right.
    - unfold is_char. destruct (Ascii.eqb SQUOTE q'); cbn [hd_error option_map].
      + cbn [h_text h_rest h_caps]. rewrite (Hl x (or_introl eq_refl)). cbn [app].
        rewrite slength_app. cbn. replace (String.length (h_text x) + 1 - 1)%nat with (String.length (h_text x)) by lia.
        now rewrite substring_prefix.
      + apply IHl. intros; apply Hl; now right. }
  rewrite Hmap; [rewrite Hq|].
  - destruct (rspan (String.length s) (is_char SQUOTE) s) as [t r].
    destruct r as [|q' r']; [reflexivity|]. destruct (Ascii.eqb SQUOTE q'); [|reflexivity].
    cbn. rewrite slength_app. cbn. replace (String.length t + 1 - 1)%nat with (String.length t) by lia.
    now rewrite substring_prefix.
  - clear. generalize (String.length s) as n. intros n. revert s.
    induction n as [|n IH]; cbn [star]; intros s x Hx.
    + destruct Hx as [<-|[]]. reflexivity.
    + apply in_app_or in Hx as [Hx|[<-|[]]]; [|reflexivity].
      apply in_flat_map in Hx as (h & Hh & Hx). destruct (String.eqb _ _); [destruct Hx|].
      unfold follow in Hx. apply in_map_iff in Hx as (y & <- & Hy). cbn.
      apply match_rune_sound in Hh as (_ & -> & _). cbn. eapply IH, Hy.
Qed.

(** * Scanning one lexeme *)
Inductive sc := SBlank | SNewline | SLine | SOpen | STok (k : kind) (text : string).
Definition scanned : Type := sc * string * string.   (* what, lexeme, rest *)
Definition sc_caps (w : sc) (lx : string) : list (string * string) :=
  match w with
  | SBlank => [("whitespace", lx)]
  | SNewline => [("newline", lx)]
  | SLine => [("comment", lx)]
  | SOpen => [("begin_multiline_comment", lx)]
  | STok ID _ => [("id", lx)]
  | STok BINARY t => [("binary", t)]
  | STok OCTARY t => [("octary", t)]
  | STok HEXADEC t => [("hexadec", t)]
  | STok DECIMAL t => [("decimal", t)]
  | STok STRING t => [("string", lx); ("string_content", t)]
  | STok _ _ => [("keyword", lx)]
  end.
Definition sc_hit (x : scanned) : hit := let '(w, lx, r) := x in mkHit lx r (sc_caps w lx).
Definition as_sc (w : sc) (x : string * string) : scanned := (w, fst x, snd x).
Definition as_tok (k : kind) (x : string * string * string) : scanned :=
  let '(lx, t, r) := x in (STok k t, lx, r).
Definition kw_kind (w : string) : kind :=
  match KeywordToKind w with Some k => k | None => UNEXPECTED_CHAR end.
Definition as_kw (x : string * string) : scanned := (STok (kw_kind (fst x)) (fst x), fst x, snd x).
Definition as_id (x : string * string) : scanned := (STok ID (fst x), fst x, snd x).
Definition scan (s : string) : option scanned :=
  orelse (option_map (as_sc SBlank) (plus_span is_blank s))
  (orelse (option_map (as_sc SNewline) (scan_newline s))
  (orelse (option_map (as_sc SLine) (scan_line_comment s))
  (orelse (option_map (fun r => (SOpen, "/*", r)) (strip_prefix "/*" s))
  (orelse (option_map as_kw (scan_keyword s))
  (orelse (option_map as_id (scan_id s))
  (orelse (option_map (as_tok BINARY) (scan_num "bB" is_bin s))
  (orelse (option_map (as_tok OCTARY) (scan_num "oO" is_oct s))
  (orelse (option_map (as_tok HEXADEC) (scan_num "xX" is_hex s))
  (orelse (option_map (as_tok DECIMAL) (scan_dec s))
          (option_map (as_tok STRING) (scan_string s))))))))))).

Lemma scan_words_in ws s x : scan_words ws s = Some x -> In (fst x) ws /\ s = fst x ++ snd x.
Proof.
  induction ws as [|w ws IH]; cbn; [discriminate|].
  destruct (strip_prefix w s) as [r|] eqn:E; cbn.
  - intros [= <-]. cbn. apply strip_prefix_spec in E. auto.
  - intros H. apply IH in H. tauto.
Qed.
Lemma mem_char_in w c : mem_char w c = true <-> In c (chars w).
Proof.
  induction w as [|d w IH]; cbn -[Ascii.eqb]; [split; [discriminate|tauto]|].
  rewrite orb_true_iff, IH. destruct (Ascii.eqb_spec d c); intuition congruence.
Qed.
Lemma scan_keyword_fixed s x : scan_keyword s = Some x ->
  s = fst x ++ snd x /\ In (kw_kind (fst x), fst x) fixed_spelling.
Proof.
  unfold scan_keyword. destruct (scan_words fixed_words s) as [y|] eqn:E; cbn [orelse].
  - intros [= <-]. apply scan_words_in in E as [Hin Hs]. split; [exact Hs|].
    cbn in Hin. repeat (destruct Hin as [<-|Hin]; [vm_compute; tauto|]). destruct Hin.
  - unfold scan_char. destruct s as [|c s]; [discriminate|].
    destruct (mem_char _ c) eqn:Em; [|discriminate]. intros [= <-]. cbn [fst snd]. split; [reflexivity|].
    apply mem_char_in in Em. cbn in Em.
    repeat (destruct Em as [<-|Em]; [vm_compute; tauto|]). destruct Em.
Qed.
Lemma first_match_scan s : first_match kTokenPattern s = option_map sc_hit (scan s).
Proof.
  change (first_match kTokenPattern s) with (hd_match kTokenPattern s).
  unfold kTokenPattern. rewrite !hd_alts, hd_alts1, hd_string, hd_dec, !hd_num, !hd_group.
  rewrite hd_newline, hd_line_comment, hd_keyword, hd_id, hd_lit.
  unfold hd_match. rewrite plus_class. unfold scan. rewrite !map_orelse, !omap_omap.
  apply orelse_cong; [apply omap_ext; intros [t r]; reflexivity|].
  apply orelse_cong; [apply omap_ext; intros [t r]; reflexivity|].
  apply orelse_cong; [apply omap_ext; intros [t r]; reflexivity|].
  apply orelse_cong; [apply omap_ext; intros r; reflexivity|].
  apply orelse_cong; [|
    apply orelse_cong; [apply omap_ext; intros [t r]; reflexivity|];
    repeat (match goal with |- orelse _ _ = orelse _ _ => apply orelse_cong end);
    apply omap_ext; intros [[t r] r']; reflexivity].
  destruct (scan_keyword s) as [[t r]|] eqn:E; [|reflexivity].
  apply scan_keyword_fixed in E as [_ Hin]. cbn [fst] in Hin.
  cbn [option_map as_kw fst snd sc_hit plain h_text h_rest h_caps]. generalize dependent (kw_kind t). intros k Hin.
  repeat (destruct Hin as [Hin|Hin]; [injection Hin as <- <-; reflexivity|]). destruct Hin.
Qed.

(** Token lexemes and texts found by [scan] are never empty where the code tests
    for emptiness. *)
Lemma scan_step fuel s l : tokenize_loop (S fuel) s l =
  match scan s with
  | None => ([], s, l)
  | Some (w, lx, rest) =>
      let cur := add_col (slen lx) l in
      match w with
      | SBlank | SLine => tokenize_loop fuel rest cur
      | SNewline => tokenize_loop fuel rest (next_line cur)
      | SOpen => let (rest', cur') := SwallowMultiLineComment (String.length rest) rest cur in
                 tokenize_loop fuel rest' cur'
      | STok k text =>
          let '(ts, rem, l') := tokenize_loop fuel rest cur in
          (mkTok k text l cur :: ts, rem, l')
      end
  end.
Proof.
  cbn [tokenize_loop]. rewrite first_match_scan.
  destruct (scan s) as [[[w lx] rest]|] eqn:E; [|reflexivity]. cbn [option_map sc_hit h_text h_rest].
  unfold scan in E.
  destruct (plus_span is_blank s) as [[t r]|] eqn:E0; cbn [orelse option_map as_sc as_id as_tok fst snd] in E.
  { injection E as <- <- <-. apply plus_span_spec in E0 as (Ht & _).
    unfold capture. cbn. unfold nonempty. destruct (String.eqb_spec t ""); [congruence|reflexivity]. }
  destruct (scan_newline s) as [[t r]|] eqn:E1; cbn [orelse option_map as_sc as_id as_tok fst snd] in E.
  { injection E as <- <- <-. assert (t <> "") as Ht.
    { clear -E1. unfold scan_newline, scan_newline_of in E1. destruct s as [|c [|d s]]; [discriminate|..].
      all: repeat match goal with H : context [if ?b then _ else _] |- _ => destruct b end;
      try discriminate E1; injection E1 as <- <-; discriminate. }
    unfold capture. cbn. unfold nonempty. destruct (String.eqb_spec t ""); [congruence|reflexivity]. }
  destruct (scan_line_comment s) as [[t r]|] eqn:E2; cbn [orelse option_map as_sc as_id as_tok fst snd] in E.
  { injection E as <- <- <-. unfold scan_line_comment in E2.
    destruct (strip_prefix "//" s); [|discriminate]. destruct (rspan _ _ _) as [t' r']. injection E2 as <- <-. reflexivity. }
  destruct (strip_prefix "/*" s) as [r|] eqn:E3; cbn [orelse option_map as_sc as_id as_tok fst snd] in E.
  { injection E as <- <- <-. reflexivity. }
  destruct (scan_keyword s) as [[t r]|] eqn:E4; cbn [orelse option_map as_kw fst snd] in E.
  { apply scan_keyword_fixed in E4 as [_ Hin]. cbn [fst] in Hin. injection E as <- <- <-.
    unfold capture. cbn [h_caps]. fold (kw_kind t). generalize dependent (kw_kind t). intros k Hin.
    repeat (destruct Hin as [Hin|Hin]; [injection Hin as <- <-; reflexivity|]). destruct Hin. }
  destruct (scan_id s) as [[t r]|] eqn:E5; cbn [orelse option_map as_sc as_id as_tok fst snd] in E.
  { injection E as <- <- <-. unfold scan_id in E5. destruct s as [|c s]; [discriminate|].
    destruct (is_alpha_ c); [|discriminate]. destruct (span is_alnum_ s). injection E5 as <- <-. reflexivity. }
  assert (forall b p lx t r, scan_num b p s = Some (lx, t, r) -> t <> "") as Hnum.
  { intros b p lx' t r. unfold scan_num. destruct s as [|z [|x s']]; try discriminate.
    destruct (_ && _)%bool; [|discriminate]. destruct (plus_span p s') as [[t' r']|] eqn:Ep; [|discriminate].
    cbn. intros [= <- <- <-]. now apply plus_span_spec in Ep. }
  destruct (scan_num "bB" is_bin s) as [[[lx' t] r]|] eqn:E6; cbn [orelse option_map as_sc as_id as_tok fst snd] in E.
  { injection E as <- <- <-. apply Hnum in E6. unfold capture. cbn. unfold nonempty.
    destruct (String.eqb_spec t ""); [congruence|reflexivity]. }
  destruct (scan_num "oO" is_oct s) as [[[lx' t] r]|] eqn:E7; cbn [orelse option_map as_sc as_id as_tok fst snd] in E.
  { injection E as <- <- <-. apply Hnum in E7. unfold capture. cbn. unfold nonempty.
    destruct (String.eqb_spec t ""); [congruence|reflexivity]. }
  destruct (scan_num "xX" is_hex s) as [[[lx' t] r]|] eqn:E8; cbn [orelse option_map as_sc as_id as_tok fst snd] in E.
  { injection E as <- <- <-. apply Hnum in E8. unfold capture. cbn. unfold nonempty.
    destruct (String.eqb_spec t ""); [congruence|reflexivity]. }
  destruct (scan_dec s) as [[[lx' t] r]|] eqn:E9; cbn [orelse option_map as_sc as_id as_tok fst snd] in E.
  { injection E as <- <- <-. assert (t <> "") as Ht.
    { unfold scan_dec in E9. destruct (scan_num "dD" is_digit s) as [[[? ?] ?]|] eqn:E10; cbn in E9.
      - injection E9 as <- <- <-. eapply Hnum, E10.
      - destruct (plus_span is_digit s) as [[t' r']|] eqn:Ep; [|discriminate].
        cbn in E9. injection E9 as <- <- <-. now apply plus_span_spec in Ep. }
    unfold capture. cbn. unfold nonempty. destruct (String.eqb_spec t ""); [congruence|reflexivity]. }
  destruct (scan_string s) as [[[lx' t] r]|] eqn:E10; cbn [orelse option_map as_sc as_id as_tok fst snd] in E; [|discriminate].
  injection E as <- <- <-. unfold scan_string in E10. destruct s as [|q s]; [discriminate|].
  destruct (Ascii.eqb_spec SQUOTE q); [|discriminate]. destruct (rspan _ _ _) as [t' [|q' r']]; [discriminate|].
  destruct (Ascii.eqb SQUOTE q'); [|discriminate]. injection E10 as <- <- <-.
  unfold capture. cbn [assoc_find h_caps sc_caps String.eqb]. cbn -[slen tokenize_loop].
  destruct (tokenize_loop fuel r' _) as [[ts rem] l']. do 4 f_equal.
  unfold strip_quotes. cbn [String.length]. rewrite slength_app. cbn [String.length str1].
  replace (S (String.length t' + 1) - 2)%nat with (String.length t') by lia. cbn [substring].
  replace (String.length t' + 1 - 1)%nat with (String.length t') by lia. apply substring_prefix.
Qed.
