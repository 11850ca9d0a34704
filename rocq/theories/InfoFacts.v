(** Facts about the model of constraint_info.cc. *)
From Coq Require Import String Ascii List ZArith NArith Bool Lia Permutation.
From Verif Require Import Base Num Regex Token Ast Lexer Quote AstConstructors Parser Info TypeChecker ConstraintInfo StrFacts SpecLexer LexerFacts LexerFacts2 SpecGrammar NumFacts LiteralFacts SpecTyping TypeFacts SpecSemantics EvalFacts SemFacts EntryFacts SpecInfo.
Import ListNotations.
Open Scope string_scope.

(** * All matches *)
Lemma star_rune_in (p : ascii -> bool) bad n : (forall c, p c = true <-> bad c) -> forall s h, (String.length s <= n)%nat ->
  (In h (star n (match_rune p) s) <-> s = h_text h ++ h_rest h /\ runes bad (h_text h) /\ h_caps h = []).
Proof.
  intros Hp. induction n as [|n IH]; intros s h Hn; cbn [star].
  - destruct s; [|cbn in Hn; lia]. split.
    + intros [<-|[]]. split; [reflexivity|]. split; [constructor|reflexivity].
    + intros (E & _ & Hc). symmetry in E. apply sapp_eq_nil in E as [E1 E2]. left. destruct h; cbn in *; subst; reflexivity.
  - rewrite in_app_iff, in_flat_map. split.
    + intros [(x & Hx & H)|[<-|[]]]; [|split; [reflexivity|split; [constructor|reflexivity]]].
      pose proof (match_rune_shorter _ _ _ Hx) as [Hsh Hne]. destruct (String.eqb_spec (h_text x) ""); [contradiction|]. apply in_map_iff in H as (y & <- & Hy). apply IH in Hy as (E & Hr & Hc); [|lia].
      apply match_rune_sound in Hx as (_ & Hcx & Hs & Hrx & Hbx). cbn [h_text h_rest h_caps]. rewrite sapp_assoc, <- E. split; [exact Hs|]. split; [|now rewrite Hcx, Hc].
      constructor; [exact Hrx|intros c E' Hb; apply Hbx in E'; apply Hp in Hb; congruence|exact Hr].
    + intros (E & Hr & Hc). inversion Hr as [E'|r t Hrr Hb Ht E'].
      * right. left. rewrite <- E' in E. cbn in E. destruct h; cbn in *; subst. reflexivity.
      * left. rewrite <- E' in E. rewrite sapp_assoc in E. exists (mkHit r (t ++ h_rest h) []). split.
        { rewrite E. rewrite match_rune_complete; [now left|exact Hrr|]. intros c Hc'. destruct (p c) eqn:Ep; [|reflexivity]. apply Hp in Ep. now elim (Hb c Hc'). }
        cbn [h_text]. destruct (String.eqb_spec r ""); [now apply rune_nonempty in Hrr|]. unfold follow. cbn [h_rest h_text h_caps]. apply in_map_iff. exists (mkHit t (h_rest h) []).
        split; [destruct h; cbn in *; subst; reflexivity|]. apply IH; [|cbn; auto]. rewrite E, slength_app in Hn. destruct r; [congruence|]. cbn in Hn. lia.
Qed.
Lemma star_class_in p n : forall s h, (String.length s <= n)%nat ->
  (In h (star n (matches (RClass p)) s) <-> s = h_text h ++ h_rest h /\ (forall c, In c (chars (h_text h)) -> p c = true) /\ h_caps h = []).
Proof.
  induction n as [|n IH]; intros s h Hn; cbn [star].
  - destruct s; [|cbn in Hn; lia]. split.
    + intros [<-|[]]. split; [reflexivity|]. split; [intros c []|reflexivity].
    + intros (E & _ & Hc). symmetry in E. apply sapp_eq_nil in E as [E1 E2]. left. destruct h; cbn in *; subst; reflexivity.
  - rewrite in_app_iff, in_flat_map. split.
    + intros [(x & Hx & H)|[<-|[]]]; [|split; [reflexivity|split; [intros c []|reflexivity]]].
      rewrite matches_class in Hx. destruct s as [|c s]; [destruct Hx|]. destruct (p c) eqn:Ep; [|destruct Hx]. destruct Hx as [<-|[]]. cbn [h_text] in H. change (String.eqb (str1 c) "") with false in H. cbn iota in H.
      apply in_map_iff in H as (y & <- & Hy). apply IH in Hy as (E & Hr & Hc); [|cbn in Hn; cbn; lia]. cbn [h_text h_rest h_caps] in *. rewrite sapp_assoc, <- E. split; [reflexivity|]. split; [|exact Hc].
      cbn. intros d [<-|Hd]; auto.
    + intros (E & Hr & Hc). destruct h as [[|c t] rest caps]; cbn [h_text h_rest h_caps] in *; subst; [right; left; reflexivity|].
      left. exists (mkHit (str1 c) (t ++ rest) []). cbn [append]. rewrite matches_class, (Hr c (or_introl eq_refl)). split; [now left|]. cbn [h_text]. change (String.eqb (str1 c) "") with false. cbn iota.
      apply in_map_iff. exists (mkHit t rest []). split; [reflexivity|]. apply IH; [cbn in *; lia|]. cbn. split; [reflexivity|]. split; [|reflexivity]. intros d Hd. apply Hr. now right.
Qed.
Lemma plus_class_in p s h : In h (matches (RPlus (RClass p)) s) <-> s = h_text h ++ h_rest h /\ h_text h <> "" /\ (forall c, In c (chars (h_text h)) -> p c = true) /\ h_caps h = [].
Proof.
  rewrite matches_plus, in_flat_map. split.
  - intros (x & Hx & H). rewrite matches_class in Hx. destruct s as [|c s]; [destruct Hx|]. destruct (p c) eqn:Ep; [|destruct Hx]. destruct Hx as [<-|[]].
    apply in_map_iff in H as (y & <- & Hy). cbn [h_rest] in Hy. apply star_class_in in Hy as (E & Hr & Hc); [|lia]. cbn [h_text h_rest h_caps]. rewrite sapp_assoc, <- E. split; [reflexivity|]. split; [discriminate|].
    split; [|exact Hc]. cbn. intros d [<-|Hd]; auto.
  - intros (E & Hne & Hr & Hc). destruct h as [[|c t] rest caps]; cbn [h_text h_rest h_caps] in *; subst; [congruence|].
    exists (mkHit (str1 c) (t ++ rest) []). cbn [append]. rewrite matches_class, (Hr c (or_introl eq_refl)). split; [now left|].
    apply in_map_iff. exists (mkHit t rest []). split; [reflexivity|]. apply star_class_in; [cbn; lia|]. cbn. split; [reflexivity|]. split; [|reflexivity]. intros d Hd. apply Hr. now right.
Qed.
Lemma lit_in w s h : In h (matches (RLit w) s) <-> s = w ++ h_rest h /\ h_text h = w /\ h_caps h = [].
Proof.
  rewrite matches_lit. destruct (strip_prefix w s) as [r|] eqn:E.
  - apply strip_prefix_spec in E. split.
    + intros [<-|[]]. auto.
    + intros (E' & Ht & Hc). left. destruct h; cbn in *; subst. apply sapp_inv_head in E'. now subst.
  - rewrite strip_prefix_None in E. split; [intros []|]. intros (E' & _). now apply E in E'.
Qed.
Lemma seq_in a b s h : In h (matches (RSeq a b) s) <-> exists x y, In x (matches a s) /\ In y (matches b (h_rest x)) /\ h = mkHit (h_text x ++ h_text y) (h_rest y) (h_caps x ++ h_caps y).
Proof.
  cbn [matches]. rewrite in_flat_map. split.
  - intros (x & Hx & H). apply in_map_iff in H as (y & <- & Hy). eauto.
  - intros (x & y & Hx & Hy & ->). exists x. split; [exact Hx|]. apply in_map_iff. eauto.
Qed.
Lemma group_in n a s h : In h (matches (RGroup n a) s) <-> exists x, In x (matches a s) /\ h = mkHit (h_text x) (h_rest x) ((n, h_text x) :: h_caps x).
Proof. cbn [matches]. rewrite in_map_iff. split; intros (x & H1 & H2); exists x; auto. Qed.
Lemma first_some r s h : first_match r s = Some h -> In h (matches r s).
Proof. unfold first_match. destruct (matches r s); cbn; [discriminate|]. intros [= ->]. now left. Qed.
Lemma first_none r s h : first_match r s = None -> ~ In h (matches r s).
Proof. unfold first_match. destruct (matches r s); cbn; [auto|discriminate]. Qed.

(** * Annotations *)
Lemma file_in a h : In h (matches file_annotation a) -> file_note a (capture "1" h).
Proof.
  unfold file_annotation. intros H. apply seq_in in H as (x & y & Hx & Hy & ->). apply lit_in in Hx as (Ea & Ex & Cx). apply seq_in in Hy as (g & z & Hg & Hz & ->).
  apply group_in in Hg as (u & Hu & ->). apply lit_in in Hz as (Ez & Tz & Cz). change (matches (RStar (RNeg (is_char DQUOTE))) (h_rest x)) with (star (String.length (h_rest x)) (match_rune (is_char DQUOTE)) (h_rest x)) in Hu.
  apply (star_rune_in _ (eq DQUOTE)) in Hu as (Eu & Hr & Cu); [|intros c; unfold is_char; apply Ascii.eqb_eq|lia]. cbn [h_text h_rest h_caps] in *. rewrite Cx, Cu, Cz. cbn.
  exists (h_rest z). split; [|exact Hr]. rewrite Ea, Eu, Ez. rewrite !sapp_assoc. reflexivity.
Qed.
Lemma in_file a f : file_note a f -> exists h, In h (matches file_annotation a).
Proof.
  intros (rest & -> & Hr). unfold file_annotation. eexists. apply seq_in. eexists (mkHit ("@file(" ++ dq) (f ++ dq ++ ")" ++ rest) []), _. split.
  { apply lit_in. cbn [h_rest h_text h_caps]. split; [now rewrite !sapp_assoc|auto]. }
  split; [|reflexivity]. apply seq_in. eexists _, (mkHit (dq ++ ")") rest []). split; [apply group_in; exists (mkHit f (dq ++ ")" ++ rest) []); split; [|reflexivity]|].
  - change (matches (RStar (RNeg (is_char DQUOTE)))) with (fun s => star (String.length s) (match_rune (is_char DQUOTE)) s). cbn beta. apply (star_rune_in _ (eq DQUOTE)); [intros c; unfold is_char; apply Ascii.eqb_eq|lia|cbn; auto].
  - split; [|reflexivity]. apply lit_in. cbn [h_rest h_text h_caps]. split; [now rewrite !sapp_assoc|auto].
Qed.
Lemma without_split c a b a' b' : without c a -> without c a' -> a ++ String c b = a' ++ String c b' -> a = a' /\ b = b'.
Proof.
  unfold without, chars. revert a'. induction a as [|x a IH]; intros [|y a'] Ha Ha' E; cbn in *.
  - injection E as ->. auto.
  - injection E as <- _. destruct Ha'. now left.
  - injection E as -> _. destruct Ha. now left.
  - injection E as -> E. destruct (IH a' ltac:(tauto) ltac:(tauto) E) as [-> ->]. auto.
Qed.
Lemma runes_without f : runes (eq DQUOTE) f -> without DQUOTE f.
Proof. intros H. exact (runes_not_in (eq DQUOTE) f DQUOTE eq_refl H eq_refl). Qed.
Lemma file_fun a f f' : file_note a f -> file_note a f' -> f = f'.
Proof.
  intros (r & E & H) (r' & E' & H'). rewrite E in E'. apply sapp_inv_head in E'. apply (sapp_inv_head dq) in E'. 
  exact (proj1 (without_split DQUOTE f (")" ++ r) f' (")" ++ r') (runes_without f H) (runes_without f' H') E')).
Qed.
Lemma file_iff a f : match first_match file_annotation a with Some h => capture "1" h = f | None => False end <-> file_note a f.
Proof.
  destruct (first_match file_annotation a) as [h|] eqn:E.
  - apply first_some, file_in in E. split; [intros <-; exact E|]. intros H. exact (file_fun _ _ _ E H).
  - split; [tauto|]. intros H. apply in_file in H as [h H]. exact (first_none _ _ _ E H).
Qed.
Lemma line_in a h : In h (matches line_annotation a) <-> exists ds rest, a = "@line(" ++ ds ++ ")" ++ rest /\ ds <> "" /\ (forall c, In c (chars ds) -> is_digit c = true) /\
  h = mkHit ("@line(" ++ ds ++ ")") rest [("1", ds)].
Proof.
  unfold line_annotation. rewrite seq_in. split.
  - intros (x & y & Hx & Hy & ->). apply lit_in in Hx as (Ea & Ex & Cx). apply seq_in in Hy as (g & z & Hg & Hz & ->). apply group_in in Hg as (u & Hu & ->). apply lit_in in Hz as (Ez & Tz & Cz).
    apply plus_class_in in Hu as (Eu & Hne & Hr & Cu). cbn [h_text h_rest h_caps] in *. exists (h_text u), (h_rest z). rewrite Ea, Eu, Ez, Ex, Tz, Cx, Cu, Cz. auto.
  - intros (ds & rest & -> & Hne & Hd & ->). exists (mkHit "@line(" (ds ++ ")" ++ rest) []), (mkHit (ds ++ ")") rest [("1", ds)]). split; [apply lit_in; auto|]. split; [|reflexivity].
    apply seq_in. exists (mkHit ds (")" ++ rest) [("1", ds)]), (mkHit ")" rest []). split; [|split; [apply lit_in; auto|reflexivity]].
    apply group_in. exists (mkHit ds (")" ++ rest) []). split; [apply plus_class_in; cbn; auto|reflexivity].
Qed.
Lemma digits_Reads ds : ds <> "" -> (forall c, In c (chars ds) -> is_digit c = true) -> exists k, Reads 10 ds k.
Proof. intros Hne Hd. apply Reads_total; [lia|exact Hne|]. intros c Hc. apply Hd, is_digit_dchar in Hc. eauto. Qed.
Lemma Reads_digit ds k c : Reads 10 ds k -> In c (chars ds) -> is_digit c = true.
Proof.
  induction 1 as [c' d Hd Hl|s n c' d H IH Hd Hl]; intros Hc.
  - destruct Hc as [<-|[]]. now apply dchar_10 in Hd.
  - unfold chars in Hc. rewrite chars_app in Hc. apply in_app_iff in Hc as [Hc|[<-|[]]]; [now apply IH|now apply dchar_10 in Hd].
Qed.
Lemma digits_without ds : (forall c, In c (chars ds) -> is_digit c = true) -> without ")" ds.
Proof. intros H Hc. apply H in Hc. discriminate. Qed.
Lemma line_fun a n n' : line_note a n -> line_note a n' -> n = n'.
Proof.
  intros (ds & k & r & E & H & -> & _) (ds' & k' & r' & E' & H' & -> & _). rewrite E in E'. apply sapp_inv_head in E'.
  apply without_split in E' as [<- _]; [|apply digits_without; intros c; now apply Reads_digit with (k := k)|apply digits_without; intros c; now apply Reads_digit with (k := k')]. now rewrite (Reads_fun _ _ _ _ H H').
Qed.
Lemma line_iff a n : match first_match line_annotation a with Some h => parse_int32 (capture "1" h) | None => None end = Some n <-> line_note a n.
Proof.
  unfold parse_int32. destruct (first_match line_annotation a) as [h|] eqn:E.
  - apply first_some, line_in in E as (ds & rest & -> & Hne & Hd & ->). unfold capture. cbn [h_caps assoc_find]. change (String.eqb "1" "1") with true. cbn iota.
    destruct (digits_Reads ds Hne Hd) as [k Hk]. rewrite (mpz_set_str_Reads 10 ds k Hk). split.
    + destruct (Z.leb_spec (Z.of_N k) 2147483647) as [Hle|]; [|discriminate]. intros [= <-]. exists ds, k, rest. auto.
    + intros H. assert (Z.of_N k = n) as <-; [|].
      { destruct H as (ds' & k' & r' & E' & H' & -> & _). apply sapp_inv_head in E'. apply without_split in E' as [<- _]; [|now apply digits_without|apply digits_without; intros c; now apply Reads_digit with (k := k')]. now rewrite (Reads_fun _ _ _ _ Hk H'). }
      destruct H as (_ & _ & _ & _ & _ & _ & Hle). destruct (Z.leb_spec (Z.of_N k) 2147483647); [reflexivity|lia].
  - split; [discriminate|]. intros (ds & k & r & -> & H & -> & _). exfalso. apply (first_none _ _ (mkHit ("@line(" ++ ds ++ ")") r [("1", ds)]) E). apply line_in. exists ds, r.
    split; [reflexivity|]. split; [now apply Reads_nonempty in H|]. split; [|reflexivity]. intros c. now apply Reads_digit with (k := k).
Qed.
Lemma key_iff ck a rest : match first_match (GetConstraintAnnotation ck) a with Some h => h_rest h = rest | None => False end <-> a = keyword ck ++ rest.
Proof.
  assert (GetConstraintAnnotation ck = RLit (keyword ck)) as -> by (destruct ck; reflexivity). destruct (first_match (RLit (keyword ck)) a) as [h|] eqn:E.
  - apply first_some, lit_in in E as (-> & _). split; [intros <-; reflexivity|]. apply sapp_inv_head.
  - split; [tauto|]. intros ->. apply (first_none _ _ (mkHit (keyword ck) rest []) E). apply lit_in. auto.
Qed.
Lemma c_part_iff s t : c_str s = t <-> c_part s t.
Proof.
  unfold c_part, without, chars. split.
  - intros <-. induction s as [|c s IH]; cbn [c_str]; [split; [intros []|auto]|]. destruct (Ascii.eqb_spec c NUL) as [->|Hn].
    + split; [intros []|]. right. exists s. reflexivity.
    + destruct IH as [H1 H2]. split; [cbn; intros [?|?]; auto|]. destruct H2 as [E|[r E]]; [left; f_equal; exact E|right; exists r; cbn [append]; f_equal; exact E].
  - intros [Hn H]. assert (forall r, c_str (t ++ String NUL r) = t /\ c_str t = t) as Hc.
    { intros r. clear H. induction t as [|c t IH]; [split; reflexivity|]. cbn [append c_str]. destruct (Ascii.eqb_spec c NUL) as [->|Hc]; [destruct Hn; now left|].
      destruct IH as [-> ->]; [intros ?; apply Hn; now right|auto]. }
    destruct H as [->|[r ->]]; apply (Hc ""%string) || apply Hc.
Qed.
(** The scan and the notes. *)
Lemma scan_notes ck l : forall f n, exists r f' n', Notes ck l f n r f' n' /\ scan_annotations ck f n l = (match r with Some rest => c_str rest | None => "" end, f', n').
Proof.
  induction l as [|a l IH]; intros f n; cbn [scan_annotations]; [exists None, f, n; split; [constructor|reflexivity]|].
  pose proof (file_iff a) as Hf. destruct (first_match file_annotation a) as [h|].
  - destruct (IH (capture "1" h) n) as (r & f' & n' & H & E). exists r, f', n'. split; [|exact E]. eapply nt_file; [|exact H]. now apply Hf.
  - pose proof (line_iff a) as Hl. destruct (match first_match line_annotation a with Some h => parse_int32 (capture "1" h) | None => None end) as [k|].
    + destruct (IH f k) as (r & f' & n' & H & E). exists r, f', n'. split; [|exact E]. eapply nt_line; [|exact H]. now apply Hl.
    + pose proof (key_iff ck a) as Hk. destruct (first_match (GetConstraintAnnotation ck) a) as [h|].
      * exists (Some (h_rest h)), f, n. split; [|reflexivity]. apply nt_here. now apply Hk.
      * destruct (IH f n) as (r & f' & n' & H & E). exists r, f', n'. split; [|exact E]. apply nt_other; [intros f0 H0; now apply Hf in H0|intros n0 H0; apply Hl in H0; discriminate|intros rest E0; now apply (Hk rest)|exact H].
Qed.
Lemma file_line a f n : file_note a f -> line_note a n -> False.
Proof. intros (r & -> & _) (ds & k & r' & E & _). discriminate E. Qed.
Lemma file_key ck a f rest : file_note a f -> a = keyword ck ++ rest -> False.
Proof. intros (r & -> & _) E. destruct ck; discriminate E. Qed.
Lemma line_key ck a n rest : line_note a n -> a = keyword ck ++ rest -> False.
Proof. intros (ds & k & r & -> & _) E. destruct ck; discriminate E. Qed.
Lemma notes_fun ck l f n r f1 n1 : Notes ck l f n r f1 n1 -> forall r' f2 n2, Notes ck l f n r' f2 n2 -> r = r' /\ f1 = f2 /\ n1 = n2.
Proof.
  induction 1 as [f n|a l f f' n r f2 n2 Hf H IH|a l f n n' r f2 n2 Hl H IH|a l f n rest E|a l f n r f2 n2 H1 H2 H3 H IH]; intros r' f3 n3 H';
    inversion H' as [|? ? ? fx ? ? ? ? Hf' K|? ? ? ? nx ? ? ? Hl' K|? ? ? ? rx E'|? ? ? ? ? ? ? K1 K2 K3 K]; subst; auto; try (exfalso; solve [eauto using file_line, file_key, line_key | eapply K1; eassumption | eapply K2; eassumption | eapply K3; reflexivity | eapply H1; eassumption | eapply H2; eassumption | eapply H3; reflexivity]).
  - rewrite (file_fun _ _ _ Hf' Hf) in K. auto.
  - rewrite (line_fun _ _ _ Hl' Hl) in K. auto.
  - apply sapp_inv_head in E' as <-. auto.
Qed.

(** * Constraint texts *)
Lemma rev_app_acc s : forall a b, string_rev_app s (a ++ b) = string_rev_app s a ++ b.
Proof. induction s as [|c s IH]; intros a b; cbn [string_rev_app]; [reflexivity|]. exact (IH (String c a) b). Qed.
Lemma srev_cons c s : string_rev (String c s) = string_rev s ++ String c "".
Proof. unfold string_rev. cbn [string_rev_app]. exact (rev_app_acc s "" (String c "")). Qed.
Lemma srev_app a b : string_rev (a ++ b) = string_rev b ++ string_rev a.
Proof. induction a as [|c a IH]; cbn [append]; [now rewrite sapp_nil_r|]. now rewrite !srev_cons, IH, sapp_assoc. Qed.
Lemma srev_srev s : string_rev (string_rev s) = s.
Proof. induction s as [|c s IH]; [reflexivity|]. rewrite srev_cons, srev_app, IH. reflexivity. Qed.
Lemma strip_suffix_spec suf s t : strip_suffix suf s = Some t <-> s = t ++ suf.
Proof.
  unfold strip_suffix. split.
  - destruct (strip_prefix (string_rev suf) (string_rev s)) as [r|] eqn:E; [|discriminate]. intros [= <-]. apply strip_prefix_spec in E. rewrite <- (srev_srev s), E, srev_app, srev_srev. reflexivity.
  - intros ->. rewrite srev_app. rewrite (proj2 (strip_prefix_spec _ _ (string_rev t)) eq_refl). now rewrite srev_srev.
Qed.
Lemma rq_other c s : c <> DQUOTE -> replace_quotes (String c s) = String c (replace_quotes s).
Proof.
  intros Hc. destruct s as [|c2 [|c3 s]]; try reflexivity. cbn [replace_quotes]. destruct (Ascii.eqb_spec c DQUOTE); [contradiction|]. reflexivity.
Qed.
Lemma rq_sep s : replace_quotes (dq ++ " " ++ dq ++ s) = String LF (replace_quotes s).
Proof. reflexivity. Qed.
Lemma rq_app s r : without DQUOTE s -> replace_quotes (s ++ r) = s ++ replace_quotes r.
Proof.
  unfold without, chars. induction s as [|c s IH]; intros H; [reflexivity|]. cbn [append]. rewrite rq_other, IH; [reflexivity|intros Hi; apply H; now right|intros ->; apply H; now left].
Qed.
Lemma concat_cons sep a b l : String.concat sep (a :: b :: l) = a ++ sep ++ String.concat sep (b :: l).
Proof. reflexivity. Qed.
Lemma rq_concat ss : Forall (without DQUOTE) ss -> replace_quotes (String.concat (dq ++ " " ++ dq) ss) = String.concat nl ss.
Proof.
  induction ss as [|a [|b ss] IH]; intros H; [reflexivity| |].
  - inversion H; subst. cbn [String.concat]. rewrite <- (sapp_nil_r a) at 1. rewrite rq_app by assumption. now rewrite sapp_nil_r.
  - inversion H as [|? ? Ha Hb]; subst. rewrite !concat_cons, rq_app by exact Ha. rewrite !sapp_assoc, rq_sep, IH by exact Hb. reflexivity.
Qed.
Lemma contains_iff c s : contains_char c s = true <-> In c (chars s).
Proof. apply mem_char_in. Qed.
Lemma concat_first sep c s ss : String.concat sep (String c s :: ss) = String c (String.concat sep (s :: ss)).
Proof. destruct ss; reflexivity. Qed.
Lemma rq_inv t : contains_char DQUOTE (replace_quotes t) = false -> exists ss, ss <> [] /\ Forall (without DQUOTE) ss /\ t = String.concat (dq ++ " " ++ dq) ss.
Proof.
  remember (String.length t) as n eqn:En. assert (String.length t <= n)%nat as Hn by lia. clear En. revert t Hn. induction n as [|n IH]; intros t Hn H.
  - destruct t; [|cbn in Hn; lia]. exists [""]. split; [discriminate|]. split; [repeat constructor; intros []|reflexivity].
  - destruct t as [|c t]; [exists [""]; split; [discriminate|]; split; [repeat constructor; intros []|reflexivity]|]. cbn in Hn. destruct (Ascii.eqb_spec c DQUOTE) as [->|Hc].
    + assert (exists s, t = " " ++ dq ++ s) as [s ->].
      { destruct t as [|c2 [|c3 s]]; try (discriminate H). cbn [replace_quotes] in H. rewrite Ascii.eqb_refl in H. cbn [andb] in H.
        destruct (Ascii.eqb_spec c2 " "), (Ascii.eqb_spec c3 DQUOTE); cbn [andb] in H; [subst; now exists s|discriminate H..]. }
      change (String DQUOTE (" " ++ dq ++ s)) with (dq ++ " " ++ dq ++ s) in H |- *. rewrite rq_sep in H. change (contains_char DQUOTE (String LF (replace_quotes s))) with (contains_char DQUOTE (replace_quotes s)) in H.
      destruct (IH s) as (ss & Hne & Hf & ->); [cbn in Hn; lia|exact H|]. destruct ss as [|a ss]; [congruence|]. exists ("" :: a :: ss). split; [discriminate|]. split; [constructor; [intros []|exact Hf]|reflexivity].
    + rewrite rq_other in H by exact Hc. assert (contains_char DQUOTE (replace_quotes t) = false) as H'.
      { destruct (contains_char DQUOTE (replace_quotes t)) eqn:E; [|reflexivity]. apply contains_iff in E. assert (contains_char DQUOTE (String c (replace_quotes t)) = true) by (apply contains_iff; now right). congruence. }
      destruct (IH t) as (ss & Hne & Hf & ->); [lia|exact H'|]. destruct ss as [|a ss]; [congruence|]. inversion Hf as [|? ? Ha Hs]; subst. exists (String c a :: ss). split; [discriminate|]. split; [|symmetry; apply concat_first].
      constructor; [|exact Hs]. intros [E|Hi]; [now apply Hc|now apply Ha].
Qed.
Lemma chars_in_app c a b : In c (chars (a ++ b)) <-> In c (chars a) \/ In c (chars b).
Proof. unfold chars. now rewrite chars_app, in_app_iff. Qed.
Lemma concat_nl_without ss : Forall (without DQUOTE) ss -> without DQUOTE (String.concat nl ss).
Proof.
  unfold without. induction ss as [|a [|b ss] IH]; intros H; [intros []| |].
  - inversion H; subst. assumption.
  - inversion H; subst. rewrite concat_cons, !chars_in_app. intros [Hi|[[E|[]]|Hi]]; [tauto|discriminate|now apply IH].
Qed.
(** ExtractConstraint. *)
Lemma extract_none ck pre : ExtractConstraint ck pre = Ok None <-> unrestricted ck pre.
Proof.
  unfold ExtractConstraint, unrestricted. destruct (scan_notes ck (pr_annotations pre) "" 0%Z) as (r & f & n & H & ->). split.
  - intros E. exists f, n. destruct r as [rest|]; [|now left]. right. exists rest. split; [exact H|]. apply c_part_iff. destruct (String.eqb_spec (c_str rest) ""); [assumption|].
    destruct (match strip_prefix ("(" ++ dq) (c_str rest) with Some t => strip_suffix (dq ++ ")") t | None => None end) as [t|]; [|discriminate E].
    destruct (contains_char DQUOTE (replace_quotes t)); discriminate E.
  - intros (f' & n' & [H'|(r' & H' & Hc)]); destruct (notes_fun _ _ _ _ _ _ _ H _ _ _ H') as (-> & -> & ->); [reflexivity|]. apply c_part_iff in Hc. now rewrite Hc.
Qed.
Lemma extract_some ck pre cs : ExtractConstraint ck pre = Ok (Some cs) <-> restricted ck pre cs.
Proof.
  unfold ExtractConstraint, restricted. destruct (scan_notes ck (pr_annotations pre) "" 0%Z) as (r & f & n & H & ->). split.
  - intros E. destruct r as [rest|]; [|discriminate E]. destruct (String.eqb_spec (c_str rest) ""); [discriminate E|].
    destruct (strip_prefix ("(" ++ dq) (c_str rest)) as [t|] eqn:E1; [|discriminate E]. destruct (strip_suffix (dq ++ ")") t) as [t'|] eqn:E2; [|discriminate E].
    destruct (contains_char DQUOTE (replace_quotes t')) eqn:E3; [discriminate E|]. apply Ok_inj in E. injection E as <-. apply strip_prefix_spec in E1. apply strip_suffix_spec in E2. apply rq_inv in E3 as (ss & Hne & Hf & ->).
    exists rest, f, n, ss. split; [exact H|]. split; [apply c_part_iff; rewrite E1, E2; reflexivity|]. split; [exact Hne|]. split; [exact Hf|]. rewrite rq_concat by exact Hf. destruct ck; reflexivity.
  - intros (rest & f' & n' & ss & H' & Hc & Hne & Hf & ->). destruct (notes_fun _ _ _ _ _ _ _ H _ _ _ H') as (-> & -> & ->). apply c_part_iff in Hc. rewrite Hc.
    change (String.eqb (parts_text ss) "") with false. cbn iota. unfold parts_text.
    change ("(" ++ dq ++ String.concat (dq ++ " " ++ dq) ss ++ dq ++ ")") with (("(" ++ dq) ++ (String.concat (dq ++ " " ++ dq) ss ++ (dq ++ ")"))).
    rewrite (proj2 (strip_prefix_spec _ _ _) eq_refl), (proj2 (strip_suffix_spec _ _ _) eq_refl), rq_concat by exact Hf.
    destruct (contains_char DQUOTE (String.concat nl ss)) eqn:E; [apply contains_iff in E; now apply concat_nl_without in E|]. destruct ck; reflexivity.
Qed.
Lemma extract_errors ck pre : (exists o, ExtractConstraint ck pre = Ok o) \/ exists m, ExtractConstraint ck pre = Err InvalidArgument m.
Proof.
  unfold ExtractConstraint. destruct (scan_annotations ck "" 0%Z (pr_annotations pre)) as [[text f] n]. destruct (String.eqb text ""); [eauto|].
  destruct (match strip_prefix ("(" ++ dq) text with Some t => strip_suffix (dq ++ ")") t | None => None end) as [t|]; [|eauto]. destruct (contains_char DQUOTE (replace_quotes t)); eauto.
Qed.

(** * Keys *)
Lemma insert_keys_ok what l : forall bi bn r, NoDup (map fst bi) -> NoDup (map fst bn) ->
  (insert_keys what l bi bn = Ok r <-> exists ks, Forall2 (fun o k => o = Ok k) l ks /\ r = ((bi ++ map (fun k => (k_id k, k)) ks)%list, (bn ++ map (fun k => (k_name k, k)) ks)%list) /\
     NoDup (map fst (fst r)) /\ NoDup (map fst (snd r))).
Proof.
  induction l as [|o l IH]; intros bi bn r Hi Hn; cbn [insert_keys].
  - split; [intros H; apply Ok_inj in H as <-; exists []; cbn; rewrite !app_nil_r; split; [constructor|auto]|]. intros (ks & H & -> & _). inversion H; subst. cbn. now rewrite !app_nil_r.
  - rewrite bind_ok. split.
    + intros (k & -> & H). unfold assoc_insert in H. destruct (assoc_find N.eqb (k_id k) bi) eqn:E1; [discriminate|]. destruct (assoc_find String.eqb (k_name k) bn) eqn:E2; [discriminate|].
      apply (afind_none N.eqb N.eqb_eq) in E1. apply (afind_none String.eqb String.eqb_eq) in E2. apply IH in H as (ks & Hf & -> & H1 & H2).
      * exists (k :: ks). cbn [map]. rewrite <- !app_assoc in *. split; [now constructor|]. auto.
      * rewrite map_app. now apply nodup_snoc.
      * rewrite map_app. now apply nodup_snoc.
    + intros (ks & Hf & -> & H1 & H2). inversion Hf as [|? k ? ks' Ho Hf']; subst. exists k. split; [reflexivity|]. cbn [fst snd map] in H1, H2. unfold assoc_insert.
      assert (forall B (b : list (B * key_info)) x y, NoDup (map fst (b ++ x :: y)%list) -> ~ In (fst x) (map fst b)) as Hx.
      { intros B b x y HN Hi'. rewrite map_app in HN. cbn in HN. apply NoDup_remove_2 in HN. apply HN. apply in_or_app. now left. }
      rewrite (proj2 (afind_none N.eqb N.eqb_eq bi (k_id k))) by exact (Hx _ _ (k_id k, k) _ H1). rewrite (proj2 (afind_none String.eqb String.eqb_eq bn (k_name k))) by exact (Hx _ _ (k_name k, k) _ H2).
      apply IH; [rewrite map_app; apply nodup_snoc; [exact Hi|exact (Hx _ _ (k_id k, k) _ H1)]|rewrite map_app; apply nodup_snoc; [exact Hn|exact (Hx _ _ (k_name k, k) _ H2)]|].
      exists ks'. cbn [fst snd map]. rewrite <- !app_assoc. auto.
Qed.
Lemma match_field_ok f k : ParseMatchField f = Ok k <-> key_decl f k.
Proof.
  unfold ParseMatchField, key_decl. rewrite bind_ok. split.
  - intros (t & Ht & H). apply Ok_inj in H as <-. cbn. split; [reflexivity|]. split; [reflexivity|]. destruct f as [i n w m]. unfold ParseKeyType in Ht. cbn in Ht.
    destruct m as [[]| |]; try discriminate Ht; apply Ok_inj in Ht as <-; constructor.
  - destruct k as [i n t]. cbn. intros (-> & -> & H). exists t. split; [|reflexivity]. destruct H; reflexivity.
Qed.
Lemma param_ok p k : ParseParam p = Ok k <-> param_decl p k.
Proof.
  unfold ParseParam, param_decl, ParseParamType, param_type. rewrite bind_ok. split.
  - intros (t & Ht & H). apply Ok_inj in H as <-. cbn. split; [reflexivity|]. split; [reflexivity|]. destruct (String.eqb_spec (ap_type_name p) ""); cbn [negb] in Ht; apply Ok_inj in Ht as <-; auto.
  - destruct k as [i n t]. cbn. intros (-> & -> & H). exists t. split; [|reflexivity]. destruct H as [(E & ->)|(E & ->)]; destruct (String.eqb_spec (ap_type_name p) ""); try contradiction; reflexivity.
Qed.
Lemma forall2_map {A B C} (f : A -> B) (R : B -> C -> Prop) l m : Forall2 R (map f l) m <-> Forall2 (fun a c => R (f a) c) l m.
Proof.
  split.
  - revert m. induction l as [|a l IH]; intros m H; inversion H; subst; constructor; auto.
  - induction 1; constructor; auto.
Qed.
Lemma forall2_iff {A B} (R S : A -> B -> Prop) l m : (forall a b, R a b <-> S a b) -> Forall2 R l m <-> Forall2 S l m.
Proof. intros H. split; induction 1; constructor; auto; now apply H. Qed.
