(** When quoting is refused (C49). *)
From Coq Require Import String Ascii List ZArith NArith Bool Lia.
From Verif Require Import Base Num Token Ast Lexer Quote SpecLexer SpecGrammar SpecParser SpecQuote SpecCite SpecUncited StrFacts NumFacts LiteralFacts QuoteFacts QuoteFacts2 PropertiesCite.
Import ListNotations.
Open Scope string_scope.

Lemma counted s n : line_count s n <-> n = List.length (getlines s).
Proof.
  assert (forall k, (exists line, LineOf s k line) <-> (k < List.length (getlines s))%nat) as H.
  { intros k. split; [intros [line HL]; apply LineOf_nth in HL; apply nth_error_Some; congruence|]. intros Hk. exists (nth k (getlines s) ""). apply nth_LineOf. exact (nth_error_nth' _ "" Hk). }
  split; [|intros ->; exact H]. intros Hn. destruct (Nat.lt_trichotomy n (List.length (getlines s))) as [E|[E|E]]; [|exact E|].
  - exfalso. pose proof (proj1 (Hn n) (proj2 (H n) E)). lia.
  - exfalso. pose proof (proj1 (H _) (proj2 (Hn _) E)). lia.
Qed.
Lemma beyond c a b : (l_line (cs_loc c) <= l_line a)%Z -> loc_proto_equal a b = false -> nth_error (getlines (cs_string c)) (Z.to_nat (l_line a - l_line (cs_loc c))) = None ->
  Quote c a b = quote_line_error (l_line a) (l_line (cs_loc c) + Z.of_nat (List.length (getlines (cs_string c)))).
Proof.
  intros Hle Heq Hn. apply nth_error_None in Hn. unfold Quote. rewrite Heq. cbv zeta. set (ls := getlines (cs_string c)) in *. set (off := l_line (cs_loc c)) in *. clearbody ls off.
  destruct (Z.eqb_spec (l_line a) off) as [E|E].
  - replace (Z.to_nat (l_line a - 0 - off)) with 0%nat by lia. assert (ls = []) as -> by (apply length_zero_iff_nil; lia). cbn [List.length skipn Nat.ltb Nat.leb Z.of_nat]. replace (Z.to_nat (l_line a - (off + 0))) with 0%nat by lia. cbn [Nat.ltb Nat.leb skipn Z.of_nat]. f_equal. lia.
  - destruct (Nat.ltb_spec (List.length ls) (Z.to_nat (l_line a - 1 - off))) as [H|H]; [reflexivity|].
    replace (Z.to_nat (l_line a - (off + Z.of_nat (Z.to_nat (l_line a - 1 - off))))) with 1%nat by lia. rewrite skipn_length.
    destruct (Nat.ltb_spec (List.length ls - Z.to_nat (l_line a - 1 - off)) 1) as [H1|H1]; [f_equal; lia|].
    assert (skipn 1 (skipn (Z.to_nat (l_line a - 1 - off)) ls) = []) as -> by (apply length_zero_iff_nil; rewrite !skipn_length; lia). f_equal. lia.
Qed.
(** * C49 *)
(** Quoting an interval that does not start before the constraint is refused exactly in these cases, with these texts.
    Otherwise there is a quotation (C49_cited), or the call throws (C50). *)
Theorem C49_refused : forall c a b k m, (l_line (cs_loc c) <= l_line a)%Z -> (QuoteSubConstraint c a b = Err k m <-> k = InvalidArgument /\ Uncited c a b m).
Proof.
  intros c a b k m Hle. unfold QuoteSubConstraint, HaveSameSource.
  assert (forall s t, source_eqb s t = true <-> s = t) as Hs by (intros s t; destruct s, t; cbn; try rewrite String.eqb_eq; split; congruence).
  assert (forall l, GetSourceName l = source_name (l_src l)) as Hg by (intros l; unfold GetSourceName, source_name; destruct (l_src l); reflexivity). rewrite !Hg.
  set (E := (negb (source_eqb (l_src (cs_loc c)) (l_src a)) || negb (source_eqb (l_src (cs_loc c)) (l_src b)) || negb (source_eqb (l_src a) (l_src b)))%bool).
  assert (E = false <-> l_src a = l_src (cs_loc c) /\ l_src b = l_src (cs_loc c)) as HE.
  { unfold E. rewrite !orb_false_iff, !negb_false_iff, !Hs. split; [intros [[? ?] ?]; split; congruence|intros [? ?]; repeat split; congruence]. }
  destruct E.
  - split.
    + intros H. injection H as <- <-. split; [reflexivity|]. apply uq_sources. intros H. apply HE in H. discriminate H.
    + intros [-> H]. inversion H as [_|E0 Ea Eb|n E0 Ea Eb]; subst; [reflexivity| |]; exfalso; (assert (true = false) as F by (apply HE; split; congruence); discriminate F).
  - destruct (proj1 HE eq_refl) as [Ea Eb]. destruct (l_src (cs_loc c)) eqn:E0.
    1: { unfold Explain. rewrite Ea. cbn [bind]. split; [intros H; injection H as <- <-; split; [reflexivity|now apply uq_nowhere]|]. intros [-> H]. inversion H as [Hn|_ _ _|n Hn]; subst; [destruct Hn; auto; split; congruence|reflexivity|contradiction]. }
    all: assert (exists h, Explain a b = Ok h) as [h ->] by (unfold Explain; rewrite Ea; eauto); cbn [bind].
    all: assert (l_src (cs_loc c) <> SrcNone) as Hnn by (rewrite E0; discriminate).
    all: destruct (loc_proto_equal a b) eqn:Eq; [unfold Quote; rewrite Eq; cbn [bind]; split; [discriminate|]; intros [-> H]; apply loc_proto_equal_iff in Eq; inversion H as [Hn|E1 _ _|n _ _ _ Hne]; subst; [destruct Hn; split; congruence|congruence|contradiction]|].
    all: assert (a <> b) as Hne by (intros E1; apply loc_proto_equal_iff in E1; congruence).
    all: destruct (nth_error (getlines (cs_string c)) (Z.to_nat (l_line a - l_line (cs_loc c)))) as [line|] eqn:En.
    all: try (rewrite (Quote_key c a b line Eq En); unfold std_string_fill; split;
      [repeat match goal with |- context [(?u <? 0)%Z] => destruct (u <? 0)%Z; cbn [bind] end; discriminate|
       intros [-> H]; inversion H as [Hn|E1 _ _|n _ _ _ _ Hc Hl]; subst; [destruct Hn; split; congruence|congruence|]; apply counted in Hc; subst n; exfalso; assert (Z.to_nat (l_line a - l_line (cs_loc c)) < List.length (getlines (cs_string c)))%nat by (apply nth_error_Some; congruence); lia]).
    all: rewrite (beyond c a b Hle Eq En); unfold quote_line_error; cbn [bind]; apply nth_error_None in En; split;
      [intros H; injection H as <- <-; split; [reflexivity|]; refine (uq_beyond c a b _ Hnn _ _ Hne (proj2 (counted _ _) eq_refl) _); [congruence|congruence|lia]|
       intros [-> H]; inversion H as [Hn|E1 _ _|n _ _ _ _ Hc Hl]; subst; [destruct Hn; split; congruence|congruence|]; apply counted in Hc; subst n; reflexivity].
Qed.
Print Assumptions C49_refused.
(** The three cases. *)
Example C49_refused_case :
  Uncited (mkCSource "a == 1" (mkLoc 0 0 (SrcTable "t"))) (mkLoc 0 0 (SrcTable "t")) (mkLoc 0 3 (SrcAction "t")) "Quoting of multi-source locations not allowed. Constraint-Source: t From-Source: t To-Source: t" /\
  Uncited (mkCSource "a == 1" (mkLoc 0 0 SrcNone)) (mkLoc 0 0 SrcNone) (mkLoc 0 3 SrcNone) "Invalid source case: " /\
  Uncited (mkCSource ("a ==" ++ nl ++ "1" ++ nl) (mkLoc 4 0 (SrcFile "f"))) (mkLoc 6 0 (SrcFile "f")) (mkLoc 6 1 (SrcFile "f"))
    "Interval [`start`, `end`] to quote must lie within given `constraint`, but `start.line()` = 6 while the final line of `constraint` is 5".
Proof. repeat split; (apply (C49_refused _ _ _ InvalidArgument); [cbn; lia|vm_compute; reflexivity]). Qed.
