(** C87: the numbers in trees that no parser has built. *)
From Coq Require Import String Ascii List ZArith NArith Bool Lia.
From Verif Require Import Base Num Token Ast SpecLexer SpecGrammar SpecInfo SpecGmp StrFacts NumFacts.
Import ListNotations.
Open Scope string_scope.

Lemma blank_iff c : is_space c = true <-> blank c.
Proof. unfold is_space, blank, between, in_range, byte. rewrite orb_true_iff, Ascii.eqb_eq, andb_true_iff, !N.leb_le. tauto. Qed.
Lemma blank_false c : is_space c = false <-> ~ blank c.
Proof. rewrite <- blank_iff. destruct (is_space c); split; congruence. Qed.
Lemma c_part_iff s t : c_part s t <-> t = c_str s.
Proof.
  unfold c_part, without. revert t. induction s as [|c s IH]; intros t; cbn [c_str].
  - split; [intros (_ & [E|(r & E)]); [now subst|destruct t; discriminate E]|intros ->; split; [intros []|now left]].
  - destruct (Ascii.eqb_spec c NUL) as [->|Hc].
    + split.
      * intros (Hn & [E|(r & E)]); [subst t; destruct Hn; now left|]. destruct t as [|d t]; [reflexivity|]. cbn in E. injection E as <- _. destruct Hn. now left.
      * intros ->. split; [intros []|right; exists s; reflexivity].
    + split.
      * intros (Hn & [E|(r & E)]).
        -- subst t. f_equal. apply IH. split; [intros H; apply Hn; now right|now left].
        -- destruct t as [|d t]; [cbn in E; injection E as E _; contradiction|]. cbn in E. injection E as <- E. f_equal. apply IH. split; [intros H; apply Hn; now right|right; eauto].
      * intros ->. destruct (proj2 (IH (c_str s)) eq_refl) as (Hn & H). split; [intros [E|Hi]; [contradiction|now apply Hn]|]. destruct H as [H|(r & H)]; [left; f_equal; exact H|right; exists r; change (String c s = String c (c_str s ++ String NUL r)); f_equal; exact H].
Qed.
Lemma squeezed_total s : exists t, squeezed s t.
Proof. induction s as [|c s (t & IH)]; [exists ""; constructor|]. destruct (is_space c) eqn:E; [apply blank_iff in E; exists t; now constructor|apply blank_false in E; exists (String c t); now constructor]. Qed.
Lemma squeezed_digits b s t acc : squeezed s t -> set_digits b acc s = set_digits b acc t.
Proof.
  intros H. revert acc. induction H as [|c s t Hc _ IH|c s t Hc _ IH]; intros acc; [reflexivity|..]; cbn [set_digits].
  - apply blank_iff in Hc as ->. apply IH.
  - apply blank_false in Hc as ->. destruct (digit_value c); [|reflexivity]. destruct (_ <? _)%N; [apply IH|reflexivity].
Qed.
Lemma squeezed_plain s t c : squeezed s t -> In c (chars t) -> ~ blank c.
Proof. intros H. induction H as [|d s t Hd _ IH|d s t Hd _ IH]; [intros []|exact IH|]. intros [<-|Hi]; auto. Qed.
Lemma digits_read b s acc n : (forall c, In c (chars s) -> ~ blank c) -> set_digits b acc s = Some n ->
  exists ds, Forall2 dchar (chars s) ds /\ Forall (fun d => (d < b)%N) ds.
Proof.
  revert acc. induction s as [|c s IH]; intros acc Hp H; [exists []; split; constructor|]. cbn [set_digits] in H. rewrite (proj2 (blank_false c) (Hp c (or_introl eq_refl))) in H.
  destruct (digit_value c) as [d|] eqn:E; [|discriminate H]. destruct (N.ltb_spec d b) as [Hd|]; [|discriminate H]. destruct (IH _ (fun x Hx => Hp x (or_intror Hx)) H) as (ds & H1 & H2).
  exists (d :: ds). split; constructor; auto. now apply digit_value_dchar.
Qed.
Lemma set_digits_reads b s n : s <> "" -> (forall c, In c (chars s) -> ~ blank c) -> (set_digits b 0 s = Some n <-> Reads b s n).
Proof.
  intros Hne Hp. split.
  - intros H. destruct (digits_read b s 0 n Hp H) as (ds & H1 & H2). rewrite (set_digits_spec b s ds 0 H1 H2) in H. injection H as H. apply Reads_digits. exists ds. repeat split; auto. intros ->. inversion H1. destruct s; [congruence|discriminate].
  - intros H. apply Reads_digits in H as (ds & H1 & H2 & H3 & <-). now rewrite (set_digits_spec b s ds 0 H1 H3).
Qed.
Lemma skip_split s : exists spaces, s = spaces ++ skip_space s /\ only blank spaces /\ forall c r, skip_space s = String c r -> ~ blank c.
Proof.
  induction s as [|c s IH]; cbn [skip_space]; [exists ""; split; [reflexivity|split; [intros ? []|discriminate]]|].
  destruct (is_space c) eqn:E.
  - destruct IH as (sp & H1 & H2 & H3). exists (String c sp). split; [cbn; now rewrite <- H1|]. split; [intros x [<-|Hx]; [now apply blank_iff|auto]|exact H3].
  - exists "". split; [reflexivity|]. split; [intros ? []|]. intros d r X. injection X as <- _. now apply blank_false.
Qed.
Lemma skip_app spaces s : only blank spaces -> (forall c r, s = String c r -> ~ blank c) -> skip_space (spaces ++ s) = s.
Proof.
  induction spaces as [|c sp IH]; cbn [String.append skip_space]; intros H Hs.
  - destruct s as [|c s]; [reflexivity|]. cbn [skip_space]. now rewrite (proj2 (blank_false c) (Hs c s eq_refl)).
  - rewrite (proj2 (blank_iff c) (H c (or_introl eq_refl))). apply IH; [intros x Hx; apply H; now right|exact Hs].
Qed.
(** The part after white space: a sign or not. *)
Definition unsigned (b : N) (s : string) : option N :=
  match s with
  | EmptyString => None
  | String c _ => match digit_value c with Some d => if N.ltb d b then set_digits b 0 s else None | None => None end
  end.
Lemma unsigned_iff b s n : unsigned b s = Some n <-> exists c body digits, s = String c body /\ ~ blank c /\ squeezed s digits /\ Reads b digits n.
Proof.
  split.
  - destruct s as [|c s]; [discriminate|]. cbn [unsigned]. destruct (digit_value c) as [d|] eqn:E; [|discriminate]. destruct (N.ltb_spec d b) as [Hd|]; [|discriminate]. intros H.
    assert (~ blank c) as Hb by (apply blank_false; apply digit_value_dchar in E; now apply dchar_plain in E). destruct (squeezed_total (String c s)) as (t & Ht). exists c, s, t. split; [reflexivity|]. split; [exact Hb|]. split; [exact Ht|].
    rewrite (squeezed_digits b _ _ 0 Ht) in H. apply set_digits_reads in H; [exact H| |intros x; exact (squeezed_plain _ _ x Ht)]. inversion Ht; subst; [contradiction|discriminate].
  - intros (c & body & digits & -> & Hb & Hs & Hr). inversion Hs as [|? ? ? Hc|? ? t Hc Hs']; subst; [contradiction|].
    pose proof Hr as Hr'. apply Reads_digits in Hr' as (ds & H1 & _ & H3 & _). inversion H1 as [|? d ? ds' Hcd _]; subst. inversion H3; subst. apply digit_value_dchar in Hcd. cbn [unsigned]. rewrite Hcd. replace (d <? b)%N with true by lia.
    rewrite (squeezed_digits b _ _ 0 Hs). apply set_digits_reads; [discriminate|intros x; exact (squeezed_plain _ _ x Hs)|exact Hr].
Qed.
Lemma set_str_unsigned text b : mpz_set_str text b =
  match skip_space (c_str text) with
  | String "-" s => option_map (fun n => (- Z.of_N n)%Z) (unsigned b s)
  | s => option_map Z.of_N (unsigned b s)
  end.
Proof.
  unfold mpz_set_str. assert (forall s neg, match s with EmptyString => None | String c _ => match digit_value c with Some d => if (d <? b)%N then match set_digits b 0 s with Some n => Some (if neg : bool then (- Z.of_N n)%Z else Z.of_N n) | None => None end else None | None => None end end =
    option_map (fun n => if neg then (- Z.of_N n)%Z else Z.of_N n) (unsigned b s)) as H.
  { intros s neg. destruct s as [|c s]; [reflexivity|]. cbn [unsigned]. destruct (digit_value c); [|reflexivity]. destruct (_ <? _)%N; [|reflexivity]. destruct (set_digits b 0 (String c s)); reflexivity. }
  destruct (skip_space (c_str text)) as [|c s]; [reflexivity|]. pose proof (H s true) as H1. pose proof (H (String c s) false) as H2. destruct c as [[] [] [] [] [] [] [] []]; first [exact H1 | exact H2].
Qed.
Lemma unsigned_minus b c r : c <> "-"%char ->
  match String c r with String "-" s => option_map (fun n => (- Z.of_N n)%Z) (unsigned b s) | s => option_map Z.of_N (unsigned b s) end = option_map Z.of_N (unsigned b (String c r)).
Proof. intros H. destruct c as [[] [] [] [] [] [] [] []]; try reflexivity. now elim H. Qed.
(** What GMP and Z3 see of a C++ string. *)
Theorem C87_c_string : forall s t, c_part s t <-> t = c_str s.
Proof. exact c_part_iff. Qed.
Print Assumptions C87_c_string.
(** The evaluation of number literals in arbitrary trees (SpecYields.v, SpecSorts.v) is GMP's reading. *)
Theorem C87_numerals : forall b s z, mpz_set_str s b = Some z <-> gmp_number b s z.
Proof.
  intros b s z. rewrite set_str_unsigned. split.
  - intros H. destruct (skip_split (c_str s)) as (sp & E & Hsp & Hfirst). assert (c_part s (c_str s)) as Hc by now apply c_part_iff.
    destruct (skip_space (c_str s)) as [|c r] eqn:Es; [discriminate H|].
    destruct (ascii_dec c "-") as [->|Hm].
    + destruct (unsigned b r) as [n|] eqn:Eu; [|discriminate H]. injection H as <-. apply unsigned_iff in Eu as (d & body & digits & -> & H1 & H2 & H3). exists (c_str s), sp, "-", d, body, digits, n. auto 10.
    + rewrite (unsigned_minus b c r Hm) in H. destruct (unsigned b (String c r)) as [n|] eqn:Eu; [|discriminate H]. injection H as <-. apply unsigned_iff in Eu as (d & body & digits & Ed & H1 & H2 & H3). injection Ed as <- <-. exists (c_str s), sp, "", c, r, digits, n. auto 10.
  - intros (t & sp & sign & c & body & digits & n & Hc & Et & Hsp & Hb & Hs & Hr & Hsign). apply c_part_iff in Hc. rewrite <- Hc, Et. assert (unsigned b (String c body) = Some n) as Hu by (apply unsigned_iff; eauto 8).
    assert (c <> "-"%char) as Hm. { inversion Hs as [|? ? ? X|? ? t' X Hs']; subst; [contradiction|]. apply Reads_digits in Hr as (ds & H1 & _). inversion H1 as [|? d ? ? Hcd _]; subst. apply dchar_plain in Hcd. tauto. }
    destruct Hsign as [(-> & ->)|(-> & ->)]; rewrite skip_app; auto; try (intros x r X; injection X as <- _; first [exact Hb|intros [Y|Y]; [discriminate Y|unfold between in Y; cbn in Y; lia]]); cbn [String.append].
    + rewrite (unsigned_minus b c body Hm). now rewrite Hu.
    + now rewrite Hu.
Qed.
Print Assumptions C87_numerals.
Example C87_numerals_case : c_part ("a" ++ String NUL "b") "a" /\ ~ c_part ("a" ++ String NUL "b") ("a" ++ String NUL "b") /\
  gmp_number 10 (" -1 2" ++ String NUL "x") (-12) /\ (forall z, ~ gmp_number 10 "- 1" z) /\ (forall z, ~ gmp_number 10 "0x1f" z) /\ (forall z, ~ gmp_number 10 "" z) /\ gmp_number 16 "fF" 255.
Proof.
  split; [apply C87_c_string; reflexivity|]. split; [intros H; apply C87_c_string in H; discriminate H|]. split; [apply C87_numerals; reflexivity|]. split; [intros z H; apply C87_numerals in H; discriminate H|]. split; [intros z H; apply C87_numerals in H; discriminate H|]. split; [intros z H; apply C87_numerals in H; discriminate H|]. apply C87_numerals. reflexivity.
Qed.
