(** Proofs about quoting. *)
From Coq Require Import String Ascii List ZArith NArith Bool Lia ZifyBool ZifyN ZifyNat.
From Verif Require Import Base Num Token Ast Lexer Quote SpecLexer SpecGrammar SpecParser SpecQuote StrFacts LexerFacts2 NumFacts LiteralFacts.
Import ListNotations.
Open Scope string_scope.

Lemma breaks_app a b : breaks (a ++ b) = (breaks a + breaks b)%nat.
Proof. induction a as [|c a IH]; [reflexivity|]. cbn [append breaks]. destruct (Ascii.eqb c LF); lia. Qed.
Lemma breaks_0 s : breaks s = 0%nat <-> ~ In LF (chars s).
Proof.
  induction s as [|c s IH]; [cbn; tauto|]. cbn [breaks]. unfold chars in *. cbn [list_ascii_of_string In].
  destruct (Ascii.eqb_spec c LF) as [E|E]; [split; [lia|tauto]|]. rewrite IH. intuition congruence.
Qed.
Lemma split_char_ne c s : split_char c s <> [].
Proof. destruct s as [|d s]; cbn; [discriminate|]. destruct (Ascii.eqb c d); [discriminate|]. destruct (split_char c s); discriminate. Qed.
Lemma split_line line s : breaks line = 0%nat -> split_char LF (line ++ String LF s) = line :: split_char LF s.
Proof.
  induction line as [|c line IH]; intros H.
  - cbn [append split_char]. now rewrite Ascii.eqb_refl.
  - cbn [breaks] in H. destruct (Ascii.eqb_spec c LF) as [E|E]; [discriminate|].
    cbn [append split_char]. destruct (Ascii.eqb_spec LF c) as [E'|_]; [congruence|]. now rewrite IH.
Qed.
Lemma split_nolf line : breaks line = 0%nat -> split_char LF line = [line].
Proof.
  induction line as [|c line IH]; intros H; [reflexivity|].
  cbn [breaks] in H. destruct (Ascii.eqb_spec c LF) as [E|E]; [discriminate|].
  cbn [split_char]. destruct (Ascii.eqb_spec LF c) as [E'|_]; [congruence|]. now rewrite IH.
Qed.
Lemma getlines_line line s : breaks line = 0%nat -> getlines (line ++ String LF s) = line :: getlines s.
Proof.
  intros H. unfold getlines. rewrite split_line by exact H. cbn [rev].
  pose proof (split_char_ne LF s) as Hne. destruct (exists_last Hne) as (l & z & E). rewrite E, rev_app_distr. cbn [rev app].
  destruct z; [|reflexivity]. now rewrite rev_app_distr.
Qed.
Lemma getlines_last line : breaks line = 0%nat -> line <> "" -> getlines line = [line].
Proof. intros H Hne. unfold getlines. rewrite split_nolf by exact H. cbn. destruct line; [congruence|reflexivity]. Qed.
Lemma first_break s : breaks s = 0%nat \/ exists line r, s = line ++ String LF r /\ breaks line = 0%nat.
Proof.
  induction s as [|c s IH]; [now left|]. cbn [breaks]. destruct (Ascii.eqb_spec c LF) as [->|E].
  - right. exists "", s. auto.
  - destruct IH as [H|(l & r & -> & H)]; [now left|]. right. exists (String c l), r. split; [reflexivity|].
    cbn [breaks]. destruct (Ascii.eqb_spec c LF); [congruence|exact H].
Qed.
Lemma LineOf_nth s k line : LineOf s k line -> nth_error (getlines s) k = Some line.
Proof.
  intros (a & b & -> & <- & Hl & Ha & Hb & Hne). revert Ha.
  remember (String.length a) as n eqn:En. assert (String.length a <= n)%nat as Hn by lia. clear En. revert a Hn.
  induction n as [|n IH]; intros a Hn Ha.
  - destruct a; [|cbn in Hn; lia]. cbn [append breaks]. destruct Hb as [->|[b' ->]].
    + rewrite sapp_nil_r in *. now rewrite getlines_last.
    + now rewrite getlines_line.
  - destruct Ha as [->|[a' ->]]; [apply (IH ""); [cbn; lia|now left]|].
    destruct (first_break a') as [H|(l & r & -> & H)].
    + rewrite breaks_app, H. change (breaks (String LF "")) with 1%nat. rewrite sapp_assoc. cbn [append]. rewrite getlines_line by exact H.
      cbn [Nat.add nth_error]. apply (IH "" ltac:(cbn; lia)). now left.
    + rewrite breaks_app, !breaks_app. change (breaks (String LF r)) with (S (breaks r)). change (breaks (String LF "")) with 1%nat. rewrite H.
      rewrite !sapp_assoc. cbn [append]. rewrite getlines_line by exact H. cbn [Nat.add nth_error].
      rewrite slength_app in Hn. rewrite slength_app in Hn. cbn in Hn.
      specialize (IH (r ++ String LF "") ltac:(rewrite slength_app; cbn; lia) ltac:(right; eauto)).
      rewrite breaks_app, sapp_assoc in IH. exact IH.
Qed.
Lemma nth_LineOf s k line : nth_error (getlines s) k = Some line -> LineOf s k line.
Proof.
  remember (String.length s) as n eqn:En. assert (String.length s <= n)%nat as Hn by lia. clear En. revert s Hn k.
  induction n as [|n IH]; intros s Hn k H.
  - destruct s; [|cbn in Hn; lia]. destruct k; discriminate.
  - destruct (first_break s) as [Hs|(l & r & -> & Hl)].
    + destruct s as [|c s]; [destruct k; discriminate|]. rewrite getlines_last in H by (auto; discriminate).
      destruct k as [|k]; [|destruct k; discriminate]. injection H as <-. exists "", "". rewrite sapp_nil_r. cbn [append breaks].
      split; [reflexivity|]. split; [reflexivity|]. split; [exact Hs|]. split; [now left|]. split; [now left|discriminate].
    + rewrite getlines_line in H by exact Hl. destruct k as [|k]; cbn [nth_error] in H.
      * injection H as <-. exists "", (String LF r). split; [reflexivity|]. split; [reflexivity|]. split; [exact Hl|]. split; [now left|]. split; [right; eauto|].
        destruct l; discriminate.
      * rewrite slength_app in Hn. cbn in Hn. apply IH in H; [|lia]. destruct H as (a & b & -> & Hk & H1 & H2 & H3 & H4).
        exists (l ++ String LF a), b. split; [rewrite sapp_assoc; reflexivity|]. split; [rewrite breaks_app; cbn [breaks]; rewrite Ascii.eqb_refl; lia|].
        split; [exact H1|]. split; [|auto]. right. destruct H2 as [->|[a' ->]]; [exists l; reflexivity|]. exists (l ++ String LF a'). now rewrite sapp_assoc.
Qed.

Lemma Times_repeat c n s : Times c n s <-> s = repeat_char n c.
Proof.
  split; [induction 1; cbn; congruence|]. intros ->. induction n; cbn; now constructor.
Qed.
Lemma repeat_length c n : String.length (repeat_char n c) = n.
Proof. induction n; cbn; auto. Qed.

(** What [Quote] does when the key line is not before the constraint. *)
Definition context_of (ls : list string) (K : nat) (gap : string) : string :=
  match K with O => "" | S k => gap ++ " | " ++ nth k ls "" ++ nl end.
Lemma Quote_key c s e line : loc_proto_equal s e = false ->
  let K := Z.to_nat (l_line s - l_line (cs_loc c)) in
  nth_error (getlines (cs_string c)) K = Some line ->
  let num := dec (l_line s + 1) in
  let gap := repeat_char (String.length num) " " in
  Quote c s e =
    (let* blanks := std_string_fill (l_col s) " " in
     let margin := gap ++ " | " ++ blanks in
     let* marker := std_string_fill (if Z.eqb (l_line s) (l_line e) then l_col e - l_col s else slen line - slen margin)%Z "^" in
     Ok (context_of (getlines (cs_string c)) K gap ++ (num ++ " | " ++ line ++ nl) ++ margin ++ marker ++ nl)).
Proof.
  intros Hne K HK num gap. unfold Quote. rewrite Hne. cbn zeta. fold num. fold gap.
  set (ls := getlines (cs_string c)) in *. set (off := l_line (cs_loc c)) in *.
  assert (K < List.length ls)%nat as HKl by (apply nth_error_Some; congruence).
  destruct (Z.eqb_spec (l_line s) off) as [E|E].
  - replace (Z.to_nat (l_line s - 0 - off)) with 0%nat by lia. replace (List.length ls <? 0)%nat with false by (symmetry; apply Nat.ltb_ge; lia).
    cbn [skipn]. replace (Z.to_nat (l_line s - (off + Z.of_nat 0))) with 0%nat by lia.
    replace (List.length ls <? 0)%nat with false by (symmetry; apply Nat.ltb_ge; lia). cbn [skipn firstn map concat_strings].
    assert (K = 0%nat) as EK by lia. rewrite EK in *. destruct ls as [|l0 ls']; [discriminate|]. injection HK as ->. cbn [context_of append].
    destruct (std_string_fill (l_col s) " ") as [bl| |]; cbn [bind]; [|reflexivity..].
    destruct (std_string_fill _ "^"); cbn [bind]; [|reflexivity..]. now rewrite !sapp_assoc.
  - destruct (Z.ltb_spec (l_line s) off) as [Hlt|Hle].
    { assert (K = 0%nat) as EK by lia. rewrite EK in *. destruct ls as [|l0 ls']; [discriminate|]. injection HK as ->.
      replace (Z.to_nat (l_line s - 1 - off)) with 0%nat by lia. replace (Z.to_nat (l_line s - (off + Z.of_nat 0))) with 0%nat by lia.
      cbn [context_of append skipn firstn map concat_strings List.length Nat.ltb Nat.leb].
      destruct (std_string_fill (l_col s) " ") as [bl| |]; cbn [bind]; [|reflexivity..].
      destruct (std_string_fill _ "^"); cbn [bind]; [|reflexivity..]. now rewrite !sapp_assoc. }
    assert (exists k, K = S k) as [k Ek] by (exists (pred K); lia).
    replace (Z.to_nat (l_line s - 1 - off)) with k by lia. replace (List.length ls <? k)%nat with false by (symmetry; apply Nat.ltb_ge; lia).
    replace (Z.to_nat (l_line s - (off + Z.of_nat k))) with 1%nat by lia. rewrite skipn_length.
    replace (List.length ls - k <? 1)%nat with false by (symmetry; apply Nat.ltb_ge; lia).
    assert (exists p q, skipn k ls = p :: line :: q /\ nth k ls "" = p) as (p & q & Es & Ep).
    { rewrite Ek in HK. clear - HK. revert k HK. induction ls as [|x ls IH]; intros [|k] H; cbn in *; try discriminate.
      - destruct ls as [|y ls]; [discriminate|]. injection H as ->. eauto.
      - apply IH, H. }
    rewrite Es, Ek. cbn [skipn firstn map concat_strings context_of]. rewrite Ep.
    destruct (std_string_fill (l_col s) " ") as [bl| |]; cbn [bind]; [|reflexivity..].
    destruct (std_string_fill _ "^"); cbn [bind]; [|reflexivity..]. rewrite !sapp_assoc. reflexivity.
Qed.
Lemma Quote_nokey c s e : loc_proto_equal s e = false ->
  nth_error (getlines (cs_string c)) (Z.to_nat (l_line s - l_line (cs_loc c))) = None ->
  exists m, Quote c s e = Err InvalidArgument m.
Proof.
  intros Hne HK. unfold Quote. rewrite Hne. cbn zeta. apply nth_error_None in HK.
  set (ls := getlines (cs_string c)) in *. set (off := l_line (cs_loc c)) in *.
  destruct (List.length ls <? _)%nat eqn:E1; [unfold quote_line_error; eauto|].
  destruct (List.length (skipn _ ls) <? _)%nat eqn:E2; [unfold quote_line_error; eauto|].
  destruct (skipn _ (skipn _ ls)) as [|x q] eqn:Ex; [unfold quote_line_error; eauto|exfalso].
  apply (f_equal (@List.length _)) in Ex. rewrite !skipn_length in Ex. cbn [List.length] in Ex. apply Nat.ltb_ge in E1, E2. rewrite skipn_length in E2.
  destruct (Z.eqb_spec (l_line s) off); lia.
Qed.

(** * Quoting tokens *)
Lemma getlines_count a b : b <> "" -> (breaks a < List.length (getlines (a ++ b)))%nat.
Proof.
  remember (String.length a) as n eqn:En. assert (String.length a <= n)%nat as Hn by lia. clear En. revert a Hn.
  assert (forall b, b <> "" -> (0 < List.length (getlines b))%nat) as H0.
  { intros b0 Hb. destruct (first_break b0) as [H|(l & r & -> & H)]; [rewrite getlines_last by auto; cbn; lia|rewrite getlines_line by exact H; cbn; lia]. }
  induction n as [|n IH]; intros a Hn Hb.
  - destruct a; [|cbn in Hn; lia]. cbn [append breaks]. auto.
  - destruct (first_break a) as [H|(l & r & -> & H)].
    + rewrite H. apply H0. destruct a; [exact Hb|discriminate].
    + rewrite breaks_app, H, sapp_assoc. cbn [append breaks]. rewrite Ascii.eqb_refl. rewrite getlines_line by exact H. cbn [List.length Nat.add].
      rewrite slength_app in Hn. cbn in Hn. specialize (IH r ltac:(lia) Hb). lia.
Qed.
Lemma no_bare_app a b : no_bare_CR (a ++ b) -> no_bare_CR b.
Proof. intros H x y ->. apply (H (a ++ x) y). now rewrite sapp_assoc. Qed.
Lemma no_bare_app_l a b : no_bare_CR (a ++ b) -> ~ (ends_CR a /\ starts_LF b) -> no_bare_CR a.
Proof.
  intros H Hn x y ->. destruct (H x (y ++ b)) as [b' E]; [now rewrite sapp_assoc|].
  destruct y as [|d y]; [|injection E as -> _; eauto]. exfalso. apply Hn. cbn in E. split; [exists x; reflexivity|]. rewrite E. exists b'. reflexivity.
Qed.
Lemma advance_line s : forall l, no_bare_CR s -> l_line (advance s l) = (l_line l + Z.of_nat (breaks s))%Z.
Proof.
  assert (forall n s l, (String.length s <= n)%nat -> no_bare_CR s -> l_line (advance s l) = (l_line l + Z.of_nat (breaks s))%Z) as H; [|eauto].
  induction n as [|n IH]; intros [|c t] l Hl Hb; cbn [advance breaks]; try lia; [cbn in Hl; lia|]. cbn in Hl.
  assert (no_bare_CR t) as Hb' by exact (no_bare_app (str1 c) t Hb).
  destruct (Ascii.eqb_spec c LF) as [->|E1]; [rewrite IH by (auto; lia); cbn [l_line]; lia|].
  destruct (Ascii.eqb_spec c CR) as [->|E2].
  - destruct (Hb "" t eq_refl) as [b' ->]. rewrite Ascii.eqb_refl. cbn [breaks]. rewrite Ascii.eqb_refl.
    rewrite IH; [cbn [l_line]; lia|cbn in Hl; lia|exact (no_bare_app (str1 LF) b' Hb')].
  - rewrite IH by (auto; lia). reflexivity.
Qed.
