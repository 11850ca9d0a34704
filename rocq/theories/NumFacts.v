(** Facts about numerals. *)
From Coq Require Import String Ascii List ZArith NArith Bool Lia ZifyBool ZifyN ZifyNat.
From Verif Require Import Base Num Token Lexer SpecLexer SpecGrammar StrFacts.
Import ListNotations.
Open Scope string_scope.

(** * Digit lists *)
Lemma of_digits_snoc b ds d : of_digits b (ds ++ [d]) = (of_digits b ds * b + d)%N.
Proof. unfold of_digits. now rewrite fold_left_app. Qed.
Definition canonical (ds : list N) : Prop := ds = [0%N] \/ exists d r, ds = d :: r /\ d <> 0%N.
Lemma of_digits_pos b d r : (0 < b)%N -> d <> 0%N -> (0 < of_digits b (d :: r))%N.
Proof.
  intros Hb Hd. induction r as [|x r IH] using rev_ind; [cbn; lia|].
  rewrite app_comm_cons, of_digits_snoc. nia.
Qed.
Lemma of_digits_bound b ds : (0 < b)%N -> Forall (fun d => (d < b)%N) ds ->
  (of_digits b ds < b ^ N.of_nat (List.length ds))%N.
Proof.
  intros Hb. induction ds as [|d ds IH] using rev_ind; intros H; [cbn; lia|].
  apply Forall_app in H as [H1 H2]. inversion H2; subst. rewrite of_digits_snoc, app_length. cbn [List.length].
  rewrite Nat.add_1_r, Nat2N.inj_succ, N.pow_succ_r'. specialize (IH H1). nia.
Qed.
Lemma to_digits_canonical b f : (2 <= b)%N -> forall n acc ds,
  Forall (fun d => (d < b)%N) ds -> canonical ds -> of_digits b ds = n -> (n < 2 ^ N.of_nat f)%N -> (0 < f)%nat ->
  to_digits f b n acc = (ds ++ acc)%list.
Proof.
  intros Hb. induction f as [|f IH]; intros n acc ds Hds Hc Hv Hn Hf; [lia|].
  cbn [to_digits]. destruct (exists_last (l := ds)) as (ds' & d & ->).
  { destruct Hc as [->|(? & ? & -> & _)]; discriminate. }
  apply Forall_app in Hds as [Hds' Hd]. inversion Hd as [|? ? Hdb _]; subst.
  rewrite of_digits_snoc in *.
  assert ((of_digits b ds' * b + d) / b = of_digits b ds')%N as ->.
  { rewrite N.div_add_l, (N.div_small d) by lia. lia. }
  assert ((of_digits b ds' * b + d) mod b = d)%N as ->.
  { rewrite N.add_comm, N.mod_add, N.mod_small by lia. reflexivity. }
  destruct ds' as [|x r].
  - reflexivity.
  - assert (x <> 0%N) as Hx.
    { destruct Hc as [H|(y & r' & H & Hy)]; [destruct r; discriminate|]. now injection H as <- _. }
    pose proof (of_digits_pos b x r ltac:(lia) Hx) as Hpos.
    destruct (N.eqb_spec (of_digits b (x :: r)) 0) as [E|_]; [lia|].
    rewrite Nat2N.inj_succ, N.pow_succ_r' in Hn.
    rewrite (IH (of_digits b (x :: r)) (d :: acc) (x :: r)); auto.
    + rewrite <- app_assoc. reflexivity.
    + right. eauto.
    + nia.
    + destruct f; [exfalso; change (2 ^ N.of_nat 0)%N with 1%N in Hn; nia|lia].
Qed.
Lemma N_size_nat_bound n : (n < 2 ^ N.of_nat (N.size_nat n))%N.
Proof.
  destruct n as [|p]; [cbn; lia|]. cbn [N.size_nat].
  assert (N.of_nat (Pos.size_nat p) = N.pos (Pos.size p)) as ->.
  { induction p as [p IH|p IH|]; cbn [Pos.size_nat Pos.size]; try rewrite Nat2N.inj_succ, IH; lia. }
  pose proof (Pos.size_gt p). lia.
Qed.
Lemma digits_of_canonical b ds : (2 <= b)%N -> Forall (fun d => (d < b)%N) ds -> canonical ds ->
  digits_of b (of_digits b ds) = ds.
Proof.
  intros Hb H Hc. unfold digits_of. rewrite (to_digits_canonical b _ Hb _ [] ds); auto; [apply app_nil_r| |lia].
  eapply N.lt_trans; [apply N_size_nat_bound|]. apply N.pow_lt_mono_r; lia.
Qed.
Lemma canonical_exists b n : (2 <= b)%N -> exists ds, Forall (fun d => (d < b)%N) ds /\ canonical ds /\ of_digits b ds = n.
Proof.
  intros Hb. induction n as [n IH] using (well_founded_induction N.lt_wf_0).
  destruct (N.lt_ge_cases n b) as [Hlt|Hge].
  - exists [n]. split; [auto|]. split; [|reflexivity]. destruct (N.eq_dec n 0) as [->|Hn]; [now left|right; eauto].
  - assert (n / b < n)%N as Hq by (apply N.div_lt; lia).
    destruct (IH _ Hq) as (ds & H1 & H2 & H3). exists (ds ++ [n mod b])%list.
    assert (n mod b < b)%N by (apply N.mod_lt; lia).
    split; [apply Forall_app; auto|]. split.
    + right. destruct H2 as [->|(d & r & -> & Hd)].
      * cbn in H3. assert (1 <= n / b)%N by (apply N.div_le_lower_bound; lia). lia.
      * cbn. eauto.
    + rewrite of_digits_snoc, H3. pose proof (N.div_mod n b ltac:(lia)). lia.
Qed.
Lemma digits_of_spec b n : (2 <= b)%N ->
  Forall (fun d => (d < b)%N) (digits_of b n) /\ canonical (digits_of b n) /\ of_digits b (digits_of b n) = n.
Proof.
  intros Hb. destruct (canonical_exists b n Hb) as (ds & H1 & H2 & <-).
  now rewrite digits_of_canonical.
Qed.

(** * Characters *)
Lemma dchar_fun c d d' : dchar c d -> dchar c d' -> d = d'.
Proof. intros [] H'; inversion H'; subst; unfold between in *; lia. Qed.
Lemma digit_value_dchar c d : digit_value c = Some d <-> dchar c d.
Proof.
  unfold digit_value, is_digit, is_upper, is_lower, in_range, byte. split.
  - intros H. destruct ((48 <=? N_of_ascii c)%N && (N_of_ascii c <=? 57)%N)%bool eqn:E1; [injection H as <-; constructor; unfold between; lia|].
    destruct ((65 <=? N_of_ascii c)%N && (N_of_ascii c <=? 90)%N)%bool eqn:E2; [injection H as <-; constructor; unfold between; lia|].
    destruct ((97 <=? N_of_ascii c)%N && (N_of_ascii c <=? 122)%N)%bool eqn:E3; [injection H as <-; constructor; unfold between; lia|discriminate].
  - intros [c0 H|c0 H|c0 H]; unfold between in H.
    + replace ((48 <=? N_of_ascii c0)%N && (N_of_ascii c0 <=? 57)%N)%bool with true by lia. reflexivity.
    + replace ((48 <=? N_of_ascii c0)%N && (N_of_ascii c0 <=? 57)%N)%bool with false by lia.
      replace ((65 <=? N_of_ascii c0)%N && (N_of_ascii c0 <=? 90)%N)%bool with true by lia. reflexivity.
    + replace ((48 <=? N_of_ascii c0)%N && (N_of_ascii c0 <=? 57)%N)%bool with false by lia.
      replace ((65 <=? N_of_ascii c0)%N && (N_of_ascii c0 <=? 90)%N)%bool with false by lia.
      replace ((97 <=? N_of_ascii c0)%N && (N_of_ascii c0 <=? 122)%N)%bool with true by lia. reflexivity.
Qed.
Lemma digit_char_dchar d : (d < 36)%N -> dchar (digit_char d) d.
Proof.
  intros H. unfold digit_char. destruct (N.ltb_spec d 10) as [H1|H1].
  - assert (N_of_ascii (ascii_of_N (48 + d)) = 48 + d)%N as E by (apply N_ascii_embedding; lia).
    replace d with (N_of_ascii (ascii_of_N (48 + d)) - 48)%N at 2 by lia. constructor. unfold between. lia.
  - assert (N_of_ascii (ascii_of_N (87 + d)) = 87 + d)%N as E by (apply N_ascii_embedding; lia).
    replace d with (N_of_ascii (ascii_of_N (87 + d)) - 87)%N at 2 by lia. constructor 3. unfold between. lia.
Qed.
(** Below ten there is one character per digit. *)
Lemma dchar_small c d : dchar c d -> (d < 10)%N -> c = digit_char d.
Proof.
  intros [c0 H|c0 H|c0 H] Hd; unfold between in H; try lia.
  unfold digit_char. destruct (N.ltb_spec (N_of_ascii c0 - 48) 10); [|lia].
  replace (48 + (N_of_ascii c0 - 48))%N with (N_of_ascii c0) by lia. now rewrite ascii_N_embedding.
Qed.
Lemma dchar_code c d : dchar c d -> (48 <= N_of_ascii c <= 122)%N.
Proof. intros []; unfold between in *; lia. Qed.

(** * Strings of digits *)
Lemma string_of_list_chars l : chars (string_of_list l) = l.
Proof. unfold chars. induction l; cbn; congruence. Qed.
Lemma chars_inj a b : chars a = chars b -> a = b.
Proof.
  unfold chars. intros H. rewrite <- (string_of_list_ascii_of_string a), <- (string_of_list_ascii_of_string b). congruence.
Qed.
Lemma Reads_digits b s n : Reads b s n <->
  exists ds, Forall2 dchar (chars s) ds /\ ds <> [] /\ Forall (fun d => (d < b)%N) ds /\ of_digits b ds = n.
Proof.
  split.
  - induction 1 as [c d Hc Hd|s n c d H IH Hc Hd].
    + exists [d]. cbn. split; [auto|]. split; [discriminate|]. auto.
    + destruct IH as (ds & H1 & H2 & H3 & <-). exists (ds ++ [d])%list.
      unfold chars in *. rewrite chars_app. split; [apply Forall2_app; [exact H1|cbn; auto]|].
      split; [destruct ds; discriminate|]. split; [apply Forall_app; auto|]. apply of_digits_snoc.
  - intros (ds & H1 & H2 & H3 & <-). revert s H1. induction ds as [|d ds IH] using rev_ind; [congruence|].
    intros s H1. apply Forall_app in H3 as [H3 H3']. inversion H3' as [|? ? Hd _]; subst. clear H2.
    apply Forall2_app_inv_r in H1 as (l1 & l2 & Hl1 & Hl2 & E).
    inversion Hl2 as [|c ? ? ? Hc Hnil]; subst. inversion Hnil; subst. clear Hl2 Hnil.
    assert (s = string_of_list l1 ++ str1 c) as ->.
    { apply chars_inj. rewrite E. unfold chars. rewrite chars_app. fold (chars (string_of_list l1)).
      now rewrite string_of_list_chars. }
    rewrite of_digits_snoc. destruct ds as [|x ds].
    + inversion Hl1; subst. cbn. now constructor.
    + constructor; auto. apply IH; [discriminate|exact H3|now rewrite string_of_list_chars].
Qed.
Lemma Forall2_fun {A B} (R : A -> B -> Prop) l m m' : (forall a b b', R a b -> R a b' -> b = b') ->
  Forall2 R l m -> Forall2 R l m' -> m = m'.
Proof.
  intros HR H. revert m'. induction H as [|a b l m Hab H IH]; intros m' H'; inversion H'; subst; [reflexivity|].
  f_equal; eauto.
Qed.
Lemma Reads_fun b s n n' : Reads b s n -> Reads b s n' -> n = n'.
Proof.
  rewrite !Reads_digits. intros (ds & H1 & _ & _ & <-) (ds' & H1' & _ & _ & <-).
  f_equal. eapply Forall2_fun; eauto. apply dchar_fun.
Qed.
Lemma Reads_nonempty b s n : Reads b s n -> s <> "".
Proof.
  rewrite Reads_digits. intros (ds & H1 & H2 & _) ->. inversion H1. congruence.
Qed.
Lemma print_N_Reads b n : (2 <= b <= 36)%N -> Reads b (print_N b n) n.
Proof.
  intros Hb. destruct (digits_of_spec b n ltac:(lia)) as (H1 & H2 & H3). apply Reads_digits.
  exists (digits_of b n). split; [|split; [destruct H2 as [->|(? & ? & -> & _)]; discriminate|auto]].
  unfold print_N. rewrite string_of_list_chars. clear H2 H3.
  induction (digits_of b n) as [|d ds IH]; [constructor|]. inversion H1; subst. cbn. constructor; [|auto].
  apply digit_char_dchar. lia.
Qed.
Lemma digit_char_0 d : (d < 36)%N -> digit_char d = "0"%char -> d = 0%N.
Proof. intros Hd E. pose proof (digit_char_dchar d Hd) as H. rewrite E in H. inversion H; reflexivity || (unfold between in *; cbn in *; lia). Qed.
Lemma dec_N_Decimal n : Decimal (dec_N n) n.
Proof.
  split; [apply print_N_Reads; lia|]. unfold dec_N, print_N.
  destruct (digits_of_spec 10 n ltac:(lia)) as (H1 & [->|(d & r & E & Hd)] & _); [now left|].
  right. intros u Hu. rewrite E in *. cbn in Hu. injection Hu as Hu _. apply Hd, digit_char_0; [|exact Hu].
  inversion H1; lia.
Qed.
Lemma Decimal_fun s s' n : Decimal s n -> Decimal s' n -> s = s'.
Proof.
  assert (forall s, Decimal s n -> s = dec_N n) as H; [|intros H1 H2; now rewrite (H s), (H s')].
  clear s s'. intros s [Hr Hc]. apply Reads_digits in Hr as (ds & H1 & H2 & H3 & <-).
  assert (s = string_of_list (map digit_char ds)) as E.
  { apply chars_inj. rewrite string_of_list_chars. clear H2 Hc. revert H3. induction H1 as [|c d l ds Hcd H IH]; intros H3; [reflexivity|].
    inversion H3; subst. cbn. f_equal; [now apply dchar_small|auto]. }
  unfold dec_N, print_N. rewrite digits_of_canonical; [exact E|lia|exact H3|].
  destruct ds as [|d r]; [congruence|]. destruct (N.eq_dec d 0) as [->|Hd]; [|right; eauto].
  left. cbn in E. destruct Hc as [->|Hc].
  - injection E as E. destruct r; [reflexivity|discriminate].
  - elim (Hc (string_of_list (map digit_char r))). exact E.
Qed.
Lemma dec_of_N n : dec (Z.of_N n) = dec_N n.
Proof. destruct n; reflexivity. Qed.
Lemma dec_Decimal n s : Decimal s n <-> s = dec (Z.of_N n).
Proof.
  rewrite dec_of_N. split; [intros H; eapply Decimal_fun; [exact H|apply dec_N_Decimal]|intros ->; apply dec_N_Decimal].
Qed.

(** * mpz_set_str *)
Lemma dchar_plain c d : dchar c d -> is_space c = false /\ Ascii.eqb c NUL = false /\ c <> "-"%char.
Proof.
  intros H. apply dchar_code in H. unfold is_space, in_range, byte.
  assert (Ascii.eqb c " " = false) as -> by (apply Ascii.eqb_neq; intros ->; cbn in H; lia).
  split; [cbn; lia|]. split; [apply Ascii.eqb_neq; intros ->; cbn in H; lia|intros ->; cbn in H; lia].
Qed.
Lemma c_str_digits s ds : Forall2 dchar (chars s) ds -> c_str s = s.
Proof.
  revert ds. induction s as [|c s IH]; intros ds H; [reflexivity|]. inversion H as [|? d ? ? Hc H']; subst.
  cbn [c_str]. apply dchar_plain in Hc as (_ & -> & _). f_equal. eauto.
Qed.
Lemma set_digits_spec b s ds acc : Forall2 dchar (chars s) ds -> Forall (fun d => (d < b)%N) ds ->
  set_digits b acc s = Some (fold_left (fun a d => a * b + d)%N ds acc).
Proof.
  revert ds acc. induction s as [|c s IH]; intros ds acc H Hb; inversion H as [|? d ? ? Hc H']; subst; [reflexivity|].
  inversion Hb; subst. cbn [set_digits fold_left]. pose proof (dchar_plain _ _ Hc) as (-> & _).
  apply digit_value_dchar in Hc. rewrite Hc. replace (d <? b)%N with true by lia. apply IH; auto.
Qed.
Lemma mpz_set_str_Reads b s n : Reads b s n -> mpz_set_str s b = Some (Z.of_N n).
Proof.
  intros H. apply Reads_digits in H as (ds & H1 & H2 & H3 & <-). unfold mpz_set_str.
  rewrite (c_str_digits _ _ H1).
  destruct s as [|c s]; [inversion H1; subst; congruence|].
  inversion H1 as [|? d ? ds' Hc H']; subst. inversion H3; subst.
  cbn [skip_space]. destruct (dchar_plain _ _ Hc) as (-> & _ & Hm).
  assert (forall {A} (x y : A), match c with "-"%char => x | _ => y end = y) as E.
  { intros A x y. clear - Hm. destruct c as [[] [] [] [] [] [] [] []]; try reflexivity. now elim Hm. }
  assert ((match String c s with String "-" s' => (true, s') | _ => (false, String c s) end) = (false, String c s)) as ->.
  { exact (E _ (true, s) (false, String c s)). }
  pose proof (set_digits_spec b (String c s) (d :: ds') 0%N H1 H3) as ->.
  apply digit_value_dchar in Hc. rewrite Hc. replace (d <? b)%N with true by lia. reflexivity.
Qed.
Lemma Reads_total b s : (b <= 36)%N -> s <> "" -> (forall c, In c (chars s) -> exists d, dchar c d /\ (d < b)%N) -> exists n, Reads b s n.
Proof.
  intros Hb Hs H. assert (exists ds, Forall2 dchar (chars s) ds /\ Forall (fun d => (d < b)%N) ds) as (ds & H1 & H2).
  { clear Hs. unfold chars in *. induction s as [|c s IH]; [exists []; split; constructor|].
    destruct (H c (or_introl eq_refl)) as (d & Hd & Hl). destruct IH as (ds & H1 & H2); [intros; apply H; now right|].
    exists (d :: ds). split; constructor; auto. }
  exists (of_digits b ds). apply Reads_digits. exists ds. repeat split; auto.
  intros ->. inversion H1. destruct s; [congruence|discriminate].
Qed.
