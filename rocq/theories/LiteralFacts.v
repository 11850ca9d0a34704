(** Facts about the literals of the constraint language. *)
From Coq Require Import String Ascii List ZArith NArith Bool Lia ZifyBool ZifyN ZifyNat.
From Verif Require Import Base Num Token Ast Lexer AstConstructors SpecLexer SpecGrammar StrFacts NumFacts.
Import ListNotations.
Open Scope string_scope.

Lemma Ok_inj {A} (a b : A) : Ok a = Ok b -> a = b.
Proof. congruence. Qed.

(** * split_char *)
Lemma split_char_nonempty c s : split_char c s <> [].
Proof. destruct s as [|d s]; cbn; [discriminate|]. destruct (Ascii.eqb c d); [discriminate|]. destruct (split_char c s); discriminate. Qed.
Lemma concat_cons sep x l : l <> [] -> String.concat sep (x :: l) = x ++ sep ++ String.concat sep l.
Proof. destruct l; [congruence|reflexivity]. Qed.
Lemma concat_split c s : String.concat (str1 c) (split_char c s) = s.
Proof.
  induction s as [|d s IH]; [reflexivity|]. cbn [split_char]. destruct (Ascii.eqb_spec c d) as [->|Hne].
  - rewrite concat_cons by apply split_char_nonempty. rewrite IH. reflexivity.
  - destruct (split_char c s) as [|h t] eqn:E; [elim (split_char_nonempty c s E)|].
    destruct t as [|h2 t]; [cbn in *; congruence|]. rewrite concat_cons in * by discriminate. cbn. cbn in IH. now rewrite IH.
Qed.
Lemma split_pieces c s p : In p (split_char c s) -> ~ In c (chars p).
Proof.
  unfold chars. revert p. induction s as [|d s IH]; cbn [split_char]; intros p H.
  - destruct H as [<-|[]]. intros [].
  - destruct (Ascii.eqb_spec c d) as [->|Hne].
    + destruct H as [<-|H]; [intros []|auto].
    + destruct (split_char c s) as [|h t] eqn:E; [elim (split_char_nonempty c s E)|].
      destruct H as [<-|H]; [|apply IH; now right]. cbn. intros [H|H]; [congruence|]. apply (IH h); [now left|exact H].
Qed.
Lemma split_app c p s : ~ In c (chars p) -> split_char c (p ++ String c s) = p :: split_char c s.
Proof.
  unfold chars. induction p as [|d p IH]; cbn; intros H; [now rewrite Ascii.eqb_refl|].
  destruct (Ascii.eqb_spec c d) as [->|Hne]; [tauto|]. rewrite IH by tauto. reflexivity.
Qed.
Lemma split_none c p : ~ In c (chars p) -> split_char c p = [p].
Proof.
  unfold chars. induction p as [|d p IH]; cbn; intros H; [reflexivity|].
  destruct (Ascii.eqb_spec c d) as [->|Hne]; [tauto|]. rewrite IH by tauto. reflexivity.
Qed.
Lemma split_concat c ss : ss <> [] -> (forall s, In s ss -> ~ In c (chars s)) ->
  split_char c (String.concat (str1 c) ss) = ss.
Proof.
  induction ss as [|s ss IH]; intros Hne H; [congruence|]. destruct ss as [|s2 ss].
  - cbn. apply split_none, H. now left.
  - rewrite concat_cons by discriminate. cbn [append str1]. unfold str1 at 1. cbn [append].
    rewrite split_app by (apply H; now left). f_equal. apply IH; [discriminate|]. intros; apply H; now right.
Qed.

(** * Bytes in text *)
Lemma is_digit_dchar c : is_digit c = true <-> dchar c (byte c - 48) /\ (byte c - 48 < 10)%N.
Proof.
  unfold is_digit, in_range, byte. split.
  - intros H. split; [constructor; unfold between; lia|lia].
  - intros [H Hl]. inversion H; unfold between in *; lia.
Qed.
Lemma dchar_10 c d : dchar c d -> (d < 10)%N -> is_digit c = true /\ d = (byte c - 48)%N.
Proof. intros [c0 H|c0 H|c0 H] Hd; unfold is_digit, in_range, byte, between in *; lia. Qed.
Lemma is_hex_dchar c : is_hex c = true <-> dchar c (hex_digit_value c) /\ (hex_digit_value c < 16)%N.
Proof.
  unfold is_hex, hex_digit_value, is_digit, in_range, byte. split.
  - intros H. destruct (N.leb_spec 65 (N_of_ascii c)); [destruct (N.leb_spec 97 (N_of_ascii c))|].
    + replace (N_of_ascii c - 97 + 10)%N with (N_of_ascii c - 87)%N by lia. split; [constructor 3; unfold between; lia|lia].
    + replace (N_of_ascii c - 65 + 10)%N with (N_of_ascii c - 55)%N by lia. split; [constructor 2; unfold between; lia|lia].
    + split; [constructor; unfold between; lia|lia].
  - intros [H Hl]. inversion H; unfold between in *;
      destruct (N.leb_spec 65 (N_of_ascii c)); try destruct (N.leb_spec 97 (N_of_ascii c)); lia.
Qed.
Lemma dchar_16 c d : dchar c d -> (d < 16)%N -> is_hex c = true /\ d = hex_digit_value c.
Proof.
  intros [c0 H|c0 H|c0 H] Hd; unfold is_hex, hex_digit_value, is_digit, in_range, byte, between in *;
    destruct (N.leb_spec 65 (N_of_ascii c0)); try destruct (N.leb_spec 97 (N_of_ascii c0)); lia.
Qed.
Lemma base10_loop_spec all s acc n : base10_loop all s acc = Ok n <->
  exists ds, Forall2 dchar (chars s) ds /\ Forall (fun d => (d < 10)%N) ds /\ n = fold_left (fun a d => a * 10 + d)%N ds acc.
Proof.
  revert acc. induction s as [|c s IH]; intros acc; cbn [base10_loop]; unfold chars in *.
  - split; [intros [= <-]; exists []; repeat split; constructor|intros (ds & H & _ & ->); inversion H; reflexivity].
  - destruct (is_digit c) eqn:E.
    + rewrite IH. apply is_digit_dchar in E as [Hc Hl]. split.
      * intros (ds & H1 & H2 & ->). exists ((byte c - 48)%N :: ds). split; [cbn; constructor; auto|]. split; [constructor; auto|reflexivity].
      * intros (ds & H1 & H2 & ->). inversion H1 as [|? d ? ds' Hd H1']; subst. inversion H2; subst.
        rewrite (dchar_fun _ _ _ Hd Hc) in *. exists ds'. auto.
    + split; [discriminate|]. intros (ds & H1 & H2 & _). inversion H1 as [|? d ? ds' Hd H1']; subst. inversion H2; subst.
      apply dchar_10 in Hd; [|assumption]. destruct Hd; congruence.
Qed.
Lemma base16_loop_spec all s acc n : base16_loop all s acc = Ok n <->
  exists ds, Forall2 dchar (chars s) ds /\ Forall (fun d => (d < 16)%N) ds /\ n = fold_left (fun a d => a * 16 + d)%N ds acc.
Proof.
  revert acc. induction s as [|c s IH]; intros acc; cbn [base16_loop]; unfold chars in *.
  - split; [intros [= <-]; exists []; repeat split; constructor|intros (ds & H & _ & ->); inversion H; reflexivity].
  - destruct (is_hex c) eqn:E.
    + rewrite IH. apply is_hex_dchar in E as [Hc Hl]. split.
      * intros (ds & H1 & H2 & ->). exists (hex_digit_value c :: ds). split; [cbn; constructor; auto|]. split; [constructor; auto|reflexivity].
      * intros (ds & H1 & H2 & ->). inversion H1 as [|? d ? ds' Hd H1']; subst. inversion H2; subst.
        rewrite (dchar_fun _ _ _ Hd Hc) in *. exists ds'. auto.
    + split; [discriminate|]. intros (ds & H1 & H2 & _). inversion H1 as [|? d ? ds' Hd H1']; subst. inversion H2; subst.
      apply dchar_16 in Hd; [|assumption]. destruct Hd; congruence.
Qed.
Lemma chars_length s : List.length (chars s) = String.length s.
Proof. unfold chars. induction s; cbn; congruence. Qed.
Lemma Base10_spec s n : Base10StringToByte s = Ok n <-> dec_byte s n.
Proof.
  unfold Base10StringToByte, dec_byte. destruct (String.eqb_spec s "") as [->|Hne].
  { split; [discriminate|]. intros (H & _). now apply Reads_nonempty in H. }
  destruct (Nat.ltb_spec 3 (String.length s)) as [Hl|Hl]; cbn [orb].
  { split; [discriminate|]. lia. }
  rewrite Reads_digits. destruct (base10_loop s s 0%N) as [m|k m|w] eqn:E; cbn [bind].
  - pose proof E as E'. apply base10_loop_spec in E as (ds & H1 & H2 & Hm).
    destruct (N.ltb_spec 255 m) as [Hb|Hb].
    + split; [discriminate|]. intros ((ds' & H1' & _ & _ & <-) & Hn & _).
      rewrite (Forall2_fun _ _ _ _ dchar_fun H1' H1) in *. unfold of_digits in Hn. lia.
    + split.
      * intros [= <-]. split; [exists ds; split; [exact H1|]; split; [intros ->; inversion H1; destruct s; [congruence|discriminate]|]; split; [exact H2|now symmetry]|lia].
      * intros ((ds' & H1' & _ & _ & <-) & Hn & _). rewrite (Forall2_fun _ _ _ _ dchar_fun H1' H1) in *. now rewrite Hm.
  - split; [discriminate|]. intros ((ds & H1 & _ & H3 & Hn) & _).
    assert (base10_loop s s 0%N = Ok n) as E' by (apply base10_loop_spec; exists ds; auto). congruence.
  - split; [discriminate|]. intros ((ds & H1 & _ & H3 & Hn) & _).
    assert (base10_loop s s 0%N = Ok n) as E' by (apply base10_loop_spec; exists ds; auto). congruence.
Qed.
Lemma Forall2_length {A B} (P : A -> B -> Prop) l m : Forall2 P l m -> List.length l = List.length m.
Proof. induction 1; cbn; congruence. Qed.
Lemma Base16_spec s n : Base16StringToByte s = Ok n <-> hex_byte s n.
Proof.
  unfold Base16StringToByte, hex_byte. destruct (String.eqb_spec s "") as [->|Hne].
  { split; [discriminate|]. intros (H & _). now apply Reads_nonempty in H. }
  destruct (Nat.ltb_spec 2 (String.length s)) as [Hl|Hl]; cbn [orb].
  { split; [discriminate|]. lia. }
  assert (forall ds, Forall2 dchar (chars s) ds -> Forall (fun d => (d < 16)%N) ds -> (of_digits 16 ds < 256)%N) as Hsmall.
  { intros ds H1 H2. apply of_digits_bound in H2; [|lia]. apply Forall2_length in H1. rewrite chars_length in H1.
    eapply N.lt_le_trans; [exact H2|]. change 256%N with (16 ^ 2)%N. apply N.pow_le_mono_r; lia. }
  rewrite Reads_digits. destruct (base16_loop s s 0%N) as [m|k m|w] eqn:E; cbn [bind].
  - pose proof E as E'. apply base16_loop_spec in E as (ds & H1 & H2 & Hm).
    change (fold_left (fun a d => a * 16 + d)%N ds 0%N) with (of_digits 16 ds) in Hm. pose proof (Hsmall ds H1 H2) as Hs.
    rewrite N.mod_small by lia. split.
    + intros [= <-]. split; [exists ds; split; [exact H1|]; split; [intros ->; inversion H1; destruct s; [congruence|discriminate]|]; split; [exact H2|now symmetry]|lia].
    + intros ((ds' & H1' & _ & _ & <-) & _). rewrite (Forall2_fun _ _ _ _ dchar_fun H1' H1) in *. now rewrite Hm.
  - split; [discriminate|]. intros ((ds & H1 & _ & H3 & Hn) & _).
    assert (base16_loop s s 0%N = Ok n) as E' by (apply base16_loop_spec; exists ds; auto). congruence.
  - split; [discriminate|]. intros ((ds & H1 & _ & H3 & Hn) & _).
    assert (base16_loop s s 0%N = Ok n) as E' by (apply base16_loop_spec; exists ds; auto). congruence.
Qed.
Lemma hex_byte_small s n : hex_byte s n -> (n < 256)%N.
Proof.
  intros [H Hl]. apply Reads_digits in H as (ds & H1 & _ & H2 & <-). apply of_digits_bound in H2; [|lia].
  apply Forall2_length in H1. rewrite chars_length in H1.
  eapply N.lt_le_trans; [exact H2|]. change 256%N with (16 ^ 2)%N. apply N.pow_le_mono_r; lia.
Qed.

(** * Bit sets *)
Lemma lor_low8 a b : (b < 256)%N -> N.lor (N.shiftl a 8) b = (a * 256 + b)%N.
Proof.
  intros Hb. rewrite N.shiftl_mul_pow2. change (2 ^ 8)%N with 256%N.
  assert (N.land (a * 256) b = 0)%N as Hl.
  { apply N.bits_inj. intros i. rewrite N.land_spec, N.bits_0. destruct (N.lt_ge_cases i 8) as [Hi|Hi].
    - change 256%N with (2 ^ 8)%N. rewrite N.mul_pow2_bits_low by exact Hi. reflexivity.
    - destruct (N.eq_dec b 0) as [->|Hb0]; [rewrite N.bits_0; apply andb_false_r|].
      rewrite (N.bits_above_log2 b); [apply andb_false_r|]. apply N.lt_le_trans with 8%N; [|exact Hi].
      apply N.log2_lt_pow2; [lia|]. exact Hb. }
  rewrite <- N.lxor_lor by exact Hl. now rewrite N.add_nocarry_lxor.
Qed.
Lemma bitset_push_spec n bits b k : (b < 256)%N -> (bits < 2 ^ k)%N -> (k + 8 <= n)%N ->
  bitset_push n bits b = (bits * 256 + b)%N.
Proof.
  intros Hb Hbits Hk. unfold bitset_push. rewrite N.mod_small; [now apply lor_low8|].
  rewrite N.shiftl_mul_pow2. apply N.lt_le_trans with (2 ^ k * 2 ^ 8)%N; [nia|].
  rewrite <- N.pow_add_r. apply N.pow_le_mono_r; lia.
Qed.
Lemma number_bound bs acc k : (acc < 2 ^ k)%N -> Forall (fun b => (b < 256)%N) bs ->
  (number acc bs < 2 ^ (k + 8 * N.of_nat (List.length bs)))%N.
Proof.
  revert acc k. induction bs as [|b bs IH]; intros acc k Ha H; cbn [number List.length].
  - rewrite N.mul_0_r, N.add_0_r. exact Ha.
  - inversion H; subst. replace (k + 8 * N.of_nat (S (List.length bs)))%N with ((k + 8) + 8 * N.of_nat (List.length bs))%N by lia.
    apply IH; [|assumption]. rewrite N.pow_add_r. change (2 ^ 8)%N with 256%N. nia.
Qed.
Lemma push_bytes_spec n conv (P : string -> N -> Prop) ss bits v k :
  (forall s b, conv s = Ok b <-> P s b) -> (forall s b, P s b -> (b < 256)%N) ->
  (bits < 2 ^ k)%N -> (k + 8 * N.of_nat (List.length ss) <= n)%N ->
  (push_bytes n conv ss bits = Ok v <-> exists ns, Forall2 P ss ns /\ v = number bits ns).
Proof.
  intros HP Hs. revert bits k. induction ss as [|s ss IH]; intros bits k Hb Hk; cbn [push_bytes].
  - split; [intros [= <-]; exists []; split; constructor|intros (ns & H & ->); inversion H; reflexivity].
  - cbn [List.length] in Hk. destruct (conv s) as [b|? ?|?] eqn:E; cbn [bind].
    + pose proof E as E'. apply HP in E. pose proof (Hs _ _ E) as Hb256.
      rewrite (bitset_push_spec n bits b k Hb256 Hb) by lia.
      rewrite (IH _ (k + 8)%N); [|rewrite N.pow_add_r; change (2 ^ 8)%N with 256%N; nia|lia].
      split.
      * intros (ns & H & ->). exists (b :: ns). split; [constructor; auto|reflexivity].
      * intros (ns & H & ->). inversion H as [|? b' ? ns' Hb' H']; subst. apply HP in Hb'. rewrite E' in Hb'. injection Hb' as <-.
        exists ns'. auto.
    + split; [discriminate|]. intros (ns & H & _). inversion H as [|? b' ? ns' Hb' H']; subst. apply HP in Hb'. congruence.
    + split; [discriminate|]. intros (ns & H & _). inversion H as [|? b' ? ns' Hb' H']; subst. apply HP in Hb'. congruence.
Qed.
Lemma of_digits_cons b d ds : of_digits b (d :: ds) = (d * b ^ N.of_nat (List.length ds) + of_digits b ds)%N.
Proof.
  induction ds as [|x ds IH] using rev_ind; [cbn; lia|].
  rewrite app_comm_cons, !of_digits_snoc, IH, app_length. cbn [List.length].
  rewrite Nat.add_1_r, Nat2N.inj_succ, N.pow_succ_r'. lia.
Qed.
Lemma bits_string_spec n v : exists ds, Forall2 dchar (chars (bits_string n v)) ds /\ Forall (fun d => (d < 2)%N) ds /\
  List.length ds = n /\ of_digits 2 ds = (v mod 2 ^ N.of_nat n)%N.
Proof.
  induction n as [|n IH]; cbn [bits_string].
  - exists []. split; [constructor|]. split; [constructor|]. split; [reflexivity|]. cbn. now rewrite N.mod_1_r.
  - destruct IH as (ds & H1 & H2 & H3 & H4). exists (N.b2n (N.testbit v (N.of_nat n)) :: ds).
    split.
    { unfold chars. cbn [list_ascii_of_string]. constructor; [|exact H1]. destruct (N.testbit v (N.of_nat n)).
      - apply (dchar_digit "1"). unfold between. cbn. lia.
      - apply (dchar_digit "0"). unfold between. cbn. lia. }
    split; [constructor; [destruct (N.testbit v (N.of_nat n)); cbn; lia|exact H2]|].
    split; [cbn; congruence|]. rewrite of_digits_cons, H3, H4, Nat2N.inj_succ, N.pow_succ_r'.
    rewrite (N.mul_comm 2). rewrite N.mod_mul_r by (try apply N.pow_nonzero; lia).
    rewrite N.testbit_spec'. lia.
Qed.
Lemma bits_string_Reads n v : (0 < n)%nat -> (v < 2 ^ N.of_nat n)%N -> Reads 2 (bits_string n v) v.
Proof.
  intros Hn Hv. destruct (bits_string_spec n v) as (ds & H1 & H2 & H3 & H4). apply Reads_digits. exists ds.
  split; [exact H1|]. split; [intros ->; cbn in H3; lia|]. split; [exact H2|]. now rewrite H4, N.mod_small.
Qed.
Lemma bits_string_Reads_mod n v : (0 < n)%nat -> Reads 2 (bits_string n v) (v mod 2 ^ N.of_nat n).
Proof.
  intros Hn. destruct (bits_string_spec n v) as (ds & H1 & H2 & H3 & H4). apply Reads_digits. exists ds.
  split; [exact H1|]. split; [intros ->; cbn in H3; lia|]. auto.
Qed.

(** * Addresses *)
Lemma Forall2_imp_r {A B} (P : A -> B -> Prop) (Q : B -> Prop) l m : (forall a b, P a b -> Q b) -> Forall2 P l m -> Forall Q m.
Proof. intros H. induction 1; constructor; eauto. Qed.
Lemma Reads_only b s n c : Reads b s n -> In c (chars s) -> (48 <= N_of_ascii c <= 122)%N /\ exists d, dchar c d.
Proof.
  intros H Hc. apply Reads_digits in H as (ds & H1 & _). revert Hc. induction H1 as [|x d l ds Hx H IH]; [intros []|].
  intros [<-|Hc]; [|auto]. split; [eapply dchar_code; eauto|eauto].
Qed.
Lemma addr_bytes_spec (c : ascii) (k : nat) n conv (P : string -> N -> Prop) addr v :
  (forall s b, conv s = Ok b <-> P s b) -> (forall s b, P s b -> (b < 256)%N) ->
  (forall s b, P s b -> ~ In c (chars s)) -> (0 < k)%nat -> n = (8 * N.of_nat k)%N ->
  ((List.length (split_char c addr) = k /\ push_bytes n conv (split_char c addr) 0 = Ok v) <->
   (exists ss ns, Forall2 P ss ns /\ List.length ss = k /\ addr = String.concat (str1 c) ss /\ v = number 0 ns)).
Proof.
  intros HP Hsmall Hsep Hk ->.
  assert (forall ss u, List.length ss = k -> push_bytes (8 * N.of_nat k) conv ss 0 = Ok u <-> exists ns, Forall2 P ss ns /\ u = number 0 ns) as Hpush.
  { intros ss u Hl. apply (push_bytes_spec _ _ P ss 0 u 0); [exact HP|exact Hsmall|lia|rewrite Hl; lia]. }
  split.
  - intros [Hl E]. apply Hpush in E as (ns & H & ->); [|exact Hl].
    exists (split_char c addr), ns. split; [exact H|]. split; [exact Hl|]. split; [symmetry; apply concat_split|reflexivity].
  - intros (ss & ns & H & Hss & -> & ->).
    assert (split_char c (String.concat (str1 c) ss) = ss) as ->.
    { apply split_concat; [intros ->; cbn in Hss; lia|]. intros s Hs.
      clear - Hsep H Hs. induction H as [|x b ss ns Hx H IH]; [destruct Hs|]. destruct Hs as [<-|Hs]; eauto. }
    split; [exact Hss|]. apply Hpush; eauto.
Qed.
Lemma c_str_spec s : up_to_nul s (c_str s).
Proof.
  unfold up_to_nul, chars. induction s as [|c s [IH1 IH2]]; cbn [c_str].
  - split; [intros []|now left].
  - destruct (Ascii.eqb_spec c NUL) as [->|Hc].
    + split; [intros []|right; now exists s].
    + split; [intros [H|H]; auto|]. destruct IH2 as [E|[u E]]; [left; congruence|right; exists u]. cbn [append]. now rewrite <- E.
Qed.
Lemma up_to_nul_c_str s t : up_to_nul s t -> t = c_str s.
Proof.
  unfold up_to_nul, chars. intros [H [->|[u ->]]]; induction t as [|c t IH]; try reflexivity.
  - cbn [c_str]. cbn in H. destruct (Ascii.eqb_spec c NUL) as [->|Hc]; [tauto|]. f_equal. tauto.
  - cbn [c_str append]. cbn in H. destruct (Ascii.eqb_spec c NUL) as [->|Hc]; [tauto|]. f_equal. tauto.
Qed.
Lemma AnyByteString_spec n s bits k : (bits < 2 ^ k)%N -> (k + 8 * N.of_nat (String.length s) <= n)%N ->
  AnyByteStringToBitset n s bits = number bits (map N_of_ascii (chars s)).
Proof.
  revert bits k. induction s as [|c s IH]; intros bits k Hb Hk; [reflexivity|]. cbn [String.length] in Hk.
  unfold chars in *. cbn [AnyByteStringToBitset map number list_ascii_of_string].
  assert (byte c < 256)%N as Hc by (unfold byte; apply N_ascii_bounded).
  rewrite (bitset_push_spec n bits (byte c) k Hc Hb) by lia.
  apply (IH _ (k + 8)%N); [|lia]. rewrite N.pow_add_r. change (2 ^ 8)%N with 256%N. nia.
Qed.
Lemma dec_byte_nodot s b : dec_byte s b -> ~ In "."%char (chars s).
Proof. intros [H _] Hc. apply (Reads_only _ _ _ _ H) in Hc as [Hc _]. cbn in Hc. lia. Qed.
Lemma hex_byte_nocolon s b : hex_byte s b -> ~ In ":"%char (chars s).
Proof.
  intros [H _] Hc. apply (Reads_only _ _ _ _ H) in Hc as [_ [d Hd]]. inversion Hd; unfold between in *; cbn in *; lia.
Qed.
Lemma dec_byte_small s b : dec_byte s b -> (b < 256)%N.
Proof. intros (_ & H & _). lia. Qed.
(** The bit string computed for an address denotes the address. *)
Lemma address_bits pton ty addr : pton_ok pton ->
  (forall n, Address pton ty addr n <->
     exists bits, (if String.eqb ty "ipv4" then Ipv4StringToByteString addr
                   else if String.eqb ty "ipv6" then Ipv6StringToByteString pton addr
                   else if String.eqb ty "mac" then MacStringToByteString addr
                   else Err InvalidArgument "Invalid network identifier") = Ok bits /\ Reads 2 bits n).
Proof.
  intros Hp n.
  assert (forall k ns, Forall (fun b => (b < 256)%N) ns -> List.length ns = k -> (number 0 ns < 2 ^ (8 * N.of_nat k))%N) as Hnum.
  { intros k ns H <-. exact (number_bound ns 0 0 ltac:(lia) H). }
  destruct (String.eqb_spec ty "ipv4") as [->|H4]; [|destruct (String.eqb_spec ty "ipv6") as [->|H6]; [|destruct (String.eqb_spec ty "mac") as [->|Hm]]].
  - pose proof (fun v => addr_bytes_spec "." 4 32 Base10StringToByte dec_byte addr v Base10_spec dec_byte_small dec_byte_nodot ltac:(lia) eq_refl) as Hspec.
    unfold Ipv4StringToByteString. split.
    + intros H. inversion H as [ss ns HF Hl| |]; subst. destruct (proj2 (Hspec (number 0 ns))) as [E1 E2]; [eauto 6|].
      change (String.concat (str1 ".") ss) with (String.concat "." ss) in *.
      rewrite E1, E2. cbn [Nat.eqb negb bind]. eexists. split; [reflexivity|]. apply bits_string_Reads; [lia|].
      apply (Hnum 4%nat); [eapply Forall2_imp_r; [|exact HF]; apply dec_byte_small|rewrite <- Hl; symmetry; eapply Forall2_length; eauto].
    + intros (bits & E & HR). destruct (Nat.eqb_spec (List.length (split_char "." addr)) 4) as [Hl|Hl]; [|discriminate].
      cbn [negb] in E. destruct (push_bytes 32 Base10StringToByte (split_char "." addr) 0) as [u|? ?|?] eqn:Eu; try discriminate.
      cbn [bind] in E. apply Ok_inj in E; subst. destruct (proj1 (Hspec u)) as (ss & ns & HF & Hss & -> & ->); [auto|].
      assert (n = number 0 ns) as ->; [|now constructor].
      eapply Reads_fun; [exact HR|]. apply bits_string_Reads; [lia|].
      apply (Hnum 4%nat); [eapply Forall2_imp_r; [|exact HF]; apply dec_byte_small|rewrite <- Hss; symmetry; eapply Forall2_length; eauto].
  - unfold Ipv6StringToByteString. split.
    + intros H. inversion H as [| |s t bytes Hu E]; subst. apply up_to_nul_c_str in Hu as ->. rewrite E.
      pose proof (Hp _ _ E) as Hl. eexists. split; [reflexivity|].
      rewrite (AnyByteString_spec 128 bytes 0 0) by (rewrite ?Hl; cbn; lia). apply bits_string_Reads; [lia|].
      apply (Hnum 16%nat); [|rewrite map_length, chars_length; exact Hl]. apply Forall_forall. intros x Hx.
      apply in_map_iff in Hx as (c & <- & _). apply N_ascii_bounded.
    + intros (bits & E & HR). destruct (pton (c_str addr)) as [bytes|] eqn:Eb; [|discriminate]. apply Ok_inj in E; subst.
      pose proof (Hp _ _ Eb) as Hl. rewrite (AnyByteString_spec 128 bytes 0 0) in HR by (rewrite ?Hl; cbn; lia).
      assert (n = number 0 (map N_of_ascii (chars bytes))) as ->; [|econstructor; [apply c_str_spec|exact Eb]].
      eapply Reads_fun; [exact HR|]. apply bits_string_Reads; [lia|].
      apply (Hnum 16%nat); [|rewrite map_length, chars_length; exact Hl]. apply Forall_forall. intros x Hx.
      apply in_map_iff in Hx as (c & <- & _). apply N_ascii_bounded.
  - pose proof (fun v => addr_bytes_spec ":" 6 48 Base16StringToByte hex_byte addr v Base16_spec hex_byte_small hex_byte_nocolon ltac:(lia) eq_refl) as Hspec.
    unfold MacStringToByteString. split.
    + intros H. inversion H as [|ss ns HF Hl|]; subst. destruct (proj2 (Hspec (number 0 ns))) as [E1 E2]; [eauto 6|].
      change (String.concat (str1 ":") ss) with (String.concat ":" ss) in *.
      rewrite E1, E2. cbn [Nat.eqb negb bind]. eexists. split; [reflexivity|]. apply bits_string_Reads; [lia|].
      apply (Hnum 6%nat); [eapply Forall2_imp_r; [|exact HF]; apply hex_byte_small|rewrite <- Hl; symmetry; eapply Forall2_length; eauto].
    + intros (bits & E & HR). destruct (Nat.eqb_spec (List.length (split_char ":" addr)) 6) as [Hl|Hl]; [|discriminate].
      cbn [negb] in E. destruct (push_bytes 48 Base16StringToByte (split_char ":" addr) 0) as [u|? ?|?] eqn:Eu; try discriminate.
      cbn [bind] in E. apply Ok_inj in E; subst. destruct (proj1 (Hspec u)) as (ss & ns & HF & Hss & -> & ->); [auto|].
      assert (n = number 0 ns) as ->; [|now constructor].
      eapply Reads_fun; [exact HR|]. apply bits_string_Reads; [lia|].
      apply (Hnum 6%nat); [eapply Forall2_imp_r; [|exact HF]; apply hex_byte_small|rewrite <- Hss; symmetry; eapply Forall2_length; eauto].
  - split; [intros H; inversion H; congruence|intros (bits & E & _); discriminate].
Qed.

(** * Leaf constructors of the tree *)
Lemma MakeNetworkAddress_spec pton ty addr s e x : pton_ok pton ->
  (MakeNetworkAddressIntegerConstant pton ty addr s e = Ok x <->
   exists n d, Address pton ty addr n /\ Decimal d n /\ x = EInt (at_ s e) d).
Proof.
  intros Hp. unfold MakeNetworkAddressIntegerConstant.
  pose proof (address_bits pton ty addr Hp) as Hb. set (bits := if String.eqb ty "ipv4" then _ else _) in *.
  split.
  - intros H. destruct bits as [b|? ?|?] eqn:E; try discriminate. cbn [bind] in H.
    assert (exists n, Reads 2 b n) as [n Hn].
    { unfold bits in E. destruct (String.eqb ty "ipv4"); [|destruct (String.eqb ty "ipv6"); [|destruct (String.eqb ty "mac"); [|discriminate]]].
      - unfold Ipv4StringToByteString in E. destruct (negb _); [discriminate|].
        destruct (push_bytes _ _ _ _) as [u|? ?|?]; try discriminate. apply Ok_inj in E; subst. eexists. apply (bits_string_Reads_mod 32). lia.
      - unfold Ipv6StringToByteString in E. destruct (pton _); [|discriminate]. apply Ok_inj in E; subst. eexists. apply (bits_string_Reads_mod 128). lia.
      - unfold MacStringToByteString in E. destruct (negb _); [discriminate|].
        destruct (push_bytes _ _ _ _) as [u|? ?|?]; try discriminate. apply Ok_inj in E; subst. eexists. apply (bits_string_Reads_mod 48). lia. }
    unfold ConvertNumeral in H. cbn [t_kind t_text] in H. rewrite (mpz_set_str_Reads 2 b n Hn) in H. cbn [bind] in H. apply Ok_inj in H; subst.
    exists n, (dec (Z.of_N n)). split; [apply Hb; eauto|]. split; [now apply dec_Decimal|reflexivity].
  - intros (n & d & Ha & Hd & ->). apply Hb in Ha as (b & E & Hn). rewrite E. cbn [bind].
    unfold ConvertNumeral. cbn [t_kind t_text]. rewrite (mpz_set_str_Reads 2 b n Hn). cbn [bind].
    apply dec_Decimal in Hd as ->. reflexivity.
Qed.
Lemma MakeInteger_spec t b x : base (t_kind t) b -> numeral_text t ->
  (MakeIntegerConstant t = Ok x <->
   exists n s, Reads b (t_text t) n /\ Decimal s n /\ x = EInt (at_ (t_start t) (t_end t)) s).
Proof.
  intros Hb Ht. assert (exists n, Reads b (t_text t) n) as [n Hn].
  { unfold numeral_text in Ht. destruct Hb; exact Ht. }
  assert (MakeIntegerConstant t = Ok (EInt (at_ (t_start t) (t_end t)) (dec (Z.of_N n)))) as E.
  { unfold MakeIntegerConstant, ConvertNumeral. destruct Hb; rewrite (mpz_set_str_Reads _ _ _ Hn); reflexivity. }
  rewrite E. split.
  - intros [= <-]. exists n, (dec (Z.of_N n)). split; [exact Hn|]. split; [now apply dec_Decimal|reflexivity].
  - intros (n' & s & Hn' & Hs & ->). rewrite (Reads_fun _ _ _ _ Hn' Hn) in *. apply dec_Decimal in Hs as ->. reflexivity.
Qed.

