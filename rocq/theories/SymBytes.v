(** Byte strings made from the text of solver values. *)
From Coq Require Import String Ascii List ZArith NArith Bool Lia Arith.
From Verif Require Import Base Num Token Ast Info Interpreter Z3 Symbolic SpecLexer SpecGrammar NumFacts SpecSemantics SpecSymbolic EntryFacts.
Import ListNotations.
Open Scope string_scope.

Lemma byte_of n : (n < 256)%N -> byte (ascii_of_N n) = n.
Proof. intros H. unfold byte. now rewrite N_ascii_embedding. Qed.
Lemma chars_app a b : chars (a ++ b) = (chars a ++ chars b)%list.
Proof. unfold chars. induction a; cbn; congruence. Qed.
(** * Hexadecimal *)
Fixpoint hexv (acc : N) (s : string) : N :=
  match s with EmptyString => acc | String c s' => hexv (acc * 16 + hex_value c) s' end.
Lemma hex_small c : (hex_value c < 16)%N.
Proof. unfold hex_value. destruct (digit_value c) as [d|]; [destruct (N.ltb_spec d 16)|]; lia. Qed.
Lemma hex_bytes n : forall s acc, String.length s = (2 * n)%nat -> be_value acc (HexStringToBytes s) = hexv acc s.
Proof.
  induction n as [|n IH]; intros s acc H; [destruct s; [reflexivity|discriminate]|].
  destruct s as [|a [|b s]]; [discriminate|cbn in H; lia|]. cbn [HexStringToBytes be_value hexv]. pose proof (hex_small a). pose proof (hex_small b). rewrite byte_of by lia. rewrite IH by (cbn in H; lia). f_equal. lia.
Qed.
Lemma strip_hexv s : hexv 0 (strip_zero_digits s) = hexv 0 s.
Proof. induction s as [|c s IH]; [reflexivity|]. cbn. destruct (Ascii.eqb_spec c "0") as [->|]; [exact IH|reflexivity]. Qed.
Lemma strip_first s : strip_zero_digits s = "" \/ exists c r, strip_zero_digits s = String c r /\ c <> "0"%char /\ In c (chars s).
Proof.
  induction s as [|c s IH]; [now left|]. cbn. destruct (Ascii.eqb_spec c "0") as [->|Hc].
  - destruct IH as [E|(d & r & E & Hd & Hi)]; [now left|right; exists d, r; auto].
  - right. exists c, s. auto.
Qed.
Definition hexdigits (s : string) : Prop := forall c, In c (chars s) -> exists d, (d < 16)%N /\ c = digit_char d.
Lemma hex_digit d : (d < 16)%N -> hex_value (digit_char d) = d.
Proof. intros H. unfold hex_value. rewrite (proj2 (digit_value_dchar _ d)); [|apply digit_char_dchar; lia]. destruct (N.ltb_spec d 16); [reflexivity|lia]. Qed.
Lemma hex_string s : hexdigits s -> be_value 0 (HexstringToP4RuntimeBytestring s) = hexv 0 s /\
  HexstringToP4RuntimeBytestring s <> "" /\ (HexstringToP4RuntimeBytestring s = str1 NUL \/ forall r, HexstringToP4RuntimeBytestring s <> String NUL r).
Proof.
  intros Hs. rewrite <- strip_hexv. unfold HexstringToP4RuntimeBytestring. destruct (strip_first s) as [E|(c & r & E & Hc & Hi)]; rewrite E.
  - cbn. split; [reflexivity|split; [discriminate|now left]].
  - destruct (Hs _ Hi) as (d & Hd & Ed). assert (hex_value c <> 0%N) as Hv. { rewrite Ed, hex_digit by exact Hd. intros ->. apply Hc. now rewrite Ed. }
    change (String c r =? "") with false. cbn iota. destruct (Nat.odd (String.length (String c r))) eqn:Eo.
    + apply Nat.odd_spec in Eo as [k Ek]. rewrite hex_bytes with (n := S k) by (cbn in *; lia). split; [reflexivity|]. cbn [HexStringToBytes]. split; [discriminate|right].
      intros x Ex. assert (ascii_of_N (hex_value "0" * 16 + hex_value c) = NUL) as Ex' by congruence. clear Ex. apply Hv. apply (f_equal byte) in Ex' as E0. change (byte NUL) with 0%N in E0. pose proof (hex_small c). change (hex_value "0") with 0%N in E0. rewrite byte_of in E0 by lia. lia.
    + assert (Nat.even (String.length (String c r)) = true) as Ee by (rewrite <- Nat.negb_odd, Eo; reflexivity). apply Nat.even_spec in Ee as [k Ek]. rewrite hex_bytes with (n := k) by exact Ek. split; [reflexivity|].
      destruct r as [|b r]; [cbn in Ek; lia|]. cbn [HexStringToBytes]. split; [discriminate|right]. intros x Ex. injection Ex as Ex _. apply Hv.
      assert (byte (ascii_of_N (hex_value c * 16 + hex_value b)) = 0%N) as E0 by (rewrite Ex; reflexivity). pose proof (hex_small c). pose proof (hex_small b). rewrite byte_of in E0 by lia. lia.
Qed.
Lemma hexv_app a b acc : hexv acc (a ++ b) = hexv (hexv acc a) b.
Proof. revert acc. induction a; intros acc; cbn; auto. Qed.
Lemma hexv_zeros n : hexv 0 (repeat_char n "0") = 0%N.
Proof. induction n; [reflexivity|]. cbn. exact IHn. Qed.
Lemma hexv_list l acc : Forall (fun d => (d < 16)%N) l -> hexv acc (string_of_list (map digit_char l)) = fold_left (fun a d => a * 16 + d)%N l acc.
Proof. revert acc. induction l as [|d l IH]; intros acc H; [reflexivity|]. inversion H; subst. cbn [map string_of_list hexv fold_left]. rewrite hex_digit by assumption. now apply IH. Qed.
Lemma hexv_print n k : hexv 0 (pad0 k (print_N 16 n)) = n.
Proof.
  unfold pad0. rewrite hexv_app, hexv_zeros. destruct (digits_of_spec 16 n ltac:(lia)) as (H1 & _ & H3). unfold print_N. rewrite hexv_list by exact H1. exact H3.
Qed.
Lemma zeros_in n c : In c (chars (repeat_char n "0")) -> c = "0"%char.
Proof. induction n; cbn; intros []; auto. Qed.
Lemma hexdigits_print n k : hexdigits (pad0 k (print_N 16 n)).
Proof.
  intros c. unfold pad0. rewrite chars_app, in_app_iff. intros [H|H].
  - apply zeros_in in H as ->. exists 0%N. split; [lia|reflexivity].
  - unfold print_N in H. rewrite string_of_list_chars in H. apply in_map_iff in H as (d & <- & Hd). destruct (digits_of_spec 16 n ltac:(lia)) as (H1 & _). rewrite Forall_forall in H1. eauto.
Qed.

(** * Binary *)
Definition bit (c : ascii) : N := if Ascii.eqb c "1" then 1%N else 0%N.
Fixpoint bitv (acc : N) (s : string) : N :=
  match s with EmptyString => acc | String c s' => bitv (acc * 2 + bit c) s' end.
Lemma bit_small c : (bit c < 2)%N.
Proof. unfold bit. destruct (Ascii.eqb _ _); lia. Qed.
Lemma pow_small k : (k < 8)%N -> (2 ^ k <= 128)%N.
Proof. intros H. change 128%N with (2 ^ 7)%N. apply N.pow_le_mono_r; lia. Qed.
Lemma bits_seen s : forall X acc n k, (n < 8)%N -> (acc < 2 ^ n)%N -> (n + N.of_nat (String.length s) = 8 * k)%N ->
  be_value X (bits_loop s acc n true) = bitv (X * 2 ^ n + acc) s.
Proof.
  induction s as [|c s IH]; intros X acc n k Hn Ha Hk.
  - cbn [String.length N.of_nat] in Hk. assert (n = 0)%N as -> by lia. cbn in *. lia.
  - cbn [bits_loop bitv]. pose proof (pow_small n Hn). pose proof (bit_small c). rewrite N.mod_small by lia. change (if Ascii.eqb c "1" then 1%N else 0%N) with (bit c).
    cbn [String.length] in Hk. destruct (N.eqb_spec n 7) as [->|Hne].
    + cbn [orb]. cbn [be_value]. change (2 ^ 7)%N with 128%N in *. rewrite byte_of by lia. rewrite (IH _ 0%N 0%N (k - 1)%N) by lia. f_equal. lia.
    + rewrite (IH _ _ _ k); [|lia|rewrite N.add_1_r, N.pow_succ_r'; lia|lia]. f_equal. rewrite N.add_1_r, N.pow_succ_r'. lia.
Qed.
Lemma bits_unseen s : forall acc n k, (n < 8)%N -> (acc < 2 ^ n)%N -> (n + N.of_nat (String.length s) = 8 * k)%N ->
  be_value 0 (bits_loop s acc n false) = bitv acc s /\ forall r, bits_loop s acc n false <> String NUL r.
Proof.
  induction s as [|c s IH]; intros acc n k Hn Ha Hk.
  - cbn [String.length N.of_nat] in Hk. assert (n = 0)%N as -> by lia. cbn in *. split; [lia|discriminate].
  - cbn [bits_loop bitv]. pose proof (pow_small n Hn). pose proof (bit_small c). rewrite N.mod_small by lia. change (if Ascii.eqb c "1" then 1%N else 0%N) with (bit c).
    cbn [String.length] in Hk. destruct (N.eqb_spec n 7) as [->|Hne].
    + cbn [orb]. change (2 ^ 7)%N with 128%N in *. destruct (N.eqb_spec (acc * 2 + bit c) 0) as [E|E]; cbn [negb].
      * rewrite E. apply (IH 0%N 0%N (k - 1)%N); lia.
      * cbn [be_value]. rewrite byte_of by lia. rewrite (bits_seen s _ 0%N 0%N (k - 1)%N) by lia. split; [f_equal; lia|]. intros r Er. injection Er as Er _. apply E. rewrite <- (byte_of (acc * 2 + bit c)) by lia. now rewrite Er.
    + apply (IH _ _ k); [lia|rewrite N.add_1_r, N.pow_succ_r'; lia|lia].
Qed.
Lemma bitv_app a b acc : bitv acc (a ++ b) = bitv (bitv acc a) b.
Proof. revert acc. induction a; intros acc; cbn; auto. Qed.
Lemma bitv_zeros n : bitv 0 (repeat_char n "0") = 0%N.
Proof. induction n; [reflexivity|]. cbn. exact IHn. Qed.
Lemma bitv_bits n : forall acc v, bitv acc (bits_string n v) = (acc * 2 ^ N.of_nat n + v mod 2 ^ N.of_nat n)%N.
Proof.
  induction n as [|n IH]; intros acc v; [cbn; rewrite N.mod_1_r; lia|]. cbn [bits_string bitv]. rewrite IH.
  assert (bit (if N.testbit v (N.of_nat n) then "1" else "0") = N.b2n (N.testbit v (N.of_nat n))) as -> by (destruct (N.testbit v (N.of_nat n)); reflexivity).
  rewrite Nat2N.inj_succ, N.pow_succ_r'. set (p := (2 ^ N.of_nat n)%N). assert (0 < p)%N as Hp by (apply N.neq_0_lt_0, N.pow_nonzero; lia).
  rewrite (N.mul_comm 2 p). rewrite N.mod_mul_r by lia. rewrite N.testbit_spec' at 1. fold p. lia.
Qed.
Lemma bits_length n v : String.length (bits_string n v) = n.
Proof. induction n; cbn; auto. Qed.
Lemma zeros_length n c : String.length (repeat_char n c) = n.
Proof. induction n; cbn; auto. Qed.
Lemma app_length' a b : String.length (a ++ b) = (String.length a + String.length b)%nat.
Proof. induction a; cbn; auto. Qed.
Lemma bit_string w v : (0 < w)%Z -> (0 <= v < 2 ^ w)%Z ->
  let s := BitstringToP4RuntimeBytestring (bits_string (Z.to_nat w) (Z.to_N v)) w in
  be_value 0 s = Z.to_N v /\ s <> "" /\ (s = str1 NUL \/ forall r, s <> String NUL r).
Proof.
  intros Hw Hv. cbn zeta. unfold BitstringToP4RuntimeBytestring. set (b := bits_string (Z.to_nat w) (Z.to_N v)). set (padded := if negb (Z.rem w 8 =? 0)%Z then _ else _).
  assert (bitv 0 padded = Z.to_N v) as Hb.
  { assert (bitv 0 b = Z.to_N v) as Hb. { unfold b. rewrite bitv_bits, N.mod_small; [lia|]. rewrite Z_nat_N. apply N2Z.inj_lt. rewrite N2Z.inj_pow, !Z2N.id by lia. lia. }
    unfold padded. destruct (negb _); [|exact Hb]. now rewrite bitv_app, bitv_zeros. }
  assert (exists k, (N.of_nat (String.length padded) = 8 * k)%N) as [k Hk].
  { unfold padded. clear Hb. unfold b. rewrite Z.rem_mod_nonneg by lia. pose proof (Z.mod_pos_bound w 8 ltac:(lia)). pose proof (Z.div_mod w 8 ltac:(lia)).
    destruct (Z.eqb_spec (w mod 8) 0); cbn [negb]; [exists (Z.to_N (w / 8))|exists (Z.to_N (w / 8 + 1))]; rewrite ?app_length', ?zeros_length, bits_length; lia. }
  destruct (bits_unseen padded 0 0 k ltac:(lia) ltac:(cbn; lia) ltac:(lia)) as [H1 H2]. rewrite Hb in H1. destruct (String.eqb_spec (bits_loop padded 0 0 false) "") as [E|E].
  - rewrite E in H1. cbn in H1 |- *. split; [exact H1|]. split; [discriminate|now left].
  - split; [exact H1|]. split; [exact E|now right].
Qed.

(** * Both *)
Lemma unsigned_be s : unsigned s = Z.of_N (be_value 0 s).
Proof. unfold unsigned. now rewrite be_number. Qed.
Lemma value_bytes w v : (0 < w)%Z -> (0 <= v < 2 ^ w)%Z ->
  exists s, Z3BitvectorValueToP4RuntimeBytestring (bv_to_string w v) w = Ok s /\ canonical_bytes w s /\ unsigned s = v.
Proof.
  intros Hw Hv. unfold bv_to_string, Z3BitvectorValueToP4RuntimeBytestring. destruct (Z.eqb (w mod 4) 0); cbn [strip_prefix append Ascii.eqb Bool.eqb].
  - eexists. split; [reflexivity|]. destruct (hex_string _ (hexdigits_print (Z.to_N v) (Z.to_nat (w / 4)))) as (H1 & H2 & H3). rewrite hexv_print in H1.
    assert (unsigned (HexstringToP4RuntimeBytestring (pad0 (Z.to_nat (w / 4)) (print_N 16 (Z.to_N v)))) = v) as E by (rewrite unsigned_be, H1; lia).
    split; [|exact E]. split; [exact H2|split; [exact H3|]]. rewrite E. lia.
  - eexists. split; [reflexivity|]. destruct (bit_string w v Hw Hv) as (H1 & H2 & H3).
    assert (unsigned (BitstringToP4RuntimeBytestring (bits_string (Z.to_nat w) (Z.to_N v)) w) = v) as E by (rewrite unsigned_be, H1; lia).
    split; [|exact E]. split; [exact H2|split; [exact H3|]]. rewrite E. lia.
Qed.
(** Canonical byte strings are unique. *)
Lemma number_digits l acc : number acc l = fold_left (fun a d => a * 256 + d)%N l acc.
Proof. revert acc. induction l; intros acc; cbn; auto. Qed.
Lemma N_of_ascii_bound c : (N_of_ascii c < 256)%N.
Proof. destruct c as [[] [] [] [] [] [] [] []]; cbn; lia. Qed.
Lemma canonical_digits w s : canonical_bytes w s -> canonical (map N_of_ascii (chars s)).
Proof.
  intros (H1 & H2 & _). destruct s as [|c s]; [congruence|]. destruct H2 as [E|H2]; [rewrite E; now left|]. right. exists (N_of_ascii c), (map N_of_ascii (chars s)). split; [reflexivity|].
  intros E. apply (H2 s). f_equal. rewrite <- (ascii_N_embedding c), E. reflexivity.
Qed.
Lemma canonical_unique w w' s s' : canonical_bytes w s -> canonical_bytes w' s' -> unsigned s = unsigned s' -> s = s'.
Proof.
  intros H H' E. unfold unsigned in E. apply N2Z.inj in E. rewrite !number_digits in E. apply canonical_digits in H, H'.
  assert (forall x, Forall (fun d => (d < 256)%N) (map N_of_ascii (chars x))) as Hb. { intros x. apply Forall_forall. intros d Hd. apply in_map_iff in Hd as (c & <- & _). apply N_of_ascii_bound. }
  apply chars_inj. assert (map N_of_ascii (chars s) = map N_of_ascii (chars s')) as Em.
  { rewrite <- (digits_of_canonical 256 _ ltac:(lia) (Hb s) H), <- (digits_of_canonical 256 _ ltac:(lia) (Hb s') H'). unfold of_digits. now rewrite E. }
  apply (f_equal (map ascii_of_N)) in Em. rewrite !map_map in Em. rewrite !(map_ext _ (fun c => c) ascii_N_embedding) in Em. now rewrite !map_id in Em.
Qed.
