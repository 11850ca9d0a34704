(** The messages for address literals that are none. *)
From Coq Require Import String Ascii List ZArith NArith Bool Lia.
From Verif Require Import Base Num Token Ast Lexer AstConstructors SpecLexer SpecGrammar SpecAddress StrFacts NumFacts LiteralFacts.
Import ListNotations.
Open Scope string_scope.

Lemma digit10_iff c : is_digit c = true <-> digit10 c.
Proof. unfold is_digit, in_range, digit10, between, byte. lia. Qed.
Lemma digit16_iff c : is_hex c = true <-> digit16 c.
Proof. unfold is_hex, is_digit, in_range, digit16, between, byte. lia. Qed.
Lemma first_bad_cons digit c s x : first_bad digit (String c s) x <-> (~ digit c /\ x = c) \/ (digit c /\ first_bad digit s x).
Proof.
  split.
  - intros (a & b & E & Ha & Hx). destruct a as [|y a]; cbn in E; injection E as -> ->; [left; auto|right]. inversion Ha; subst. split; [assumption|]. exists a, b. auto.
  - intros [(H & ->)|(H & a & b & -> & Ha & Hx)]; [exists "", s; repeat split; [constructor|exact H]|]. exists (String c a), b. split; [reflexivity|]. split; [|exact Hx]. unfold chars. cbn. now constructor.
Qed.
Lemma first_bad_nil digit x : ~ first_bad digit "" x.
Proof. intros (a & b & E & _). destruct a; discriminate. Qed.
Lemma base10_loop_err all s : forall acc k m, base10_loop all s acc = Err k m <->
  k = InvalidArgument /\ exists c, first_bad digit10 s c /\ m = "Invalid character in base-10 string: '" ++ str1 c ++ "' in string '" ++ all ++ "'".
Proof.
  induction s as [|c s IH]; intros acc k m; cbn [base10_loop].
  - split; [discriminate|]. intros (_ & c & H & _). now apply first_bad_nil in H.
  - pose proof (digit10_iff c) as Hd. destruct (is_digit c).
    + rewrite IH. split; intros (-> & x & H & ->); (split; [reflexivity|]); exists x; (split; [|reflexivity]); [apply first_bad_cons; right; split; [now apply Hd|exact H]|].
      apply first_bad_cons in H as [(H & _)|(_ & H)]; [exfalso; apply H; now apply Hd|exact H].
    + assert (~ digit10 c) as Hn by (intros H; apply Hd in H; discriminate). split.
      * intros [= <- <-]. split; [reflexivity|]. exists c. split; [apply first_bad_cons; auto|reflexivity].
      * intros (-> & x & H & ->). apply first_bad_cons in H as [(_ & ->)|(H & _)]; [reflexivity|contradiction].
Qed.
Lemma base16_loop_err all s : forall acc k m, base16_loop all s acc = Err k m <->
  k = InvalidArgument /\ exists c, first_bad digit16 s c /\ m = "Invalid character in base16 string: '" ++ str1 c ++ "' in string '" ++ all ++ "'".
Proof.
  induction s as [|c s IH]; intros acc k m; cbn [base16_loop].
  - split; [discriminate|]. intros (_ & c & H & _). now apply first_bad_nil in H.
  - pose proof (digit16_iff c) as Hd. destruct (is_hex c).
    + rewrite IH. split; intros (-> & x & H & ->); (split; [reflexivity|]); exists x; (split; [|reflexivity]); [apply first_bad_cons; right; split; [now apply Hd|exact H]|].
      apply first_bad_cons in H as [(H & _)|(_ & H)]; [exfalso; apply H; now apply Hd|exact H].
    + assert (~ digit16 c) as Hn by (intros H; apply Hd in H; discriminate). split.
      * intros [= <- <-]. split; [reflexivity|]. exists c. split; [apply first_bad_cons; auto|reflexivity].
      * intros (-> & x & H & ->). apply first_bad_cons in H as [(_ & ->)|(H & _)]; [reflexivity|contradiction].
Qed.
Lemma loop_no_crash all s acc w : base10_loop all s acc <> Crash w /\ base16_loop all s acc <> Crash w.
Proof.
  split; revert acc; induction s as [|c s IH]; intros acc; cbn; try discriminate; [destruct (is_digit c)|destruct (is_hex c)]; auto; discriminate.
Qed.
Lemma length_test s n : (String.eqb s "" || Nat.ltb n (String.length s))%bool = true <-> ~ (1 <= String.length s <= n)%nat.
Proof.
  destruct (String.eqb_spec s "") as [->|Hne]; cbn [orb String.length]; [split; [lia|reflexivity]|]. assert (1 <= String.length s)%nat by (destruct s; cbn; [congruence|lia]).
  destruct (Nat.ltb_spec n (String.length s)); split; intros; try lia; try reflexivity; discriminate.
Qed.
Lemma slen_length s : dec (slen s) = length_text s.
Proof. reflexivity. Qed.
Lemma Reads10_loop s n : (1 <= String.length s)%nat -> (base10_loop s s 0 = Ok n <-> Reads 10 s n).
Proof.
  intros Hl. rewrite base10_loop_spec, Reads_digits. split.
  - intros (ds & H1 & H2 & ->). exists ds. split; [exact H1|]. split; [intros ->; inversion H1 as [Hc|]; destruct s; [cbn in Hl; lia|discriminate]|]. split; [exact H2|reflexivity].
  - intros (ds & H1 & _ & H2 & <-). exists ds. auto.
Qed.
Lemma Base10_err s k m : Base10StringToByte s = Err k m <-> k = InvalidArgument /\ not_dec_byte s m.
Proof.
  unfold Base10StringToByte. pose proof (length_test s 3) as Hl. destruct (_ || _)%bool.
  - assert (~ (1 <= String.length s <= 3)%nat) as Hn by now apply Hl. split.
    + intros [= <- <-]. split; [reflexivity|]. rewrite slen_length. now constructor.
    + intros (-> & H). inversion H; subst; try lia. reflexivity.
  - assert (1 <= String.length s <= 3)%nat as Hn by (destruct (Compare_dec.le_dec 1 (String.length s)); destruct (Compare_dec.le_dec (String.length s) 3); try lia; (assert (false = true) by (apply Hl; lia); discriminate)).
    destruct (base10_loop s s 0) as [n|k' m'|w] eqn:E; cbn [bind].
    + apply Reads10_loop in E; [|lia]. destruct (N.ltb_spec 255 n) as [Hb|Hb].
      * split; [intros [= <- <-]; split; [reflexivity|]; now apply nd_big|]. intros (-> & H). inversion H as [H1|c H1 H2|n' H1 H2 H3]; subst; [lia| |].
        -- exfalso. assert (base10_loop s s 0 = Err InvalidArgument ("Invalid character in base-10 string: '" ++ str1 c ++ "' in string '" ++ s ++ "'")) as Ee by (apply base10_loop_err; eauto).
           apply Reads10_loop in E; [|lia]. congruence.
        -- apply Reads10_loop in E; [|lia]. apply Reads10_loop in H2; [|lia]. rewrite H2 in E. now injection E as ->.
      * split; [discriminate|]. intros (_ & H). exfalso. inversion H as [H1|c H1 H2|n' H1 H2 H3]; subst; [lia| |].
        -- assert (base10_loop s s 0 = Err InvalidArgument ("Invalid character in base-10 string: '" ++ str1 c ++ "' in string '" ++ s ++ "'")) as Ee by (apply base10_loop_err; eauto).
           apply Reads10_loop in E; [|lia]. congruence.
        -- apply Reads10_loop in E; [|lia]. apply Reads10_loop in H2; [|lia]. rewrite H2 in E. injection E as ->. lia.
    + apply base10_loop_err in E as (-> & c & Hc & ->). split; [intros [= <- <-]; split; [reflexivity|]; now apply nd_char|].
      intros (-> & H). assert (base10_loop s s 0 = Err InvalidArgument ("Invalid character in base-10 string: '" ++ str1 c ++ "' in string '" ++ s ++ "'")) as Ee by (apply base10_loop_err; eauto).
      inversion H as [H1|c' H1 H2|n' H1 H2 H3]; subst; [lia| |].
      * assert (base10_loop s s 0 = Err InvalidArgument ("Invalid character in base-10 string: '" ++ str1 c' ++ "' in string '" ++ s ++ "'")) as Ee' by (apply base10_loop_err; eauto). rewrite Ee in Ee'. exact Ee'.
      * apply Reads10_loop in H2; [|lia]. congruence.
    + exfalso. exact (proj1 (loop_no_crash s s 0 w) E).
Qed.
Lemma Base16_err s k m : Base16StringToByte s = Err k m <-> k = InvalidArgument /\ not_hex_byte s m.
Proof.
  unfold Base16StringToByte. pose proof (length_test s 2) as Hl. destruct (_ || _)%bool.
  - assert (~ (1 <= String.length s <= 2)%nat) as Hn by now apply Hl. split.
    + intros [= <- <-]. split; [reflexivity|]. rewrite slen_length. now constructor.
    + intros (-> & H). inversion H; subst; try lia. reflexivity.
  - assert (1 <= String.length s <= 2)%nat as Hn by (destruct (Compare_dec.le_dec 1 (String.length s)); destruct (Compare_dec.le_dec (String.length s) 2); try lia; (assert (false = true) by (apply Hl; lia); discriminate)).
    destruct (base16_loop s s 0) as [n|k' m'|w] eqn:E; cbn [bind].
    + split; [discriminate|]. intros (_ & H). exfalso. inversion H as [H1|c H1 H2]; subst; [lia|].
      assert (base16_loop s s 0 = Err InvalidArgument ("Invalid character in base16 string: '" ++ str1 c ++ "' in string '" ++ s ++ "'")) as Ee by (apply base16_loop_err; eauto). congruence.
    + apply base16_loop_err in E as (-> & c & Hc & ->). split; [intros [= <- <-]; split; [reflexivity|]; now apply nh_char|].
      intros (-> & H). assert (base16_loop s s 0 = Err InvalidArgument ("Invalid character in base16 string: '" ++ str1 c ++ "' in string '" ++ s ++ "'")) as Ee by (apply base16_loop_err; eauto).
      inversion H as [H1|c' H1 H2]; subst; [lia|].
      assert (base16_loop s s 0 = Err InvalidArgument ("Invalid character in base16 string: '" ++ str1 c' ++ "' in string '" ++ s ++ "'")) as Ee' by (apply base16_loop_err; eauto). rewrite Ee in Ee'. exact Ee'.
    + exfalso. exact (proj2 (loop_no_crash s s 0 w) E).
Qed.
Lemma push_bytes_err n conv ss k m : forall bits, push_bytes n conv ss bits = Err k m <->
  exists a p b, ss = (a ++ p :: b)%list /\ (forall q, In q a -> exists v, conv q = Ok v) /\ conv p = Err k m.
Proof.
  induction ss as [|s ss IH]; intros bits; cbn [push_bytes].
  - split; [discriminate|]. intros (a & p & b & E & _). destruct a; discriminate.
  - destruct (conv s) as [v|k' m'|w] eqn:E; cbn [bind].
    + rewrite IH. split.
      * intros (a & p & b & -> & Ha & Hp). exists (s :: a), p, b. split; [reflexivity|]. split; [|exact Hp]. intros q [<-|Hq]; [eauto|auto].
      * intros (a & p & b & Es & Ha & Hp). destruct a as [|y a]; cbn in Es; injection Es as -> ->; [congruence|]. exists a, p, b. split; [reflexivity|]. split; [|exact Hp]. intros q Hq. apply Ha. now right.
    + split.
      * intros [= <- <-]. exists [], s, ss. split; [reflexivity|]. split; [intros q []|exact E].
      * intros (a & p & b & Es & Ha & Hp). destruct a as [|y a]; cbn in Es; injection Es as -> ->; [congruence|]. destruct (Ha y (or_introl eq_refl)) as [v Hv]. congruence.
    + split; [discriminate|]. intros (a & p & b & Es & Ha & Hp). destruct a as [|y a]; cbn in Es; injection Es as -> ->; [congruence|]. destruct (Ha y (or_introl eq_refl)) as [v Hv]. congruence.
Qed.
Lemma push_no_crash n conv ss w : (forall s, conv s <> Crash w) -> forall bits, push_bytes n conv ss bits <> Crash w.
Proof.
  intros H. induction ss as [|s ss IH]; intros bits; cbn [push_bytes]; [discriminate|]. destruct (conv s) as [v|k m|w'] eqn:E; cbn [bind]; [apply IH|discriminate|]. intros [= ->]. exact (H s E).
Qed.
Lemma Base_no_crash s w : Base10StringToByte s <> Crash w /\ Base16StringToByte s <> Crash w.
Proof.
  unfold Base10StringToByte, Base16StringToByte. split; (destruct (_ || _)%bool; [discriminate|]).
  - destruct (base10_loop s s 0) as [b|k m|w'] eqn:E; cbn [bind]; [destruct (N.ltb 255 b); discriminate|discriminate|]. destruct (proj1 (loop_no_crash s s 0 w') E).
  - destruct (base16_loop s s 0) as [b|k m|w'] eqn:E; cbn [bind]; [discriminate|discriminate|]. destruct (proj2 (loop_no_crash s s 0 w') E).
Qed.
Lemma parts_split c s ss : parts c s ss <-> ss = split_char c s.
Proof.
  split.
  - intros (Hn & -> & Hp). symmetry. now apply split_concat.
  - intros ->. split; [apply split_char_nonempty|]. split; [symmetry; apply concat_split|]. intros p Hp. now apply split_pieces in Hp.
Qed.
Lemma convert_bits w v s e : (0 < w)%N -> exists numeral, ConvertNumeral (mkTok BINARY (bits_string (N.to_nat w) v) s e) = Ok numeral.
Proof.
  intros Hw. eexists. unfold ConvertNumeral. cbn [t_kind t_text]. rewrite (mpz_set_str_Reads 2 _ _ (bits_string_Reads_mod (N.to_nat w) v ltac:(lia))). reflexivity.
Qed.
Lemma address_error_iff pton ty addr s e m : pton_ok pton -> (MakeNetworkAddressIntegerConstant pton ty addr s e = Err InvalidArgument m <-> address_error pton ty addr m).
Proof.
  intros _. unfold MakeNetworkAddressIntegerConstant. destruct (String.eqb_spec ty "ipv4") as [->|H4].
  { unfold Ipv4StringToByteString. destruct (Nat.eqb_spec (List.length (split_char "." addr)) 4) as [El|El]; cbn [negb bind].
    - destruct (push_bytes 32 Base10StringToByte (split_char "." addr) 0) as [v|k m'|w] eqn:E; cbn [bind].
      + destruct (convert_bits 32 v s e) as [d Hd]; [lia|]. change (N.to_nat 32) with 32%nat in Hd. rewrite Hd. cbn [bind]. split; [discriminate|]. intros H. exfalso. inversion H as [| |s' ss p m2 Hp Hl Hf Hm| | |]; subst; try congruence.
        * apply parts_split in H0. congruence.
        * apply parts_split in Hp. destruct Hf as (a & b & Es & Ha & _). assert (push_bytes 32 Base10StringToByte (split_char "." addr) 0 = Err InvalidArgument m) as Ee; [|congruence].
          apply push_bytes_err. exists a, p, b. split; [congruence|]. split; [intros q Hq; destruct (Ha q Hq) as [v' Hv]; exists v'; now apply Base10_spec|]. apply Base10_err. auto.
      + apply push_bytes_err in E as (a & p & b & Es & Ha & Hp). apply Base10_err in Hp as Hp'. destruct Hp' as (-> & Hm). split.
        * intros [= <-]. eapply ae_ipv4_part; [now apply parts_split|exact El| |exact Hm]. exists a, b. split; [exact Es|]. split; [intros q Hq; destruct (Ha q Hq) as [v Hv]; exists v; now apply Base10_spec|].
          intros v Hv. apply Base10_spec in Hv. congruence.
        * intros H. inversion H as [| |s' ss p' m2 Hp2 Hl Hf Hm2| | |]; subst; try congruence.
          -- apply parts_split in H0. congruence.
          -- apply parts_split in Hp2. destruct Hf as (a' & b' & Es' & Ha' & _). f_equal.
             assert (push_bytes 32 Base10StringToByte (split_char "." addr) 0 = Err InvalidArgument m) as Ee.
             { apply push_bytes_err. exists a', p', b'. split; [congruence|]. split; [intros q Hq; destruct (Ha' q Hq) as [v' Hv]; exists v'; now apply Base10_spec|]. apply Base10_err. auto. }
             assert (push_bytes 32 Base10StringToByte (split_char "." addr) 0 = Err InvalidArgument m') as Ee' by (apply push_bytes_err; exists a, p, b; auto). congruence.
      + exfalso. exact (push_no_crash _ _ _ _ (fun x => proj1 (Base_no_crash x w)) _ E).
    - split.
      + intros [= <-]. eapply ae_ipv4_length; [now apply parts_split|exact El].
      + intros H. inversion H as [|s' ss Hp Hl|s' ss p m2 Hp Hl Hf Hm| | |]; subst; try congruence; try reflexivity. apply parts_split in Hp. congruence. }
  destruct (String.eqb_spec ty "ipv6") as [->|H6].
  { unfold Ipv6StringToByteString. destruct (pton (c_str addr)) as [bytes|] eqn:E; cbn [bind].
    - destruct (convert_bits 128 (AnyByteStringToBitset 128 bytes 0) s e) as [d Hd]; [lia|]. change (N.to_nat 128) with 128%nat in Hd. rewrite Hd. cbn [bind]. split; [discriminate|]. intros H. exfalso. inversion H as [| | | | |s' t Ht Hn]; subst; try congruence.
      apply up_to_nul_c_str in Ht. congruence.
    - split; [intros [= <-]; eapply ae_ipv6; [apply c_str_spec|exact E]|]. intros H. inversion H; subst; congruence. }
  destruct (String.eqb_spec ty "mac") as [->|Hm].
  { unfold MacStringToByteString. destruct (Nat.eqb_spec (List.length (split_char ":" addr)) 6) as [El|El]; cbn [negb bind].
    - destruct (push_bytes 48 Base16StringToByte (split_char ":" addr) 0) as [v|k m'|w] eqn:E; cbn [bind].
      + destruct (convert_bits 48 v s e) as [d Hd]; [lia|]. change (N.to_nat 48) with 48%nat in Hd. rewrite Hd. cbn [bind]. split; [discriminate|]. intros H. exfalso. inversion H as [| | | |s' ss p m2 Hp Hl Hf Hm|]; subst; try congruence.
        * apply parts_split in H0. congruence.
        * apply parts_split in Hp. destruct Hf as (a & b & Es & Ha & _). assert (push_bytes 48 Base16StringToByte (split_char ":" addr) 0 = Err InvalidArgument m) as Ee; [|congruence].
          apply push_bytes_err. exists a, p, b. split; [congruence|]. split; [intros q Hq; destruct (Ha q Hq) as [v' Hv]; exists v'; now apply Base16_spec|]. apply Base16_err. auto.
      + apply push_bytes_err in E as (a & p & b & Es & Ha & Hp). apply Base16_err in Hp as Hp'. destruct Hp' as (-> & Hm). split.
        * intros [= <-]. eapply ae_mac_part; [now apply parts_split|exact El| |exact Hm]. exists a, b. split; [exact Es|]. split; [intros q Hq; destruct (Ha q Hq) as [v Hv]; exists v; now apply Base16_spec|].
          intros v Hv. apply Base16_spec in Hv. congruence.
        * intros H. inversion H as [| | | |s' ss p' m2 Hp2 Hl Hf Hm2|]; subst; try congruence.
          -- apply parts_split in H0. congruence.
          -- apply parts_split in Hp2. destruct Hf as (a' & b' & Es' & Ha' & _). f_equal.
             assert (push_bytes 48 Base16StringToByte (split_char ":" addr) 0 = Err InvalidArgument m) as Ee.
             { apply push_bytes_err. exists a', p', b'. split; [congruence|]. split; [intros q Hq; destruct (Ha' q Hq) as [v' Hv]; exists v'; now apply Base16_spec|]. apply Base16_err. auto. }
             assert (push_bytes 48 Base16StringToByte (split_char ":" addr) 0 = Err InvalidArgument m') as Ee' by (apply push_bytes_err; exists a, p, b; auto). congruence.
      + exfalso. exact (push_no_crash _ _ _ _ (fun x => proj2 (Base_no_crash x w)) _ E).
    - split.
      + intros [= <-]. eapply ae_mac_length; [now apply parts_split|exact El].
      + intros H. inversion H as [| | |s' ss Hp Hl|s' ss p m2 Hp Hl Hf Hm|]; subst; try congruence; try reflexivity. apply parts_split in Hp. congruence. }
  cbn [bind]. split; [intros [= <-]; now apply ae_kind|]. intros H. inversion H; subst; try congruence.
Qed.
