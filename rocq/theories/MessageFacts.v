(** Reading back what explanations show. *)
From Coq Require Import String Ascii List ZArith NArith Bool Lia Sorted.
From Verif Require Import Base Num Token Ast Lexer AstConstructors Parser Quote Info SpecLexer SpecGrammar SpecParser SpecSemantics SpecOutcome SpecCite StrFacts NumFacts LexerFacts4 LexerFacts5 ParserFacts ParserFacts5 IntervalFacts.
Import ListNotations.
Open Scope string_scope.

(** * Numbers *)
Definition no_digit (r : string) : Prop := match r with "" => True | String c _ => ~ digit c end.
Lemma digits_split p : forall p' r r', only digit p -> only digit p' -> no_digit r -> no_digit r' -> p ++ r = p' ++ r' -> p = p' /\ r = r'.
Proof.
  induction p as [|c p IH]; intros p' r r' Hp Hp' Hr Hr' E.
  - destruct p' as [|c' p']; [auto|]. cbn in E. subst r. destruct Hr. apply Hp'. now left.
  - destruct p' as [|c' p']; cbn in E.
    + subst r'. destruct Hr'. apply Hp. now left.
    + injection E as -> E. destruct (IH p' r r') as [-> ->]; auto; intros x Hx; [apply Hp|apply Hp']; now right.
Qed.
Lemma reads_digits s n : Reads 10 s n -> only digit s /\ s <> "".
Proof.
  assert (forall c d, dchar c d -> (d < 10)%N -> digit c) as Hd. { intros c d [c' H|c' H|c' H] Hlt; unfold digit, between in *; lia. }
  induction 1 as [c d H Hlt|s n c d H [IH _] Hc Hlt]; (split; [|try discriminate]).
  - intros x [<-|[]]. eauto.
  - intros x Hx. unfold chars in Hx. rewrite chars_app in Hx. apply in_app_or in Hx as [Hx|[<-|[]]]; eauto.
  - destruct s; discriminate.
Qed.
Lemma dec_cases z : exists n s, Reads 10 s n /\ ((z = Z.of_N n /\ dec z = s) \/ (z = (- Z.of_N n)%Z /\ dec z = String "-" s)).
Proof.
  destruct z as [|q|q].
  - exists 0%N, "0". split; [|left; auto]. apply (reads_one 10 "0"%char (N_of_ascii "0" - 48)); [|cbn; lia]. apply dchar_digit. unfold between. cbn. lia.
  - exists (Npos q), (dec_N (Npos q)). split; [apply dec_N_Decimal|]. left. auto.
  - exists (Npos q), (dec_N (Npos q)). split; [apply dec_N_Decimal|]. right. auto.
Qed.
Lemma dec_split z z' r r' : no_digit r -> no_digit r' -> dec z ++ r = dec z' ++ r' -> z = z' /\ r = r'.
Proof.
  intros Hr Hr' E. destruct (dec_cases z) as (n & s & H & Hz). destruct (dec_cases z') as (n' & s' & H' & Hz').
  destruct (reads_digits _ _ H) as [Hs Hne]. destruct (reads_digits _ _ H') as [Hs' Hne'].
  assert (forall t u, only digit t -> t <> "" -> String "-" u <> t ++ r /\ String "-" u <> t ++ r') as Hm.
  { intros t u Ht Hn. destruct t as [|c t]; [contradiction|]. assert (digit c) as Hc by (apply Ht; now left). split; intros [= <- _]; unfold digit, between in Hc; cbn in Hc; lia. }
  destruct Hz as [[-> Ez]|[-> Ez]]; destruct Hz' as [[-> Ez']|[-> Ez']]; rewrite Ez, Ez' in E.
  - destruct (digits_split s s' r r' Hs Hs' Hr Hr' E) as [-> ->]. now rewrite (Reads_fun _ _ _ _ H H').
  - cbn [append] in E. destruct (proj1 (Hm s (s' ++ r') Hs Hne)). now symmetry.
  - cbn [append] in E. destruct (proj2 (Hm s' (s ++ r) Hs' Hne')). exact E.
  - injection E as E. destruct (digits_split s s' r r' Hs Hs' Hr Hr' E) as [-> ->]. now rewrite (Reads_fun _ _ _ _ H H').
Qed.
Lemma dec_start z r c : ~ digit c -> c <> "-"%char -> forall u, dec z ++ r <> String c u.
Proof.
  intros Hd Hc u E. destruct (dec_cases z) as (n & s & H & Hz). destruct (reads_digits _ _ H) as [Hs Hne]. destruct Hz as [[_ Ez]|[_ Ez]]; rewrite Ez in E.
  - destruct s as [|a s]; [contradiction|]. injection E as -> E. apply Hd, Hs. now left.
  - cbn in E. injection E as E _. now apply Hc.
Qed.
Ltac nd := cbn; unfold digit, between; cbn; lia.

(** * Values *)
Lemma value_split v v' r r' : written_value v ++ nl ++ r = written_value v' ++ nl ++ r' -> v = v' /\ r = r'.
Proof.
  assert (forall r, no_digit (nl ++ r)) as Hn by (intros; nd).
  assert (forall a r c u, ~ digit c -> c <> "-"%char -> dec a ++ nl ++ r = String c u -> False) as Hd by (intros a r0 c u H1 H2 E; exact (dec_start a (nl ++ r0) c H1 H2 u E)).
  intros E.
  destruct v as [[|]|z|z|z m|z m|z m], v' as [[|]|z'|z'|z' m'|z' m'|z' m']; cbn [written_value] in E; try discriminate E;
    try (exfalso; refine (Hd _ _ _ _ _ _ E); [unfold digit, between; cbn; lia|discriminate]); try (exfalso; symmetry in E; refine (Hd _ _ _ _ _ _ E); [unfold digit, between; cbn; lia|discriminate]).
  - injection E as E. split; [reflexivity|exact E].
  - injection E as E. split; [reflexivity|exact E].
  - apply dec_split in E as [-> E]; [|now apply Hn|now apply Hn]. apply sapp_inv_head in E. auto.
  - rewrite !sapp_assoc in E. apply sapp_inv_head in E. apply dec_split in E as [-> E]; [|nd|nd]. injection E as E. auto.
  - rewrite !sapp_assoc in E. apply sapp_inv_head in E. apply dec_split in E as [-> E]; [|nd|nd]. apply sapp_inv_head in E. apply dec_split in E as [-> E]; [|nd|nd]. injection E as E. auto.
  - rewrite !sapp_assoc in E. apply sapp_inv_head in E. apply dec_split in E as [-> E]; [|nd|nd]. apply sapp_inv_head in E. apply dec_split in E as [-> E]; [|nd|nd]. injection E as E. auto.
  - rewrite !sapp_assoc in E. apply sapp_inv_head in E. apply dec_split in E as [-> E]; [|nd|nd]. apply sapp_inv_head in E. apply dec_split in E as [-> E]; [|nd|nd]. injection E as E. auto.
Qed.
(** * Lists of values *)
Definition unquoted (s : string) : Prop := ~ In DQUOTE (chars s).
Lemma name_split n : forall n' r r', unquoted n -> unquoted n' -> n ++ dq ++ r = n' ++ dq ++ r' -> n = n' /\ r = r'.
Proof.
  induction n as [|c n IH]; intros n' r r' H H' E.
  - destruct n' as [|c' n']; [injection E; auto|]. exfalso. cbn in E. injection E as <- _. apply H'. now left.
  - destruct n' as [|c' n']; cbn in E.
    + exfalso. injection E as -> _. apply H. now left.
    + injection E as -> E. destruct (IH n' r r') as [-> ->]; auto; intros Hx; [apply H|apply H']; now right.
Qed.
Lemma lines_inj {V} (label : string) (show : V -> string) : label <> "" -> (forall v v' r r', show v ++ nl ++ r = show v' ++ nl ++ r' -> v = v' /\ r = r') ->
  forall l l', Forall (fun kv => unquoted (fst kv)) l -> Forall (fun kv => unquoted (fst kv)) l' ->
  String.concat "" (map (fun kv : string * V => label ++ dq ++ fst kv ++ dq ++ " -> Value: " ++ show (snd kv) ++ nl) l) =
  String.concat "" (map (fun kv : string * V => label ++ dq ++ fst kv ++ dq ++ " -> Value: " ++ show (snd kv) ++ nl) l') -> l = l'.
Proof.
  intros Hl Hshow.
  assert (forall a l, String.concat "" (a :: l) = a ++ String.concat "" l) as Hcat by (intros a [|b l]; cbn; [now rewrite sapp_nil_r|reflexivity]).
  induction l as [|[n v] l IH]; intros [|[n' v'] l'] H H' E; [reflexivity| | |]; cbn [map fst snd] in E; rewrite ?Hcat in E.
  - exfalso. cbn [String.concat] in E. symmetry in E. rewrite sapp_assoc in E. apply sapp_eq_nil in E as [E _]. auto.
  - exfalso. cbn [String.concat] in E. rewrite sapp_assoc in E. apply sapp_eq_nil in E as [E _]. auto.
  - inversion H as [|? ? Hn Hf]; inversion H' as [|? ? Hn' Hf']; subst. cbn [fst] in *. rewrite !sapp_assoc in E. apply sapp_inv_head, sapp_inv_head in E.
    apply name_split in E as [-> E]; [|exact Hn|exact Hn']. apply sapp_inv_head in E. apply Hshow in E as [-> E]. now rewrite (IH l' Hf Hf' E).
Qed.

(** * Headings *)
Lemma file_split a b b' s s' r r' : (l_line a <= l_line b)%Z -> (l_line a = l_line b -> l_col a < l_col b)%Z -> (l_line a <= l_line b')%Z -> (l_line a = l_line b' -> l_col a < l_col b')%Z ->
  file_span a b s -> file_span a b' s' -> s ++ ":" ++ nl ++ r = s' ++ ":" ++ nl ++ r' -> l_line b = l_line b' /\ l_col b = l_col b' /\ r = r'.
Proof.
  intros H1 H2 H1' H2' Hs Hs' E.
  destruct Hs as [A|A B|A B], Hs' as [A'|A' B'|A' B']; rewrite ?sapp_assoc in E; try discriminate E.
  - apply sapp_inv_head in E. apply dec_split in E as [E1 E]; [|nd|nd]. apply sapp_inv_head in E. apply dec_split in E as [E2 E]; [|nd|nd]. injection E as E. split; [lia|]. auto.
  - apply sapp_inv_head in E. apply dec_split in E as [E1 E]; [|nd|nd]. exfalso. apply sapp_inv_head in E. refine (dec_start _ _ _ _ _ _ E); [nd|discriminate].
  - apply sapp_inv_head in E. apply dec_split in E as [E1 E]; [|nd|nd]. exfalso. apply sapp_inv_head in E. symmetry in E. refine (dec_start _ _ _ _ _ _ E); [nd|discriminate].
  - apply sapp_inv_head in E. apply dec_split in E as [E1 E]; [|nd|nd]. injection E as E. split; [lia|]. auto.
  - cbn in E. injection E as E. split; [lia|]. split; [lia|exact E].
Qed.
Lemma named_split a a' b b' s s' r r' : l_line a = l_line a' -> (l_line a <= l_line b)%Z -> (l_line a = l_line b -> l_col a < l_col b)%Z -> (l_line a <= l_line b')%Z -> (l_line a' = l_line b' -> l_col a' < l_col b')%Z ->
  named_span a b s -> named_span a' b' s' -> s ++ ":" ++ nl ++ r = s' ++ ":" ++ nl ++ r' -> l_col a = l_col a' /\ l_line b = l_line b' /\ l_col b = l_col b' /\ r = r'.
Proof.
  intros H0 H1 H2 H1' H2' Hs Hs' E.
  destruct Hs as [A|A B|A B], Hs' as [A'|A' B'|A' B']; rewrite ?sapp_assoc in E; try discriminate E.
  - apply sapp_inv_head in E. apply dec_split in E as [E1 E]; [|nd|nd]. apply sapp_inv_head in E. apply dec_split in E as [E2 E]; [|nd|nd]. apply sapp_inv_head in E. apply dec_split in E as [E3 E]; [|nd|nd].
    injection E as E. split; [lia|]. split; [lia|]. auto.
  - exfalso. apply sapp_inv_head in E. apply dec_split in E as [E1 E]; [|nd|nd]. discriminate.
  - apply sapp_inv_head in E. apply dec_split in E as [E1 E]; [|nd|nd]. apply sapp_inv_head in E. apply dec_split in E as [E2 E]; [|nd|nd]. injection E as E. split; [lia|]. split; [lia|]. auto.
  - exfalso. apply sapp_inv_head in E. apply dec_split in E as [E1 E]; [|nd|nd]. discriminate.
  - apply sapp_inv_head in E. apply dec_split in E as [E1 E]; [|nd|nd]. injection E as E. split; [lia|]. split; [lia|]. split; [lia|exact E].
Qed.
Lemma loc_eq a b : l_line a = l_line b -> l_col a = l_col b -> l_src a = l_src b -> a = b.
Proof. destruct a, b. cbn. congruence. Qed.
Lemma heading_split a b a' b' h h' r r' : l_src a = l_src a' -> l_src b = l_src b' -> sooner a b -> sooner a' b' -> heading a b h -> heading a' b' h' -> h ++ r = h' ++ r' -> a = a' /\ b = b' /\ r = r'.
Proof.
  unfold sooner. intros Es Es' Hs Hs' H H' E.
  destruct H as [path s Hp Hsp|name s Hp Hsp|name s Hp Hsp], H' as [path' s' Hp' Hsp'|name' s' Hp' Hsp'|name' s' Hp' Hsp']; rewrite Es, Hp' in Hp; try discriminate Hp; injection Hp as ->; rewrite !sapp_assoc in E.
  - do 2 apply sapp_inv_head in E. apply dec_split in E as [E1 E]; [|nd|nd]. apply sapp_inv_head in E.
    assert (forall a b s r, file_span a b s -> no_digit (s ++ ":" ++ nl ++ r)) as Hnd by (intros ? ? ? ? [?|? ?|? ?]; nd).
    apply dec_split in E as [E2 E]; [|eapply Hnd; exact Hsp|eapply Hnd; exact Hsp'].
    assert (a = a') as <- by (apply loc_eq; [lia|lia|exact Es]). destruct (file_split a b b' s s' r r') as (E3 & E4 & E5); try lia; auto. split; [reflexivity|]. split; [now apply loc_eq|exact E5].
  - do 3 apply sapp_inv_head in E. apply dec_split in E as [E1 E]; [|nd|nd]. apply sapp_inv_head in E.
    destruct (named_split a a' b b' s s' r r') as (E2 & E3 & E4 & E5); try lia; auto. split; [apply loc_eq; auto; lia|]. split; [now apply loc_eq|exact E5].
  - do 3 apply sapp_inv_head in E. apply dec_split in E as [E1 E]; [|nd|nd]. apply sapp_inv_head in E.
    destruct (named_split a a' b b' s s' r r') as (E2 & E3 & E4 & E5); try lia; auto. split; [apply loc_eq; auto; lia|]. split; [now apply loc_eq|exact E5].
Qed.
