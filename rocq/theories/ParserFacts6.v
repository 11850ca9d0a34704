(** Printing; literals and names in texts. *)
From Coq Require Import String Ascii List ZArith NArith Bool Lia ZifyBool ZifyN ZifyNat.
From Verif Require Import Base Num Token Ast Lexer Quote AstConstructors Parser SpecLexer SpecGrammar SpecParser StrFacts LexerFacts LexerFacts3 LexerFacts4 LexerFacts5 LexerFacts6 LexerFacts7
  NumFacts LiteralFacts ParserFacts ParserFacts2 ParserFacts3 ParserFacts4 ParserFacts5.
Import ListNotations.
Open Scope string_scope.

Section S.
  Variable pton : inet_pton6.
  Variable ck : constraint_kind.
  Notation Der := (D pton ck).

  Lemma map_kt_cons w k t l : map kt w = (k, t) :: l -> exists x w', w = x :: w' /\ t_kind x = k /\ t_text x = t /\ map kt w' = l.
  Proof. destruct w as [|x w']; [discriminate|]. cbn [map kt]. intros [= <- <- <-]. eauto 10. Qed.
  Lemma map_kt_nil w : map kt w = [] -> w = [].
  Proof. destruct w; [reflexivity|discriminate]. Qed.
  Lemma dots_of ids w : map kt w = flat_map (fun i => [(DOT, "."); (ID, i)]) ids -> exists ts, Dots w ts /\ map t_text ts = ids.
  Proof.
    revert w. induction ids as [|i ids IH]; intros w E; cbn [flat_map app] in E.
    - apply map_kt_nil in E as ->. exists []. split; constructor.
    - apply map_kt_cons in E as (d & w1 & -> & Hd & _ & E). apply map_kt_cons in E as (t & w2 & -> & Ht & Htx & E).
      destruct (IH _ E) as (ts & H1 & H2). exists (t :: ts). split; [now constructor|]. cbn. congruence.
  Qed.
  Lemma print_D num s : (forall n, Decimal (num n) n) -> printable s -> forall w, map kt w = print num s ->
    exists e, Der 8 w e /\ Means ck s e.
  Proof.
    intros Hnum. induction s as [b|n|id ids|nm|s IH|s IH|op l IHl r IHr|s IH nm]; cbn [printable print]; intros Hp w E.
    - destruct b; apply map_kt_cons in E as (t & w' & -> & Hk & _ & E); apply map_kt_nil in E as ->.
      + eexists. split; [now apply D_true|constructor].
      + eexists. split; [now apply D_false|constructor].
    - apply map_kt_cons in E as (t & w' & -> & Hk & Ht & E). apply map_kt_nil in E as ->. eexists. split.
      + eapply (D_num _ _ t 10 n (num n)); [rewrite Hk; constructor| |apply Hnum]. rewrite Ht. apply Hnum.
      + constructor. apply Hnum.
    - apply map_kt_cons in E as (t & w' & -> & Hk & Ht & E). apply dots_of in E as (ts & Hd & Hi). eexists. split; [now apply (D_var _ _ t w' ts)|].
      cbn [map]. rewrite Ht, Hi. constructor.
    - apply map_kt_cons in E as (t & w' & -> & Hk & _ & E). apply map_kt_cons in E as (t2 & w2 & -> & Hk2 & Ht2 & E). apply map_kt_nil in E as ->.
      eexists. split; [now apply D_attr|]. rewrite Ht2. constructor.
    - apply map_kt_cons in E as (t & w' & -> & Hk & _ & E). apply map_kt_cons in E as (t2 & w2 & -> & Hk2 & _ & E).
      apply map_eq_app in E as (w3 & w4 & -> & E3 & E4). apply map_kt_cons in E4 as (t5 & w5 & -> & Hk5 & _ & E). apply map_kt_nil in E as ->.
      destruct (IH Hp _ E3) as (e & HD & HM). eexists. split; [|apply M_not, HM].
      apply (D_paren _ _ t (t2 :: w3) t5); auto. apply (D_down _ _ 0 6); [|lia]. apply D_not; [assumption|]. apply (D_down _ _ 6 8); [exact HD|lia].
    - apply map_kt_cons in E as (t & w' & -> & Hk & _ & E). apply map_kt_cons in E as (t2 & w2 & -> & Hk2 & _ & E).
      apply map_eq_app in E as (w3 & w4 & -> & E3 & E4). apply map_kt_cons in E4 as (t5 & w5 & -> & Hk5 & _ & E). apply map_kt_nil in E as ->.
      destruct (IH Hp _ E3) as (e & HD & HM). eexists. split; [|apply M_neg, HM].
      apply (D_paren _ _ t (t2 :: w3) t5); auto. apply (D_down _ _ 0 6); [|lia]. apply D_neg; [assumption|]. apply (D_down _ _ 6 8); [exact HD|lia].
    - destruct Hp as ((p & ch & o & Hb) & Hpl & Hpr). apply map_kt_cons in E as (t & w' & -> & Hk & _ & E).
      apply map_eq_app in E as (w1 & w2 & -> & E1 & E2). apply map_kt_cons in E2 as (t2 & w3 & -> & Hk2 & _ & E2).
      apply map_eq_app in E2 as (w4 & w5 & -> & E4 & E5). apply map_kt_cons in E5 as (t5 & w6 & -> & Hk5 & _ & E). apply map_kt_nil in E as ->.
      destruct (IHl Hpl _ E1) as (el & HDl & HMl). destruct (IHr Hpr _ E4) as (er & HDr & HMr). eexists. split; [|eapply M_bin; eassumption].
      replace (w1 ++ t2 :: w4 ++ [t5])%list with ((w1 ++ t2 :: w4) ++ [t5])%list by now rewrite <- app_assoc.
      apply D_paren; auto. assert (p <= 5)%nat by (destruct Hb; lia). apply (D_down _ _ 0 p); [|lia]. rewrite <- Hk2 in Hb. destruct ch.
      + apply D_chain; [exact Hb|apply (D_down _ _ p 8); [exact HDl|lia]|apply (D_down _ _ (S p) 8); [exact HDr|lia]].
      + apply D_single; [exact Hb|apply (D_down _ _ (S p) 8); [exact HDl|lia]|apply (D_down _ _ (S p) 8); [exact HDr|lia]].
    - destruct Hp as [Hp Hn]. apply map_kt_cons in E as (t & w' & -> & Hk & _ & E). apply map_eq_app in E as (w1 & w2 & -> & E1 & E2).
      apply map_kt_cons in E2 as (t2 & w3 & -> & Hk2 & _ & E2). apply map_kt_cons in E2 as (t3 & w4 & -> & Hk3 & Ht3 & E2).
      apply map_kt_cons in E2 as (t5 & w6 & -> & Hk5 & _ & E). apply map_kt_nil in E as ->. destruct (IH Hp _ E1) as (e & HD & HM).
      eexists. split; [|rewrite <- Ht3; eapply M_field; eassumption].
      replace (w1 ++ [t2; t3; t5])%list with ((w1 ++ [t2; t3]) ++ [t5])%list by now rewrite <- app_assoc.
      apply D_paren; auto. apply (D_down _ _ 0 7); [|lia]. apply D_field; auto. apply (D_down _ _ 7 8); [exact HD|lia].
  Qed.
End S.

(** Spellings of printed tokens. *)
Lemma spelling_fixed k t : In (k, t) fixed_spelling -> k <> ID -> spelling k t t.
Proof. intros H Hk. split; [exists 4%nat; now constructor|congruence]. Qed.
Lemma spelling_ident w : ident w -> spelling ID w w.
Proof. intros ((c & t & -> & Hc & Ht) & H1 & H2). split; [exists 5%nat; now constructor|auto]. Qed.
Lemma dchar_bound b c d : dchar c d -> (d < b)%N -> (b <= 10)%N -> between 48 (47 + b) c.
Proof. intros [c' H|c' H|c' H] Hd Hb; unfold between in *; lia. Qed.
Lemma Reads_only b s n (q : ascii -> Prop) : (forall c d, dchar c d -> (d < b)%N -> q c) -> Reads b s n -> only q s.
Proof.
  intros Hq. induction 1 as [c d Hc Hd|s n c d H IH Hc Hd]; intros x.
  - intros [<-|[]]. eauto.
  - unfold chars. rewrite chars_app. intros Hx. apply in_app_or in Hx as [Hx|[<-|[]]]; [apply IH, Hx|eauto].
Qed.
Lemma spelling_decimal s n : Reads 10 s n -> spelling DECIMAL s s.
Proof.
  intros H. split; [|discriminate]. exists 9%nat. apply (sh_decimal "" s); [now left|eapply Reads_nonempty; eauto|].
  eapply Reads_only; [|exact H]. intros c d Hc Hd. exact (dchar_bound 10 c d Hc Hd ltac:(lia)).
Qed.
Lemma print_spelling num s : (forall n, Decimal (num n) n) -> printable s -> forall k t, In (k, t) (print num s) -> spelling k t t.
Proof.
  intros Hnum.
  assert (forall k t, In (k, t) [(LPAR, "("); (RPAR, ")"); (BANG, "!"); (MINUS, "-"); (DOUBLE_COLON, "::"); (DOT, "."); (TRUE, "true"); (FALSE, "false")] -> spelling k t t) as Hf.
  { intros k t H. cbn in H. repeat (destruct H as [[= <- <-]|H]; [apply spelling_fixed; [cbn; tauto|discriminate]|]). destruct H. }
  induction s as [b|n|id ids|nm|s IH|s IH|op l IHl r IHr|s IH nm]; cbn [printable print]; intros Hp k t Hin.
  - destruct b; destruct Hin as [[= <- <-]|[]]; apply Hf; cbn; tauto.
  - destruct Hin as [[= <- <-]|[]]. eapply spelling_decimal. apply Hnum.
  - inversion Hp as [|? ? Hid Hids]; subst. destruct Hin as [[= <- <-]|Hin]; [now apply spelling_ident|].
    apply in_flat_map in Hin as (i & Hi & [[= <- <-]|[[= <- <-]|[]]]); [apply Hf; cbn; tauto|]. apply spelling_ident. rewrite Forall_forall in Hids. auto.
  - destruct Hin as [[= <- <-]|[[= <- <-]|[]]]; [apply Hf; cbn; tauto|]. now apply spelling_ident.
  - destruct Hin as [[= <- <-]|[[= <- <-]|Hin]]; [apply Hf; cbn; tauto..|]. apply in_app_or in Hin as [Hin|[[= <- <-]|[]]]; [auto|apply Hf; cbn; tauto].
  - destruct Hin as [[= <- <-]|[[= <- <-]|Hin]]; [apply Hf; cbn; tauto..|]. apply in_app_or in Hin as [Hin|[[= <- <-]|[]]]; [auto|apply Hf; cbn; tauto].
  - destruct Hp as ((p & ch & o & Hb) & Hpl & Hpr). destruct Hin as [[= <- <-]|Hin]; [apply Hf; cbn; tauto|].
    apply in_app_or in Hin as [Hin|[[= <- <-]|Hin]]; [auto|apply spelling_fixed; destruct Hb; cbn; try tauto; discriminate|].
    apply in_app_or in Hin as [Hin|[[= <- <-]|[]]]; [auto|apply Hf; cbn; tauto].
  - destruct Hp as [Hp Hn]. destruct Hin as [[= <- <-]|Hin]; [apply Hf; cbn; tauto|].
    apply in_app_or in Hin as [Hin|[[= <- <-]|[[= <- <-]|[[= <- <-]|[]]]]]; [auto|apply Hf; cbn; tauto|now apply spelling_ident|apply Hf; cbn; tauto].
Qed.
Lemma kts_text_of kl l : (forall k t, In (k, t) kl -> spelling k t t) ->
  map kt (Tokenize (mkCSource (text_of kl) l)) = (kl ++ [(END_OF_INPUT, "")])%list.
Proof.
  intros H. rewrite (kts_loc (mkCSource (text_of kl) l)). cbn [cs_string]. unfold text_of. rewrite kts_render.
  - f_equal. rewrite map_map. rewrite <- (map_id kl) at 2. apply map_ext. now intros [? ?].
  - intros k t sp sep Hin. apply in_map_iff in Hin as ([k' t'] & [= <- <- <- <-] & Hin). split; [auto|]. split; [|discriminate].
    intros c [<-|[]]. left. now left.
Qed.

(** * A dotted path *)
Definition starts_dot (rest : string) : Prop := rest = "" \/ exists u, rest = "." ++ u.
Lemma next_ident w rest : ident w -> starts_dot rest -> Next (w ++ rest) w (Tok ID w) rest.
Proof.
  intros ((c & t & -> & Hc & Ht) & H1 & H2) Hr. set (w := String c t) in *.
  assert (forall e rest', rest = e ++ rest' -> only (fun c => letter c \/ digit c) e -> e = "") as Hd.
  { intros e rest' E He. destruct e as [|d e]; [reflexivity|exfalso]. destruct Hr as [->|[u ->]]; [discriminate|]. injection E as <- _.
    specialize (He "."%char (or_introl eq_refl)). unfold letter, digit, between in He. cbn in He.
    destruct He as [[He|[[He _]|[He _]]]|[He _]]; try discriminate; now apply He. }
  split; [reflexivity|]. exists 5%nat. split; [now constructor|]. split.
  - intros m lx' it' rest' Hm E Hsh. destruct (Nat.leb_spec m 3) as [H3|H3].
    { eapply letter_not_white; [exact Hc|]. eapply early_class; [exact Hsh|exact H3|]. right. exists rest'. exact E. }
    assert (m = 4%nat) as -> by lia.
    destruct it' as [|k' t']; [apply shape_skip_class in Hsh; lia|].
    assert (lx' = t' /\ In (k', lx') fixed_spelling) as [<- Hin] by (inversion Hsh; subst; auto).
    assert (forall v, lx' = v -> only (fun c => letter c \/ digit c) v -> exists u, w = v ++ u) as Hpre.
    { intros v -> Hv. destruct (Nat.leb_spec (String.length v) (String.length w)) as [Hle|Hgt].
      - symmetry in E. destruct (prefix_cases _ _ _ _ E Hle) as (e & -> & _). eauto.
      - exfalso. destruct (prefix_cases _ _ _ _ E ltac:(lia)) as (e & -> & He). apply Hd in He as Hz.
        + subst e. rewrite sapp_nil_r in Hgt. lia.
        + intros x Hx. apply Hv. unfold chars. rewrite chars_app. apply in_or_app. now right. }
    apply fixed_head in Hin as [[_ ->]|[[_ ->]|(d & v & Ed & Hd1 & Hd2 & Hd3)]].
    + destruct (Hpre "true" eq_refl) as [u Hu]; [|exact (H1 u Hu)].
      intros x Hx. left. right. left. cbn in Hx. unfold between. repeat (destruct Hx as [<-|Hx]; [cbn; lia|]). destruct Hx.
    + destruct (Hpre "false" eq_refl) as [u Hu]; [|exact (H2 u Hu)].
      intros x Hx. left. right. left. cbn in Hx. unfold between. repeat (destruct Hx as [<-|Hx]; [cbn; lia|]). destruct Hx.
    + subst lx'. unfold w in E. cbn in E. injection E as <- _. auto.
  - intros lx' it' rest' E Hsh. destruct (Nat.leb_spec (String.length lx') (String.length w)) as [Hle|Hgt]; [exact Hle|exfalso].
    destruct (prefix_cases _ _ _ _ E ltac:(lia)) as (e & El & He).
    assert (only (fun c => letter c \/ digit c) lx') as Ho.
    { clear - Hsh. inversion Hsh; subst. intros x [<-|Hx]; [now left|auto]. }
    apply Hd in He as Hz; [subst e; rewrite sapp_nil_r in El; subst lx'; lia|].
    intros x Hx. apply Ho. rewrite El. unfold chars. rewrite chars_app. apply in_or_app. now right.
Qed.
Lemma kts_path id ids : Forall ident (id :: ids) ->
  kts (String.concat "." (id :: ids)) = ((ID, id) :: flat_map (fun i => [(DOT, "."); (ID, i)]) ids ++ [(END_OF_INPUT, "")])%list.
Proof.
  revert id. induction ids as [|i ids IH]; intros id H; inversion H as [|? ? Hid Hids]; subst.
  - cbn [String.concat]. rewrite <- (sapp_nil_r id) at 1. rewrite (kts_tok _ _ _ _ _ (next_ident id "" Hid (or_introl eq_refl))). reflexivity.
  - change (String.concat "." (id :: i :: ids)) with (id ++ ("." ++ String.concat "." (i :: ids))).
    rewrite (kts_tok _ _ _ _ _ (next_ident id _ Hid (or_intror (ex_intro _ _ eq_refl)))). f_equal.
    rewrite (kts_tok _ "." DOT "." (String.concat "." (i :: ids))); [cbn [flat_map app]; f_equal; now apply IH|].
    apply next_first. generalize (String.concat "." (i :: ids)). intros u. reflexivity.
Qed.
Lemma concat_dots_inj l l' : Forall ident l -> Forall ident l' -> l <> [] -> l' <> [] ->
  String.concat "." l = String.concat "." l' -> l = l'.
Proof.
  intros H H' Hn Hn' E.
  assert (forall l, Forall ident l -> forall s, In s l -> ~ In "."%char (chars s)) as Hd.
  { clear. intros l H s Hs Hin. rewrite Forall_forall in H. destruct (H s Hs) as ((c & t & -> & Hc & Ht) & _).
    assert (letter "."%char \/ digit "."%char) as Hx by (destruct Hin as [->|Hin]; [now left|apply Ht, Hin]).
    unfold letter, digit, between in Hx. cbn in Hx. destruct Hx as [[He|[[He _]|[He _]]]|[He _]]; try discriminate; now apply He. }
  rewrite <- (split_concat "." l Hn (Hd l H)), <- (split_concat "." l' Hn' (Hd l' H')).
  change (str1 ".") with ".". now rewrite E.
Qed.
