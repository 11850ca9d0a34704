(** The same text is about the same thing. *)
From Coq Require Import String Ascii List ZArith NArith Bool Lia Sorted.
From Verif Require Import Base Num Token Ast Lexer AstConstructors Parser Quote Info Interpreter SpecLexer SpecGrammar SpecParser SpecTyping SpecSemantics SpecInfo SpecExplain SpecOutcome SpecCite StrFacts NumFacts LexerFacts4 LexerFacts5 ParserFacts ParserFacts5
  IntervalFacts MessageFacts PropertiesCite.
Import ListNotations.
Open Scope string_scope.

(** * Names *)
Definition plain_id (t : token) : Prop := t_kind t = ID -> unquoted (t_text t).
Lemma letters_unquoted s : only (fun c => letter c \/ digit c) s -> unquoted s.
Proof. intros H Hi. apply H in Hi. unfold letter, digit, between in Hi. destruct Hi as [[Hi|[Hi|Hi]]|Hi]; [discriminate|cbn in Hi; lia..]. Qed.
Lemma Lex_plain l s ts : Lex l s ts -> Forall plain_id ts.
Proof.
  induction 1 as [l|l c s Hno|l s lx rest ts Hx H IH|l s lx k x rest ts Hx H IH].
  - constructor; [discriminate|constructor].
  - constructor; [discriminate|constructor].
  - exact IH.
  - constructor; [|exact IH]. intros Hk. cbn in Hk. subst k. cbn. destruct Hx as (_ & n & Hsh & _). inversion Hsh as [| | | | |k t Hin|c t Hc Ht| | | | |]; subst.
    + exfalso. cbn in Hin. repeat destruct Hin as [Hin|Hin]; try discriminate. destruct Hin.
    + apply letters_unquoted. intros y [<-|Hy]; [now left|]. apply Ht. exact Hy.
Qed.
Lemma unquoted_app a b : unquoted a -> unquoted b -> unquoted (a ++ b).
Proof. intros Ha Hb Hi. unfold chars in Hi. rewrite chars_app in Hi. apply in_app_or in Hi as [Hi|Hi]; auto. Qed.
Lemma unquoted_concat sep l : unquoted sep -> Forall unquoted l -> unquoted (String.concat sep l).
Proof.
  intros Hs. induction 1 as [|a [|b l] Ha H IH]; [intros []|exact Ha|]. change (String.concat sep (a :: b :: l)) with (a ++ sep ++ String.concat sep (b :: l)). auto using unquoted_app.
Qed.
Lemma Dots_plain w ids : Dots w ids -> Forall plain_id w -> Forall unquoted (map t_text ids).
Proof. induction 1 as [|dot id w ids Hd Hi H IH]; intros HF; [constructor|]. inversion HF as [|? ? _ HF1]; subst. inversion HF1 as [|? ? Hp HF2]; subst. constructor; auto. Qed.
Section S.
  Variable pton : inet_pton6.
  Variable ck : constraint_kind.
  Lemma D_unquoted n w e : D pton ck n w e -> Forall plain_id w -> forall x, mentions e x -> unquoted x.
  Proof.
    induction 1 as [t Ht|t Ht|t b n s Hb|id lp st rp n s Hid|id w ids Hid Hd|dc id Hdc|lp w rp e Hlp H IH Hrp|w e dc id H IH Hdc Hid|t w e Ht H IH|t w e Ht H IH
      |p o w1 e1 t w2 e2 Hb H1 IH1 H2 IH2|p o w1 e1 t w2 e2 Hb H1 IH1 H2 IH2|w e t H IH Ht|n w e H IH]; intros HF x Hm.
    - inversion Hm.
    - inversion Hm.
    - inversion Hm.
    - inversion Hm.
    - inversion HF as [|? ? HF1 HF2]; subst. pose proof (Dots_plain _ _ Hd HF2) as Hp. assert (Forall unquoted (map t_text (id :: ids))) as Hall by (constructor; auto).
      clear Hp. unfold variable in Hm. revert Hall Hm. generalize (map t_text (id :: ids)). intros names Hall Hm. destruct ck; inversion Hm; subst; apply unquoted_concat; auto; intros Hx; cbn in Hx; [destruct Hx as [Hx|[]]; discriminate|exact Hx].
    - inversion Hm.
    - inversion HF as [|? ? _ HF']; subst. apply Forall_app in HF' as [HF' _]. auto.
    - apply Forall_app in HF as [HF _]. inversion Hm; subst. auto.
    - inversion HF; subst. inversion Hm; subst. auto.
    - inversion HF; subst. inversion Hm; subst. auto.
    - apply Forall_app in HF as [HF1 HF2]. inversion HF2; subst. inversion Hm; subst; auto.
    - apply Forall_app in HF as [HF1 HF2]. inversion HF2; subst. inversion Hm; subst; auto.
    - apply Forall_app in HF as [HF _]. auto.
    - auto.
  Qed.
End S.
Lemma sub_mentions s e n : sub s e -> mentions s n -> mentions e n.
Proof. induction 1; intros Hm; auto; [apply me_not|apply me_neg|apply me_cast|apply me_left|apply me_right|apply me_field]; auto. Qed.
Lemma explained_sub holds e s : Explained holds e s -> sub s e.
Proof. induction 1; first [apply sub_refl|apply sub_not; assumption|apply sub_left; assumption|apply sub_right; assumption]. Qed.

(** * Texts *)
Section T.
  Variable pton : inet_pton6.
  Variable ck : constraint_kind.
  Variable cs : csource.
  Variable e : expr.
  Hypothesis Hra : reads_as pton ck cs e.
  Lemma read_tight : tight e /\ no_later (cs_loc cs) (e_start e) /\ forall n, mentions e n -> unquoted n.
  Proof.
    destruct Hra as (w & t & E & Ht & HD). pose proof (proj1 (Tokenize_Lex cs _) eq_refl) as HL. rewrite E in HL. pose proof (Lex_solid _ _ _ HL w t eq_refl) as Hso.
    destruct (Lex_order _ _ _ HL) as (r & Ho & _). apply in_order_app in Ho as (m & Ho & _). destruct (D_tight pton ck _ _ _ HD _ _ Ho Hso) as (P & _ & R).
    pose proof (Lex_plain _ _ _ HL) as Hpl. apply Forall_app in Hpl as [Hpl _]. split; [exact R|]. split; [exact P|]. exact (D_unquoted pton ck _ _ _ HD Hpl).
  Qed.
  Lemma quote_split s s' q q' r r' : sub s e -> sub s' e -> QuoteSubConstraint cs (e_start s) (e_end s) = Ok q -> QuoteSubConstraint cs (e_start s') (e_end s') = Ok q' ->
    q ++ r = q' ++ r' -> s = s' /\ r = r'.
  Proof.
    intros Hs Hs' Hq Hq' E. destruct read_tight as (HT & Hle & _). destruct (tight_in _ _ Hs HT) as (P & _ & T1). destruct (tight_in _ _ Hs' HT) as (P' & _ & T1').
    pose proof Hq as Hc. apply C49_cited in Hc; [|unfold no_later in *; lia]. pose proof Hq' as Hc'. apply C49_cited in Hc'; [|unfold no_later in *; lia].
    destruct Hc as (S1 & S2 & h & x & Hh & _ & ->). destruct Hc' as (S1' & S2' & h' & x' & Hh' & _ & ->). rewrite !sapp_assoc in E.
    destruct (heading_split (e_start s) (e_end s) (e_start s') (e_end s') h h' (x ++ r) (x' ++ r')) as (Ea & Eb & Er); auto; [congruence|congruence|now apply tight_here|now apply tight_here|].
    pose proof (tight_inj e HT s s' Hs Hs' Ea Eb) as <-. split; [reflexivity|]. assert (h ++ x = h' ++ x') as Ex by congruence. apply (sapp_inv_head (h ++ x)). rewrite !sapp_assoc, E, <- !sapp_assoc. congruence.
  Qed.
  Lemma told_split what s s' x x' q q' r r' : sub s e -> sub s' e -> QuoteSubConstraint cs (e_start s) (e_end s) = Ok q -> QuoteSubConstraint cs (e_start s') (e_end s') = Ok q' ->
    told what x q ++ r = told what x' q' ++ r' -> s = s' /\ x = x' /\ r = r'.
  Proof.
    intros Hs Hs' Hq Hq' E. unfold told in E. rewrite !sapp_assoc in E. do 3 apply sapp_inv_head in E.
    assert (x = x') as <- by (destruct x, x'; try reflexivity; discriminate). do 4 apply sapp_inv_head in E.
    destruct (quote_split s s' q q' _ _ Hs Hs' Hq Hq' E) as [<- E']. do 5 apply sapp_inv_head in E'. auto.
  Qed.
  Lemma listed_unquoted {V} (key : string -> option V) s l : sub s e -> (forall n v, In (n, v) l <-> mentions s n /\ key n = Some v) -> Forall (fun kv => unquoted (fst kv)) l.
  Proof. intros Hs H. apply Forall_forall. intros [n v] Hi. apply H in Hi as [Hm _]. exact (proj2 (proj2 read_tight) n (sub_mentions _ _ _ Hs Hm)). Qed.
  Lemma listed_agree {V} (key key' : string -> option V) s l : (forall n v, In (n, v) l <-> mentions s n /\ key n = Some v) -> (forall n v, In (n, v) l <-> mentions s n /\ key' n = Some v) ->
    forall n, mentions s n -> key n = key' n.
  Proof.
    intros H H' n Hm. destruct (key n) as [v|] eqn:E.
    - symmetry. apply (proj1 (H' n v)). apply H. auto.
    - destruct (key' n) as [v|] eqn:E'; [|reflexivity]. rewrite <- E. apply (proj1 (H n v)). apply H'. auto.
  Qed.
  Lemma table_same name key key' prio prio' s s' x x' text : sub s e -> sub s' e -> table_report name cs key prio s x text -> table_report name cs key' prio' s' x' text ->
    s = s' /\ x = x' /\ prio = prio' /\ forall n, mentions s n -> key n = key' n.
  Proof.
    intros Hs Hs' (q & l & Hq & _ & Hl & Et) (q' & l' & Hq' & _ & Hl' & Et'). rewrite Et in Et'. destruct (told_split _ s s' x x' q q' _ _ Hs Hs' Hq Hq' Et') as (<- & <- & E).
    do 8 apply sapp_inv_head in E. apply dec_split in E as [<- E]; [|nd|nd]. apply sapp_inv_head in E.
    apply (lines_inj "Field: " written_value) in E; [|discriminate|exact value_split|exact (listed_unquoted key s l Hs Hl)|exact (listed_unquoted key' s l' Hs' Hl')]. subst l'.
    split; [reflexivity|]. split; [reflexivity|]. split; [reflexivity|]. exact (listed_agree key key' s l Hl Hl').
  Qed.
  Lemma action_same name param param' s s' x x' text : sub s e -> sub s' e -> action_report name cs param s x text -> action_report name cs param' s' x' text ->
    s = s' /\ x = x' /\ forall n, mentions s n -> param n = param' n.
  Proof.
    intros Hs Hs' (q & l & Hq & _ & Hl & Et) (q' & l' & Hq' & _ & Hl' & Et'). rewrite Et in Et'. destruct (told_split _ s s' x x' q q' _ _ Hs Hs' Hq Hq' Et') as (<- & <- & E).
    do 7 apply sapp_inv_head in E.
    apply (lines_inj "Param name: " dec) in E; [|discriminate| |exact (listed_unquoted param s l Hs Hl)|exact (listed_unquoted param' s l' Hs' Hl')].
    - subst l'. split; [reflexivity|]. split; [reflexivity|]. exact (listed_agree param param' s l Hl Hl').
    - intros v v' r r' Ed. apply dec_split in Ed as [-> Ed]; [|nd|nd]. apply sapp_inv_head in Ed. auto.
  Qed.
End T.
