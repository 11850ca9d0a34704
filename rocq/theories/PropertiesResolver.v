(** C81: results depend on the system's reading of IPv6 addresses only through the addresses that occur in the constraints. *)
From Coq Require Import String Ascii List ZArith NArith Bool Lia.
From Verif Require Import Base Num Token Lexer Ast Quote AstConstructors Parser Info TypeChecker ConstraintInfo Interpreter Z3 Symbolic Cli SpecLexer SpecGrammar SpecTyping SpecSemantics SpecInfo SpecMisc SpecResolver
  StrFacts ParserFacts LexerFacts4 LexerFacts5 InfoFacts InfoFacts2 PropertiesParser PropertiesInfo PropertiesVerdict.
Import ListNotations.
Open Scope string_scope.

(** * Parsing *)
Lemma kind_eqb_eq a b : kind_eqb a b = true -> a = b.
Proof. destruct (kind_eqb_spec a b); [auto|discriminate]. Qed.
Section Parsing.
  Variables (pton pton' : inet_pton6) (ck : constraint_kind) (src : csource) (eof : loc).
  Definition agree (ts : list token) : Prop := read_alike pton pton' (names_ipv6 ts).
  Definition suffix (r ts : list token) : Prop := exists l, ts = (l ++ r)%list.
  Lemma suffix_refl ts : suffix ts ts.
  Proof. now exists []. Qed.
  Lemma suffix_trans a b c : suffix a b -> suffix b c -> suffix a c.
  Proof. intros [x ->] [y ->]. exists (y ++ x)%list. now rewrite app_assoc. Qed.
  Lemma suffix_tl ts : suffix (tl ts) ts.
  Proof. destruct ts as [|t ts]; [now exists []|now exists [t]]. Qed.
  Lemma agree_suffix r ts : suffix r ts -> agree ts -> agree r.
  Proof.
    intros [l ->] H s (b & i & lp & st & rp & a & -> & Hs). apply H. exists (l ++ b)%list, i, lp, st, rp, a. split; [now rewrite app_assoc|exact Hs].
  Qed.
  (** Same outcome, and what is left is the end of what there was. *)
  Definition same {A} (ts : list token) (o o' : outcome (A * list token)) : Prop := o = o' /\ forall a r, o = Ok (a, r) -> suffix r ts.
  Lemma same_ok {A} ts (a : A) r : suffix r ts -> same ts (Ok (a, r)) (Ok (a, r)).
  Proof. intros H. split; [reflexivity|]. intros b q E. injection E as _ <-. exact H. Qed.
  Lemma same_bind {A B} ts (o o' : outcome (A * list token)) (f f' : A * list token -> outcome (B * list token)) :
    same ts o o' -> (forall a r, suffix r ts -> same ts (f (a, r)) (f' (a, r))) -> same ts (bind o f) (bind o' f').
  Proof.
    intros [<- Ho] Hf. destruct o as [[a r]|c m|w]; cbn [bind]; [apply Hf; apply (Ho a r); reflexivity|split; [reflexivity|discriminate]|split; [reflexivity|discriminate]].
  Qed.
  Lemma same_step {A B} ts (o : outcome A) (f f' : A -> outcome (B * list token)) : (forall a, same ts (f a) (f' a)) -> same ts (bind o f) (bind o f').
  Proof. intros Hf. destruct o as [a|c m|w]; cbn [bind]; [apply Hf|split; [reflexivity|discriminate]|split; [reflexivity|discriminate]]. Qed.
  Lemma same_bad {A} ts (o : outcome (A * list token)) : bad o -> same ts o o.
  Proof. intros H. split; [reflexivity|]. intros a r E. exfalso. exact (bad_not_ok _ _ H E). Qed.
  Lemma same_refl {A} ts (o : outcome (A * list token)) : (forall a r, o = Ok (a, r) -> suffix r ts) -> same ts o o.
  Proof. intros H. split; [reflexivity|exact H]. Qed.
  Lemma expect_suffix k ts t r : ExpectTokenKind src eof k ts = Ok (t, r) -> t = Peek eof ts /\ t_kind t = k /\ r = tl ts.
  Proof.
    unfold ExpectTokenKind. cbv zeta. destruct (kind_eqb (t_kind (Peek eof ts)) k) eqn:E.
    - intros H. injection H as <- <-. split; [reflexivity|]. split; [now apply kind_eqb_eq|reflexivity].
    - intros H. exfalso. exact (bad_not_ok _ _ (Unexpected_bad _ _ _) H).
  Qed.
  Lemma same_expect k ts r : suffix r ts -> same ts (ExpectTokenKind src eof k r) (ExpectTokenKind src eof k r).
  Proof. intros H. apply same_refl. intros t q E. apply expect_suffix in E as (_ & _ & ->). eapply suffix_trans; [apply suffix_tl|exact H]. Qed.
  Lemma ids_suffix ts : forall a r, parse_ids src eof ts = Ok (a, r) -> suffix r ts.
  Proof.
    assert (forall n ts, (List.length ts <= n)%nat -> forall a r, parse_ids src eof ts = Ok (a, r) -> suffix r ts) as H; [|eapply H; apply le_n].
    clear ts. induction n as [|n IH]; intros ts Hn a r E; (destruct ts as [|t [|i ts]]; cbn [parse_ids] in E; [injection E as <- <-; apply suffix_refl| |]); cbn [List.length] in Hn; try lia.
    - destruct (kind_eqb (t_kind t) DOT); [exfalso; exact (bad_not_ok _ _ (Unexpected_bad _ _ _) E)|injection E as <- <-; apply suffix_refl].
    - destruct (kind_eqb (t_kind t) DOT); [|injection E as <- <-; apply suffix_refl]. destruct (kind_eqb (t_kind i) ID); [|exfalso; exact (bad_not_ok _ _ (Unexpected_bad _ _ _) E)].
      destruct (parse_ids src eof ts) as [[ids q]| |] eqn:Ei; try discriminate E. cbn [bind] in E. injection E as <- <-. apply (suffix_trans _ ts); [apply (IH ts ltac:(lia) ids q Ei)|]. now exists [t; i].
  Qed.
  Lemma parse_same fuel : (forall ts ctx, agree ts -> same ts (parse_above pton ck src eof fuel ts ctx) (parse_above pton' ck src eof fuel ts ctx)) /\
    (forall ts0 a ts ctx, agree ts0 -> suffix ts ts0 -> same ts0 (extend pton ck src eof fuel a ts ctx) (extend pton' ck src eof fuel a ts ctx)).
  Proof.
    induction fuel as [|fuel [IH1 IH2]]; [split; intros; (split; [reflexivity|discriminate])|].
    assert (forall ts0 ts ctx, agree ts0 -> suffix ts ts0 -> same ts0 (parse_above pton ck src eof fuel ts ctx) (parse_above pton' ck src eof fuel ts ctx)) as IH1'.
    { intros ts0 ts ctx Ha Hs. destruct (IH1 ts ctx (agree_suffix _ _ Hs Ha)) as [E H]. split; [exact E|]. intros a r Er. exact (suffix_trans _ _ _ (H a r Er) Hs). }
    split.
    - intros ts ctx Ha. cbn [parse_above]. cbv zeta. pose proof (suffix_tl ts) as Ht.
      apply same_bind; [|intros a r Hr; exact (IH2 ts a r ctx Ha Hr)].
      destruct (t_kind (Peek eof ts)) eqn:Ek; try (apply same_bad, Unexpected_bad).
      all: try (apply same_step; intros a; apply same_ok; exact Ht).
      all: try solve [apply same_bind; [exact (IH1' ts _ _ Ha Ht)|]; intros a r Hr; apply same_step; intros b; now apply same_ok].
      all: try solve [apply same_bind; [exact (IH1' ts _ _ Ha Ht)|]; intros a r Hr; apply same_bind; [now apply same_expect|]; intros b q Hq; now apply same_ok].
      all: try solve [apply same_bind; [now apply same_expect|]; intros a r Hr; apply same_step; intros b; now apply same_ok].
      + destruct (kind_eqb (t_kind (Peek eof (tl ts))) LPAR) eqn:El.
        * destruct (ExpectTokenKind src eof STRING (tl (tl ts))) as [[st q]| |] eqn:E1; cbn [bind]; try (split; [reflexivity|discriminate]).
          destruct (ExpectTokenKind src eof RPAR q) as [[rp q2]| |] eqn:E2; cbn [bind]; try (split; [reflexivity|discriminate]).
          apply expect_suffix in E1 as (-> & K1 & ->), E2 as (-> & K2 & ->). apply kind_eqb_eq in El.
          assert (MakeNetworkAddressIntegerConstant pton (t_text (Peek eof ts)) (t_text (Peek eof (tl (tl ts)))) (t_start (Peek eof ts)) (t_end (Peek eof (tl (tl (tl ts))))) =
            MakeNetworkAddressIntegerConstant pton' (t_text (Peek eof ts)) (t_text (Peek eof (tl (tl ts)))) (t_start (Peek eof ts)) (t_end (Peek eof (tl (tl (tl ts)))))) as ->.
          { destruct ts as [|t1 [|t2 [|t3 [|t4 ts]]]]; cbn [tl Peek t_kind] in *; try discriminate. unfold MakeNetworkAddressIntegerConstant.
            destruct (String.eqb (t_text t1) "ipv4"); [reflexivity|]. destruct (String.eqb (t_text t1) "ipv6") eqn:E6; [|reflexivity]. apply String.eqb_eq in E6.
            unfold Ipv6StringToByteString. rewrite (Ha (t_text t3)); [reflexivity|]. exists [], t1, t2, t3, t4, ts. auto 10. }
          apply same_step. intros b. apply same_ok. eapply suffix_trans; [apply suffix_tl|]. eapply suffix_trans; [apply suffix_tl|]. eapply suffix_trans; [apply suffix_tl|exact Ht].
        * apply same_bind; [apply same_refl; intros a r E; apply ids_suffix in E; exact (suffix_trans _ _ _ E Ht)|]. intros a r Hr. apply same_step. intros b. now apply same_ok.
    - intros ts0 a ts ctx Ha Hs. cbn [extend]. cbv zeta. pose proof (suffix_trans _ _ _ (suffix_tl ts) Hs) as Ht.
      destruct (t_kind (Peek eof ts)) eqn:Ek; try (apply same_bad, Unexpected_bad).
      all: try (apply same_ok; exact Hs).
      all: match goal with |- same _ (if ?c then _ else _) _ => destruct c; [apply same_bad, ParseErrorAt_bad|] end.
      all: match goal with |- same _ (if ?c then _ else _) _ => destruct c; [apply same_ok; exact Hs|] end.
      all: match goal with |- same _ (if ?c then _ else _) _ => destruct c; [apply same_ok; exact Ht|] end.
      all: match goal with |- same _ (if ?c then _ else _) _ => destruct c end.
      all: try (apply same_bind; [apply same_expect; exact Ht|]; intros f r Hr; apply same_step; intros b; exact (IH2 ts0 b r ctx Ha Hr)).
      all: apply same_bind; [exact (IH1' ts0 _ _ Ha Ht)|]; intros b r Hr; apply same_step; intros c; exact (IH2 ts0 c r ctx Ha Hr).
  Qed.
End Parsing.

(** * C81 *)
Theorem C81_parse : forall pton pton' ck cs, read_alike pton pton' (names_ipv6 (Tokenize cs)) -> ParseConstraint pton ck cs = ParseConstraint pton' ck cs.
Proof.
  intros pton pton' ck cs H. unfold ParseConstraint, ParseTokens. cbv zeta. destruct (proj1 (parse_same pton pton' ck cs (eof_location (Tokenize cs)) (parse_fuel (Tokenize cs))) (Tokenize cs) 0%nat H) as [E _]. now rewrite E.
Qed.
Print Assumptions C81_parse.
(** A text in which "ipv6" does not occur names no address. *)
Lemma token_in_text l s ts : Lex l s ts -> forall t, In t ts -> t_kind t = ID -> exists a b, s = a ++ t_text t ++ b.
Proof.
  induction 1 as [l|l c s Hn|l s lx rest ts (E & n & Hs & _) H IH|l s lx k text rest ts (E & n & Hs & _) H IH]; intros t Ht Hk.
  - destruct Ht as [<-|[]]. discriminate Hk.
  - destruct Ht as [<-|[]]. discriminate Hk.
  - destruct (IH t Ht Hk) as (a & b & ->). exists (lx ++ a), b. now rewrite E, sapp_assoc.
  - destruct Ht as [<-|Ht].
    + cbn in Hk. subst k. exists "", rest. rewrite E. cbn [String.append t_text]. inversion Hs; subst; reflexivity.
    + destruct (IH t Ht Hk) as (a & b & ->). exists (lx ++ a), b. now rewrite E, sapp_assoc.
Qed.
Lemma free_names_none cs s : free_of "ipv6" (cs_string cs) -> ~ names_ipv6 (Tokenize cs) s.
Proof.
  intros H (b & i & lp & st & rp & a & E & Hi & Ht & _). destruct cs as [str l]. pose proof (Tokenize_Lex_at str l) as HL. cbn [cs_string] in H.
  destruct (token_in_text _ _ _ HL i) as (x & y & Es); [rewrite E; apply in_or_app; right; now left|exact Hi|]. rewrite Ht in Es. exact (H x y Es).
Qed.
Theorem C81_parse_without : forall pton pton' ck cs, free_of "ipv6" (cs_string cs) -> ParseConstraint pton ck cs = ParseConstraint pton' ck cs.
Proof. intros pton pton' ck cs H. apply C81_parse. intros s Hs. destruct (free_names_none cs s H Hs). Qed.
Print Assumptions C81_parse_without.

(** Loading. *)
Lemma collect_ext {D I} (f g : D -> outcome I) id dup l : (forall d, In d l -> f d = g d) -> forall m es, collect f id dup l m es = collect g id dup l m es.
Proof.
  induction l as [|d l IH]; intros H m es; [reflexivity|]. cbn [collect]. rewrite (H d) by now left.
  assert (forall m es, collect f id dup l m es = collect g id dup l m es) as IH' by (apply IH; intros x Hx; apply H; now right).
  destruct (g d) as [i|c x|w]; [|apply IH'|reflexivity]. destruct (assoc_insert N.eqb (id d) i m); apply IH'.
Qed.
Theorem C81_load : forall pton pton' p, read_alike pton pton' (program_names_ipv6 p) -> P4ToConstraintInfo pton p = P4ToConstraintInfo pton' p.
Proof.
  intros pton pton' p H. unfold P4ToConstraintInfo.
  rewrite (collect_ext (ParseTableInfo pton) (ParseTableInfo pton')).
  - destruct (collect (ParseTableInfo pton') _ _ _ _ _) as [[ts es]| |]; cbn [bind]; try reflexivity.
    rewrite (collect_ext (ParseActionInfo pton) (ParseActionInfo pton')); [reflexivity|].
    intros d Hd. unfold ParseActionInfo. cbv zeta. destruct (insert_keys _ _ _ _) as [[a b]| |]; cbn [bind]; try reflexivity.
    destruct (ExtractConstraint kActionConstraint (pad_preamble d)) as [[cs|]| |] eqn:E; cbn [bind]; try reflexivity.
    rewrite (C81_parse pton pton'); [reflexivity|]. intros s Hs. apply H. right. exists d, cs. split; [exact Hd|]. split; [now apply extract_some|exact Hs].
  - intros d Hd. unfold ParseTableInfo. cbv zeta. destruct (insert_keys _ _ _ _) as [[a b]| |]; cbn [bind]; try reflexivity.
    destruct (ExtractConstraint kTableConstraint (pt_preamble d)) as [[cs|]| |] eqn:E; cbn [bind]; try reflexivity.
    rewrite (C81_parse pton pton'); [reflexivity|]. intros s Hs. apply H. left. exists d, cs. split; [exact Hd|]. split; [now apply extract_some|exact Hs].
Qed.
Print Assumptions C81_load.
(** The command-line tool. *)
Theorem C81_p4check : forall pton pton' flag p entries, read_alike pton pton' (fun s => exists q, p = FileOk q /\ program_names_ipv6 q s) -> p4check pton flag p entries = p4check pton' flag p entries.
Proof.
  intros pton pton' flag p entries H. unfold p4check. destruct (String.eqb flag ""); [reflexivity|]. destruct p as [| |q]; try reflexivity.
  rewrite (C81_load pton pton' (coerce_p4info q)); [reflexivity|]. intros s [(d & cs & Hd & Hr & Hs)|(d & cs & Hd & Hr & Hs)]; apply H; exists q; (split; [reflexivity|]).
  - cbn in Hd. apply in_map_iff in Hd as (d0 & <- & Hd). left. exists d0, cs. split; [exact Hd|]. split; [exact Hr|exact Hs].
  - right. exists d, cs. auto.
Qed.
Print Assumptions C81_p4check.
(** Constraints given to the solver as text. *)
Theorem C81_add : forall check pton pton' cs text, read_alike pton pton' (names_ipv6 (Tokenize (mkCSource text (mkLoc 0 0 (SrcTable (ti_name (cs_table cs))))))) ->
  AddConstraintString check pton cs text = AddConstraintString check pton' cs text.
Proof. intros check pton pton' cs text H. unfold AddConstraintString. cbv zeta. now rewrite (C81_parse pton pton' _ _ H). Qed.
Print Assumptions C81_add.

(** * Cases *)
Definition rs_text : string := "e == ipv6('::1') || ipv4('1.2.3.4') != t::value".
Definition rs_csource : csource := mkCSource rs_text (mkLoc 0 0 (SrcTable "t")).
(** Resolvers that read "::1" in the same way and differ elsewhere. *)
Definition rs_one : inet_pton6 := fun s => if String.eqb s "::1" then Some (String.concat "" (repeat (str1 NUL) 15) ++ str1 (ascii_of_nat 1)) else None.
Definition rs_two : inet_pton6 := fun s => if String.eqb s "::1" then rs_one s else Some (String.concat "" (repeat (str1 NUL) 16)).
Fixpoint scan (ts : list token) : list string :=
  match ts with
  | [] => []
  | i :: r => match r with lp :: st :: rp :: _ => if (kind_eqb (t_kind st) STRING && String.eqb (t_text i) "ipv6")%bool then [t_text st] else [] | _ => [] end ++ scan r
  end%list.
Lemma scan_names ts s : names_ipv6 ts s -> In s (scan ts).
Proof.
  intros (b & i & lp & st & rp & a & -> & Ki & Ti & Kl & Ks & Kr & <-). induction b as [|x b IH].
  - cbn [app scan]. rewrite Ti, Ks. now left.
  - cbn [app]. cbn [scan]. apply in_or_app. right. exact IH.
Qed.
Example C81_case : names_ipv6 (Tokenize rs_csource) "::1" /\ read_alike rs_one rs_two (names_ipv6 (Tokenize rs_csource)) /\ rs_one "1::" <> rs_two "1::" /\
  (exists e, ParseConstraint rs_one kTableConstraint rs_csource = Ok e) /\ ParseConstraint rs_one kTableConstraint rs_csource <> ParseConstraint (fun _ => None) kTableConstraint rs_csource /\
  (forall pton pton', P4ToConstraintInfo pton demo_info = P4ToConstraintInfo pton' demo_info) /\ P4ToConstraintInfo pton1 demo_info = Ok demo_ci.
Proof.
  assert (forall s, names_ipv6 (Tokenize rs_csource) s -> s = "::1") as Hn.
  { intros s Hs. apply scan_names in Hs. vm_compute in Hs. destruct Hs as [<-|[]]. reflexivity. }
  split; [|split; [intros s Hs; rewrite (Hn s Hs); reflexivity|split; [discriminate|split; [vm_compute; eexists; reflexivity|split; [vm_compute; discriminate|split; [|vm_compute; reflexivity]]]]]].
  - set (ts := Tokenize rs_csource). vm_compute in ts. exists (firstn 2 ts). unfold ts. cbn [firstn]. do 5 eexists. split; [reflexivity|]. repeat split; reflexivity.
  - intros pton pton'. apply C81_load. intros s [(d & cs & Hd & Hr & Hs)|(d & cs & Hd & Hr & Hs)]; exfalso.
    + apply extract_some in Hr. destruct Hd as [<-|[<-|[]]]; vm_compute in Hr; [injection Hr as <-|discriminate Hr]. destruct Hs as (b & i & lp & st & rp & a & E & Ki & Ti & _).
      assert (existsb (fun t => String.eqb (t_text t) "ipv6") (b ++ i :: lp :: st :: rp :: a) = true) as Hx by (apply existsb_exists; exists i; split; [apply in_or_app; right; now left|now rewrite Ti]). rewrite <- E in Hx. vm_compute in Hx. discriminate Hx.
    + apply extract_some in Hr. destruct Hd as [<-|[]]; vm_compute in Hr; injection Hr as <-. destruct Hs as (b & i & lp & st & rp & a & E & Ki & Ti & _).
      assert (existsb (fun t => String.eqb (t_text t) "ipv6") (b ++ i :: lp :: st :: rp :: a) = true) as Hx by (apply existsb_exists; exists i; split; [apply in_or_app; right; now left|now rewrite Ti]). rewrite <- E in Hx. vm_compute in Hx. discriminate Hx.
Qed.
