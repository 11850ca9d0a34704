(** C98: the work of reading a constraint. *)
From Coq Require Import String Ascii List ZArith NArith Bool Lia.
From Verif Require Import Base Num Token Ast Lexer Quote AstConstructors Parser Info TypeChecker ParserWork SpecLexer SpecGrammar SpecParser SpecBounds SpecWork SpecReadCost
  ParserFacts ParserFacts4 ParserFacts6 ReadCostFacts PropertiesParser PropertiesBounds PropertiesInfo.
Import ListNotations.
Open Scope string_scope.
Local Notation len l := (Z.of_nat (List.length l)).

(** Counting changes no result. *)
Theorem C98_same : forall pton ck src, fst (wParseConstraint pton ck src) = ParseConstraint pton ck src.
Proof.
  intros pton ck src. unfold wParseConstraint, ParseConstraint, wParseTokens, ParseTokens. cbv zeta. rewrite <- (proj1 (same_work pton ck src _ _)). apply fst_wbind. intros [e us]. apply fst_wbind. now intros [t vs].
Qed.
Print Assumptions C98_same.

Lemma tokens_cost pton ck ts src : let '(o, w) := wParseTokens pton ck ts src in
  (0 <= taken w <= len ts + 1 /\ 0 <= peeked w <= 3 * taken w /\ 0 <= copied w /\ 2 * copied w <= taken w * (taken w - 1))%Z /\ (forall e, o = Ok e -> copied w = depths 0 e).
Proof.
  unfold wParseTokens. cbv zeta. pose proof (proj1 (good_cost pton ck src (eof_location ts) (parse_fuel ts)) ts 0%nat) as H. unfold good, base, tri in H.
  destruct (wparse_above pton ck src (eof_location ts) (parse_fuel ts) ts 0) as [[[e us]|k m|c] w]; cbn [wbind]; [|split; [nia|discriminate]..].
  unfold wExpectTokenKind. destruct (ExpectTokenKind src (eof_location ts) END_OF_INPUT us) as [[t vs]|k m|c];
    cbn [wbind after fst snd free plus_work taken peeked copied take no_work]; (split; [nia|intros e' He; try discriminate He]). injection He as <-. lia.
Qed.
(** Each token is taken at most once (and at most one more beyond the last), and there are at most three further looks at the next token for each token taken.
    What is copied is at most quadratic. All this for every source, accepted or not. *)
Theorem C98_reads : forall pton ck src, let w := snd (wParseConstraint pton ck src) in let n := len (Tokenize src) in
  (0 <= taken w <= n + 1 /\ 0 <= peeked w <= 3 * (n + 1) /\ 0 <= copied w /\ 2 * copied w <= n * (n + 1))%Z.
Proof.
  intros pton ck src w n. subst w n. pose proof (tokens_cost pton ck (Tokenize src) src) as H. unfold wParseConstraint. destruct (wParseTokens pton ck (Tokenize src) src) as [o w]. cbn [snd]. nia.
Qed.
Print Assumptions C98_reads.
(** In terms of the length of the text. *)
Theorem C98_length : forall pton ck src, let w := snd (wParseConstraint pton ck src) in let n := Z.of_nat (String.length (cs_string src)) in
  (taken w <= n + 2 /\ peeked w <= 3 * (n + 2) /\ 2 * copied w <= (n + 1) * (n + 2))%Z.
Proof.
  intros pton ck src w n. subst w n. pose proof (C98_reads pton ck src) as H. cbv zeta in H. pose proof (proj2 (C75_tokens src)) as Hl. nia.
Qed.
Print Assumptions C98_length.
(** What a successful parse copies, exactly: each node of the result once for every expression around it. *)
Theorem C98_copied : forall pton ck src e, ParseConstraint pton ck src = Ok e -> copied (snd (wParseConstraint pton ck src)) = depths 0 e.
Proof.
  intros pton ck src e H. rewrite <- C98_same in H. pose proof (tokens_cost pton ck (Tokenize src) src) as HC. unfold wParseConstraint in *. destruct (wParseTokens pton ck (Tokenize src) src) as [o w]. cbn [fst snd] in *. apply (proj2 HC). exact H.
Qed.
Print Assumptions C98_copied.

Fixpoint conj_kinds (n : nat) : list (kind * string) := match n with O => [(TRUE, "true")] | S m => (TRUE, "true") :: (AND, "&&") :: conj_kinds m end.
Lemma conj_text n : text_of (conj_kinds n) = conjunction n.
Proof. induction n as [|n IH]; [reflexivity|]. cbn [conj_kinds conjunction]. rewrite <- IH. reflexivity. Qed.
Lemma conj_snoc n : conj_kinds (S n) = (conj_kinds n ++ [(AND, "&&"); (TRUE, "true")])%list.
Proof. induction n as [|n IH]; [reflexivity|]. transitivity ((TRUE, "true") :: (AND, "&&") :: conj_kinds (S n)); [reflexivity|]. rewrite IH at 1. reflexivity. Qed.
Lemma conj_D pton ck : forall n w, map kt w = conj_kinds n -> exists e, D pton ck 4 w e /\ nodes e = (2 * Z.of_nat n + 1)%Z /\ depths 0 e = (Z.of_nat n * (Z.of_nat n + 1))%Z.
Proof.
  induction n as [|n IH]; intros w E.
  - apply map_kt_cons in E as (t & w' & -> & Hk & _ & E). apply map_kt_nil in E as ->. eexists. split; [do 4 apply D_up; now apply D_true|]. split; reflexivity.
  - rewrite conj_snoc in E. apply map_eq_app in E as (w1 & w2 & -> & E1 & E2). apply map_kt_cons in E2 as (a & w' & -> & Ha & _ & E2). apply map_kt_cons in E2 as (t & w'' & -> & Ht & _ & E2). apply map_kt_nil in E2 as ->.
    destruct (IH _ E1) as (e & HD & Hn & Hd). eexists. split.
    + eapply (D_chain pton ck 4 OAND w1 e a [t]); [rewrite Ha; constructor|exact HD|do 3 apply D_up; apply D_true; exact Ht].
    + cbn [nodes depths]. rewrite (depths_shift e). lia.
Qed.
(** The quadratic amount is reached, by constraints as simple as this one. *)
Theorem C98_reached : forall pton ck l n, pton_ok pton -> let src := mkCSource (conjunction n) l in
  (exists e, ParseConstraint pton ck src = Ok e) /\ Z.of_nat (String.length (conjunction n)) = (8 * Z.of_nat n + 5)%Z /\ copied (snd (wParseConstraint pton ck src)) = (Z.of_nat n * (Z.of_nat n + 1))%Z.
Proof.
  intros pton ck l n Hp src. destruct (by_kinds pton Hp ck src (conj_kinds n) (fun e => depths 0 e = (Z.of_nat n * (Z.of_nat n + 1))%Z)) as (e & He & Hd).
  - unfold src. rewrite <- conj_text. apply kts_text_of. clear. induction n as [|n IH]; cbn [conj_kinds In]; intros k t Hin; repeat (destruct Hin as [Hin|Hin]; [injection Hin as <- <-; apply spelling_fixed; [cbn; tauto|discriminate]|]); [destruct Hin|exact (IH _ _ Hin)].
  - intros w Hw. destruct (conj_D pton ck n w Hw) as (e & HD & _ & Hd). exists e. split; [now do 4 apply D_up|exact Hd].
  - split; [exists e; exact He|]. split; [|rewrite (C98_copied _ _ _ _ He); exact Hd]. clear. induction n as [|n IH]; [reflexivity|]. cbn [conjunction String.append String.length]. lia.
Qed.
Print Assumptions C98_reached.
(** So no linear bound holds: whatever the factor, some text makes the parser copy more. *)
Theorem C98_not_linear : forall pton ck l k, pton_ok pton -> exists text e, ParseConstraint pton ck (mkCSource text l) = Ok e /\
  (copied (snd (wParseConstraint pton ck (mkCSource text l))) > k * Z.of_nat (String.length text))%Z.
Proof.
  intros pton ck l k Hp. set (n := Z.to_nat (8 * Z.abs k + 5)). destruct (C98_reached pton ck l n Hp) as ((e & He) & Hl & Hc). exists (conjunction n), e. split; [exact He|]. rewrite Hc, Hl. unfold n. nia.
Qed.
Print Assumptions C98_not_linear.

Lemma static_not_ok {A} src s e text (a : A) : StaticTypeError src s e text <> Ok a.
Proof. unfold StaticTypeError, QuotedError. destruct (QuoteSubConstraint src s e); discriminate. Qed.
Lemma lInfer_fst ai ti e p : fst (lInfer ai ti e p) = Infer ai ti e.
Proof. destruct e; reflexivity. Qed.
Lemma infer_visits ai ti : forall e p, exists rest, positions e p = (snd (lInfer ai ti e p) ++ rest)%list /\ (forall e', Infer ai ti e = Ok e' -> rest = []).
Proof.
  assert (forall e p, exists rest, positions e p = ([p] ++ rest)%list) as Hroot by (intros e p; destruct e; cbn [positions app]; eexists; reflexivity).
  destruct ai as [ai|], ti as [ti|]; try (intros e p; destruct (Hroot e p) as (rest & Hr); exists rest; split; [rewrite Hr; destruct e; reflexivity|intros e' He; destruct e; discriminate He]).
  all: induction e as [m b|m s|m s|m s|m a IH|m a IH|m a IH|m o l IHl r IHr|m f a IH|m s|m]; intros p; cbn [lInfer positions snd]; try (exists []; split; [reflexivity|reflexivity]).
  all: try (destruct (IH (false :: p)) as (rest & Hr & Ho); exists rest; split; [rewrite Hr; reflexivity|]; intros e' He; cbn [Infer GetConstraintSource bind] in He; apply bind_ok in He as (x & Hx & _); exact (Ho _ Hx)).
  all: try (exists (positions a (false :: p)); split; [reflexivity|intros e' He; exfalso; cbn [Infer GetConstraintSource bind] in He; exact (static_not_ok _ _ _ _ _ He)]).
  all: destruct (IHl (false :: p)) as (rl & Hl & Hol); destruct (IHr (true :: p)) as (rr & Hr & Hor);
    match goal with |- context [lInfer ?A ?B ?L (false :: ?P)] => pose proof (lInfer_fst A B L (false :: P)) as Hf; destruct (lInfer A B L (false :: P)) as [ol ll] end; cbn [fst snd] in Hf, Hl; subst ol; match goal with |- context [match Infer ?A ?B ?L with _ => _ end] => destruct (Infer A B L) as [l'|k x|c] eqn:El end.
  all: try (exists (rl ++ positions r (true :: p))%list; split; [rewrite Hl, app_nil_r, <- app_assoc; reflexivity|intros e' He; cbn [Infer GetConstraintSource bind] in He; rewrite El in He; discriminate He]).
  all: exists rr; rewrite (Hol _ eq_refl), app_nil_r in Hl; (split; [rewrite Hl, Hr, app_assoc; reflexivity|]); intros e' He; cbn [Infer GetConstraintSource bind] in He; rewrite El in He; cbn [bind] in He; apply bind_ok in He as (x & Hx & _); exact (Hor _ Hx).
Qed.
(** Type checking visits the nodes of the constraint from left to right, each once, and stops at the first error. *)
Theorem C98_checked : forall e t, fst (lInfer None (Some t) e []) = InferTable e t /\
  exists rest, positions e [] = (snd (lInfer None (Some t) e []) ++ rest)%list /\ (forall e', InferTable e t = Ok e' -> rest = []).
Proof. intros e t. split; [destruct e; reflexivity|]. exact (infer_visits None (Some t) e []). Qed.
Print Assumptions C98_checked.
Theorem C98_checked_action : forall e a, fst (lInfer (Some a) None e []) = InferAction e a /\
  exists rest, positions e [] = (snd (lInfer (Some a) None e []) ++ rest)%list /\ (forall e', InferAction e a = Ok e' -> rest = []).
Proof. intros e a. split; [destruct e; reflexivity|]. exact (infer_visits (Some a) None e []). Qed.
Print Assumptions C98_checked_action.

(** A parse with brackets, a field, an address and a trailing semicolon; one that fails; a type check that stops half-way. *)
Definition cost_src : csource := mkCSource "!(a.b::mask == 0x1F -> (true)); -1 != c;" (mkLoc 1 0 (SrcTable "t")).
Example C98_case : pton_ok pton1 /\ (exists e, ParseConstraint pton1 kTableConstraint cost_src = Ok e /\ depths 0 e = 30%Z) /\
  snd (wParseConstraint pton1 kTableConstraint cost_src) = mkWork 21 22 30 /\
  (exists s, ParseConstraint pton1 kTableConstraint (mkCSource "true && !!true )" (mkLoc 1 0 (SrcTable "t"))) = Err InvalidArgument s) /\
  snd (wParseConstraint pton1 kTableConstraint (mkCSource "true && !!true )" (mkLoc 1 0 (SrcTable "t")))) = mkWork 6 5 7 /\
  snd (wParseConstraint pton1 kTableConstraint (mkCSource (conjunction 10) (mkLoc 1 0 (SrcTable "t")))) = mkWork 22 21 110.
Proof.
  split; [exact pton1_ok|]. split; [eexists; split; [vm_compute; reflexivity|vm_compute; reflexivity]|]. split; [vm_compute; reflexivity|]. split; [eexists; vm_compute; reflexivity|]. split; vm_compute; reflexivity.
Qed.
(** [true && 1 && false]: the checker stops at the first conjunction and does not look at [false]. *)
Definition cost_tree : expr := let m := mkMeta (mkLoc 1 0 (SrcTable "t")) (mkLoc 1 1 (SrcTable "t")) TNotSet in
  EBin m OAND (EBin m OAND (EBool m true) (EInt m "1")) (EBool m false).
Example C98_checked_case : snd (lInfer None (Some (mkTable 1 "t" None (mkCSource "x" (mkLoc 1 0 (SrcTable "t"))) [] [])) cost_tree []) = [[]; [false]; [false; false]; [true; false]] /\
  positions cost_tree [] = [[]; [false]; [false; false]; [true; false]; [true]] /\ exists s, InferTable cost_tree (mkTable 1 "t" None (mkCSource "x" (mkLoc 1 0 (SrcTable "t"))) [] []) = Err InvalidArgument s.
Proof. split; [vm_compute; reflexivity|]. split; [reflexivity|]. eexists. vm_compute. reflexivity. Qed.
