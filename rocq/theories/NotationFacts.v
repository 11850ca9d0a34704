(** Facts behind C63: numerals in other bases. *)
From Coq Require Import String Ascii List ZArith NArith Bool Lia.
From Verif Require Import Base Num Token Ast Lexer Quote AstConstructors Parser Info TypeChecker ConstraintInfo Interpreter SpecLexer SpecGrammar SpecParser SpecTyping SpecSemantics SpecInfo SpecMisc SpecLaws SpecReading SpecRobust
  StrFacts NumFacts LiteralFacts ParserFacts4 TypeFacts EvalFacts SemFacts SemFacts2 EntryFacts ExplainFacts VerdictFacts InfoFacts InfoFacts2 InterpFacts InterpFacts2 LawFacts RetoldFacts ReadingFacts ReadingFacts2 ReadingFacts3 LoadFacts RenameFacts.
Import ListNotations.
Open Scope string_scope.

(** * Tokens *)
Lemma same_token_other t t' : same_token t t' -> (forall b, ~ base (t_kind t) b) -> t_kind t' = t_kind t /\ t_text t' = t_text t.
Proof. intros [[E1 E2]|(b & b' & n & H & _)] Hn; [auto|]. destruct (Hn b H). Qed.
Ltac st := repeat match goal with
  | H : Forall2 same_token (_ ++ _)%list _ |- _ => apply Forall2_app_inv_l in H as (? & ? & ? & ? & ->)
  | H : Forall2 same_token (_ :: _) _ |- _ => inversion H; clear H; subst
  | H : Forall2 same_token [] _ |- _ => inversion H; clear H; subst
  end.
Ltac so := repeat match goal with
  | H : same_token ?t _, K : t_kind ?t = _ |- _ => apply same_token_other in H as [? ?]; [|let Q := fresh in intros ? Q; rewrite K in Q; inversion Q]
  | H : same_token ?t _, K : binary (t_kind ?t) _ _ _ |- _ => apply same_token_other in H as [? ?]; [|let Q := fresh in intros ? Q; inversion K as [E|E|E|E|E|E|E|E|E|E]; rewrite <- E in Q; inversion Q]
  end.
Lemma dots_same w ids : Dots w ids -> forall w', Forall2 same_token w w' -> exists ids', Dots w' ids' /\ map t_text ids' = map t_text ids.
Proof.
  induction 1 as [|dot id w ids Hd Hi H IH]; intros w' E; st; so; [exists []; split; [constructor|reflexivity]|].
  match goal with E : Forall2 same_token w _ |- _ => destruct (IH _ E) as (ids' & Q1 & Q2) end.
  eexists (_ :: ids'). split; [constructor; [congruence|congruence|exact Q1]|]. cbn. congruence.
Qed.
Lemma D_same pton ck n w e : D pton ck n w e -> forall w', Forall2 same_token w w' -> exists e', D pton ck n w' e' /\ Renamed eq e e'.
Proof.
  induction 1 as [t Ht|t Ht|t b n s Hb Hr Hs|id lp s0 rp n s H1 H2 H3 H4 Ha Hs|id w ids Hi Hd|dc id Hd Hi|lp w rp e Hl H IH Hr|w e dc id H IH Hd Hi|t w e Ht H IH|t w e Ht H IH
    |p o w1 e1 t w2 e2 Hb H1 IH1 H2 IH2|p o w1 e1 t w2 e2 Hb H1 IH1 H2 IH2|w e t H IH Ht|n w e H IH]; intros w' E; st; so.
  - eexists. split; [apply D_true; congruence|constructor].
  - eexists. split; [apply D_false; congruence|constructor].
  - match goal with E : same_token t ?u |- _ => destruct E as [[E1 E2]|(b1 & b2 & n' & B1 & B2 & R1 & R2)] end.
    + eexists. split; [eapply D_num; [rewrite <- E1; exact Hb|rewrite <- E2; exact Hr|exact Hs]|constructor].
    + assert (b1 = b) as -> by (destruct Hb; now inversion B1). assert (n' = n) as -> by exact (Reads_fun _ _ _ _ R1 Hr). eexists. split; [eapply D_num; [exact B2|exact R2|exact Hs]|constructor].
  - eexists. split; [eapply D_addr; try congruence; [|exact Hs]|constructor]. match goal with |- Address _ ?a ?b _ => replace a with (t_text id) by congruence; replace b with (t_text s0) by congruence end. exact Ha.
  - match goal with E : Forall2 same_token w _ |- _ => destruct (dots_same _ _ Hd _ E) as (ids' & Hd' & Em) end. eexists. split; [apply D_var; [congruence|exact Hd']|].
    cbn [map]. rewrite Em. match goal with E : t_text _ = t_text id |- _ => rewrite E end. destruct ck; constructor; reflexivity.
  - eexists. split; [apply D_attr; congruence|]. match goal with E : t_text _ = t_text id |- _ => rewrite E end. constructor.
  - match goal with E : Forall2 same_token w _ |- _ => destruct (IH _ E) as (e' & H' & Ha) end. eexists. split; [apply D_paren; [congruence|exact H'|congruence]|exact Ha].
  - match goal with E : Forall2 same_token w _ |- _ => destruct (IH _ E) as (e' & H' & Ha) end. eexists. split; [apply D_field; [exact H'|congruence|congruence]|]. match goal with E : t_text _ = t_text id |- _ => rewrite E end. now constructor.
  - match goal with E : Forall2 same_token w _ |- _ => destruct (IH _ E) as (e' & H' & Ha) end. eexists. split; [apply D_not; [congruence|exact H']|]. now constructor.
  - match goal with E : Forall2 same_token w _ |- _ => destruct (IH _ E) as (e' & H' & Ha) end. eexists. split; [apply D_neg; [congruence|exact H']|]. now constructor.
  - match goal with E : Forall2 same_token w1 _, F : Forall2 same_token w2 _ |- _ => destruct (IH1 _ E) as (e1' & H1' & Ha1); destruct (IH2 _ F) as (e2' & H2' & Ha2) end.
    eexists. split; [eapply D_chain; [match goal with E : t_kind _ = t_kind t |- _ => rewrite E; exact Hb end|exact H1'|exact H2']|]. now constructor.
  - match goal with E : Forall2 same_token w1 _, F : Forall2 same_token w2 _ |- _ => destruct (IH1 _ E) as (e1' & H1' & Ha1); destruct (IH2 _ F) as (e2' & H2' & Ha2) end.
    eexists. split; [eapply D_single; [match goal with E : t_kind _ = t_kind t |- _ => rewrite E; exact Hb end|exact H1'|exact H2']|]. now constructor.
  - match goal with E : Forall2 same_token w _ |- _ => destruct (IH _ E) as (e' & H' & Ha) end. eexists. split; [apply D_trailing; [exact H'|congruence]|exact Ha].
  - destruct (IH _ E) as (e' & H' & Ha). eexists. split; [apply D_up; exact H'|exact Ha].
Qed.
Lemma reads_as_same pton ck cs cs' e : Forall2 same_token (Tokenize cs) (Tokenize cs') -> reads_as pton ck cs e -> exists e', reads_as pton ck cs' e' /\ Renamed eq e e'.
Proof.
  intros E (w & t & Ew & Ht & Hd). rewrite Ew in E. apply Forall2_app_inv_l in E as (w' & l & E1 & E2 & Ew'). inversion E2 as [|? t' ? l' Et El]; subst. inversion El; subst. so.
  destruct (D_same _ _ _ _ _ Hd _ E1) as (e' & Hd' & Ha). exists e'. split; [|exact Ha]. exists w', t'. split; [exact Ew'|]. split; [congruence|exact Hd'].
Qed.

(** * Declarations *)
Lemma eq_typed G e e' t : Renamed eq e e' -> Typed G e t -> Typed G e' t.
Proof. intros HR. apply (renamed_typed eq G G); [| |exact HR]; intros m m' n n' t' -> H; inversion H; subst; econstructor; eauto. Qed.
Lemma eq_meant cmp G r e e' v : Renamed eq e e' -> Meant cmp G r e v -> Meant cmp G r e' v.
Proof.
  intros HR. apply (renamed_meant eq G G); [| | | | |exact HR].
  - intros m m' n n' t' -> H; inversion H; subst; econstructor; eauto.
  - intros m m' n n' t' -> H; inversion H; subst; econstructor; eauto.
  - intros m m' n n' v' -> H; inversion H; subst; econstructor; eauto.
  - intros m m' n n' v' -> H; inversion H; subst; econstructor; eauto.
  - intros m m' n v' H; inversion H; subst; econstructor; eauto.
Qed.
Lemma restated_sym pton p p' : restated pton p p' -> restated pton p' p.
Proof.
  intros [H1 H2]. split; [revert H1|revert H2]; apply forall2_sym; intros a b (E1 & E2 & E3); (split; [auto|]); (split; [auto|]); (eapply renamed_restriction_sym; [|exact E3]); cbn; auto.
Qed.
Section Restated.
  Variable pton : inet_pton6.
  Hypothesis Hp : pton_ok pton.
  Lemma restated_read ck pre pre' cs e : renamed_restriction pton ck eq pre pre' -> restricted ck pre cs -> reads_as pton ck cs e -> exists cs' e', restricted ck pre' cs' /\ reads_as pton ck cs' e' /\ Renamed eq e e'.
  Proof.
    intros [Hu _|cs1 cs' e1 e' Hr1 Hr' Hra1 Hra' HRn] Hr Hra; [exfalso; exact (restricted_not _ _ _ Hu Hr)|]. rewrite (restricted_fun _ _ _ _ Hr1 Hr) in Hra1. rewrite (reads_as_fun _ _ _ _ _ Hp Hra1 Hra) in HRn. eauto.
  Qed.
  Lemma restated_free ck (R : string -> string -> Prop) pre pre' : renamed_restriction pton ck R pre pre' -> unrestricted ck pre -> unrestricted ck pre'.
  Proof. intros [_ Hu'|? ? ? ? Hr1 _] Hu; [exact Hu'|exfalso; exact (restricted_not _ _ _ Hu Hr1)]. Qed.
  Lemma restated_load_table d d' : restated_table pton d d' -> loadable_table pton d -> loadable_table pton d'.
  Proof.
    intros (_ & Ef & HR) (ks & Hks & Ni & N1 & Hc). exists ks. rewrite <- Ef. split; [exact Hks|]. split; [exact Ni|]. split; [exact N1|]. destruct Hc as [Hu|(cs & e & t & Hr & Hra & Hty)]; [left; eapply restated_free; eauto|right].
    destruct (restated_read _ _ _ _ _ HR Hr Hra) as (cs' & e' & H1 & H2 & H3). exists cs', e', t. eauto using eq_typed.
  Qed.
  Lemma restated_load_action d d' : restated_action pton d d' -> loadable_action pton d -> loadable_action pton d'.
  Proof.
    intros (_ & Ef & HR) (ks & Hks & Ni & N1 & Hc). exists ks. rewrite <- Ef. split; [exact Hks|]. split; [exact Ni|]. split; [exact N1|]. destruct Hc as [Hu|(cs & e & t & Hr & Hra & Hty)]; [left; eapply restated_free; eauto|right].
    destruct (restated_read _ _ _ _ _ HR Hr Hra) as (cs' & e' & H1 & H2 & H3). exists cs', e', t. eauto using eq_typed.
  Qed.
  Lemma restated_says_table d d' entry x : restated_table pton d d' -> table_says pton d entry x -> table_says pton d' entry x.
  Proof.
    intros (_ & Ef & HR) (ks & cs & e & key & Hks & Hr & Hra & Hco & Hkey & Hty & HM). destruct (restated_read _ _ _ _ _ HR Hr Hra) as (cs' & e' & H1 & H2 & H3).
    exists ks, cs', e', key. rewrite <- Ef. eauto 10 using eq_typed, eq_meant.
  Qed.
  Lemma restated_says_action d d' a x : restated_action pton d d' -> action_says pton d a x -> action_says pton d' a x.
  Proof.
    intros (_ & Ef & HR) (ks & cs & e & key & Hks & Hr & Hra & Hco & Hkey & Hty & HM). destruct (restated_read _ _ _ _ _ HR Hr Hra) as (cs' & e' & H1 & H2 & H3).
    exists ks, cs', e', key. rewrite <- Ef. eauto 10 using eq_typed, eq_meant.
  Qed.
End Restated.
