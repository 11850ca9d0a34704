(** Facts behind C97: loosening a constraint keeps it true where it was. *)
From Coq Require Import String Ascii List ZArith NArith Bool Lia.
From Verif Require Import Base Num Token Ast Quote AstConstructors Info TypeChecker Parser Interpreter Z3 Symbolic SpecLexer SpecGrammar SpecTyping TypeFacts NumFacts LiteralFacts SpecSemantics SpecMisc SpecLaws SpecSymbolic SpecReading SpecRewritten SpecWeaker EvalFacts SemFacts SemFacts2 LawFacts ReadingFacts ReadingFacts2 SolverLawFacts PropertiesSession.
Import ListNotations.
Open Scope string_scope.

(** Comparisons that imply others. *)
Inductive implied : binop -> binop -> Prop :=
| im_lt_le : implied OLT OLE | im_gt_ge : implied OGT OGE | im_eq_le : implied OEQ OLE | im_eq_ge : implied OEQ OGE
| im_lt_ne : implied OLT ONE | im_gt_ne : implied OGT ONE.
Lemma implied_comparisons o o' : implied o o' -> comparison o /\ comparison o'.
Proof. intros []; split; first [apply cm_eq; constructor|apply cm_ord; constructor]. Qed.
Lemma documented_implied t o o' u v : implied o o' -> documented t o u v true -> documented t o' u v false -> False.
Proof.
  intros Hi [_ [H _]] [Hc [_ H']]. specialize (H eq_refl). assert (~ Compares o' u v) as Hn by (intros Hx; specialize (H' Hx); discriminate). clear H'. apply Hn. clear Hn.
  destruct Hi; inversion H as [| |? ? x y Hx Hy L| |? ? x y Hx Hy L|]; subst; try (econstructor; try eassumption; lia).
  - destruct Hc as [Hc|(_ & [x Hx] & _)]; [inversion Hc|]. apply (cp_le _ _ x x Hx Hx). lia.
  - destruct Hc as [Hc|(_ & [x Hx] & _)]; [inversion Hc|]. apply (cp_ge _ _ x x Hx Hx). lia.
  - constructor. intros ->. rewrite (numeral_fun _ _ _ Hx Hy) in L. lia.
  - constructor. intros ->. rewrite (numeral_fun _ _ _ Hx Hy) in L. lia.
Qed.
Lemma signed_implied t o o' u v : implied o o' -> signed_order t o u v true -> signed_order t o' u v false -> False.
Proof.
  intros Hi [[H1 H2]|[H1 H2]] [[H3 H4]|[H3 H4]].
  - destruct Hi; inversion H1; inversion H3.
  - destruct Hi; try (inversion H1; fail); try (inversion H3; fail); refine (documented_implied t _ _ _ _ _ _ H4); try (constructor; fail);
      destruct H2 as [_ [H2 _]]; specialize (H2 eq_refl); inversion H2; subst; (split; [left; constructor|]); split; try reflexivity; intros _; constructor.
  - destruct Hi; try (inversion H1; fail); try (inversion H3; fail); refine (documented_implied t _ ONE _ _ _ H2 _); try (constructor; fail);
      destruct H4 as [_ [_ H4]]; (split; [left; constructor|]); (split; [discriminate|]); intros C; exfalso; inversion C as [|? ? Hne| | | |]; subst;
      (assert (Compares ONE u v) as C' by (constructor; intros ->; apply Hne; reflexivity); specialize (H4 C'); discriminate H4).
  - exact (documented_implied t o o' _ _ Hi H2 H4).
Qed.

Section Loosening.
  Variables (ai : option action_info) (ti : option table_info) (G : scope).
  Hypothesis HG : in_scope ai ti G.
  Variable cmp : ty -> binop -> value -> value -> bool -> Prop.
  Hypothesis Hfun : forall t o u v x y, cmp t o u v x -> cmp t o u v y -> x = y.
  Hypothesis Himp : forall t o o' u v, implied o o' -> cmp t o u v true -> cmp t o' u v false -> False.
  Variable r : env.
  Hypothesis Htotal : forall e, condition G e -> exists x, Meant cmp G r e (VBool x).
  Notation M := (Meant cmp G r).
  Lemma one_value e x y : M e (VBool x) -> M e (VBool y) -> x = y.
  Proof. intros H H'. pose proof (meant_fun _ _ _ HG cmp Hfun _ _ _ _ H H') as E. injection E as E. exact E. Qed.
  Lemma comparison_step m n o o' a b : implied o o' -> condition G (EBin n o' a b) -> M (EBin m o a b) (VBool true) -> M (EBin n o' a b) (VBool true).
  Proof.
    intros Hi Hc H. destruct (Htotal _ Hc) as [[|] H']; [exact H'|exfalso]. destruct (implied_comparisons _ _ Hi) as [O1 O2].
    inversion H as [| | | | | | |? ? ? ? ? ? Hk|? ? ? ? ? ? Hk|? ? ? ? ta tb t u v u' v' ? _ Ta Tb Hco H1 H2 C1 C2 Hx|]; subst; try (destruct (conn_not_comparison o); assumption).
    inversion H' as [| | | | | | |? ? ? ? ? ? Hk|? ? ? ? ? ? Hk|? ? ? ? ta' tb' t' w1 w2 w1' w2' ? _ Ta' Tb' Hco' H1' H2' C1' C2' Hx'|]; subst; try (destruct (conn_not_comparison o'); assumption).
    pose proof (typed_fun _ _ _ HG _ _ _ Ta Ta') as <-. pose proof (typed_fun _ _ _ HG _ _ _ Tb Tb') as <-. pose proof (common_fun _ _ _ _ Hco Hco') as <-.
    pose proof (meant_fun _ _ _ HG cmp Hfun _ _ _ _ H1 H1') as <-. pose proof (meant_fun _ _ _ HG cmp Hfun _ _ _ _ H2 H2') as <-.
    pose proof (converts_fun _ _ _ _ _ C1 C1') as <-. pose proof (converts_fun _ _ _ _ _ C2 C2') as <-. exact (Himp _ _ _ _ _ Hi Hx Hx').
  Qed.
  Lemma part_condition_bin m o a b : connective o -> condition G (EBin m o a b) -> condition G a /\ condition G b.
  Proof.
    intros Hc (HT & [L1 L2] & Ha). inversion HT as [| | | | | | |? ? ? ? _ T1 T2|? ? ? ? ? ? ? He|? ? ? ? ? ? ? Ho|]; subst; [|exfalso; destruct Hc; inversion He|exfalso; destruct Hc; inversion Ho].
    split; (split; [assumption|]); (split; [assumption|]); intros Hx; apply Ha; [now apply ha_left|now apply ha_right].
  Qed.
  Lemma join m o a b : connective o -> condition G a -> condition G b -> condition G (EBin m o a b).
  Proof.
    intros Hc (T1 & L1 & A1) (T2 & L2 & A2). split; [now apply T_conn|]. split; [split; assumption|]. intros Hx. inversion Hx; subst; auto.
  Qed.
  Lemma both m o a b z : connective o -> condition G a -> condition G b -> M (EBin m o a b) (VBool z) -> exists x y, M a (VBool x) /\ M b (VBool y) /\ truth o x y = z.
  Proof.
    intros Hc Ca Cb H. destruct (Htotal _ Ca) as [x Hx], (Htotal _ Cb) as [y Hy]. exists x, y. split; [exact Hx|]. split; [exact Hy|].
    exact (one_value _ _ _ (mn_both cmp G r m o a b x y Hc Hx Hy) H).
  Qed.
  Lemma connective_and : connective OAND. Proof. constructor. Qed.
  Lemma connective_or : connective OOR. Proof. constructor. Qed.
  Lemma connective_implies : connective OIMPLIES. Proof. constructor. Qed.
  Lemma step_true a b : Looser a b -> condition G a -> condition G b -> M a (VBool true) -> M b (VBool true).
  Proof.
    intros Hl Ca Cb H. destruct Hl.
    - inversion H.
    - constructor.
    - apply (mn_left cmp G r m OOR a b true true connective_or H). reflexivity.
    - destruct (part_condition_bin _ _ _ _ connective_or Cb) as [C1 _]. destruct (Htotal _ C1) as [x Hx]. pose proof (mn_both cmp G r m OOR a b x true connective_or Hx H) as Hr. destruct x; exact Hr.
    - destruct (part_condition_bin _ _ _ _ connective_and Ca) as [C1 C2]. destruct (both _ _ _ _ _ connective_and C1 C2 H) as (x & y & Hx & Hy & E). apply andb_true_iff in E as [-> ->]. exact Hx.
    - destruct (part_condition_bin _ _ _ _ connective_and Ca) as [C1 C2]. destruct (both _ _ _ _ _ connective_and C1 C2 H) as (x & y & Hx & Hy & E). apply andb_true_iff in E as [-> ->]. exact Hy.
    - destruct (part_condition_bin _ _ _ _ connective_implies Cb) as [C1 _]. destruct (Htotal _ C1) as [x Hx]. pose proof (mn_both cmp G r m OIMPLIES a b x true connective_implies Hx H) as Hr. destruct x; exact Hr.
    - destruct (part_condition_bin _ _ _ _ connective_and Ca) as [C1 C2]. destruct (both _ _ _ _ _ connective_and C1 C2 H) as (x & y & Hx & Hy & E). apply andb_true_iff in E as [-> ->]. exact (mn_both cmp G r n OOR a b true true connective_or Hx Hy).
    - exact (comparison_step _ _ _ _ _ _ im_lt_le Cb H).
    - exact (comparison_step _ _ _ _ _ _ im_gt_ge Cb H).
    - exact (comparison_step _ _ _ _ _ _ im_eq_le Cb H).
    - exact (comparison_step _ _ _ _ _ _ im_eq_ge Cb H).
    - exact (comparison_step _ _ _ _ _ _ im_lt_ne Cb H).
    - exact (comparison_step _ _ _ _ _ _ im_gt_ne Cb H).
  Qed.
  Variable part : expr -> expr -> Prop.
  Lemma loosens_conditions a b : Loosens G part a b -> condition G a /\ condition G b.
  Proof.
    intros H. induction H as [a b HA Ca Cb|a b HL Ca Cb|a b HP Ca Cb|a b c H1 [I1 I2] H2 [J1 J2]|m n a b H [I1 I2]|m n a b c d H1 [I1 I2] H2 [J1 J2]|m n a b c d H1 [I1 I2] H2 [J1 J2]|m n a b c d H1 [I1 I2] H2 [J1 J2]]; auto.
    - destruct I1 as (T1 & L1 & A1), I2 as (T2 & L2 & A2). split; (split; [now constructor|]); (split; [assumption|]); intros Hx; inversion Hx; subst; auto.
    - split; apply join; auto; constructor.
    - split; apply join; auto; constructor.
    - split; apply join; auto; constructor.
  Qed.
  Hypothesis Hpart : forall a b, part a b -> condition G a -> condition G b -> M a (VBool true) -> M b (VBool true).
  Lemma loosens_true a b : Loosens G part a b -> M a (VBool true) -> M b (VBool true).
  Proof.
    intros H. induction H as [a b HA Ca Cb|a b HL Ca Cb|a b HP Ca Cb|a b c H1 I1 H2 I2|m n a b H I|m n a b c d H1 I1 H2 I2|m n a b c d H1 I1 H2 I2|m n a b c d H1 I1 H2 I2]; intros Hv.
    - exact (meant_alike _ _ _ _ _ _ HA Hv).
    - exact (step_true a b HL Ca Cb Hv).
    - exact (Hpart a b HP Ca Cb Hv).
    - auto.
    - destruct (loosens_conditions _ _ H) as [Cb _]. destruct (Htotal _ Cb) as [[|] Hx].
      + apply I in Hx. pose proof (one_value _ _ _ (mn_not cmp G r m a true Hx) Hv) as E. discriminate E.
      + exact (mn_not cmp G r n b false Hx).
    - destruct (loosens_conditions _ _ H1) as [Ca _], (loosens_conditions _ _ H2) as [Cc _]. destruct (both _ _ _ _ _ connective_and Ca Cc Hv) as (x & y & Hx & Hy & E). apply andb_true_iff in E as [-> ->].
      exact (mn_both cmp G r n OAND b d true true connective_and (I1 Hx) (I2 Hy)).
    - destruct (loosens_conditions _ _ H1) as [Ca Cb], (loosens_conditions _ _ H2) as [Cc Cd]. destruct (both _ _ _ _ _ connective_or Ca Cc Hv) as (x & y & Hx & Hy & E).
      destruct (Htotal _ Cb) as [x' Hx'], (Htotal _ Cd) as [y' Hy']. pose proof (mn_both cmp G r n OOR b d x' y' connective_or Hx' Hy') as HR. cbn [truth] in E, HR.
      destruct x.
      + rewrite (one_value _ _ _ Hx' (I1 Hx)) in HR. exact HR.
      + cbn [orb] in E. subst y. rewrite (one_value _ _ _ Hy' (I2 Hy)), orb_true_r in HR. exact HR.
    - destruct (loosens_conditions _ _ H1) as [Cb Ca], (loosens_conditions _ _ H2) as [Cc Cd]. destruct (both _ _ _ _ _ connective_implies Ca Cc Hv) as (x & y & Hx & Hy & E).
      destruct (Htotal _ Cb) as [x' Hx'], (Htotal _ Cd) as [y' Hy']. pose proof (mn_both cmp G r n OIMPLIES b d x' y' connective_implies Hx' Hy') as HR.
      destruct x'; [|exact HR]. pose proof (one_value _ _ _ Hx (I1 Hx')) as ->. destruct y; [|discriminate E]. rewrite (one_value _ _ _ Hy' (I2 Hy)) in HR. exact HR.
  Qed.
End Loosening.

(** As documented. *)
Lemma condition_total ai ti G r e : in_scope ai ti G -> env_ok G r -> condition G e -> exists x, Den G r e (VBool x).
Proof. intros HG Hr (HT & HL & HA). destruct (den_total ai ti G HG r e TBool Hr HT HL HA) as (v & Hv & Ho). inversion Ho; subst. eauto. Qed.
Lemma loosens_den ai ti G r e f : in_scope ai ti G -> env_ok G r -> Loosens G (entails G) e f -> Den G r e (VBool true) -> Den G r f (VBool true).
Proof.
  intros HG Hr HL H. apply meant_den. apply meant_den in H. refine (loosens_true ai ti G HG documented documented_fun documented_implied r _ (entails G) _ e f HL H).
  - intros x Hx. destruct (condition_total ai ti G r x HG Hr Hx) as [y Hy]. exists y. now apply meant_den.
  - intros a b Hp _ _ Ha. apply meant_den. apply Hp; [exact Hr|]. now apply meant_den.
Qed.
(** As the solver reads it. *)
Lemma loosens_read keys r e f : NoDup (map fst keys) -> fits (InTable keys) r -> Loosens (InTable keys) (fun _ _ => False) e f -> Meant signed_order (InTable keys) r e (VBool true) -> Meant signed_order (InTable keys) r f (VBool true).
Proof.
  intros HN HF HL H. refine (loosens_true _ _ _ (scope_witness keys HN) signed_order signed_fun signed_implied r _ (fun _ _ => False) _ e f HL H).
  - intros x (HT & Hl & _). exact (reading_bool keys HN r HF x HT Hl).
  - intros a b [].
Qed.
