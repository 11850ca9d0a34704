(** Parts of a constraint have different intervals. *)
From Coq Require Import String Ascii List ZArith NArith Bool Lia.
From Verif Require Import Base Num Token Ast Lexer Quote AstConstructors Parser SpecLexer SpecGrammar SpecParser StrFacts LexerFacts4 LexerFacts5 ParserFacts ParserFacts4 ParserFacts5.
Import ListNotations.
Open Scope string_scope.

Definition sooner (a b : loc) : Prop := (l_line a < l_line b \/ (l_line a = l_line b /\ l_col a < l_col b))%Z.
Lemma sooner_irrefl a : ~ sooner a a.
Proof. unfold sooner. lia. Qed.
Lemma sooner_le a b : sooner a b -> no_later a b.
Proof. unfold sooner, no_later. lia. Qed.
Lemma sooner_l a b c : sooner a b -> no_later b c -> sooner a c.
Proof. unfold sooner, no_later. lia. Qed.
Lemma sooner_r a b c : no_later a b -> sooner b c -> sooner a c.
Proof. unfold sooner, no_later. lia. Qed.
Definition solid (t : token) : Prop := sooner (t_start t) (t_end t).
Fixpoint tight (e : expr) : Prop :=
  sooner (e_start e) (e_end e) /\
  match e with
  | ENot _ a | ENeg _ a => sooner (e_start e) (e_start a) /\ no_later (e_end a) (e_end e) /\ tight a
  | EField _ _ a => no_later (e_start e) (e_start a) /\ sooner (e_end a) (e_end e) /\ tight a
  | EBin _ _ a b => no_later (e_start e) (e_start a) /\ no_later (e_end a) (e_start b) /\ no_later (e_end b) (e_end e) /\ tight a /\ tight b
  | ECast _ _ => False
  | _ => True
  end.
Lemma tight_here e : tight e -> sooner (e_start e) (e_end e).
Proof. destruct e; cbn; tauto. Qed.
Lemma tight_in e s : sub s e -> tight e -> no_later (e_start e) (e_start s) /\ no_later (e_end s) (e_end e) /\ tight s.
Proof.
  assert (forall a b c, no_later a b -> no_later b c -> no_later a c) as Htr by apply no_later_trans.
  induction 1 as [e|m s e H IH|m s e H IH|m s e H IH|m o s a b H IH|m o s a b H IH|m f s e H IH]; intros HT.
  - split; [apply no_later_refl|]. split; [apply no_later_refl|exact HT].
  - cbn [tight] in HT. destruct HT as (_ & A & B & C). apply sooner_le in A. destruct (IH C) as (P & Q & R). eauto.
  - cbn [tight] in HT. destruct HT as (_ & A & B & C). apply sooner_le in A. destruct (IH C) as (P & Q & R). eauto.
  - destruct (proj2 HT).
  - cbn [tight] in HT. destruct HT as (_ & A & B & C & Ta & Tb). destruct (IH Ta) as (P & Q & R). pose proof (sooner_le _ _ (tight_here _ Tb)). split; [eauto|]. split; [|exact R].
    eapply Htr; [exact Q|]. eapply Htr; [exact B|]. eapply Htr; eauto.
  - cbn [tight] in HT. destruct HT as (_ & A & B & C & Ta & Tb). destruct (IH Tb) as (P & Q & R). pose proof (sooner_le _ _ (tight_here _ Ta)). split; [|eauto].
    eapply Htr; [exact A|]. eapply Htr; [eassumption|]. eapply Htr; eauto.
  - cbn [tight] in HT. destruct HT as (_ & A & B & C). apply sooner_le in B. destruct (IH C) as (P & Q & R). eauto.
Qed.
(** What lies inside an operand has another interval than the whole. *)
Lemma tight_proper e s : sub s e -> tight e -> s = e \/ e_start s <> e_start e \/ e_end s <> e_end e.
Proof.
  intros Hs HT. destruct Hs as [e|m s e H|m s e H|m s e H|m o s a b H|m o s a b H|m f s e H]; [now left| | | | | |]; right.
  - cbn [tight] in HT. destruct HT as (_ & A & B & C). destruct (tight_in _ _ H C) as (P & _). left. intros E. rewrite E in P. exact (sooner_irrefl _ (sooner_l _ _ _ A P)).
  - cbn [tight] in HT. destruct HT as (_ & A & B & C). destruct (tight_in _ _ H C) as (P & _). left. intros E. rewrite E in P. exact (sooner_irrefl _ (sooner_l _ _ _ A P)).
  - destruct (proj2 HT).
  - cbn [tight] in HT. destruct HT as (_ & A & B & C & Ta & Tb). destruct (tight_in _ _ H Ta) as (_ & Q & _). right. intros E. rewrite E in Q. pose proof (tight_here _ Tb) as Hb.
    pose proof (sooner_l _ _ _ (sooner_r _ _ _ B Hb) C) as Hx. exact (sooner_irrefl _ (sooner_l _ _ _ Hx Q)).
  - cbn [tight] in HT. destruct HT as (_ & A & B & C & Ta & Tb). destruct (tight_in _ _ H Tb) as (P & _ & _). left. intros E. rewrite E in P. pose proof (tight_here _ Ta) as Hb.
    pose proof (sooner_l _ _ _ (sooner_r _ _ _ A Hb) B) as Hx. exact (sooner_irrefl _ (sooner_l _ _ _ Hx P)).
  - cbn [tight] in HT. destruct HT as (_ & A & B & C). destruct (tight_in _ _ H C) as (_ & Q & _). right. intros E. rewrite E in Q. exact (sooner_irrefl _ (sooner_l _ _ _ B Q)).
Qed.
Lemma tight_inj e : tight e -> forall s s', sub s e -> sub s' e -> e_start s = e_start s' -> e_end s = e_end s' -> s = s'.
Proof.
  assert (forall e s, tight e -> sub s e -> e_start e = e_start s -> e_end e = e_end s -> e = s) as Hw.
  { intros e0 s HT Hs E1 E2. destruct (tight_proper _ _ Hs HT) as [->|[H|H]]; [reflexivity| |]; congruence. }
  induction e as [m b|m z|m n|m n|m a IHa|m a IHa|m a IHa|m o a IHa b IHb|m f a IHa|m n|m]; intros HT s s' Hs Hs' E1 E2.
  1,2,3,4,10,11: (inversion Hs; subst; inversion Hs'; subst; reflexivity).
  - inversion Hs; subst; [apply Hw; auto|]. inversion Hs'; subst; [symmetry; apply Hw; auto|]. apply IHa; auto. exact (proj2 (proj2 (proj2 HT))).
  - inversion Hs; subst; [apply Hw; auto|]. inversion Hs'; subst; [symmetry; apply Hw; auto|]. apply IHa; auto. exact (proj2 (proj2 (proj2 HT))).
  - destruct (proj2 HT).
  - assert (forall x y, sub x a -> sub y b -> e_start x = e_start y -> e_end x = e_end y -> False) as Hab.
    { intros x y Hx Hy F1 F2. destruct HT as (_ & A & B & C & Ta & Tb). destruct (tight_in _ _ Hx Ta) as (_ & Q & Tx). destruct (tight_in _ _ Hy Tb) as (P & _ & _).
      rewrite <- F1 in P. pose proof (sooner_l _ _ _ (tight_here _ Tx) Q) as G1. pose proof (sooner_l _ _ _ (sooner_l _ _ _ G1 B) P) as G2. exact (sooner_irrefl _ G2). }
    destruct HT as (HT0 & A & B & C & Ta & Tb). pose proof (conj HT0 (conj A (conj B (conj C (conj Ta Tb)))) : tight (EBin m o a b)) as HT.
    inversion Hs; subst; [apply Hw; auto| |]; (inversion Hs'; subst; [symmetry; apply Hw; auto| |]).
    + apply IHa; auto.
    + exfalso. eapply Hab; eauto.
    + exfalso. eapply Hab; eauto.
    + apply IHb; auto.
  - inversion Hs; subst; [apply Hw; auto|]. inversion Hs'; subst; [symmetry; apply Hw; auto|]. apply IHa; auto. exact (proj2 (proj2 (proj2 HT))).
Qed.

Section S.
  Variable pton : inet_pton6.
  Variable ck : constraint_kind.
  Lemma D_tight n w e : D pton ck n w e -> forall l r, in_order l w r -> Forall solid w -> no_later l (e_start e) /\ no_later (e_end e) r /\ tight e.
  Proof.
    assert (forall a, no_later a a) as Hrefl by apply no_later_refl.
    assert (forall a b c, no_later a b -> no_later b c -> no_later a c) as Htr by apply no_later_trans.
    induction 1 as [t Ht|t Ht|t b n s Hb|id lp st rp n s Hid|id w ids Hid Hd|dc id Hdc|lp w rp e Hlp H IH Hrp|w e dc id H IH Hdc Hid|t w e Ht H IH|t w e Ht H IH
      |p o w1 e1 t w2 e2 Hb H1 IH1 H2 IH2|p o w1 e1 t w2 e2 Hb H1 IH1 H2 IH2|w e t H IH Ht|n w e H IH]; intros l r.
    - cbn. intros (A & B & C) HF. inversion HF; subst. tauto.
    - cbn. intros (A & B & C) HF. inversion HF; subst. tauto.
    - cbn. intros (A & B & C) HF. inversion HF; subst. tauto.
    - cbn. unfold e_start, e_end. cbn. intros (A & B & C & E & F & G & J & K & M) HF. inversion HF; subst. split; [exact A|]. split; [exact M|]. split; [|exact I].
      eapply sooner_l; [eassumption|]. eauto 10.
    - cbn [in_order]. intros (A & B & C) HF. inversion HF as [|? ? HF1 HF2]; subst. unfold e_start, e_end. rewrite variable_meta. cbn. split; [exact A|].
      split; [eapply Dots_end; eauto|]. assert (sooner (t_start id) (t_end (last ids id))) as Hso.
      { destruct (Dots_order _ _ _ _ id Hd C) as [Hx| ->]; [eapply sooner_l; [exact HF1|exact Hx]|cbn; exact HF1]. }
      destruct ck; cbn; split; try exact I; exact Hso.
    - cbn. unfold e_start, e_end. cbn. intros (A & B & C & E & F) HF. inversion HF; subst. split; [exact A|]. split; [exact F|]. split; [|exact I]. eapply sooner_l; [eassumption|]. eauto.
    - cbn [in_order]. rewrite in_order_app. intros (A & B & m & C & E) HF. cbn in E. destruct E as (E & F & G). inversion HF as [|? ? _ HF']; subst. apply Forall_app in HF' as [HF' _].
      destruct (IH _ _ C HF') as (P & Q & R). split; [eauto|]. split; [eauto|exact R].
    - rewrite in_order_app. intros (m & C & E) HF. cbn in E. destruct E as (E1 & E2 & E3 & E4 & E5). apply Forall_app in HF as [HF HF2]. inversion HF2 as [|? ? HF3 HF4]; subst. inversion HF4 as [|? ? HF5 _]; subst.
      destruct (IH _ _ C HF) as (P & Q & R). pose proof (tight_here _ R). unfold e_start, e_end in *. cbn. split; [exact P|]. split; [exact E5|].
      unfold e_start, e_end. cbn. assert (sooner (m_end (emeta e)) (t_end id)) as Hx by (eapply sooner_r; [|exact HF5]; eauto 10).
      split; [eapply sooner_l; [eassumption|now apply sooner_le]|]. split; [auto|]. split; [exact Hx|exact R].
    - cbn [in_order]. intros (A & B & C) HF. inversion HF as [|? ? HF1 HF2]; subst. destruct (IH _ _ C HF2) as (P & Q & R). pose proof (tight_here _ R). unfold e_start, e_end in *. cbn.
      split; [exact A|]. split; [exact Q|]. unfold e_start, e_end. cbn. assert (sooner (t_start t) (m_start (emeta e))) as Hx by (eapply sooner_l; eauto).
      split; [eapply sooner_l; [exact Hx|now apply sooner_le]|]. split; [exact Hx|]. split; [auto|exact R].
    - cbn [in_order]. intros (A & B & C) HF. inversion HF as [|? ? HF1 HF2]; subst. destruct (IH _ _ C HF2) as (P & Q & R). pose proof (tight_here _ R). unfold e_start, e_end in *. cbn.
      split; [exact A|]. split; [exact Q|]. unfold e_start, e_end. cbn. assert (sooner (t_start t) (m_start (emeta e))) as Hx by (eapply sooner_l; eauto).
      split; [eapply sooner_l; [exact Hx|now apply sooner_le]|]. split; [exact Hx|]. split; [auto|exact R].
    - rewrite in_order_app. cbn [in_order]. intros (m & A & B1 & B2 & B3) HF. apply Forall_app in HF as [HF1 HF2]. inversion HF2 as [|? ? _ HF3]; subst.
      destruct (IH1 _ _ A HF1) as (P & Q & R). destruct (IH2 _ _ B3 HF3) as (P' & Q' & R').
      pose proof (tight_here _ R) as S1. pose proof (tight_here _ R') as S2. unfold e_start, e_end in *. cbn. split; [exact P|]. split; [exact Q'|]. unfold e_start, e_end. cbn.
      assert (no_later (m_end (emeta e1)) (m_start (emeta e2))) as Hx by eauto 10.
      split; [eapply sooner_l; [exact S1|]; eapply Htr; [exact Hx|now apply sooner_le]|]. split; [auto|]. split; [exact Hx|]. split; [auto|]. auto.
    - rewrite in_order_app. cbn [in_order]. intros (m & A & B1 & B2 & B3) HF. apply Forall_app in HF as [HF1 HF2]. inversion HF2 as [|? ? _ HF3]; subst.
      destruct (IH1 _ _ A HF1) as (P & Q & R). destruct (IH2 _ _ B3 HF3) as (P' & Q' & R').
      pose proof (tight_here _ R) as S1. pose proof (tight_here _ R') as S2. unfold e_start, e_end in *. cbn. split; [exact P|]. split; [exact Q'|]. unfold e_start, e_end. cbn.
      assert (no_later (m_end (emeta e1)) (m_start (emeta e2))) as Hx by eauto 10.
      split; [eapply sooner_l; [exact S1|]; eapply Htr; [exact Hx|now apply sooner_le]|]. split; [auto|]. split; [exact Hx|]. split; [auto|]. auto.
    - rewrite in_order_app. cbn [in_order]. intros (m & A & B1 & B2 & B3) HF. apply Forall_app in HF as [HF1 _]. destruct (IH _ _ A HF1) as (P & Q & R). split; [exact P|]. split; [eauto 10|exact R].
    - apply IH.
  Qed.
End S.
Lemma shape_nonempty n lx it : shape n lx it -> lx <> "".
Proof. destruct 1 as [t H _|t H|t|t|t|k t H|c t|p t Hp H|p t Hp H|p t Hp H|p t Hp H|t]; try discriminate; auto.
  - destruct H as [->|[->| ->]]; discriminate.
  - cbn in H. repeat destruct H as [H|H]; try (injection H as <- <-; discriminate). destruct H.
  - destruct Hp; subst; discriminate.
  - destruct Hp; subst; discriminate.
  - destruct Hp; subst; discriminate.
  - destruct Hp as [->|[->| ->]]; [exact H|discriminate|discriminate].
Qed.
Lemma Lex_solid l s ts : Lex l s ts -> forall w t, ts = (w ++ [t])%list -> Forall solid w.
Proof.
  induction 1 as [l|l c s Hno|l s lx rest ts Hx H IH|l s lx k x rest ts Hx H IH]; intros w t E.
  - destruct w as [|a [|b w]]; [constructor| |]; discriminate.
  - destruct w as [|a [|b w]]; [constructor| |]; discriminate.
  - eauto.
  - destruct w as [|a w]; [constructor|]. injection E as <- E. constructor; [|eauto].
    destruct Hx as (_ & n & Hsh & _). apply shape_nonempty in Hsh. right. cbn. split; [reflexivity|]. destruct lx; [contradiction|]. cbn [String.length]. lia.
Qed.
