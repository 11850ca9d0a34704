(** Intervals, printing, literals in texts. *)
From Coq Require Import String Ascii List ZArith NArith Bool Lia ZifyBool ZifyN ZifyNat.
From Verif Require Import Base Num Token Ast Lexer Quote AstConstructors Parser SpecLexer SpecGrammar SpecParser StrFacts LexerFacts LexerFacts3 LexerFacts4 LexerFacts5 LexerFacts6 LexerFacts7
  NumFacts LiteralFacts ParserFacts ParserFacts2 ParserFacts3 ParserFacts4.
Import ListNotations.
Open Scope string_scope.

(** * Order of locations *)
Lemma no_later_refl a : no_later a a.
Proof. right. lia. Qed.
Lemma no_later_trans a b c : no_later a b -> no_later b c -> no_later a c.
Proof. unfold no_later. lia. Qed.
Global Hint Resolve no_later_refl : nl.
Arguments no_later : simpl never.
Fixpoint in_order (l : loc) (ts : list token) (r : loc) : Prop :=
  match ts with
  | [] => no_later l r
  | t :: ts => no_later l (t_start t) /\ no_later (t_start t) (t_end t) /\ in_order (t_end t) ts r
  end.
Lemma in_order_app l a b r : in_order l (a ++ b) r <-> exists m, in_order l a m /\ in_order m b r.
Proof.
  revert l. induction a as [|t a IH]; intros l; cbn [app in_order].
  - split; [intros H; exists l; auto with nl|]. intros (m & H & Hb). destruct b; cbn in *; [eapply no_later_trans; eauto|].
    destruct Hb as (H1 & H2 & H3). split; [eapply no_later_trans; eauto|auto].
  - rewrite IH. split.
    + intros (H1 & H2 & m & H3 & H4). exists m. auto.
    + intros (m & (H1 & H2 & H3) & H4). split; [exact H1|]. split; [exact H2|]. eauto.
Qed.
Lemma in_order_le l a r : in_order l a r -> no_later l r.
Proof.
  revert l. induction a as [|t a IH]; intros l; cbn; [auto|]. intros (H1 & H2 & H3).
  eapply no_later_trans; [exact H1|]. eapply no_later_trans; [exact H2|]. auto.
Qed.

Section S.
  Variable pton : inet_pton6.
  Variable ck : constraint_kind.
  Notation Der := (D pton ck).

  Lemma variable_meta m l : emeta (variable ck m l) = m.
  Proof. destruct ck; reflexivity. Qed.
  Lemma variable_nested m l : nested (variable ck m l) <-> no_later (m_start m) (m_end m).
  Proof. destruct ck; cbn; tauto. Qed.
  Lemma Dots_order l w ids r id : Dots w ids -> in_order l w r -> no_later l (t_end (last ids id)) \/ ids = [].
  Proof.
    intros H. revert l. induction H as [|dot i w ids Hdot Hi H IH]; intros l; [now right|].
    cbn [in_order]. intros (H1 & H2 & H3 & H4 & H5). left. destruct (IH _ H5) as [H6| ->].
    - destruct ids as [|j ids]; [cbn|].
      + eapply no_later_trans; [exact H1|]. eapply no_later_trans; [exact H2|]. eapply no_later_trans; eauto.
      + change (last (i :: j :: ids) id) with (last (j :: ids) id).
        eapply no_later_trans; [|exact H6]. eapply no_later_trans; [exact H1|]. eapply no_later_trans; [exact H2|]. eapply no_later_trans; eauto.
    - cbn. eapply no_later_trans; [exact H1|]. eapply no_later_trans; [exact H2|]. eapply no_later_trans; eauto.
  Qed.
  Lemma Dots_end l w ids r id : Dots w ids -> no_later (t_end id) l -> in_order l w r -> no_later (t_end (last ids id)) r.
  Proof.
    intros H. revert l id. induction H as [|dot i w ids Hdot Hi H IH]; intros l id Hl.
    - cbn. intros. eapply no_later_trans; eauto.
    - cbn [in_order]. intros (H1 & H2 & H3 & H4 & H5).
      replace (last (i :: ids) id) with (last ids i); [eapply IH; [|exact H5]; auto with nl|].
      destruct ids; [reflexivity|]. cbn. clear. revert t. induction ids as [|j ids IH]; intros t; [reflexivity|]. cbn in *. apply IH.
  Qed.
  Lemma D_nested n w e : Der n w e -> forall l r, in_order l w r -> no_later l (e_start e) /\ no_later (e_end e) r /\ nested e.
  Proof.
    assert (forall a, no_later a a) as Hrefl by apply no_later_refl.
    assert (forall a b c, no_later a b -> no_later b c -> no_later a c) as Htr by apply no_later_trans.
    assert (forall e, nested e -> no_later (e_start e) (e_end e)) as Hne by (intros []; cbn; tauto).
    induction 1 as [t Ht|t Ht|t b n s Hb|id lp st rp n s Hid|id w ids Hid Hd|dc id Hdc|lp w rp e Hlp H IH Hrp|w e dc id H IH Hdc Hid|t w e Ht H IH|t w e Ht H IH
      |p o w1 e1 t w2 e2 Hb H1 IH1 H2 IH2|p o w1 e1 t w2 e2 Hb H1 IH1 H2 IH2|w e t H IH Ht|n w e H IH]; intros l r.
    - cbn. intros (A & B & C). tauto.
    - cbn. intros (A & B & C). tauto.
    - cbn. intros (A & B & C). tauto.
    - cbn. unfold e_start, e_end. cbn. intros (A & B & C & E & F & G & J & K & M). split; [exact A|]. split; [exact M|]. split; [|exact I]. eauto 10.
    - cbn [in_order]. intros (A & B & C). unfold e_start, e_end. rewrite variable_meta. cbn. split; [exact A|].
      split; [eapply Dots_end; eauto|]. rewrite variable_nested. cbn.
      destruct (Dots_order _ _ _ _ id Hd C) as [Hx| ->]; [eauto|cbn; exact B].
    - cbn. unfold e_start, e_end. cbn. intros (A & B & C & E & F). split; [exact A|]. split; [exact F|]. split; [|exact I]. eauto 10.
    - cbn [in_order]. rewrite in_order_app. intros (A & B & m & C & E). cbn in E. destruct E as (E & F & G).
      destruct (IH _ _ C) as (P & Q & R). split; [eauto|]. split; [eauto|exact R].
    - rewrite in_order_app. intros (m & C & E). cbn in E. destruct E as (E1 & E2 & E3 & E4 & E5).
      destruct (IH _ _ C) as (P & Q & R). pose proof (Hne _ R). unfold e_start, e_end in *. cbn. split; [exact P|]. split; [exact E5|].
      unfold e_start, e_end. cbn. split; [eauto 10|]. split; [auto|]. split; [eauto 10|exact R].
    - cbn [in_order]. intros (A & B & C). destruct (IH _ _ C) as (P & Q & R). pose proof (Hne _ R). unfold e_start, e_end in *. cbn.
      split; [exact A|]. split; [exact Q|]. unfold e_start, e_end. cbn. split; [eauto 10|]. split; [eauto|]. split; [auto|exact R].
    - cbn [in_order]. intros (A & B & C). destruct (IH _ _ C) as (P & Q & R). pose proof (Hne _ R). unfold e_start, e_end in *. cbn.
      split; [exact A|]. split; [exact Q|]. unfold e_start, e_end. cbn. split; [eauto 10|]. split; [eauto|]. split; [auto|exact R].
    - rewrite in_order_app. cbn [in_order]. intros (m & A & B1 & B2 & B3). destruct (IH1 _ _ A) as (P & Q & R). destruct (IH2 _ _ B3) as (P' & Q' & R').
      pose proof (Hne _ R). pose proof (Hne _ R'). unfold e_start, e_end in *. cbn. split; [exact P|]. split; [exact Q'|]. unfold e_start, e_end. cbn.
      split; [eauto 10|]. split; [auto|]. split; [eauto 10|]. split; [auto|]. auto.
    - rewrite in_order_app. cbn [in_order]. intros (m & A & B1 & B2 & B3). destruct (IH1 _ _ A) as (P & Q & R). destruct (IH2 _ _ B3) as (P' & Q' & R').
      pose proof (Hne _ R). pose proof (Hne _ R'). unfold e_start, e_end in *. cbn. split; [exact P|]. split; [exact Q'|]. unfold e_start, e_end. cbn.
      split; [eauto 10|]. split; [auto|]. split; [eauto 10|]. split; [auto|]. auto.
    - rewrite in_order_app. cbn [in_order]. intros (m & A & B1 & B2 & B3). destruct (IH _ _ A) as (P & Q & R). split; [exact P|]. split; [eauto 10|exact R].
    - apply IH.
  Qed.

  (** * Exact intervals *)
  Lemma D_core n w e : Der n w e -> exists u v z, w = (u ++ v ++ z)%list /\
    Forall (fun t => t_kind t = LPAR) u /\ Forall (fun t => t_kind t = RPAR \/ t_kind t = SEMICOLON) z /\ Spans v e.
  Proof.
    induction 1 as [t Ht|t Ht|t b n s Hb|id lp st rp n s Hid Hlp Hst Hrp|id w ids Hid Hd|dc id Hdc Hid|lp w rp e Hlp H IH Hrp|w e dc id H IH Hdc Hid|t w e Ht H IH|t w e Ht H IH
      |p o w1 e1 t w2 e2 Hb H1 IH1 H2 IH2|p o w1 e1 t w2 e2 Hb H1 IH1 H2 IH2|w e t H IH Ht|n w e H IH].
    - exists [], [t], []. split; [reflexivity|]. split; [constructor|]. split; [constructor|]. split.
      + exists t, []. split; [reflexivity|]. split; [congruence|reflexivity].
      + exists [], t. split; [reflexivity|]. split; [reflexivity|]. left. split; congruence.
    - exists [], [t], []. split; [reflexivity|]. split; [constructor|]. split; [constructor|]. split.
      + exists t, []. split; [reflexivity|]. split; [congruence|reflexivity].
      + exists [], t. split; [reflexivity|]. split; [reflexivity|]. left. split; congruence.
    - exists [], [t], []. split; [reflexivity|]. split; [constructor|]. split; [constructor|]. split.
      + exists t, []. split; [reflexivity|]. split; [destruct Hb; discriminate|reflexivity].
      + exists [], t. split; [reflexivity|]. split; [reflexivity|]. left. split; destruct Hb; discriminate.
    - exists [], [id; lp; st; rp], []. split; [reflexivity|]. split; [constructor|]. split; [constructor|]. split.
      + exists id, [lp; st; rp]. split; [reflexivity|]. split; [congruence|reflexivity].
      + exists [id; lp; st], rp. split; [reflexivity|]. split; [reflexivity|]. right. exists [id; lp], st. auto.
    - exists [], (id :: w), []. split; [now rewrite app_nil_r|]. split; [constructor|]. split; [constructor|]. split.
      + exists id, w. split; [reflexivity|]. split; [congruence|]. unfold e_start. now rewrite variable_meta.
      + assert (exists v', (id :: w) = (v' ++ [last ids id])%list /\ t_kind (last ids id) = ID) as (v' & E & Hk).
        { clear - Hd Hid. revert id Hid. induction Hd as [|dot i w ids Hdot Hi H IH]; intros id Hid; [exists []; auto|].
          destruct (IH i Hi) as (v' & E & Hk). exists (id :: dot :: v'). rewrite E.
          replace (last (i :: ids) id) with (last ids i); [auto|]. destruct ids; [reflexivity|]. cbn. clear. revert t. induction ids as [|j ids IH]; intros t; [reflexivity|]. cbn in *. apply IH. }
        exists v', (last ids id). split; [exact E|]. unfold e_end. rewrite variable_meta. split; [reflexivity|]. left. split; congruence.
    - exists [], [dc; id], []. split; [reflexivity|]. split; [constructor|]. split; [constructor|]. split.
      + exists dc, [id]. split; [reflexivity|]. split; [congruence|reflexivity].
      + exists [dc], id. split; [reflexivity|]. split; [reflexivity|]. left. split; congruence.
    - destruct IH as (u & v & z & -> & Hu & Hz & Hs). exists (lp :: u), v, (z ++ [rp])%list. split; [cbn; now rewrite <- !app_assoc|].
      split; [now constructor|]. split; [|exact Hs]. apply Forall_app. split; [exact Hz|]. constructor; [now left|constructor].
    - destruct IH as (u & v & z & -> & Hu & Hz & [(f & v' & Ev & Hf & Es) _]). exists u, (v ++ z ++ [dc; id])%list, [].
      split; [rewrite app_nil_r, <- !app_assoc; reflexivity|]. split; [exact Hu|]. split; [constructor|]. split.
      + exists f, (v' ++ z ++ [dc; id])%list. rewrite Ev. split; [reflexivity|]. split; [exact Hf|exact Es].
      + exists (v ++ z ++ [dc])%list, id. split; [rewrite <- !app_assoc; reflexivity|]. split; [reflexivity|]. left. split; congruence.
    - destruct IH as (u & v & z & -> & Hu & Hz & [_ (v' & f & Ev & Ee & Hf)]). exists [], (t :: u ++ v)%list, z.
      split; [cbn; now rewrite <- app_assoc|]. split; [constructor|]. split; [exact Hz|]. split.
      + exists t, (u ++ v)%list. split; [reflexivity|]. split; [congruence|reflexivity].
      + exists (t :: u ++ v')%list, f. rewrite Ev. split; [cbn; now rewrite <- app_assoc|]. split; [exact Ee|].
        destruct Hf as [Hf|(v'' & str & -> & Hk)]; [now left|]. right. exists (t :: u ++ v'')%list, str. split; [cbn; now rewrite <- app_assoc|exact Hk].
    - destruct IH as (u & v & z & -> & Hu & Hz & [_ (v' & f & Ev & Ee & Hf)]). exists [], (t :: u ++ v)%list, z.
      split; [cbn; now rewrite <- app_assoc|]. split; [constructor|]. split; [exact Hz|]. split.
      + exists t, (u ++ v)%list. split; [reflexivity|]. split; [congruence|reflexivity].
      + exists (t :: u ++ v')%list, f. rewrite Ev. split; [cbn; now rewrite <- app_assoc|]. split; [exact Ee|].
        destruct Hf as [Hf|(v'' & str & -> & Hk)]; [now left|]. right. exists (t :: u ++ v'')%list, str. split; [cbn; now rewrite <- app_assoc|exact Hk].
    - destruct IH1 as (u & v & z & -> & Hu & Hz & [(f & v' & Ev & Hf & Es) _]). destruct IH2 as (u2 & v2 & z2 & -> & Hu2 & Hz2 & [_ (v2' & f2 & Ev2 & Ee2 & Hf2)]).
      exists u, (v ++ z ++ t :: u2 ++ v2)%list, z2. split; [rewrite <- !app_assoc; cbn; now rewrite <- !app_assoc|]. split; [exact Hu|]. split; [exact Hz2|]. split.
      + exists f, (v' ++ z ++ t :: u2 ++ v2)%list. rewrite Ev. split; [reflexivity|]. split; [exact Hf|exact Es].
      + exists (v ++ z ++ t :: u2 ++ v2')%list, f2. rewrite Ev2. split; [rewrite <- !app_assoc; cbn; now rewrite <- !app_assoc|]. split; [exact Ee2|].
        destruct Hf2 as [Hf2|(v'' & str & -> & Hk)]; [now left|]. right. exists (v ++ z ++ t :: u2 ++ v'')%list, str. split; [rewrite <- !app_assoc; cbn; now rewrite <- !app_assoc|exact Hk].
    - destruct IH1 as (u & v & z & -> & Hu & Hz & [(f & v' & Ev & Hf & Es) _]). destruct IH2 as (u2 & v2 & z2 & -> & Hu2 & Hz2 & [_ (v2' & f2 & Ev2 & Ee2 & Hf2)]).
      exists u, (v ++ z ++ t :: u2 ++ v2)%list, z2. split; [rewrite <- !app_assoc; cbn; now rewrite <- !app_assoc|]. split; [exact Hu|]. split; [exact Hz2|]. split.
      + exists f, (v' ++ z ++ t :: u2 ++ v2)%list. rewrite Ev. split; [reflexivity|]. split; [exact Hf|exact Es].
      + exists (v ++ z ++ t :: u2 ++ v2')%list, f2. rewrite Ev2. split; [rewrite <- !app_assoc; cbn; now rewrite <- !app_assoc|]. split; [exact Ee2|].
        destruct Hf2 as [Hf2|(v'' & str & -> & Hk)]; [now left|]. right. exists (v ++ z ++ t :: u2 ++ v'')%list, str. split; [rewrite <- !app_assoc; cbn; now rewrite <- !app_assoc|exact Hk].
    - destruct IH as (u & v & z & -> & Hu & Hz & Hs). exists u, v, (z ++ [t])%list. split; [now rewrite <- !app_assoc|].
      split; [exact Hu|]. split; [|exact Hs]. apply Forall_app. split; [exact Hz|]. constructor; [now right|constructor].
    - exact IH.
  Qed.
  Lemma D_sub n w e : Der n w e -> forall s, sub s e -> exists a w' b n', w = (a ++ w' ++ b)%list /\ Der n' w' s.
  Proof.
    assert (forall n w e, Der n w e -> exists a w' b n', w = (a ++ w' ++ b)%list /\ Der n' w' e) as Hself.
    { intros n0 w0 e0 H. exists [], w0, [], n0. split; [cbn; now rewrite app_nil_r|exact H]. }
    assert (forall (x y w : list token) (s : expr), (exists a w' b n', w = (a ++ w' ++ b)%list /\ Der n' w' s) ->
      exists a w' b n', (x ++ w ++ y)%list = (a ++ w' ++ b)%list /\ Der n' w' s) as Hext.
    { intros x y w0 s (a & w' & b & n' & -> & HD). exists (x ++ a)%list, w', (b ++ y)%list, n'. split; [now rewrite <- !app_assoc|exact HD]. }
    intros H. pose proof H as H0. induction H as [t Ht|t Ht|t b n s Hb|id lp st rp n s Hid Hlp Hst Hrp|id w ids Hid Hd|dc id Hdc Hid|lp w rp e Hlp H IH Hrp|w e dc id H IH Hdc Hid|t w e Ht H IH|t w e Ht H IH
      |p o w1 e1 t w2 e2 Hb H1 IH1 H2 IH2|p o w1 e1 t w2 e2 Hb H1 IH1 H2 IH2|w e t H IH Ht|n w e H IH]; intros x Hx.
    - inversion Hx; subst. eapply Hself; eauto.
    - inversion Hx; subst. eapply Hself; eauto.
    - inversion Hx; subst. eapply Hself; eauto.
    - inversion Hx; subst. eapply Hself; eauto.
    - destruct ck; inversion Hx; subst; eapply Hself; eauto.
    - inversion Hx; subst. eapply Hself; eauto.
    - apply (Hext [lp] [rp] w x). auto.
    - inversion Hx; subst; [eapply Hself; eauto|]. apply (Hext [] [dc; id] w x). auto.
    - inversion Hx; subst; [eapply Hself; eauto|]. destruct (Hext [t] [] w x) as (a & w' & b & n' & E & HD); [auto|]. rewrite app_nil_r in E. cbn in E. rewrite E. eauto 10.
    - inversion Hx; subst; [eapply Hself; eauto|]. destruct (Hext [t] [] w x) as (a & w' & b & n' & E & HD); [auto|]. rewrite app_nil_r in E. cbn in E. rewrite E. eauto 10.
    - inversion Hx; subst; [eapply Hself; eauto| |].
      + apply (Hext [] (t :: w2) w1 x). auto.
      + destruct (Hext (w1 ++ [t])%list [] w2 x) as (a & w' & b & n' & E & HD); [auto|]. rewrite app_nil_r, <- app_assoc in E. cbn in E. rewrite E. eauto 10.
    - inversion Hx; subst; [eapply Hself; eauto| |].
      + apply (Hext [] (t :: w2) w1 x). auto.
      + destruct (Hext (w1 ++ [t])%list [] w2 x) as (a & w' & b & n' & E & HD); [auto|]. rewrite app_nil_r, <- app_assoc in E. cbn in E. rewrite E. eauto 10.
    - apply (Hext [] [t] w x). auto.
    - auto.
  Qed.
  Lemma D_locs (P : loc -> Prop) n w e : Der n w e -> Forall (fun t => P (t_start t) /\ P (t_end t)) w ->
    forall s, sub s e -> P (e_start s) /\ P (e_end s).
  Proof.
    intros HD Hw s Hs. destruct (D_sub _ _ _ HD _ Hs) as (a & w' & b & n' & -> & HD').
    destruct (D_core _ _ _ HD') as (u & v & z & -> & _ & _ & [(f & v' & E1 & _ & ->) (v'' & g & E2 & -> & _)]).
    rewrite !Forall_app in Hw. destruct Hw as (_ & (_ & Hv & _) & _). split.
    - rewrite E1 in Hv. inversion Hv; subst. tauto.
    - rewrite E2 in Hv. apply Forall_app in Hv as [_ Hv]. inversion Hv; subst. tauto.
  Qed.
End S.

(** * Locations of the lexer's tokens *)
Lemma advance_later s : forall l, no_later l (advance s l) /\ l_src (advance s l) = l_src l.
Proof.
  assert (forall n s l, (String.length s <= n)%nat -> no_later l (advance s l) /\ l_src (advance s l) = l_src l) as H; [|eauto].
  induction n as [|n IH]; intros [|c t] l Hl; cbn [advance]; try (split; [apply no_later_refl|reflexivity]); [cbn in Hl; lia|].
  cbn in Hl.
  assert (forall l', no_later l l' -> l_src l' = l_src l -> forall t', (String.length t' <= n)%nat -> no_later l (advance t' l') /\ l_src (advance t' l') = l_src l) as Hstep.
  { intros l' H1 H2 t' Ht. destruct (IH t' l' Ht) as [A B]. split; [eapply no_later_trans; eauto|congruence]. }
  assert (no_later l (mkLoc (l_line l + 1) 0 (l_src l))) as Hnl by (left; cbn; lia).
  destruct (Ascii.eqb c LF); [apply Hstep; [exact Hnl|reflexivity|lia]|].
  destruct (Ascii.eqb c CR).
  - destruct t as [|d t]; [split; [exact Hnl|reflexivity]|].
    destruct (Ascii.eqb d LF); apply Hstep; try exact Hnl; try reflexivity; cbn in *; lia.
  - apply Hstep; [right; cbn; lia|reflexivity|lia].
Qed.
Lemma Lex_order l s ts : Lex l s ts -> exists r, in_order l ts r /\ Forall (fun t => l_src (t_start t) = l_src l /\ l_src (t_end t) = l_src l) ts.
Proof.
  assert (forall n l, no_later l (shift n l)) as Hsh by (intros n l0; right; cbn; lia).
  induction 1 as [l|l c s Hno|l s lx rest ts Hx H IH|l s lx k t rest ts Hx H IH].
  - exists l. split; [cbn; auto with nl|]. constructor; [cbn; auto|constructor].
  - exists (shift 1 l). split; [cbn; auto with nl|]. constructor; [cbn; auto|constructor].
  - destruct IH as (r & Ho & Hs). destruct (advance_later lx l) as [A B]. exists r. split; [|rewrite B in Hs; exact Hs].
    destruct ts as [|t ts]; cbn in *; [eapply no_later_trans; eauto|]. destruct Ho as (Ho1 & Ho2 & Ho3). split; [eapply no_later_trans; eauto|auto].
  - destruct IH as (r & Ho & Hs). exists r. split; [cbn [in_order t_start t_end]; auto with nl|]. constructor; [cbn; auto|exact Hs].
Qed.
