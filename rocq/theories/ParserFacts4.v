(** Parsing of texts; operator chains; intervals; printing. *)
From Coq Require Import String Ascii List ZArith NArith Bool Lia ZifyBool ZifyN ZifyNat.
From Verif Require Import Base Num Token Ast Lexer Quote AstConstructors Parser SpecLexer SpecGrammar SpecParser StrFacts LexerFacts4 LexerFacts5 LexerFacts7
  NumFacts LiteralFacts ParserFacts ParserFacts2 ParserFacts3.
Import ListNotations.
Open Scope string_scope.

Lemma digit_dchar lo hi (b : N) c : (48 <= lo)%N -> (hi <= 57)%N -> (hi - 48 < b)%N -> between lo hi c -> exists d, dchar c d /\ (d < b)%N.
Proof. unfold between. intros ? ? ? [? ?]. exists (N_of_ascii c - 48)%N. split; [constructor; split; lia|lia]. Qed.
Lemma lexed_numeral l s ts : Lex l s ts -> Forall numeral_text ts.
Proof.
  intros H. apply Forall_forall. intros t Ht. destruct (Lex_shapes _ _ _ _ H Ht) as [[E|E]|(n & lx & Hs)].
  - unfold numeral_text. now rewrite E.
  - unfold numeral_text. now rewrite E.
  - unfold numeral_text. remember (Tok (t_kind t) (t_text t)) as it eqn:E. destruct Hs; try discriminate; injection E as E1 E2; rewrite <- E1, <- ?E2; try exact I.
    + rename H0 into Hin. cbn in Hin. repeat (destruct Hin as [[= <- _]|Hin]; [exact I|]). destruct Hin.
    + eapply only_Reads; try eassumption; [lia|]. intros c Hc. eapply digit_dchar; [| | |exact Hc]; lia.
    + eapply only_Reads; try eassumption; [lia|]. intros c Hc. eapply digit_dchar; [| | |exact Hc]; lia.
    + eapply only_Reads; try eassumption; [lia|]. intros c [Hc|[Hc|Hc]].
      * eapply digit_dchar; [| | |exact Hc]; lia.
      * exists (N_of_ascii c - 87)%N. unfold between in *. split; [constructor; unfold between; lia|lia].
      * exists (N_of_ascii c - 55)%N. unfold between in *. split; [constructor; unfold between; lia|lia].
    + eapply only_Reads; try eassumption; [lia|]. intros c Hc. eapply digit_dchar; [| | |exact Hc]; lia.
Qed.

Section S.
  Variable pton : inet_pton6.
  Hypothesis Hpton : pton_ok pton.
  Variable ck : constraint_kind.
  Notation Der := (D pton ck).

  Lemma text_iff c e : ParseConstraint pton ck c = Ok e <->
    exists w t, Tokenize c = (w ++ [t])%list /\ t_kind t = END_OF_INPUT /\ Der 0 w e.
  Proof.
    unfold ParseConstraint. pose proof (proj1 (Tokenize_Lex c _) eq_refl) as HL.
    rewrite parse_iff; [|exact Hpton|exact (lexed_numeral _ _ _ HL)].
    destruct (Lex_sentinel _ _ _ HL) as (init & z & E & Hz & Hi). split.
    - intros (w & HD & Hw). apply D_no_end in HD as Hne. destruct Hw as [<-|(t & rest & Hk & Ew)].
      + exfalso. rewrite E in Hne. apply Forall_app in Hne as [_ Hne]. inversion Hne; subst. contradiction.
      + exists w, t. enough (rest = []) as -> by auto. destruct rest as [|x rest]; [reflexivity|exfalso].
        rewrite E in Ew. destruct (@exists_last _ (x :: rest)) as (r & y & Er); [discriminate|]. rewrite Er in Ew.
        replace (w ++ t :: r ++ [y])%list with ((w ++ t :: r) ++ [y])%list in Ew by now rewrite <- app_assoc.
        apply app_inj_tail in Ew as [-> _]. apply (Hi t); [apply in_or_app; right; now left|]. left. exact Hk.
    - intros (w & t & Ew & Hk & HD). exists w. split; [exact HD|]. right. exists t, []. auto.
  Qed.
  (** The grammar is unambiguous. *)
  Lemma D_fun w e e' : Der 0 w e -> Der 0 w e' -> e = e'.
  Proof.
    intros H H'. destruct (proj2 (complete pton Hpton ck default_csource default_loc 0 w e H) []) as [N HN]; [reflexivity|].
    destruct (proj2 (complete pton Hpton ck default_csource default_loc 0 w e' H') []) as [N' HN']; [reflexivity|].
    specialize (HN (Nat.max N N') ltac:(lia)). specialize (HN' (Nat.max N N') ltac:(lia)). congruence.
  Qed.
  (** A text is parsed as the kinds and texts of its tokens say. *)
  Lemma by_kinds c kl (P : expr -> Prop) : map kt (Tokenize c) = (kl ++ [(END_OF_INPUT, "")])%list ->
    (forall w, map kt w = kl -> exists e, Der 0 w e /\ P e) -> exists e, ParseConstraint pton ck c = Ok e /\ P e.
  Proof.
    intros E H. apply map_eq_app in E as (w & z & E & Hw & Hz). destruct z as [|t [|? ?]]; try discriminate. injection Hz as Hk _.
    destruct (H w Hw) as (e & HD & HP). exists e. split; [|exact HP]. apply text_iff. eauto.
  Qed.

  (** * Chains *)
  Definition is_binary (k : kind) (p : nat) := exists ch o, binary k p ch o.
  Lemma binary_fun k p ch o p' ch' o' : binary k p ch o -> binary k p' ch' o' -> p = p' /\ ch = ch'.
  Proof. intros [] H'; inversion H'; auto. Qed.
  Lemma binary_pos k p ch o : binary k p ch o -> (1 <= p)%nat.
  Proof. intros []; lia. Qed.
  (** Depth bookkeeping. *)
  Fixpoint depth (d : nat) (w : list token) : option nat :=
    match w with
    | [] => Some d
    | t :: w => match t_kind t with
                | LPAR => depth (S d) w
                | RPAR => match d with O => None | S d' => depth d' w end
                | _ => depth d w
                end
    end.
  Lemma depth_app d a b : depth d (a ++ b) = match depth d a with Some d' => depth d' b | None => None end.
  Proof.
    revert d. induction a as [|t a IH]; intros d; [reflexivity|]. cbn [app depth].
    destruct (t_kind t); auto. destruct d; auto.
  Qed.
  Lemma depth_lift k d d' w : depth d w = Some d' -> depth (k + d) w = Some (k + d')%nat.
  Proof.
    revert d. induction w as [|t w IH]; intros d; cbn [depth]; [congruence|].
    destruct (t_kind t); auto.
    - intros H. apply (IH (S d)) in H. now rewrite Nat.add_succ_r in H.
    - destruct d as [|d]; [discriminate|]. intros H. apply IH in H. now rewrite Nat.add_succ_r.
  Qed.
  Lemma depth_other d t w : t_kind t <> LPAR -> t_kind t <> RPAR -> depth d (t :: w) = depth d w.
  Proof. cbn [depth]. destruct (t_kind t); congruence. Qed.
  Lemma Dots_depth w ids d : Dots w ids -> depth d w = Some d.
  Proof. induction 1; [reflexivity|]. rewrite !depth_other by congruence. assumption. Qed.
  Lemma binary_paren k p ch o : binary k p ch o -> k <> LPAR /\ k <> RPAR.
  Proof. intros []; split; discriminate. Qed.
  Lemma D_depth n w e : Der n w e -> depth 0 w = Some 0%nat.
  Proof.
    induction 1; rewrite ?depth_app; try (rewrite depth_other by congruence); try assumption; try reflexivity.
    - rewrite depth_other; [reflexivity|destruct H; congruence..].
    - cbn [depth]. rewrite H0, H1, H2. reflexivity.
    - eapply Dots_depth; eassumption.
    - rewrite depth_other by congruence. reflexivity.
    - cbn [depth]. rewrite H, depth_app. apply (depth_lift 1) in IHD. cbn in IHD. rewrite IHD. cbn [depth]. now rewrite H1.
    - rewrite IHD. rewrite !depth_other by congruence. reflexivity.
    - rewrite IHD1. rewrite depth_other by (now apply binary_paren in H). assumption.
    - rewrite IHD1. rewrite depth_other by (now apply binary_paren in H). assumption.
    - rewrite IHD. rewrite depth_other by congruence. reflexivity.
  Qed.
  (** An operator outside all parentheses has at least the level of the phrase. *)
  Lemma D_level n w e : Der n w e -> forall a t b p ch o, w = (a ++ t :: b)%list -> binary (t_kind t) p ch o -> depth 0 a = Some 0%nat -> (n <= p)%nat.
  Proof.
    assert (forall w ids, Dots w ids -> forall t, In t w -> t_kind t = DOT \/ t_kind t = ID) as Hdots.
    { induction 1; intros x Hx; [destruct Hx|]. destruct Hx as [<-|[<-|Hx]]; auto. }
    induction 1 as [t0 Ht|t0 Ht|t0 b0 n s Hb|id lp st rp n s Hid Hlp Hst Hrp|id w ids Hid Hd|dc id Hdc Hid|lp w rp e Hlp H IH Hrp|w e dc id H IH Hdc Hid|t0 w e Ht H IH|t0 w e Ht H IH
      |p0 o0 w1 e1 t0 w2 e2 Hb H1 IH1 H2 IH2|p0 o0 w1 e1 t0 w2 e2 Hb H1 IH1 H2 IH2|w e t0 H IH Ht|n w e H IH]; intros a t b p ch o E Hop Hd'.
    - destruct a as [|? [|? ?]]; try discriminate. injection E as -> _. rewrite Ht in Hop. inversion Hop.
    - destruct a as [|? [|? ?]]; try discriminate. injection E as -> _. rewrite Ht in Hop. inversion Hop.
    - destruct a as [|? [|? ?]]; try discriminate. injection E as -> _. destruct Hb; inversion Hop.
    - exfalso. assert (In t [id; lp; st; rp]) as Hin by (rewrite E; apply in_or_app; right; now left).
      destruct Hin as [<-|[<-|[<-|[<-|[]]]]]; [rewrite Hid in Hop|rewrite Hlp in Hop|rewrite Hst in Hop|rewrite Hrp in Hop]; inversion Hop.
    - exfalso. assert (In t (id :: w)) as Hin by (rewrite E; apply in_or_app; right; now left).
      destruct Hin as [<-|Hin]; [rewrite Hid in Hop; inversion Hop|]. destruct (Hdots _ _ Hd _ Hin) as [Ek|Ek]; rewrite Ek in Hop; inversion Hop.
    - exfalso. assert (In t [dc; id]) as Hin by (rewrite E; apply in_or_app; right; now left).
      destruct Hin as [<-|[<-|[]]]; [rewrite Hdc in Hop|rewrite Hid in Hop]; inversion Hop.
    - exfalso. destruct a as [|x a]; [injection E as -> _; rewrite Hlp in Hop; inversion Hop|]. injection E as <- E.
      cbn [depth] in Hd'. rewrite Hlp in Hd'. destruct (exists_last (l := t :: b)) as (b' & y & Eb); [discriminate|]. rewrite Eb, app_assoc in E.
      apply app_inj_tail in E as [-> <-]. apply D_depth in H. destruct b' as [|z b'].
      + injection Eb as -> _. rewrite Hrp in Hop. inversion Hop.
      + injection Eb as <- _. rewrite depth_app in H. destruct (depth 0 a) as [d|] eqn:Ed; [|discriminate].
        apply (depth_lift 1) in Ed. cbn in Ed. rewrite Hd' in Ed. discriminate.
    - apply app_eq_app in E as (l & [[E1 E2]|[E1 E2]]).
      + destruct l as [|x l].
        * cbn [app] in E2. injection E2 as <- _. rewrite Hdc in Hop. inversion Hop.
        * injection E2 as <- _. eapply IH; [exact E1| eassumption|assumption].
      + exfalso. destruct l as [|x l]; [injection E2 as -> _; rewrite Hdc in Hop; inversion Hop|]. injection E2 as -> E2.
        destruct l as [|y l]; [injection E2 as -> _; rewrite Hid in Hop; inversion Hop|]. injection E2 as -> E2. destruct l; discriminate.
    - destruct a as [|x a]; [injection E as -> _; rewrite Ht in Hop; inversion Hop|]. injection E as <- E.
      rewrite depth_other in Hd' by congruence. eauto.
    - destruct a as [|x a]; [injection E as -> _; rewrite Ht in Hop; inversion Hop|]. injection E as <- E.
      rewrite depth_other in Hd' by congruence. eauto.
    - apply app_eq_app in E as (l & [[E1 E2]|[E1 E2]]).
      + destruct l as [|x l]; [injection E2 as -> _; pose proof (binary_fun _ _ _ _ _ _ _ Hb Hop); lia|].
        injection E2 as <- E2. eapply IH1; eauto.
      + destruct l as [|x l]; [injection E2 as -> _; pose proof (binary_fun _ _ _ _ _ _ _ Hb Hop); lia|].
        injection E2 as <- E2. subst a. rewrite depth_app, (D_depth _ _ _ H1), depth_other in Hd' by now apply binary_paren in Hb.
        pose proof (IH2 l t b p ch o E2 Hop Hd'). lia.
    - apply app_eq_app in E as (l & [[E1 E2]|[E1 E2]]).
      + destruct l as [|x l]; [injection E2 as -> _; pose proof (binary_fun _ _ _ _ _ _ _ Hb Hop); lia|].
        injection E2 as <- E2. pose proof (IH1 a t l p ch o E1 Hop Hd'). lia.
      + destruct l as [|x l]; [injection E2 as -> _; pose proof (binary_fun _ _ _ _ _ _ _ Hb Hop); lia|].
        injection E2 as <- E2. subst a. rewrite depth_app, (D_depth _ _ _ H1), depth_other in Hd' by now apply binary_paren in Hb.
        pose proof (IH2 l t b p ch o E2 Hop Hd'). lia.
    - lia.
    - pose proof (IH a t b p ch o E Hop Hd'). lia.
  Qed.
  Lemma beside_depth p d y : beside p d y -> depth d y = Some 0%nat.
  Proof.
    revert d. induction y as [|t y IH]; intros d; cbn [beside depth]; [congruence|].
    destruct (t_kind t); try (intros [_ H]; auto; fail); auto. destruct d; [tauto|auto].
  Qed.
  (** In [y = a ++ t :: b], with [b] after a phrase: where [t] stands. *)
  Lemma beside_split p d a t b : beside p d (a ++ t :: b) -> exists d', depth d a = Some d' /\
    (forall q ch o, binary (t_kind t) q ch o -> d' = 0%nat -> (p <= q)%nat).
  Proof.
    revert d. induction a as [|x a IH]; intros d; cbn [app beside depth].
    - intros H. exists d. split; [reflexivity|]. intros q ch o Hb ->. destruct Hb; destruct H as [H _]; exact (H eq_refl _ _ _ ltac:(constructor)).
    - destruct (t_kind x); try (intros [_ H]; auto; fail); auto. destruct d; [tauto|auto].
  Qed.
  Definition nonassoc (p : nat) : Prop := p = 2%nat \/ p = 5%nat.
  Lemma nonassoc_ch k p ch o : nonassoc p -> binary k p ch o -> ch = false.
  Proof. intros [->| ->] H; inversion H; reflexivity. Qed.
  Lemma no_chain p n w e : nonassoc p -> Der n w e -> forall x t1 y t2 z ch1 o1 ch2 o2,
    binary (t_kind t1) p ch1 o1 -> binary (t_kind t2) p ch2 o2 -> beside p 0 y -> w <> (x ++ t1 :: y ++ t2 :: z)%list.
  Proof.
    intros Hp.
    assert (forall w1 e1 w2 e2 t q c1 m x t1 y t2 z ch1 o1 ch2 o2 o,
      Der q w1 e1 -> Der m w2 e2 -> binary (t_kind t) q c1 o \/ binary (t_kind t) (pred q) c1 o /\ (1 <= q)%nat ->
      (binary (t_kind t) q c1 o -> c1 = true) ->
      (forall x t1 y t2 z ch1 o1 ch2 o2,
        binary (t_kind t1) p ch1 o1 -> binary (t_kind t2) p ch2 o2 -> beside p 0 y -> w1 <> (x ++ t1 :: y ++ t2 :: z)%list) ->
      (forall x t1 y t2 z ch1 o1 ch2 o2,
        binary (t_kind t1) p ch1 o1 -> binary (t_kind t2) p ch2 o2 -> beside p 0 y -> w2 <> (x ++ t1 :: y ++ t2 :: z)%list) ->
      (binary (t_kind t) (pred q) c1 o -> m = q) -> (binary (t_kind t) q c1 o -> m = S q) ->
      binary (t_kind t1) p ch1 o1 -> binary (t_kind t2) p ch2 o2 -> beside p 0 y -> (w1 ++ t :: w2)%list <> (x ++ t1 :: y ++ t2 :: z)%list) as Hbin.
    { clear w e n. intros w1 e1 w2 e2 t q c1 m x t1 y t2 z ch1 o1 ch2 o2 o H1 H2 Ht Htc IH1 IH2 Hm1 Hm2 Hb1 Hb2 Hy E.
      apply app_eq_app in E as (l & [[E1 E2]|[E1 E2]]).
      - (* w1 = x ++ l *) destruct l as [|x' l].
        + (* t = t1 *) injection E2 as <- E2. assert (p = q \/ p = pred q /\ (1 <= q)%nat /\ m = q) as Hpq.
          { destruct Ht as [Ht|[Ht Hq]]; [left; pose proof (binary_fun _ _ _ _ _ _ _ Ht Hb1); lia|right; repeat split; auto; pose proof (binary_fun _ _ _ _ _ _ _ Ht Hb1); lia]. }
          destruct Hpq as [->|(-> & Hq & ->)].
          * destruct Ht as [Ht|[Ht Hq]]; [|pose proof (binary_fun _ _ _ _ _ _ _ Ht Hb1); lia].
            rewrite (Htc Ht) in Ht. pose proof (nonassoc_ch _ _ _ _ Hp Ht). discriminate.
          * pose proof (beside_depth _ _ _ Hy) as Hd. pose proof (D_level _ _ _ H2 y t2 z _ _ _ (eq_sym E2) Hb2 Hd). lia.
        + injection E2 as <- E2. (* t1 in w1 *) apply app_eq_app in E2 as (l2 & [[E3 E4]|[E3 E4]]).
          * (* y = l ++ l2 ; t::w2 = l2 ++ t2 :: z *)
            destruct l2 as [|x2 l2].
            -- (* t = t2 *) injection E4 as <- E4. rewrite app_nil_r in E3. subst l.
               (* t1 in w1 at the relative depth: y balanced *)
               pose proof (beside_depth _ _ _ Hy) as Hd. pose proof (D_depth _ _ _ H1) as Hw. rewrite E1, depth_app in Hw.
               destruct (depth 0 x) as [dx|] eqn:Edx; [|discriminate]. rewrite depth_other in Hw by now apply binary_paren in Hb1.
               apply (depth_lift dx) in Hd. rewrite !Nat.add_0_r in Hd. rewrite Hd in Hw. injection Hw as ->.
               pose proof (D_level _ _ _ H1 x t1 y _ _ _ E1 Hb1 Edx) as Hle.
               destruct Ht as [Ht|[Ht Hq]].
               ++ assert (p = q) as -> by (pose proof (binary_fun _ _ _ _ _ _ _ Ht Hb2); lia). rewrite (Htc Ht) in Ht.
                  pose proof (nonassoc_ch _ _ _ _ Hp Ht). discriminate.
               ++ assert (p = pred q) by (pose proof (binary_fun _ _ _ _ _ _ _ Ht Hb2); lia). lia.
            -- injection E4 as <- E4. subst y. apply beside_split in Hy as (d' & Hd & Hq).
               pose proof (D_depth _ _ _ H1) as Hw. rewrite E1, depth_app in Hw.
               destruct (depth 0 x) as [dx|] eqn:Edx; [|discriminate]. rewrite depth_other in Hw by now apply binary_paren in Hb1.
               apply (depth_lift dx) in Hd. rewrite !Nat.add_0_r in Hd. rewrite Hd in Hw. injection Hw as Hw.
               assert (dx = 0%nat) as -> by lia. assert (d' = 0%nat) as -> by lia.
               pose proof (D_level _ _ _ H1 x t1 l _ _ _ E1 Hb1 Edx) as Hle.
               destruct Ht as [Ht|[Ht Hq1]]; pose proof (Hq _ _ _ Ht eq_refl).
               ++ assert (p = q) as -> by lia. rewrite (Htc Ht) in Ht. pose proof (nonassoc_ch _ _ _ _ Hp Ht). discriminate.
               ++ lia.
          * (* l = y ++ l2, t2 :: z = l2 ++ t :: w2 *)
            destruct l2 as [|x2 l2].
            -- injection E4 as <- E4. rewrite app_nil_r in E3. subst l.
               pose proof (beside_depth _ _ _ Hy) as Hd. pose proof (D_depth _ _ _ H1) as Hw. rewrite E1, depth_app in Hw.
               destruct (depth 0 x) as [dx|] eqn:Edx; [|discriminate]. rewrite depth_other in Hw by now apply binary_paren in Hb1.
               apply (depth_lift dx) in Hd. rewrite !Nat.add_0_r in Hd. rewrite Hd in Hw. injection Hw as ->.
               pose proof (D_level _ _ _ H1 x t1 y _ _ _ E1 Hb1 Edx) as Hle.
               destruct Ht as [Ht|[Ht Hq]].
               ++ assert (p = q) as -> by (pose proof (binary_fun _ _ _ _ _ _ _ Ht Hb2); lia). rewrite (Htc Ht) in Ht.
                  pose proof (nonassoc_ch _ _ _ _ Hp Ht). discriminate.
               ++ assert (p = pred q) by (pose proof (binary_fun _ _ _ _ _ _ _ Ht Hb2); lia). lia.
            -- injection E4 as <- E4. subst l. exact (IH1 x t1 y t2 l2 _ _ _ _ Hb1 Hb2 Hy E1).
      - (* x = w1 ++ l, t :: w2 = l ++ t1 :: ... *) destruct l as [|x' l].
        + injection E2 as <- E2. assert (p = q \/ p = pred q /\ (1 <= q)%nat /\ m = q) as Hpq.
          { destruct Ht as [Ht|[Ht Hq]]; [left; pose proof (binary_fun _ _ _ _ _ _ _ Ht Hb1); lia|right; repeat split; auto; pose proof (binary_fun _ _ _ _ _ _ _ Ht Hb1); lia]. }
          destruct Hpq as [->|(-> & Hq & ->)].
          * destruct Ht as [Ht|[Ht Hq]]; [|pose proof (binary_fun _ _ _ _ _ _ _ Ht Hb1); lia].
            rewrite (Htc Ht) in Ht. pose proof (nonassoc_ch _ _ _ _ Hp Ht). discriminate.
          * pose proof (beside_depth _ _ _ Hy) as Hd. symmetry in E2. pose proof (D_level _ _ _ H2 y t2 z _ _ _ (eq_sym E2) Hb2 Hd). lia.
        + injection E2 as <- E2. exact (IH2 l t1 y t2 z _ _ _ _ Hb1 Hb2 Hy E2). }
    assert (forall (w : list token) x t1 y t2 z, w = (x ++ t1 :: y ++ t2 :: z)%list -> In t1 w /\ In t2 w) as Hin.
    { intros w0 x t1 y t2 z ->. split; apply in_or_app; right; [now left|]. right. apply in_or_app. right. now left. }
    assert (forall w ids, Dots w ids -> forall t, In t w -> t_kind t = DOT \/ t_kind t = ID) as Hdots.
    { induction 1; intros x Hx; [destruct Hx|]. destruct Hx as [<-|[<-|Hx]]; auto. }
    induction 1 as [t0 Ht|t0 Ht|t0 b0 n s Hb|id lp st rp n s Hid Hlp Hst Hrp|id w ids Hid Hd|dc id Hdc Hid|lp w rp e Hlp H IH Hrp|w e dc id H IH Hdc Hid|t0 w e Ht H IH|t0 w e Ht H IH
      |p0 o0 w1 e1 t0 w2 e2 Hb H1 IH1 H2 IH2|p0 o0 w1 e1 t0 w2 e2 Hb H1 IH1 H2 IH2|w e t0 H IH Ht|n w e H IH]; intros x t1 y t2 z ch1 o1 ch2 o2 Hb1 Hb2 Hy E.
    - apply Hin in E as [[<-|[]] _]. rewrite Ht in Hb1. inversion Hb1.
    - apply Hin in E as [[<-|[]] _]. rewrite Ht in Hb1. inversion Hb1.
    - apply Hin in E as [[<-|[]] _]. destruct Hb; inversion Hb1.
    - apply Hin in E as [Hx _]. destruct Hx as [<-|[<-|[<-|[<-|[]]]]]; [rewrite Hid in Hb1|rewrite Hlp in Hb1|rewrite Hst in Hb1|rewrite Hrp in Hb1]; inversion Hb1.
    - apply Hin in E as [Hx _]. destruct Hx as [<-|Hx]; [rewrite Hid in Hb1; inversion Hb1|]. destruct (Hdots _ _ Hd _ Hx) as [Ek|Ek]; rewrite Ek in Hb1; inversion Hb1.
    - apply Hin in E as [Hx _]. destruct Hx as [<-|[<-|[]]]; [rewrite Hdc in Hb1|rewrite Hid in Hb1]; inversion Hb1.
    - destruct x as [|x0 x]; [injection E as -> _; rewrite Hlp in Hb1; inversion Hb1|]. injection E as <- E.
      destruct (exists_last (l := t2 :: z)) as (b' & r & Eb); [discriminate|]. rewrite Eb in E.
      replace (x ++ t1 :: y ++ b' ++ [r])%list with ((x ++ t1 :: y ++ b') ++ [r])%list in E by (rewrite <- app_assoc; cbn; now rewrite <- app_assoc).
      apply app_inj_tail in E as [E ->]. destruct b' as [|z0 b'].
      + injection Eb as -> _. rewrite Hrp in Hb2. inversion Hb2.
      + injection Eb as <- _. exact (IH _ _ _ _ _ _ _ _ _ Hb1 Hb2 Hy E).
    - destruct (exists_last (l := t2 :: z)) as (b' & r & Eb); [discriminate|]. rewrite Eb in E.
      replace (x ++ t1 :: y ++ b' ++ [r])%list with ((x ++ t1 :: y ++ b') ++ [r])%list in E by (rewrite <- app_assoc; cbn; now rewrite <- app_assoc).
      replace (w ++ [dc; id])%list with ((w ++ [dc]) ++ [id])%list in E by now rewrite <- app_assoc.
      apply app_inj_tail in E as [E ->]. destruct b' as [|z0 b']; [injection Eb as -> _; rewrite Hid in Hb2; inversion Hb2|]. injection Eb as <- Eb.
      destruct (exists_last (l := t2 :: b')) as (c' & r' & Ec); [discriminate|]. rewrite Ec in E.
      replace (x ++ t1 :: y ++ c' ++ [r'])%list with ((x ++ t1 :: y ++ c') ++ [r'])%list in E by (rewrite <- app_assoc; cbn; now rewrite <- app_assoc).
      apply app_inj_tail in E as [E ->]. destruct c' as [|z0 c']; [injection Ec as -> _; rewrite Hdc in Hb2; inversion Hb2|]. injection Ec as <- Ec.
      exact (IH _ _ _ _ _ _ _ _ _ Hb1 Hb2 Hy E).
    - destruct x as [|x0 x]; [injection E as -> _; rewrite Ht in Hb1; inversion Hb1|]. injection E as <- E. exact (IH _ _ _ _ _ _ _ _ _ Hb1 Hb2 Hy E).
    - destruct x as [|x0 x]; [injection E as -> _; rewrite Ht in Hb1; inversion Hb1|]. injection E as <- E. exact (IH _ _ _ _ _ _ _ _ _ Hb1 Hb2 Hy E).
    - refine (Hbin w1 e1 w2 e2 t0 p0 true (S p0) x t1 y t2 z ch1 o1 ch2 o2 o0 H1 H2 (or_introl Hb) (fun _ => eq_refl) IH1 IH2 _ (fun _ => eq_refl) Hb1 Hb2 Hy E).
      intros Hx. pose proof (binary_fun _ _ _ _ _ _ _ Hb Hx). pose proof (binary_pos _ _ _ _ Hb). lia.
    - refine (Hbin w1 e1 w2 e2 t0 (S p0) false (S p0) x t1 y t2 z ch1 o1 ch2 o2 o0 H1 H2 (or_intror (conj Hb _)) _ IH1 IH2 (fun _ => eq_refl) _ Hb1 Hb2 Hy E).
      + lia.
      + intros Hx. pose proof (binary_fun _ _ _ _ _ _ _ Hb Hx). pose proof (binary_pos _ _ _ _ Hb). lia.
      + intros Hx. pose proof (binary_fun _ _ _ _ _ _ _ Hb Hx). pose proof (binary_pos _ _ _ _ Hb). lia.
    - destruct (exists_last (l := t2 :: z)) as (b' & r & Eb); [discriminate|]. rewrite Eb in E.
      replace (x ++ t1 :: y ++ b' ++ [r])%list with ((x ++ t1 :: y ++ b') ++ [r])%list in E by (rewrite <- app_assoc; cbn; now rewrite <- app_assoc).
      apply app_inj_tail in E as [E ->]. destruct b' as [|z0 b'].
      + injection Eb as -> _. rewrite Ht in Hb2. destruct Hp as [->| ->]; inversion Hb2.
      + injection Eb as <- _. exact (IH _ _ _ _ _ _ _ _ _ Hb1 Hb2 Hy E).
    - exact (IH _ _ _ _ _ _ _ _ _ Hb1 Hb2 Hy E).
  Qed.
End S.
