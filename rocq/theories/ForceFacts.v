(** The reported part of a constraint is the smallest that forces its truth value. *)
From Coq Require Import String Ascii List ZArith NArith Bool Lia.
From Verif Require Import Base Num Token Ast Quote Info TypeChecker Interpreter SpecTyping TypeFacts LiteralFacts SpecSemantics SpecForce EvalFacts SemFacts ExplainFacts.
Import ListNotations.
Open Scope string_scope.

Lemma not_comparison o : connective o -> comparison o -> False.
Proof. intros Hc H. inversion H as [? H'|? H']; subst; destruct Hc; inversion H'. Qed.
Lemma could_some b q s : forall e, At e q s -> exists x, Could b q e x.
Proof.
  induction q as [|d q IH]; intros e H; inversion H as [|? ? e' ? ? Hc Ha]; subst; [exists b; constructor|].
  destruct Hc as [m e'|m e'|m e'|m f e'|m o l r|m o l r].
  all: try (exists true; apply cd_other; discriminate).
  - destruct (IH _ Ha) as [x Hx]. exists (negb x). now constructor.
  - destruct (IH _ Ha) as [x Hx]. assert (connective o \/ ~ connective o) as [Ho|Ho] by (destruct o; first [left; constructor|right; intros H'; inversion H']).
    + exists (truth o x true). now constructor.
    + exists true. apply cd_other; [discriminate|]. intros ? ? ? ? H' [= _ <- _ _]. contradiction.
  - destruct (IH _ Ha) as [x Hx]. assert (connective o \/ ~ connective o) as [Ho|Ho] by (destruct o; first [left; constructor|right; intros H'; inversion H']).
    + exists (truth o true x). now constructor.
    + exists true. apply cd_other; [discriminate|]. intros ? ? ? ? H' [= _ <- _ _]. contradiction.
Qed.
(** What is the case is possible. *)
Lemma could_actual ctx b q s : holds ctx s b -> forall e v, At e q s -> holds ctx e v -> Could b q e v.
Proof.
  intros Hs. induction q as [|d q IH]; intros e v H Hv; inversion H as [|? ? e' ? ? Hc Ha]; subst; [rewrite (holds_fun _ _ _ _ Hv Hs); constructor|].
  destruct Hc as [m e'|m e'|m e'|m f e'|m o l r|m o l r].
  all: try (apply cd_other; discriminate).
  - apply ev_bool_not in Hv. rewrite <- (negb_involutive v). constructor. apply IH; assumption.
  - assert (connective o \/ ~ connective o) as [Ho|Ho] by (destruct o; first [left; constructor|right; intros H'; inversion H']); [|apply cd_other; [discriminate|]; intros ? ? ? ? H' [= _ <- _ _]; contradiction].
    apply ev_bool_conn in Hv as (x & Hx & [Hv|(y & _ & <-)]); [|apply cd_left; auto|exact Ho]. rewrite <- (Hv true). apply cd_left; auto.
  - assert (connective o \/ ~ connective o) as [Ho|Ho] by (destruct o; first [left; constructor|right; intros H'; inversion H']); [|apply cd_other; [discriminate|]; intros ? ? ? ? H' [= _ <- _ _]; contradiction].
    apply ev_bool_conn in Hv as (x & Hx & [Hv|(y & Hy & <-)]); [|apply cd_right; auto|exact Ho]. destruct (could_some b q s _ Ha) as [y Hy]. rewrite <- (Hv y). apply cd_right; auto.
Qed.
Lemma blamable_forces ctx e q s : Blamable (holds ctx) e q s -> forall v b, holds ctx e v -> holds ctx s b -> Forces e q b v.
Proof.
  induction 1 as [m b|m o a b Hc|m e q s H IH|m o a b x q s Ho Ha Hx H IH|m o a b y q s Ho Hb Hy H IH|m o a b x y Ho Ha Hb Hx Hy]; intros v w Hv Hw z Hz.
  - inversion Hz; subst. eapply holds_fun; eassumption.
  - inversion Hz; subst. eapply holds_fun; eassumption.
  - apply ev_bool_not in Hv. inversion Hz as [|? ? ? x' Hx'| | |? ? ? ? N1 N2]; subst; [|exfalso; exact (N1 _ _ eq_refl)]. rewrite (IH _ _ Hv Hw _ Hx'). apply negb_involutive.
  - inversion Hz as [| |? ? ? ? ? x' y' _ Hx'| |? ? ? ? N1 N2]; subst; [|exfalso; exact (N2 _ _ _ _ Ho eq_refl)]. rewrite (IH _ _ Ha Hw _ Hx').
    apply (ev_bool_conn _ _ _ _ _ _ Ho) in Hv as (x0 & Hx0 & Hv). rewrite (holds_fun _ _ _ _ Hx0 Ha) in Hv. destruct Hv as [Hv|(y0 & _ & <-)]; [apply Hv|apply Hx].
  - inversion Hz as [| | |? ? ? ? ? x' y' _ Hy'|? ? ? ? N1 N2]; subst; [|exfalso; exact (N2 _ _ _ _ Ho eq_refl)]. rewrite (IH _ _ Hb Hw _ Hy').
    apply (ev_bool_conn _ _ _ _ _ _ Ho) in Hv as (x0 & Hx0 & Hv). destruct Hv as [Hv|(y0 & Hy0 & <-)]; [rewrite <- (Hv y); apply Hy|]. rewrite (holds_fun _ _ _ _ Hy0 Hb). apply Hy.
  - inversion Hz; subst. eapply holds_fun; eassumption.
Qed.
Lemma nodes_pos e n : Nodes e n -> (0 < n)%Z.
Proof. induction 1; lia. Qed.
Lemma blamable_size h e q s : Blamable h e q s -> forall n, Nodes e n -> exists k, Nodes s k /\ (k <= n)%Z /\ (k = n -> q = []).
Proof.
  induction 1 as [m b|m o a b Hc|m e q s H IH|m o a b x q s Ho Ha Hx H IH|m o a b y q s Ho Hb Hy H IH|m o a b x y Ho Ha Hb Hx Hy]; intros n Hn.
  all: try (exists n; split; [exact Hn|]; split; [lia|auto]).
  - inversion Hn as [| | | | | | |? ? k Hk|]; subst. destruct (IH _ Hk) as (k' & H1 & H2 & _). exists k'. split; [exact H1|]. lia.
  - inversion Hn as [| | | | | | | |? ? ? ? i j Hi Hj]; subst. apply nodes_pos in Hj. destruct (IH _ Hi) as (k' & H1 & H2 & _). exists k'. split; [exact H1|]. lia.
  - inversion Hn as [| | | | | | | |? ? ? ? i j Hi Hj]; subst. apply nodes_pos in Hi. destruct (IH _ Hj) as (k' & H1 & H2 & _). exists k'. split; [exact H1|]. lia.
Qed.
Lemma child_bin m o l r d x : Child (EBin m o l r) d x -> (d = false /\ x = l) \/ (d = true /\ x = r).
Proof. inversion 1; auto. Qed.
(** Below a part that forces the value there is a candidate of the search. *)
Lemma forced_blamable ctx b s : holds ctx s b -> forall e p r v q, minimal ctx e p = Ok r -> holds ctx e v -> At e q s -> Forces e q b v ->
  exists q2 s2, Blamable (holds ctx) e (q ++ q2) s2 /\ Blamable (holds ctx) s q2 s2.
Proof.
  intros Hs e. induction e as [m c|m x|m n|m n|m e IH|m e IH|m e IH|m o l IHl r IHr|m f e IH|m n|m]; intros p res v q H Hv Ha HF; cbn [minimal] in H; try discriminate H.
  - inversion Ha as [|? ? ? ? ? Hc]; subst; [|inversion Hc]. exists [], (EBool m c). split; constructor.
  - inversion Ha as [|? ? ? q' ? Hc Ha']; subst.
    + apply ev_bool_not in Hv as Hv'. destruct res as [s2 q2]. apply minimal_best in H as (q' & _ & [HB _]). exists (false :: q'), s2. split; now constructor.
    + inversion Hc; subst. apply ev_bool_not in Hv. destruct (IH _ _ _ q' H Hv Ha') as (q2 & s2 & H1 & H2).
      * intros x Hx. assert (negb x = v) as <- by (apply HF; now constructor). now rewrite negb_involutive.
      * exists q2, s2. split; [|exact H2]. cbn [app]. now constructor.
  - assert (q = [] \/ exists d q', q = d :: q') as [->|(d & q' & ->)] by (destruct q; eauto).
    + inversion Ha; subst. destruct res as [s2 p2]. apply (minimal_best ctx (EBin m o l r)) in H as (q' & _ & [HB _]). exists q', s2. split; exact HB.
    + assert (comparison o \/ connective o) as [Hc|Ho].
      { destruct o; try discriminate H; first [right; constructor|left; apply cm_eq; constructor|left; apply cm_ord; constructor]. }
      { exfalso. assert (forall y, y = v) as E. { intros y. apply HF. apply cd_other; [discriminate|]. intros ? ? ? ? H' [= _ <- _ _]. exact (not_comparison _ H' Hc). } discriminate (eq_trans (E true) (eq_sym (E false))). }
      assert (exists bl br, holds ctx l bl /\ holds ctx r br /\
        match match o with OOR => bl | _ => negb bl end, match o with OAND => negb br | _ => br end with
            | false, false => True
            | true, false => exists r0, minimal ctx l (false :: p) = Ok r0
            | false, true => exists r1, minimal ctx r (true :: p) = Ok r1
            | true, true => (exists r0, minimal ctx l (false :: p) = Ok r0) /\ exists r1, minimal ctx r (true :: p) = Ok r1
        end) as (bl & br & Hl & Hr & Hm).
      { destruct Ho; apply bind_ok in H as (bl & Hbl & H); apply bind_ok in H as (br & Hbr & H); exists bl, br; (split; [exact Hbl|]); (split; [exact Hbr|]); destruct bl, br; cbn [negb] in H |- *; eauto;
          apply bind_ok in H as (r0 & H0 & H); apply bind_ok in H as (r1 & H1 & H); eauto. }
      clear H. assert (truth o bl br = v) as Ev.
      { apply (ev_bool_conn _ _ _ _ _ _ Ho) in Hv as (x0 & Hx0 & Hv). rewrite (holds_fun _ _ _ _ Hx0 Hl) in Hv. destruct Hv as [Hv|(y0 & Hy0 & <-)]; [apply Hv|]. now rewrite (holds_fun _ _ _ _ Hy0 Hr). }
      pose proof (decides_l o bl Ho) as Dl. pose proof (decides_r o br Ho) as Dr.
      inversion Ha as [|? ? x0 ? ? Hc Ha']; subst. apply child_bin in Hc as [[-> ->]|[-> ->]].
      * assert (forall x y, Could b q' l x -> truth o x y = truth o bl br) as HF' by (intros x y Hx; apply HF; now constructor).
        pose proof (could_actual ctx b q' s Hs l bl Ha' Hl) as Hact. assert (forall y y', truth o bl y = truth o bl y') as Hd by (intros y y'; exact (eq_trans (HF' _ y Hact) (eq_sym (HF' _ y' Hact)))).
        assert (Forces l q' b bl) as HFl. { intros x Hx. pose proof (HF' x true Hx) as E1. pose proof (HF' x false Hx) as E2. clear - Ho E1 E2 Hd. specialize (Hd true false). destruct Ho, x, bl, br; cbn in *; congruence. }
        apply Dl in Hd as Hd'. rewrite Hd' in Hm. assert (exists r0, minimal ctx l (false :: p) = Ok r0) as [r0 H0] by (destruct (match o with OAND => negb br | _ => br end); [apply Hm|exact Hm]).
        destruct (IHl _ _ _ _ H0 Hl Ha' HFl) as (q2 & s2 & H1 & H2). exists q2, s2. split; [|exact H2]. cbn [app]. exact (bl_left _ m o l r bl _ _ Ho Hl Hd H1).
      * assert (forall x y, Could b q' r y -> truth o x y = truth o bl br) as HF' by (intros x y Hx; apply HF; now constructor).
        pose proof (could_actual ctx b q' s Hs r br Ha' Hr) as Hact. assert (forall x x', truth o x br = truth o x' br) as Hd by (intros x x'; exact (eq_trans (HF' x _ Hact) (eq_sym (HF' x' _ Hact)))).
        assert (Forces r q' b br) as HFr. { intros y Hy. pose proof (HF' true y Hy) as E1. pose proof (HF' false y Hy) as E2. clear - Ho E1 E2 Hd. specialize (Hd true false). destruct Ho, y, bl, br; cbn in *; congruence. }
        apply Dr in Hd as Hd'. rewrite Hd' in Hm. assert (exists r0, minimal ctx r (true :: p) = Ok r0) as [r0 H0] by (destruct (match o with OOR => bl | _ => negb bl end); [apply Hm|exact Hm]).
        destruct (IHr _ _ _ _ H0 Hr Ha' HFr) as (q2 & s2 & H1 & H2). exists q2, s2. split; [|exact H2]. cbn [app]. exact (bl_right _ m o l r br _ _ Ho Hr Hd H1).
Qed.
