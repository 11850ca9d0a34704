(** What can follow a complete expression. *)
From Coq Require Import String Ascii List ZArith NArith Bool Lia.
From Verif Require Import Base Token Parser SpecBlame ParserFacts ParserFacts2 ShapeFacts.
Import ListNotations.

(** Of the operators listed, those that never fail to fit, and the closing parenthesis. *)
Definition always (k : kind) : bool := match k with DOUBLE_COLON | AND | OR | SEMICOLON | RPAR => true | _ => false end.
Lemma always_not k : always k = true -> k <> DOT /\ k <> LPAR.
Proof. destruct k; try discriminate; split; discriminate. Qed.
Lemma atom_completed c : completed (Par c) [TRUE].
Proof. intros rest Hr. cbn. eapply p_ok; [now constructor|now constructor]. Qed.
(** An expression goes on with [k], or ends in front of [k]. *)
Definition onward (R : list kind -> sres -> Prop) (u : list kind) (k : kind) : Prop :=
  (exists s, completed R (u ++ k :: s)) \/ (forall rest, hk rest = k -> R (u ++ rest)%list (SOk rest)).
Lemma onward_ext c k : always k = true -> onward (Ext c) [] k.
Proof.
  intros H. destruct (kind_eq_dec k RPAR) as [->|Hk]; [right; intros rest E; cbn; constructor; now rewrite E|].
  assert (ext_kind k = true /\ is_left k = true) as [Hx Hl] by (destruct k; try discriminate; try congruence; split; reflexivity).
  destruct (Nat.lt_ge_cases c (TokenPrecedence k)) as [Hc|Hc].
  - left. destruct (kind_eq_dec k DOUBLE_COLON) as [->|Hd].
    + exists [ID]. intros rest Hr. cbn. apply e_field; [exact Hc|now constructor].
    + exists [TRUE]. intros rest Hr. cbn. eapply e_bin; [|exact Hc|reflexivity|apply (atom_completed _ rest Hr)|now constructor].
      unfold bin_kind. rewrite Hx. destruct (kind_eqb_spec k DOUBLE_COLON); [contradiction|reflexivity].
  - right. intros rest E. cbn. rewrite <- E in *. apply e_ret; [exact Hx|]. destruct (Nat.eq_dec c (TokenPrecedence (hk rest))); [right; now split|left; lia].
Qed.
Lemma onward_front (R R' : list kind -> sres -> Prop) w u k : k <> END_OF_INPUT ->
  (forall v rest, R (u ++ k :: v)%list (SOk rest) -> R' (w ++ u ++ k :: v)%list (SOk rest)) -> onward R u k -> onward R' (w ++ u) k.
Proof.
  intros Hk H [[s Hs]|Hr].
  - left. exists s. intros rest Hst. specialize (Hs rest Hst). rewrite <- !app_assoc in *. cbn [app] in *. now apply H.
  - right. intros rest E. specialize (Hr rest E). destruct rest as [|k' v]; cbn in E; subst; [congruence|].
    rewrite <- app_assoc in *. now apply H.
Qed.
(** After a part that ends in front of [k]. *)
Lemma onward_then (R R' : list kind -> sres -> Prop) c w u k : always k = true ->
  (forall rest x, R (u ++ rest)%list (SOk rest) -> Ext c rest x -> R' (w ++ u ++ rest)%list x) ->
  (forall v rest, stop_kind (hk rest) = true -> R (u ++ k :: v ++ rest)%list (SOk rest) -> R' (w ++ u ++ k :: v ++ rest)%list (SOk rest)) ->
  onward R u k -> onward R' (w ++ u) k.
Proof.
  intros Ha H1 H2 [[s Hs]|Hr].
  - left. exists s. intros rest Hst. specialize (Hs rest Hst). rewrite <- !app_assoc in *. cbn [app] in *. now apply H2.
  - destruct (onward_ext c k Ha) as [[s Hs]|Hs].
    + left. exists s. intros rest Hst. rewrite <- !app_assoc. cbn [app]. apply H1; [now apply Hr|]. exact (Hs rest Hst).
    + right. intros rest E. rewrite <- app_assoc. apply H1; [now apply Hr|]. exact (Hs rest E).
Qed.
Lemma Dts_swap ks x : Dts ks x -> forall w a, x = SOk a -> ks = (w ++ a)%list -> forall a', hk a' <> DOT -> Dts (w ++ a') (SOk a').
Proof.
  induction 1 as [r H|r x H IH|r H]; intros w a E Ek a' Ha; try discriminate E.
  - injection E as <-. symmetry in Ek. change r with ([] ++ r)%list in Ek at 2. apply app_inv_tail in Ek as ->. now constructor.
  - destruct (Dts_local _ _ H) as (u & -> & _). subst x. cbn in *. assert (w = DOT :: ID :: u) as -> by (change (DOT :: ID :: u ++ a)%list with ((DOT :: ID :: u) ++ a)%list in Ek; symmetry; eapply app_inv_tail; exact Ek).
    cbn [app]. constructor. eapply IH; [reflexivity|reflexivity|exact Ha].
Qed.
Lemma ok_rest :
  (forall ks x, Ini ks x -> True) /\
  (forall c ks x, Ext c ks x -> forall a, x = SOk a -> stop_kind (hk a) = true \/ ext_kind (hk a) = true) /\
  (forall c ks x, Par c ks x -> forall a, x = SOk a -> stop_kind (hk a) = true \/ ext_kind (hk a) = true).
Proof. apply shape_ind; auto; intros; try discriminate; try (match goal with E : SOk _ = SOk _ |- _ => injection E as <- end; auto). Qed.
Lemma Ini_swap w a : Ini (w ++ a) (SOk a) -> stop_kind (hk a) = false -> ext_kind (hk a) = false -> forall a', hk a' <> DOT -> hk a' <> LPAR -> Ini (w ++ a') (SOk a').
Proof.
  intros H H1 H2 a' H3 H4. remember (w ++ a)%list as ks eqn:E. remember (SOk a) as x eqn:Ex. destruct H as [k r Hk|r|r Hr|r Hr|r x Hl HD|r|r Hr|k r x Hk HP|r r' HP|r h r' HP|r r' HP Hr|r Hr]; try discriminate Ex.
  - injection Ex as ->. change (k :: a) with ([k] ++ a)%list in E. apply app_inv_tail in E as <-. now constructor.
  - injection Ex as ->. change (ID :: LPAR :: STRING :: RPAR :: a) with ([ID; LPAR; STRING; RPAR] ++ a)%list in E. apply app_inv_tail in E as <-. apply i_addr.
  - subst x. destruct (Dts_local _ _ HD) as (u & -> & _). cbn in *. change (ID :: u ++ a)%list with ((ID :: u) ++ a)%list in E. apply app_inv_tail in E as <-. cbn [app]. apply i_var.
    + destruct u; cbn in *; assumption.
    + eapply Dts_swap; [exact HD|reflexivity|reflexivity|exact H3].
  - injection Ex as ->. change (DOUBLE_COLON :: ID :: a) with ([DOUBLE_COLON; ID] ++ a)%list in E. apply app_inv_tail in E as <-. apply i_attr.
  - exfalso. destruct (proj2 (proj2 ok_rest) _ _ _ HP _ Ex); congruence.
  - injection Ex as ->. destruct (proj2 (proj2 shape_local) _ _ _ HP) as (u & -> & Hl). cbn in *.
    replace (LPAR :: u ++ RPAR :: a)%list with ((LPAR :: u ++ [RPAR]) ++ a)%list in E by (cbn; now rewrite <- app_assoc). apply app_inv_tail in E as <-. cbn. rewrite <- app_assoc. apply i_par, (Hl (RPAR :: a')). now left.
Qed.
Definition goes (R : list kind -> sres -> Prop) (ks : list kind) (x : sres) : Prop :=
  forall a, x = SBad HExt a -> exists u, ks = (u ++ a)%list /\ forall k, always k = true -> onward R u k.
Definition goes0 (R : list kind -> sres -> Prop) (ks : list kind) (x : sres) : Prop :=
  forall a, x = SBad HExt a -> exists u, ks = (u ++ a)%list /\ (u = [] -> stop_kind (hk a) = false /\ ext_kind (hk a) = false) /\ forall k, always k = true -> onward R u k.
Lemma always_end k : always k = true -> k <> END_OF_INPUT.
Proof. intros H ->. discriminate. Qed.
Lemma Dts_hint ks x : Dts ks x -> forall a, x <> SBad HExt a.
Proof. induction 1; congruence. Qed.
Lemma Par_0_stop ks a : Par 0 ks (SOk a) -> stop_kind (hk a) = true.
Proof.
  intros H. inversion H; subst. clear H H0. remember (SOk a) as x eqn:E. remember 0%nat as c eqn:Ec. revert a E. induction H1; intros a E; try discriminate E; try (injection E as <-; assumption); eauto.
  injection E as <-. apply ext_prec in H as [H _]. lia.
Qed.
Lemma shape_goes :
  (forall ks x, Ini ks x -> goes Ini ks x) /\ (forall c ks x, Ext c ks x -> goes0 (Ext c) ks x) /\ (forall c ks x, Par c ks x -> goes (Par c) ks x).
Proof.
  apply shape_ind; unfold goes, goes0; try discriminate.
  - intros r x _ H a ->. exfalso. eapply Dts_hint; [exact H|reflexivity].
  - intros k r x Hk _ IH a E. destruct (IH a E) as (u & -> & Hu). exists ([k] ++ u)%list. split; [reflexivity|]. intros k' Hk'. eapply onward_front; [now apply always_end| |now apply Hu]. intros. cbn [app]. now apply i_un.
  - intros r h r' _ IH a E. destruct (IH a E) as (u & -> & Hu). exists (LPAR :: u). split; [reflexivity|]. intros k Hk. left. destruct (Hu k Hk) as [[s Hs]|Hs].
    + exists (s ++ [RPAR])%list. intros rest Hr. cbn [app]. apply i_par. specialize (Hs (RPAR :: rest) eq_refl). rewrite <- !app_assoc in *. cbn [app] in *. rewrite <- app_assoc. exact Hs.
    + pose proof (Par_0_stop _ _ (Hs [k] eq_refl)) as Hst. cbn in Hst. assert (k = RPAR) as -> by (destruct k; try discriminate; reflexivity).
      exists []. intros rest _. cbn. rewrite <- app_assoc. apply i_par. now apply Hs.
  - intros c r H1 H2 a [= <-]. exists []. split; [reflexivity|]. split; [auto|]. intros k Hk. now apply onward_ext.
  - intros c r x H1 _ IH a E. destruct (IH a E) as (u & -> & _ & Hu). exists ([DOUBLE_COLON; ID] ++ u)%list. split; [reflexivity|]. split; [discriminate|].
    intros k Hk. eapply onward_front; [now apply always_end| |now apply Hu]. intros. cbn [app]. now apply e_field.
  - intros c k r r' x H1 H2 H3 HP _ _ IH a E. destruct (IH a E) as (u & -> & H0 & Hu). destruct (proj2 (proj2 ok_rest) _ _ _ HP _ eq_refl) as [Hr|Hr].
    1,2: destruct u as [|k0 u]; [destruct (H0 eq_refl); cbn in *; congruence|].
    1,2: destruct (proj2 (proj2 shape_local) _ _ _ HP) as (w & -> & Hl); cbn in Hl.
    1,2: exists ((k :: w) ++ (k0 :: u))%list; split; [cbn; now rewrite <- app_assoc|]; split; [discriminate|].
    1,2: intros k' Hk'; eapply onward_front; [now apply always_end| |now apply Hu]; intros v rest HE; cbn [app] in *.
    1,2: assert (Par (TokenPrecedence k) (w ++ k0 :: u ++ k' :: v) (SOk (k0 :: u ++ k' :: v))) as HP' by (apply Hl; now left).
    1,2: eapply e_bin; [exact H1|exact H2|intros _; apply start_not_stop, (Par_start _ _ _ HP')|exact HP'|exact HE].
  - intros c k r h r' H1 H2 H3 _ IH a E. destruct (IH a E) as (u & -> & Hu). exists ([k] ++ u)%list. split; [reflexivity|]. split; [discriminate|].
    intros k' Hk'. eapply (onward_then _ _ c); [exact Hk'| | |now apply Hu].
    + intros rest x HP HE. cbn [app]. eapply e_bin; [exact H1|exact H2|intros _; apply start_not_stop, (Par_start _ _ _ HP)|exact HP|exact HE].
    + intros v rest Hst HP. cbn [app]. eapply e_bin; [exact H1|exact H2|intros _; apply start_not_stop, (Par_start _ _ _ HP)|exact HP|now constructor].
  - intros c r r' x HI _ _ IH a E. destruct (IH a E) as (u & -> & H0 & Hu). destruct (proj1 shape_local _ _ HI) as (w & -> & Hl). cbn in Hl. exists (w ++ u)%list. split; [cbn; now rewrite <- app_assoc|].
    intros k Hk. eapply onward_front; [now apply always_end| |now apply Hu]. intros v rest HE. eapply p_ok; [|exact HE]. destruct u as [|k0 u].
    + destruct (H0 eq_refl) as [Ha Hb]. cbn [app rest_of] in *. apply always_not in Hk as [? ?]. eapply Ini_swap; [exact HI|exact Ha|exact Hb|assumption|assumption].
    + apply Hl. now left.
  - intros c r h r' _ IH a E. destruct (IH a E) as (u & -> & Hu). exists ([] ++ u)%list. split; [reflexivity|]. intros k Hk. eapply (onward_then _ _ c); [exact Hk| | |now apply Hu].
    + intros rest x HI HE. cbn [app]. eapply p_ok; [exact HI|exact HE].
    + intros v rest Hst HI. cbn [app]. eapply p_ok; [exact HI|now constructor].
Qed.

(** * The same where an operator must not be chained *)
Definition passes (R : list kind -> sres -> Prop) (ks : list kind) (x : sres) : Prop :=
  forall a, x = SOk a -> stop_kind (hk a) = false -> exists u, ks = (u ++ a)%list /\ forall k, always k = true -> onward R u k.
Lemma shape_passes :
  (forall ks x, Ini ks x -> passes Ini ks x) /\ (forall c ks x, Ext c ks x -> passes (Ext c) ks x) /\ (forall c ks x, Par c ks x -> passes (Par c) ks x).
Proof.
  assert (forall w, (forall rest, hk rest <> DOT -> hk rest <> LPAR -> Ini (w ++ rest) (SOk rest)) -> forall k, always k = true -> onward Ini w k) as Hi.
  { intros w H k Hk. right. intros rest <-. apply always_not in Hk as [? ?]. now apply H. }
  apply shape_ind; unfold passes; try discriminate.
  - intros k r Hk a [= <-] _. exists [k]. split; [reflexivity|]. apply Hi. intros. now constructor.
  - intros r a [= <-] _. exists [ID; LPAR; STRING; RPAR]. split; [reflexivity|]. apply Hi. intros. apply i_addr.
  - intros r x Hl H a E _. destruct (Dts_local _ _ H) as (u & -> & _). subst x. cbn in *. exists (ID :: u). split; [reflexivity|]. apply Hi. intros rest H1 H2. cbn [app]. apply i_var.
    + destruct u; cbn in *; assumption.
    + eapply Dts_swap; [exact H|reflexivity|reflexivity|exact H1].
  - intros r a [= <-] _. exists [DOUBLE_COLON; ID]. split; [reflexivity|]. apply Hi. intros. apply i_attr.
  - intros k r x Hk _ IH a E Hs. destruct (IH a E Hs) as (u & -> & Hu). exists ([k] ++ u)%list. split; [reflexivity|]. intros k' Hk'. eapply onward_front; [now apply always_end| |now apply Hu]. intros. cbn [app]. now apply i_un.
  - intros r r' H _ a [= <-] _. destruct (proj2 (proj2 shape_local) _ _ _ H) as (u & -> & Hl). cbn in *. exists (LPAR :: u ++ [RPAR])%list. split; [cbn; now rewrite <- app_assoc|]. apply Hi. intros rest _ _. cbn. rewrite <- app_assoc. apply i_par, (Hl (RPAR :: rest)). now left.
  - intros c r Hr a [= <-] Hs. congruence.
  - intros c r _ _ a [= <-] _. exists []. split; [reflexivity|]. intros k Hk. now apply onward_ext.
  - intros c r _ Hr a [= <-] Hs. congruence.
  - intros c r x H1 _ IH a E Hs. destruct (IH a E Hs) as (u & -> & Hu). exists ([DOUBLE_COLON; ID] ++ u)%list. split; [reflexivity|].
    intros k Hk. eapply onward_front; [now apply always_end| |now apply Hu]. intros. cbn [app]. now apply e_field.
  - intros c k r r' x H1 H2 H3 HP IHP _ IH a E Hs. destruct (IH a E Hs) as (u & -> & Hu). destruct u as [|k0 u].
    + cbn [app] in *. destruct (IHP _ eq_refl Hs) as (w & -> & Hw). exists ([k] ++ w)%list. split; [reflexivity|]. intros k' Hk'. eapply (onward_then _ _ c); [exact Hk'| | |now apply Hw].
      * intros rest y HP' HE. cbn [app]. eapply e_bin; [exact H1|exact H2|intros _; apply start_not_stop, (Par_start _ _ _ HP')|exact HP'|exact HE].
      * intros v rest Hst HP'. cbn [app]. eapply e_bin; [exact H1|exact H2|intros _; apply start_not_stop, (Par_start _ _ _ HP')|exact HP'|now constructor].
    + destruct (proj2 (proj2 shape_local) _ _ _ HP) as (w & -> & Hl); cbn in Hl. exists ((k :: w) ++ (k0 :: u))%list. split; [cbn; now rewrite <- app_assoc|].
      intros k' Hk'. eapply onward_front; [now apply always_end| |now apply Hu]. intros v rest HE. cbn [app] in *.
      assert (Par (TokenPrecedence k) (w ++ k0 :: u ++ k' :: v) (SOk (k0 :: u ++ k' :: v))) as HP' by (apply Hl; now left).
      eapply e_bin; [exact H1|exact H2|intros _; apply start_not_stop, (Par_start _ _ _ HP')|exact HP'|exact HE].
  - intros c r r' x HI IHI _ IH a E Hs. destruct (IH a E Hs) as (u & -> & Hu). destruct u as [|k0 u].
    + cbn [app] in *. destruct (IHI _ eq_refl Hs) as (w & -> & Hw). exists ([] ++ w)%list. split; [reflexivity|]. intros k Hk. eapply (onward_then _ _ c); [exact Hk| | |now apply Hw].
      * intros rest y HI' HE. cbn [app]. eapply p_ok; [exact HI'|exact HE].
      * intros v rest Hst HI'. cbn [app]. eapply p_ok; [exact HI'|now constructor].
    + destruct (proj1 shape_local _ _ HI) as (w & -> & Hl). cbn in Hl. exists (w ++ (k0 :: u))%list. split; [cbn; now rewrite <- app_assoc|].
      intros k Hk. eapply onward_front; [now apply always_end| |now apply Hu]. intros v rest HE. eapply p_ok; [|exact HE]. apply Hl. now left.
Qed.
Definition chains (R : list kind -> sres -> Prop) (ks : list kind) (x : sres) : Prop :=
  forall a, x = SBad HNon a -> exists u, ks = (u ++ a)%list /\ stop_kind (hk a) = false /\ forall k, always k = true -> onward R u k.
Lemma Dts_hint2 ks x : Dts ks x -> forall a, x <> SBad HNon a.
Proof. induction 1; congruence. Qed.
Lemma shape_chains :
  (forall ks x, Ini ks x -> chains Ini ks x) /\ (forall c ks x, Ext c ks x -> chains (Ext c) ks x) /\ (forall c ks x, Par c ks x -> chains (Par c) ks x).
Proof.
  apply shape_ind; unfold chains; try discriminate.
  - intros r x _ H a ->. exfalso. eapply Dts_hint2; [exact H|reflexivity].
  - intros k r x Hk _ IH a E. destruct (IH a E) as (u & -> & Hs & Hu). exists ([k] ++ u)%list. split; [reflexivity|]. split; [exact Hs|]. intros k' Hk'. eapply onward_front; [now apply always_end| |now apply Hu]. intros. cbn [app]. now apply i_un.
  - intros r h r' _ IH a E. destruct (IH a E) as (u & -> & Hst & Hu). exists (LPAR :: u). split; [reflexivity|]. split; [exact Hst|]. intros k Hk. left. destruct (Hu k Hk) as [[s Hs]|Hs].
    + exists (s ++ [RPAR])%list. intros rest Hr. cbn [app]. apply i_par. specialize (Hs (RPAR :: rest) eq_refl). rewrite <- !app_assoc in *. cbn [app] in *. rewrite <- app_assoc. exact Hs.
    + pose proof (Par_0_stop _ _ (Hs [k] eq_refl)) as Hst'. cbn in Hst'. assert (k = RPAR) as -> by (destruct k; try discriminate; reflexivity).
      exists []. intros rest _. cbn. rewrite <- app_assoc. apply i_par. now apply Hs.
  - intros r H1 _ a [= <-]. exists []. split; [reflexivity|]. split; [now apply ext_prec in H1 as (_ & _ & _ & ?)|]. intros k Hk. now apply onward_ext.
  - intros c r x H1 _ IH a E. destruct (IH a E) as (u & -> & Hs & Hu). exists ([DOUBLE_COLON; ID] ++ u)%list. split; [reflexivity|]. split; [exact Hs|].
    intros k Hk. eapply onward_front; [now apply always_end| |now apply Hu]. intros. cbn [app]. now apply e_field.
  - intros c k r r' x H1 H2 H3 HP _ _ IH a E. destruct (IH a E) as (u & -> & Hs & Hu). destruct u as [|k0 u].
    + cbn [app] in *. destruct (proj2 (proj2 shape_passes) _ _ _ HP _ eq_refl Hs) as (w & -> & Hw). exists ([k] ++ w)%list. split; [reflexivity|]. split; [exact Hs|]. intros k' Hk'. eapply (onward_then _ _ c); [exact Hk'| | |now apply Hw].
      * intros rest y HP' HE. cbn [app]. eapply e_bin; [exact H1|exact H2|intros _; apply start_not_stop, (Par_start _ _ _ HP')|exact HP'|exact HE].
      * intros v rest Hst HP'. cbn [app]. eapply e_bin; [exact H1|exact H2|intros _; apply start_not_stop, (Par_start _ _ _ HP')|exact HP'|now constructor].
    + destruct (proj2 (proj2 shape_local) _ _ _ HP) as (w & -> & Hl); cbn in Hl. exists ((k :: w) ++ (k0 :: u))%list. split; [cbn; now rewrite <- app_assoc|]. split; [exact Hs|].
      intros k' Hk'. eapply onward_front; [now apply always_end| |now apply Hu]. intros v rest HE. cbn [app] in *.
      assert (Par (TokenPrecedence k) (w ++ k0 :: u ++ k' :: v) (SOk (k0 :: u ++ k' :: v))) as HP' by (apply Hl; now left).
      eapply e_bin; [exact H1|exact H2|intros _; apply start_not_stop, (Par_start _ _ _ HP')|exact HP'|exact HE].
  - intros c k r h r' H1 H2 H3 _ IH a E. destruct (IH a E) as (u & -> & Hs & Hu). exists ([k] ++ u)%list. split; [reflexivity|]. split; [exact Hs|].
    intros k' Hk'. eapply (onward_then _ _ c); [exact Hk'| | |now apply Hu].
    + intros rest x HP HE. cbn [app]. eapply e_bin; [exact H1|exact H2|intros _; apply start_not_stop, (Par_start _ _ _ HP)|exact HP|exact HE].
    + intros v rest Hst HP. cbn [app]. eapply e_bin; [exact H1|exact H2|intros _; apply start_not_stop, (Par_start _ _ _ HP)|exact HP|now constructor].
  - intros c r r' x HI _ _ IH a E. destruct (IH a E) as (u & -> & Hs & Hu). destruct u as [|k0 u].
    + cbn [app] in *. destruct (proj1 shape_passes _ _ HI _ eq_refl Hs) as (w & -> & Hw). exists ([] ++ w)%list. split; [reflexivity|]. split; [exact Hs|]. intros k Hk. eapply (onward_then _ _ c); [exact Hk| | |now apply Hw].
      * intros rest y HI' HE. cbn [app]. eapply p_ok; [exact HI'|exact HE].
      * intros v rest Hst HI'. cbn [app]. eapply p_ok; [exact HI'|now constructor].
    + destruct (proj1 shape_local _ _ HI) as (w & -> & Hl). cbn in Hl. exists (w ++ (k0 :: u))%list. split; [cbn; now rewrite <- app_assoc|]. split; [exact Hs|].
      intros k Hk. eapply onward_front; [now apply always_end| |now apply Hu]. intros v rest HE. eapply p_ok; [|exact HE]. apply Hl. now left.
  - intros c r h r' _ IH a E. destruct (IH a E) as (u & -> & Hs & Hu). exists ([] ++ u)%list. split; [reflexivity|]. split; [exact Hs|]. intros k Hk. eapply (onward_then _ _ c); [exact Hk| | |now apply Hu].
    + intros rest x HI HE. cbn [app]. eapply p_ok; [exact HI|exact HE].
    + intros v rest Hst HI. cbn [app]. eapply p_ok; [exact HI|now constructor].
Qed.
