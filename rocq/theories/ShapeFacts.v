(** The parser as a recogniser of token kinds: how far it reads and where it stops. *)
From Coq Require Import String Ascii List ZArith NArith Bool Lia.
From Verif Require Import Base Token Parser SpecBlame ParserFacts ParserFacts2.
Import ListNotations.

(** The first kind; beyond the end there is only END_OF_INPUT. *)
Definition hk (ks : list kind) : kind := match ks with [] => END_OF_INPUT | k :: _ => k end.
(** Read up to [rest], or stuck in front of [rest]. *)
Inductive sres := SOk (rest : list kind) | SBad (h : hint) (rest : list kind).
Definition rest_of (r : sres) : list kind := match r with SOk x | SBad _ x => x end.
Definition is_ok (r : sres) : bool := match r with SOk _ => true | SBad _ _ => false end.
Definition atom (k : kind) : bool := match k with TRUE | FALSE | BINARY | OCTARY | DECIMAL | HEXADEC => true | _ => false end.
Definition unary (k : kind) : bool := match k with BANG | MINUS => true | _ => false end.
Definition bin_kind (k : kind) : bool := (ext_kind k && negb (kind_eqb k DOUBLE_COLON))%bool.

Inductive Dts : list kind -> sres -> Prop :=
| dt_end r : hk r <> DOT -> Dts r (SOk r)
| dt_more r x : Dts r x -> Dts (DOT :: ID :: r) x
| dt_bad r : hk r <> ID -> Dts (DOT :: r) (SBad (HOne ID) r).
Inductive Ini : list kind -> sres -> Prop :=
| i_atom k r : atom k = true -> Ini (k :: r) (SOk r)
| i_addr r : Ini (ID :: LPAR :: STRING :: RPAR :: r) (SOk r)
| i_addr1 r : hk r <> STRING -> Ini (ID :: LPAR :: r) (SBad (HOne STRING) r)
| i_addr2 r : hk r <> RPAR -> Ini (ID :: LPAR :: STRING :: r) (SBad (HOne RPAR) r)
| i_var r x : hk r <> LPAR -> Dts r x -> Ini (ID :: r) x
| i_attr r : Ini (DOUBLE_COLON :: ID :: r) (SOk r)
| i_attr_bad r : hk r <> ID -> Ini (DOUBLE_COLON :: r) (SBad (HOne ID) r)
| i_un k r x : unary k = true -> Par 6 r x -> Ini (k :: r) x
| i_par r r' : Par 0 r (SOk (RPAR :: r')) -> Ini (LPAR :: r) (SOk r')
| i_par1 r h r' : Par 0 r (SBad h r') -> Ini (LPAR :: r) (SBad h r')
| i_par2 r r' : Par 0 r (SOk r') -> hk r' <> RPAR -> Ini (LPAR :: r) (SBad (HOne RPAR) r')
| i_bad r : start_kind (hk r) = false -> Ini r (SBad HStart r)
with Ext : nat -> list kind -> sres -> Prop :=
| e_stop c r : stop_kind (hk r) = true -> Ext c r (SOk r)
| e_bad c r : stop_kind (hk r) = false -> ext_kind (hk r) = false -> Ext c r (SBad HExt r)
| e_non r : ext_kind (hk r) = true -> is_none (hk r) = true -> Ext (TokenPrecedence (hk r)) r (SBad HNon r)
| e_ret c r : ext_kind (hk r) = true -> (TokenPrecedence (hk r) < c \/ c = TokenPrecedence (hk r) /\ is_left (hk r) = true)%nat -> Ext c r (SOk r)
| e_trail c r : (c < 1)%nat -> stop_kind (hk r) = true -> Ext c (SEMICOLON :: r) (SOk r)
| e_field c r x : (c < 7)%nat -> Ext c r x -> Ext c (DOUBLE_COLON :: ID :: r) x
| e_field_bad c r : (c < 7)%nat -> hk r <> ID -> Ext c (DOUBLE_COLON :: r) (SBad (HOne ID) r)
| e_bin c k r r' x : bin_kind k = true -> (c < TokenPrecedence k)%nat -> (k = SEMICOLON -> stop_kind (hk r) = false) ->
    Par (TokenPrecedence k) r (SOk r') -> Ext c r' x -> Ext c (k :: r) x
| e_bin_bad c k r h r' : bin_kind k = true -> (c < TokenPrecedence k)%nat -> (k = SEMICOLON -> stop_kind (hk r) = false) ->
    Par (TokenPrecedence k) r (SBad h r') -> Ext c (k :: r) (SBad h r')
with Par : nat -> list kind -> sres -> Prop :=
| p_ok c r r' x : Ini r (SOk r') -> Ext c r' x -> Par c r x
| p_bad c r h r' : Ini r (SBad h r') -> Par c r (SBad h r').
Scheme Ini_ind2 := Minimality for Ini Sort Prop
with Ext_ind2 := Minimality for Ext Sort Prop
with Par_ind2 := Minimality for Par Sort Prop.
Combined Scheme shape_ind from Ini_ind2, Ext_ind2, Par_ind2.

(** * The result depends only on what is read and on the kind in front of which reading ends *)
Definition put (r : sres) (a : list kind) : sres := match r with SOk _ => SOk a | SBad h _ => SBad h a end.
(** [a'] can stand for the rest [a]. *)
Definition fits (r : sres) (a a' : list kind) : Prop := hk a' = hk a \/ (is_ok r = true /\ stop_kind (hk a') = true).
Definition local (R : list kind -> sres -> Prop) (ks : list kind) (x : sres) : Prop :=
  exists u, ks = (u ++ rest_of x)%list /\ forall a', fits x (rest_of x) a' -> R (u ++ a')%list (put x a').

Lemma hk_app u a a' : (u = [] -> hk a = hk a') -> hk (u ++ a) = hk (u ++ a').
Proof. destruct u; cbn; auto. Qed.
Lemma stop_not k : stop_kind k = true -> k <> DOT /\ k <> LPAR /\ k <> ID /\ k <> STRING /\ start_kind k = false /\ ext_kind k = false.
Proof. destruct k; try discriminate; intros _; repeat split; discriminate. Qed.
Lemma Dts_local ks x : Dts ks x -> local Dts ks x.
Proof.
  induction 1 as [r H|r x H IH|r H].
  - exists []. split; [reflexivity|]. cbn. intros a' [E|[_ E]]; constructor; [congruence|]. now apply stop_not in E.
  - destruct IH as (u & -> & IH). exists (DOT :: ID :: u). split; [reflexivity|]. intros a' Ha. cbn [app]. constructor. now apply IH.
  - exists [DOT]. split; [reflexivity|]. cbn. intros a' [E|[E _]]; [|discriminate]. constructor. congruence.
Qed.
(** The head of what was read before the rest, whatever the rest. *)
Lemma head_same (u a a' : list kind) (x : sres) : fits x a a' -> hk (u ++ a') = hk (u ++ a) \/ (is_ok x = true /\ stop_kind (hk (u ++ a')) = true).
Proof. destruct u; cbn; [auto|now left]. Qed.
Lemma Ini_start ks r : Ini ks (SOk r) -> start_kind (hk ks) = true.
Proof. intros H. inversion H; subst; try reflexivity; cbn; match goal with H : _ = true |- start_kind ?k = true => destruct k; try discriminate H; reflexivity end. Qed.
Lemma Par_start c ks r : Par c ks (SOk r) -> start_kind (hk ks) = true.
Proof. intros H. inversion H; subst. eapply Ini_start; eassumption. Qed.
Lemma shape_local :
  (forall ks x, Ini ks x -> local Ini ks x) /\ (forall c ks x, Ext c ks x -> local (Ext c) ks x) /\ (forall c ks x, Par c ks x -> local (Par c) ks x).
Proof.
  apply shape_ind.
  - intros k r H. exists [k]. split; [reflexivity|]. intros a' _. now constructor.
  - intros r. exists [ID; LPAR; STRING; RPAR]. split; [reflexivity|]. intros a' _. constructor.
  - intros r H. exists [ID; LPAR]. split; [reflexivity|]. cbn. intros a' [E|[E _]]; [|discriminate]. constructor. congruence.
  - intros r H. exists [ID; LPAR; STRING]. split; [reflexivity|]. cbn. intros a' [E|[E _]]; [|discriminate]. constructor. congruence.
  - intros r x Hl H. destruct (Dts_local _ _ H) as (u & -> & IH). exists (ID :: u). split; [reflexivity|]. intros a' Ha. cbn [app]. constructor; [|now apply IH].
    destruct (head_same u _ _ _ Ha) as [E|[_ E]]; [congruence|]. now apply stop_not in E.
  - intros r. exists [DOUBLE_COLON; ID]. split; [reflexivity|]. intros a' _. constructor.
  - intros r H. exists [DOUBLE_COLON]. split; [reflexivity|]. cbn. intros a' [E|[E _]]; [|discriminate]. constructor. congruence.
  - intros k r x Hk _ (u & -> & IH). exists (k :: u). split; [reflexivity|]. intros a' Ha. cbn [app]. constructor; [exact Hk|now apply IH].
  - intros r r' _ (u & E & IH). cbn in E. exists (LPAR :: u ++ [RPAR])%list. split; [rewrite E; cbn; now rewrite <- app_assoc|]. intros a' Ha. cbn [app put].
    apply i_par. rewrite <- app_assoc. apply IH. now left.
  - intros r h r' _ (u & -> & IH). exists (LPAR :: u)%list. split; [reflexivity|]. intros a' Ha. cbn [app put]. apply i_par1. now apply IH.
  - intros r r' _ (u & -> & IH) Hr. exists (LPAR :: u)%list. split; [reflexivity|]. cbn. intros a' [E|[E _]]; [|discriminate]. apply i_par2; [apply IH; now left|congruence].
  - intros r H. exists []. split; [reflexivity|]. cbn. intros a' [E|[E _]]; [|discriminate]. constructor. congruence.
  - intros c r H. exists []. split; [reflexivity|]. cbn. intros a' [E|[_ E]]; constructor; congruence.
  - intros c r H1 H2. exists []. split; [reflexivity|]. cbn. intros a' [E|[E _]]; [|discriminate]. apply e_bad; congruence.
  - intros r H1 H2. exists []. split; [reflexivity|]. cbn. intros a' [E|[E _]]; [|discriminate]. rewrite <- E in *. now apply e_non.
  - intros c r H1 H2. exists []. split; [reflexivity|]. cbn. intros a' [E|[_ E]]; [|now apply e_stop]. apply e_ret; now rewrite E.
  - intros c r H1 H2. exists [SEMICOLON]. split; [reflexivity|]. cbn. intros a' [E|[_ E]]; apply e_trail; congruence.
  - intros c r x H1 _ (u & -> & IH). exists (DOUBLE_COLON :: ID :: u). split; [reflexivity|]. intros a' Ha. cbn [app]. apply e_field; [exact H1|now apply IH].
  - intros c r H1 H2. exists [DOUBLE_COLON]. split; [reflexivity|]. cbn. intros a' [E|[E _]]; [|discriminate]. apply e_field_bad; congruence.
  - intros c k r r' x H1 H2 H3 _ (u & E & IH1) _ (u' & E' & IH2). cbn in E. exists (k :: u ++ u')%list. split; [rewrite E, E'; cbn; now rewrite <- app_assoc|].
    intros a' Ha. cbn [app]. rewrite <- app_assoc. subst r r'.
    assert (Par (TokenPrecedence k) (u ++ u' ++ a') (SOk (u' ++ a'))) as HP.
    { apply IH1. cbn. destruct (head_same u' _ _ _ Ha) as [Eh|[Eo Eh]]; [now left|right; now split]. }
    eapply e_bin; [exact H1|exact H2| |exact HP|now apply IH2].
    intros _. apply start_not_stop, (Par_start _ _ _ HP).
  - intros c k r h r' H1 H2 H3 _ (u & -> & IH). exists (k :: u)%list. split; [reflexivity|]. intros a' Ha. cbn [app put]. apply e_bin_bad; [exact H1|exact H2| |now apply IH].
    intros Ek. specialize (H3 Ek). cbn in H3. destruct Ha as [Eh|[Eh _]]; [|discriminate]. rewrite <- H3. f_equal. apply hk_app. auto.
  - intros c r r' x _ (u & E & IH1) _ (u' & E' & IH2). cbn in E. exists (u ++ u')%list. split; [rewrite E, E'; now rewrite <- app_assoc|]. intros a' Ha. rewrite <- app_assoc. subst r r'.
    eapply p_ok; [|now apply IH2]. apply IH1. cbn. destruct (head_same u' _ _ _ Ha) as [Eh|[Eo Eh]]; [now left|right; now split].
  - intros c r h r' _ (u & -> & IH). exists u. split; [reflexivity|]. intros a' Ha. apply p_bad. now apply IH.
Qed.

(** * Determinism *)
Lemma Dts_fun ks x : Dts ks x -> forall y, Dts ks y -> x = y.
Proof.
  induction 1 as [r H|r x H IH|r H]; intros y Hy; inversion Hy; subst; cbn in *; try congruence; auto.
Qed.
Lemma kinds_apart k : (atom k = true -> k <> ID /\ k <> DOUBLE_COLON /\ k <> LPAR /\ unary k = false /\ start_kind k = true) /\
  (unary k = true -> k <> ID /\ k <> DOUBLE_COLON /\ k <> LPAR /\ atom k = false /\ start_kind k = true) /\
  (stop_kind k = true -> ext_kind k = false) /\ (bin_kind k = true -> ext_kind k = true /\ stop_kind k = false /\ k <> DOUBLE_COLON).
Proof. destruct k; repeat split; intros; try discriminate; reflexivity. Qed.
Lemma shape_fun :
  (forall ks x, Ini ks x -> forall y, Ini ks y -> x = y) /\ (forall c ks x, Ext c ks x -> forall y, Ext c ks y -> x = y) /\ (forall c ks x, Par c ks x -> forall y, Par c ks y -> x = y).
Proof.
  apply shape_ind.
  all: intros.
  all: match goal with H : Ini _ ?y |- _ = ?y => inversion H; subst; clear H | H : Ext _ _ ?y |- _ = ?y => inversion H; subst; clear H | H : Par _ _ ?y |- _ = ?y => inversion H; subst; clear H end.
  all: try reflexivity.
  all: repeat match goal with IH : forall y, _ -> ?x = y, H : _ |- _ => first [apply IH in H; first [discriminate H|injection H as H; subst|subst]] end.
  all: try reflexivity; try (cbn in *; congruence).
  all: cbn [hk] in *.
  all: try (exfalso; repeat match goal with k : kind |- _ => destruct k; try discriminate end; cbn in *; intuition (discriminate || congruence || lia)).
  all: try (exfalso; match goal with H : context [hk ?r] |- _ => destruct (hk r); try discriminate end; cbn in *; intuition (discriminate || congruence || lia)).
  eapply Dts_fun; eassumption.
Qed.

(** * What was read before getting stuck can be completed *)
(** The kinds announced by a hint, except for the list of operators. *)
Definition hinted (h : hint) (k : kind) : Prop :=
  match h with HStart => start_kind k = true | HOne k' => k = k' | HExt | HNon => False end.
Definition completed (R : list kind -> sres -> Prop) (u : list kind) : Prop := forall rest, stop_kind (hk rest) = true -> R (u ++ rest)%list (SOk rest).
Definition completable (R : list kind -> sres -> Prop) (ks : list kind) (x : sres) : Prop :=
  forall h a, x = SBad h a -> exists u, ks = (u ++ a)%list /\ (exists s, completed R (u ++ s)) /\ (forall k, hinted h k -> exists s, completed R (u ++ k :: s)).
Definition completable0 (R : list kind -> sres -> Prop) (ks : list kind) (x : sres) : Prop :=
  forall h a, x = SBad h a -> exists u, ks = (u ++ a)%list /\ (u = [] -> completed R [] /\ forall k, ~ hinted h k) /\ (exists s, completed R (u ++ s)) /\ (forall k, hinted h k -> exists s, completed R (u ++ k :: s)).
Lemma Dts_completable ks x : Dts ks x -> completable0 Dts ks x.
Proof.
  induction 1 as [r H|r x H IH|r H]; intros h a E; try discriminate E.
  - destruct (IH h a E) as (u & -> & _ & (s & Hc) & Hh). exists (DOT :: ID :: u). split; [reflexivity|]. split; [discriminate|]. split.
    + exists s. intros rest Hr. cbn [app]. constructor. now apply Hc.
    + intros k Hk. destruct (Hh k Hk) as [s' Hs]. exists s'. intros rest Hr. cbn [app]. constructor. now apply Hs.
  - injection E as <- <-. exists [DOT]. split; [reflexivity|]. split; [discriminate|].
    assert (completed Dts [DOT; ID]) as Hc by (intros rest Hr; cbn; constructor; constructor; now apply stop_not in Hr).
    split; [exists [ID]; exact Hc|]. intros k ->. exists []. exact Hc.
Qed.
(** One more token in front, or a part that was read before. *)
Lemma completable_front (R R' : list kind -> sres -> Prop) w u h :
  (forall v rest, v <> [] -> stop_kind (hk rest) = true -> R (u ++ v ++ rest)%list (SOk rest) -> R' (w ++ u ++ v ++ rest)%list (SOk rest)) ->
  (forall rest, stop_kind (hk rest) = true -> R (u ++ rest)%list (SOk rest) -> R' (w ++ u ++ rest)%list (SOk rest)) ->
  (exists s, completed R (u ++ s)) -> (forall k, hinted h k -> exists s, completed R (u ++ k :: s)) ->
  (exists s, completed R' ((w ++ u) ++ s)) /\ (forall k, hinted h k -> exists s, completed R' ((w ++ u) ++ k :: s)).
Proof.
  intros H1 H2 [s Hs] Hh. split.
  - exists s. intros rest Hr. specialize (Hs rest Hr). rewrite <- !app_assoc in *. destruct s; [now apply H2|]. apply H1; [discriminate|exact Hr|exact Hs].
  - intros k Hk. destruct (Hh k Hk) as [s' Hs']. exists s'. intros rest Hr. specialize (Hs' rest Hr). rewrite <- !app_assoc in *. apply H1; [discriminate|exact Hr|exact Hs'].
Qed.
Lemma start_atom_completed k : start_kind k = true -> exists s, completed Ini (k :: s).
Proof.
  assert (completed (Par 6) [TRUE]) as H6 by (intros rest Hr; cbn; eapply p_ok; [now constructor|now constructor]).
  intros Hk. destruct k; try discriminate Hk.
  all: try (exists []; intros rest Hr; now constructor).
  - exists [TRUE]. intros rest Hr. apply i_un; [reflexivity|now apply H6].
  - exists [TRUE]. intros rest Hr. apply i_un; [reflexivity|now apply H6].
  - exists [ID]. intros rest Hr. constructor.
  - exists [TRUE; RPAR]. intros rest Hr. cbn. apply i_par. eapply p_ok; [now constructor|now constructor].
  - exists []. intros rest Hr. cbn. apply stop_not in Hr as Hr'. apply i_var; [tauto|]. constructor. tauto.
Qed.
Lemma shape_completable :
  (forall ks x, Ini ks x -> completable Ini ks x) /\ (forall c ks x, Ext c ks x -> completable0 (Ext c) ks x) /\ (forall c ks x, Par c ks x -> completable (Par c) ks x).
Proof.
  apply shape_ind; unfold completable, completable0.
  - discriminate.
  - discriminate.
  - intros r H h a [= <- <-]. exists [ID; LPAR]. split; [reflexivity|].
    split; [exists [STRING; RPAR]|intros k ->; exists [RPAR]]; intros rest _; constructor.
  - intros r H h a [= <- <-]. exists [ID; LPAR; STRING]. split; [reflexivity|]. split; [exists [RPAR]|intros k ->; exists []]; intros rest _; constructor.
  - intros r x Hl H h a E. destruct (Dts_completable _ _ H _ _ E) as (u & -> & H0 & Hc & Hh). exists ([ID] ++ u)%list. split; [reflexivity|]. destruct u as [|k0 u].
    + destruct (H0 eq_refl) as [Hs Hn]. split; [|intros k' Hk'; now apply Hn in Hk']. exists []. intros rest Hr. cbn. apply i_var; [now apply stop_not in Hr|now apply Hs].
    + eapply completable_front; [| |exact Hc|exact Hh]; intros; cbn [app]; (apply i_var; [exact Hl|assumption]).
  - discriminate.
  - intros r H h a [= <- <-]. exists [DOUBLE_COLON]. split; [reflexivity|]. split; [exists [ID]|intros k ->; exists []]; intros rest _; constructor.
  - intros k r x Hk _ IH h a E. destruct (IH h a E) as (u & -> & Hc & Hh). exists ([k] ++ u)%list. split; [reflexivity|].
    eapply completable_front; [| |exact Hc|exact Hh]; intros; cbn [app]; now apply i_un.
  - discriminate.
  - intros r h' r' _ IH h a E. destruct (IH h a E) as (u & -> & [s Hc] & Hh). exists (LPAR :: u). split; [reflexivity|]. split.
    + exists (s ++ [RPAR])%list. intros rest Hr. cbn [app]. apply i_par. specialize (Hc (RPAR :: rest) eq_refl). rewrite <- !app_assoc in *. exact Hc.
    + intros k Hk. destruct (Hh k Hk) as [s' Hs]. exists (s' ++ [RPAR])%list. intros rest Hr. cbn [app]. apply i_par. specialize (Hs (RPAR :: rest) eq_refl). rewrite <- !app_assoc in *. cbn [app] in *. rewrite <- app_assoc. exact Hs.
  - intros r r' H _ Hr h a [= <- <-]. destruct (proj2 (proj2 shape_local) _ _ _ H) as (u & -> & Hl). cbn in *. exists (LPAR :: u). split; [reflexivity|].
    assert (completed Ini (LPAR :: u ++ [RPAR])) as Hc.
    { intros rest Hs. cbn [app]. apply i_par. rewrite <- app_assoc. apply (Hl (RPAR :: rest)). right. split; reflexivity. }
    split; [exists [RPAR]; exact Hc|]. intros k ->. exists []. exact Hc.
  - intros r H h a [= <- <-]. exists []. split; [reflexivity|]. split; [exists [TRUE]; intros rest _; now constructor|]. intros k Hk. now apply start_atom_completed.
  - discriminate.
  - intros c r H1 H2 h a [= <- <-]. exists []. split; [reflexivity|]. assert (completed (Ext c) []) as Hc by (intros rest Hr; now constructor). split; [auto|]. split; [now exists []|]. intros k [].
  - intros r H1 H2 h a [= <- <-]. exists []. split; [reflexivity|]. assert (completed (Ext (TokenPrecedence (hk r))) []) as Hc by (intros rest Hr; now constructor). split; [auto|]. split; [now exists []|]. intros k [].
  - discriminate.
  - discriminate.
  - intros c r x H1 _ IH h a E. destruct (IH h a E) as (u & -> & _ & Hc & Hh). exists ([DOUBLE_COLON; ID] ++ u)%list. split; [reflexivity|]. split; [discriminate|].
    eapply completable_front; [| |exact Hc|exact Hh]; intros; cbn [app]; now apply e_field.
  - intros c r H1 H2 h a [= <- <-]. exists [DOUBLE_COLON]. split; [reflexivity|]. split; [discriminate|].
    assert (completed (Ext c) [DOUBLE_COLON; ID]) as Hc by (intros rest Hr; cbn; apply e_field; [exact H1|now constructor]). split; [exists [ID]; exact Hc|]. intros k ->. exists []. exact Hc.
  - intros c k r r' x H1 H2 H3 HP _ _ IH h a E. destruct (IH h a E) as (u & -> & H0 & Hc & Hh). destruct (proj2 (proj2 shape_local) _ _ _ HP) as (w & -> & Hl). cbn in Hl.
    exists ((k :: w) ++ u)%list. split; [cbn [app rest_of]; now rewrite <- app_assoc|]. split; [discriminate|].
    assert (forall rest, Ext c (u ++ rest) (SOk rest) -> fits (SOk (u ++ a)) (u ++ a) (u ++ rest) -> Ext c ((k :: w) ++ u ++ rest) (SOk rest)) as Hx.
    { intros rest Hx Hf. specialize (Hl _ Hf). cbn [app]. eapply e_bin; [exact H1|exact H2| |exact Hl|exact Hx]. intros _. apply start_not_stop, (Par_start _ _ _ Hl). }
    destruct u as [|k0 u].
    + destruct (H0 eq_refl) as [Hs Hn]. cbn [app] in *. rewrite app_nil_r in *. split; [|intros k' Hk'; now apply Hn in Hk']. exists []. rewrite app_nil_r. intros rest Hr. apply Hx; [now apply Hs|]. right. now split.
    + eapply completable_front; [| |exact Hc|exact Hh].
      * intros v rest _ Hr Hv. specialize (Hl ((k0 :: u) ++ v ++ rest)%list (or_introl eq_refl)). cbn [app] in *. eapply e_bin; [exact H1|exact H2| |exact Hl|exact Hv]. intros _. apply start_not_stop, (Par_start _ _ _ Hl).
      * intros rest Hr Hv. apply Hx; [exact Hv|now left].
  - intros c k r h' r' H1 H2 H3 _ IH h a E. destruct (IH h a E) as (u & -> & Hc & Hh). exists ([k] ++ u)%list. split; [reflexivity|]. split; [discriminate|].
    eapply completable_front; [| |exact Hc|exact Hh]; intros; cbn [app];
      (eapply e_bin; [exact H1|exact H2|intros _; eapply start_not_stop, Par_start; eassumption|eassumption|now constructor]).
  - intros c r r' x HI _ _ IH h a E. destruct (IH h a E) as (u & -> & H0 & Hc & Hh). destruct (proj1 shape_local _ _ HI) as (w & -> & Hl). cbn in Hl.
    exists (w ++ u)%list. split; [cbn [app rest_of]; now rewrite <- app_assoc|].
    destruct u as [|k0 u].
    + destruct (H0 eq_refl) as [Hs Hn]. cbn [app] in *. rewrite app_nil_r in *. split; [|intros k' Hk'; now apply Hn in Hk']. exists []. rewrite app_nil_r. intros rest Hr.
      eapply p_ok; [apply Hl; right; now split|now apply Hs].
    + eapply completable_front; [| |exact Hc|exact Hh].
      * intros v rest _ Hr Hv. eapply p_ok; [apply Hl; now left|exact Hv].
      * intros rest Hr Hv. eapply p_ok; [apply Hl; now left|exact Hv].
  - intros c r h' r' _ IH h a E. destruct (IH h a E) as (u & -> & Hc & Hh). exists ([] ++ u)%list. split; [reflexivity|].
    eapply completable_front; [| |exact Hc|exact Hh]; intros; (eapply p_ok; [eassumption|now constructor]).
Qed.
