(** The tokens that may come next, exactly. *)
From Coq Require Import String List Bool Lia.
From Verif Require Import Base Token Ast Quote AstConstructors Parser SpecLexer SpecGrammar SpecBlame SpecNext ParserFacts ParserFacts2 ParserFacts7 ShapeFacts ShapeFacts2 BlameFacts BlameFacts2 NextFacts.
Import ListNotations.

Lemma top_fit : fit 0 false false.
Proof. unfold fit. repeat split; auto; discriminate. Qed.
Lemma par_top r x : Par 0 r x -> exists u s, r = (u ++ rest_of x)%list /\ read start u = Some s /\ match x with SOk a => returns 0 false false [] s a | SBad h a => halts s h a end.
Proof. intros H. exact (proj2 (proj2 shape_reads) _ _ _ H Begin false false [] (or_introl eq_refl) top_fit). Qed.
Lemma returns_over s a : returns 0 false false [] s a -> over s = true /\ forall k, In k [RPAR; END_OF_INPUT] -> next s k = None.
Proof.
  intros (p & cmp & imp & -> & He & _). split.
  - destruct He as [He|[-> _]]; [destruct p; try (exfalso; exact He); reflexivity|reflexivity].
  - intros k [<-|[<-|[]]]; (destruct He as [He|[-> _]]; [destruct p; try (exfalso; exact He); destruct cmp, imp; reflexivity|reflexivity]).
Qed.
Lemma no_end s : next s END_OF_INPUT = None.
Proof. destruct s as [p ls]. destruct p; try reflexivity; cbn; destruct ls as [|[cmp imp] up]; try reflexivity. Qed.
Lemma read_par ks s : read start ks = Some s -> over s = true -> Par 0 ks (SOk []).
Proof.
  intros Hr Ho. destruct (proj2 (proj2 (shape_total (List.length ks))) 0 ks (le_n _)) as [x Hx]; [lia|]. destruct (par_top _ _ Hx) as (u & s' & E & Hu & Hs).
  rewrite E in Hr. rewrite (read_app _ _ _ _ Hu) in Hr. destruct x as [a|h a]; cbn [rest_of] in *.
  - apply Par_0_stop in Hx as Hst. destruct a as [|k a]; [exact Hx|exfalso]. cbn in Hst, Hr. destruct (returns_over _ _ Hs) as [_ Hn].
    rewrite (Hn k) in Hr; [discriminate|]. destruct k; try discriminate Hst; cbn; auto.
  - exfalso. destruct Hs as [Hm _]. destruct a as [|k a]; cbn in *; [congruence|]. destruct (next s' k) as [s1|] eqn:En; [|discriminate]. assert (k <> END_OF_INPUT) by (intros ->; rewrite no_end in En; discriminate).
    unfold may_come in Hm. rewrite En in Hm. destruct k; try discriminate Hm; congruence.
Qed.
(** Everything that has been read can be completed. *)
Lemma close_all ls p : ls <> [] -> p = Done \/ p = Semi -> exists more s, read (mkReader p ls) more = Some s /\ over s = true.
Proof.
  revert p. induction ls as [|l up IH]; intros p Hl Hp; [congruence|]. destruct up as [|l' up].
  - exists [], (mkReader p [l]). split; [reflexivity|]. destruct Hp as [-> | ->]; reflexivity.
  - destruct (IH Done) as (more & s & E & Ho); [discriminate|auto|]. exists (RPAR :: more), s. split; [|exact Ho]. destruct Hp as [-> | ->]; exact E.
Qed.
Lemma read_complete s : levels s <> [] -> exists more s', read s more = Some s' /\ over s' = true.
Proof.
  destruct s as [p ls]. cbn. intros Hl. destruct (close_all ls Done Hl (or_introl eq_refl)) as (more & s' & E & Ho). destruct (close_all ls Semi Hl (or_intror eq_refl)) as (more2 & s2 & E2 & Ho2).
  destruct ls as [|[cmp imp] up]; [congruence|].
  destruct p.
  - exists (TRUE :: more), s'. auto.
  - exists more2, s2. auto.
  - exists (DOUBLE_COLON :: ID :: more), s'. auto.
  - exists (DOUBLE_COLON :: ID :: more), s'. auto.
  - exists more, s'. auto.
  - exists (ID :: DOUBLE_COLON :: ID :: more), s'. auto.
  - exists (ID :: more), s'. auto.
  - exists (STRING :: RPAR :: more), s'. auto.
  - exists (RPAR :: more), s'. auto.
Qed.

Section Next.
  Variable pton : inet_pton6.
  Hypothesis Hpton : pton_ok pton.
  Variable ck : constraint_kind.
  Lemma finished_read ks : finished pton ck ks <-> exists s, read start ks = Some s /\ over s = true.
  Proof.
    rewrite (finished_iff pton Hpton ck). split.
    - intros H. destruct (par_top _ _ H) as (u & s & E & Hu & Hs). cbn in E. rewrite app_nil_r in E. subst u. exists s. split; [exact Hu|]. now apply returns_over in Hs.
    - intros (s & H & Ho). exact (read_par ks s H Ho).
  Qed.
  Lemma viable_read ks : viable pton ck ks <-> exists s, read start ks = Some s.
  Proof.
    rewrite (viable_iff pton Hpton ck). split.
    - intros [more H]. apply (finished_iff pton Hpton ck) in H. apply finished_read in H as (s & H & _). destruct (read_app_inv ks more start) as (s' & E & _); [congruence|eauto].
    - intros [s H]. destruct (read_complete s) as (more & s' & E & Ho); [apply (read_levels _ _ _ H); discriminate|]. exists more. apply (read_par _ s'); [|exact Ho]. now rewrite (read_app _ _ _ _ H).
  Qed.
  Lemma follows_read ks k : follows pton ck ks k <-> exists s, read start ks = Some s /\ may_come s k = true.
  Proof.
    unfold follows. rewrite viable_read, finished_read. split.
    - intros [[s H]|(-> & s & H & Ho)]; [|exists s; auto]. destruct (read_app_inv ks [k] start) as (s' & E & Hn); [congruence|]. exists s'. split; [exact E|]. cbn in Hn. destruct (next s' k) as [s1|] eqn:En; [|congruence].
      unfold may_come. rewrite En. destruct k; try reflexivity. rewrite no_end in En. discriminate.
    - intros (s & H & Hm). destruct (kind_eq_dec k END_OF_INPUT) as [->|Hk]; [right; split; [reflexivity|]; exists s; auto|left].
      assert (next s k <> None) as Hn by (intros En; unfold may_come in Hm; rewrite En in Hm; destruct k; congruence).
      rewrite (read_app _ _ _ _ H). cbn. destruct (next s k) as [s1|]; [eauto|congruence].
  Qed.
  Lemma stuck_read u a h : stuck (u ++ a) h a -> exists s, read start u = Some s /\ halts s h a.
  Proof.
    intros [H|(H & E & ->)]; destruct (par_top _ _ H) as (u' & s & Eu & Hu & Hs); cbn [rest_of] in Eu; apply app_inv_tail in Eu as <-; exists s; (split; [exact Hu|]); [exact Hs|].
    destruct Hs as (p & cmp & imp & -> & He & _). unfold halts. rewrite E. destruct He as [He|[-> _]]; [destruct p; try (exfalso; exact He)|]; split; reflexivity.
  Qed.
  Lemma parse_next ts src t0 ts0 : Forall numeral_text ts -> ts = (ts0 ++ [t0])%list -> sentinel (t_kind t0) ->
    (exists e, ParseTokens pton ck ts src = Ok e) \/
    (exists u t s text, stuck_at pton ck ts u t /\ read start (kinds u) = Some s /\ may_come s (t_kind t) = false /\ complaint t (message_for s (t_kind t)) text /\ ParseTokens pton ck ts src = parse_error src t text) \/
    (exists u id st, bad_address_at pton ck ts u id st).
  Proof.
    intros Hn Ets H0. destruct (parse_sim pton Hpton ck ts src Hn) as [H|[(w & a & h & text & E & Hw & Hs & Hc & Hr)|(u & id & lp & st & rp & a & m & E & Hk & Hu & Ha & Hp & Hr)]]; [now left|right; left|right; right].
    - rewrite E, map_app in Hs. destruct a as [|t a].
      { exfalso. apply (stuck_prefix pton Hpton ck) in Hs as Hv. rewrite app_nil_r in E. subst w. eapply viable_no_end; [exact Hv| |exact H0]. rewrite Ets, map_app. apply in_or_app. right. now left. }
      destruct (stuck_read _ _ _ Hs) as (s & Es & Hm & ->). exists w, t, s, text. split; [|auto].
      split; [exists a; exact E|]. split; [eapply stuck_prefix; [exact Hpton|exact Hs]|]. split; [exact Hw|]. eapply stuck_blocked; [exact Hpton|exact Hs|reflexivity].
    - exists u, id, st. exists lp, rp, a. split; [exact E|]. split; [exact Hk|]. split; [|split; [exact Hu|exact (proj1 Ha)]].
      eapply stuck_prefix; [exact Hpton|]. left. exact Hp.
  Qed.
End Next.

(** * When the list is right *)
Definition fixed_place (s : reader) : bool := match at_place s with Begin | NeedPart | NeedField | NeedString | NeedClose => true | _ => false end.
Definition list_right (s : reader) (k : kind) : Prop := forall k', In k' (kinds_of (message_for s k)) <-> may_come s k' = true.
Lemma right_iff s k : levels s <> [] -> may_come s k = false -> message_for s k <> HNon -> (list_right s k <-> fixed_place s = true).
Proof.
  destruct s as [p ls]. intros Hl Hm Hh. cbn in Hl. unfold list_right, fixed_place. cbn [at_place]. split.
  - intros H. destruct p; try reflexivity; exfalso.
    all: assert (may_come (mkReader Semi ls) TRUE = true /\ may_come (mkReader Name ls) DOUBLE_COLON = true /\ may_come (mkReader Path ls) DOUBLE_COLON = true /\ may_come (mkReader Done ls) DOUBLE_COLON = true) as (M1 & M2 & M3 & M4) by (destruct ls; [congruence|]; repeat split; reflexivity).
    + destruct (kind_eq_dec k END_OF_INPUT) as [->|K1]; [apply H in M1; cbn in M1; destruct M1 as [M1|[]]; discriminate|].
      destruct (kind_eq_dec k RPAR) as [->|K2]; [apply H in M1; cbn in M1; destruct M1 as [M1|[]]; discriminate|].
      assert (message_for (mkReader Semi ls) k = HStart) as E by (unfold message_for; cbn; destruct k; congruence). rewrite E in H.
      assert (may_come (mkReader Semi ls) END_OF_INPUT = true \/ may_come (mkReader Semi ls) RPAR = true) as M by (destruct ls as [|? [|? ?]]; [congruence|left; reflexivity|right; reflexivity]).
      destruct M as [M|M]; apply H in M; cbn in M; repeat (destruct M as [M|M]; [discriminate M|]); destruct M.
    + destruct (message_for (mkReader Name ls) k) as [|k1| |] eqn:E; [destruct k; try discriminate E; unfold message_for in E; cbn in E; congruence| | |congruence].
      * apply H in M2. cbn in M2. destruct M2 as [M2|[]]. subst k1. destruct k; discriminate E.
      * pose proof (proj1 (H END_OF_INPUT) ltac:(cbn; auto)) as A. pose proof (proj1 (H RPAR) ltac:(cbn; auto)) as B. cbn in A, B. destruct ls as [|? [|? ?]]; try discriminate A. destruct l. discriminate B.
    + destruct (message_for (mkReader Path ls) k) as [|k1| |] eqn:E; [destruct k; try discriminate E; unfold message_for in E; cbn in E; congruence| | |congruence].
      * apply H in M3. cbn in M3. destruct M3 as [M3|[]]. subst k1. destruct k; discriminate E.
      * pose proof (proj1 (H END_OF_INPUT) ltac:(cbn; auto)) as A. pose proof (proj1 (H RPAR) ltac:(cbn; auto)) as B. cbn in A, B. destruct ls as [|? [|? ?]]; try discriminate A. destruct l. discriminate B.
    + destruct (message_for (mkReader Done ls) k) as [|k1| |] eqn:E; [destruct k; try discriminate E; unfold message_for in E; cbn in E; congruence| | |congruence].
      * apply H in M4. cbn in M4. destruct M4 as [M4|[]]. subst k1. destruct k; discriminate E.
      * pose proof (proj1 (H END_OF_INPUT) ltac:(cbn; auto)) as A. pose proof (proj1 (H RPAR) ltac:(cbn; auto)) as B. cbn in A, B. destruct ls as [|? [|? ?]]; try discriminate A. destruct l. discriminate B.
  - intros Hp k'. destruct p; try discriminate Hp; cbn [message_for at_place kinds_of]; unfold may_come, next; cbn [at_place levels over];
      destruct k'; cbn; (split; [intros M; first [reflexivity|exfalso; repeat (destruct M as [M|M]; [discriminate M|]); exact M]|intros M; first [discriminate M|auto 15]]).
Qed.
