(** Entries put together from the match fields of two others (C96). *)
From Coq Require Import String Ascii List ZArith NArith Bool Lia.
From Verif Require Import Base Num Token Ast Info TypeChecker Interpreter Z3 Symbolic SpecLexer SpecTyping SpecSemantics SpecSymbolic SpecSolver SpecReading SpecSeparate
  EntryFacts ExplainFacts SymMeaning.
Import ListNotations.
Open Scope string_scope.

Lemma attribute_dec e : {has_attribute e} + {~ has_attribute e}.
Proof.
  induction e as [| | | |m a IH|m a IH|m a IH|m o a IHa b IHb|m f a IH| |].
  5,6,9: destruct IH as [H|H]; [left; now constructor|right; intros X; inversion X; subst; contradiction].
  7: left; constructor.
  7: right; intros X; inversion X.
  1-5: right; intros X; inversion X.
  destruct IHa as [H|H]; [left; now apply ha_left|]. destruct IHb as [H'|H']; [left; now apply ha_right|]. right. intros X. inversion X; subst; contradiction.
Defined.
Lemma some_attribute_dec l : {exists e, In e l /\ has_attribute e} + {~ exists e, In e l /\ has_attribute e}.
Proof.
  induction l as [|e l IH]; [right; intros (e & [] & _)|]. destruct (attribute_dec e) as [H|H]; [left; exists e; split; [now left|exact H]|].
  destruct IH as [H'|H']; [left; destruct H' as (f & Hf & Ha); exists f; split; [now right|exact Ha]|right; intros (f & [<-|Hf] & Ha); [contradiction|apply H'; now exists f]].
Defined.

Lemma meant_frame cmp G key key' p p' e v : (forall n, mentions e n -> key n = key' n) -> (has_attribute e -> p = p') -> Meant cmp G (TableEnv key p) e v -> Meant cmp G (TableEnv key' p') e v.
Proof.
  intros Hk Hp H. remember (TableEnv key p) as r eqn:Er. revert Er Hk Hp. induction H; intros Er Hk Hp; subst.
  - constructor.
  - now constructor.
  - injection Er as -> ->. eapply mn_key; [reflexivity|]. rewrite <- Hk; [assumption|constructor].
  - discriminate Er.
  - injection Er as -> ->. rewrite Hp by constructor. now eapply mn_priority.
  - constructor. apply IHMeant; [reflexivity|intros n Hn; apply Hk; now constructor|intros Ha; apply Hp; now constructor].
  - constructor. apply IHMeant; [reflexivity|intros n Hn; apply Hk; now constructor|intros Ha; apply Hp; now constructor].
  - eapply mn_left; eauto. apply IHMeant; [reflexivity|intros n Hn; apply Hk; now apply me_left|intros Ha; apply Hp; now apply ha_left].
  - eapply mn_both; eauto; [apply IHMeant1|apply IHMeant2]; try reflexivity; intros; solve [apply Hk; now constructor|apply Hp; now constructor].
  - eapply mn_compare; eauto; [apply IHMeant1|apply IHMeant2]; try reflexivity; intros; solve [apply Hk; now constructor|apply Hp; now constructor].
  - eapply mn_field; eauto. apply IHMeant; [reflexivity|intros n0 Hn; apply Hk; now constructor|intros Ha; apply Hp; now constructor].
Qed.

Section Mix.
  Variables (ks : list key_info) (P : string -> bool).
  Hypothesis HI : NoDup (map k_id ks).
  Definition taken (f : field_match) : bool := existsb (fun k => N.eqb (k_id k) (fm_id f) && P (k_name k)) ks.
  (** The fields of the keys in [P] from [l], those of the others from [l']. *)
  Definition mix (l l' : list field_match) : list field_match := (filter taken l ++ filter (fun f => negb (taken f)) l')%list.
  Lemma taken_key k f : In k ks -> k_id k = fm_id f -> taken f = P (k_name k).
  Proof.
    intros Hk E. unfold taken. destruct (P (k_name k)) eqn:EP.
    - apply existsb_exists. exists k. split; [exact Hk|]. rewrite EP, andb_true_r. now apply N.eqb_eq.
    - destruct (existsb _ ks) eqn:X; [|reflexivity]. apply existsb_exists in X as (j & Hj & X). apply andb_true_iff in X as [X Y]. apply N.eqb_eq in X.
      assert (j = k) as -> by (apply (nodup_keys k_id ks); [assumption..|congruence]). congruence.
  Qed.
  Lemma mix_in k f l l' : In k ks -> k_id k = fm_id f -> (In f (mix l l') <-> In f (if P (k_name k) then l else l')).
  Proof.
    intros Hk E. unfold mix. rewrite in_app_iff, !filter_In, (taken_key k f Hk E). destruct (P (k_name k)); cbn; intuition discriminate.
  Qed.
  Lemma mix_omitted k l l' : In k ks -> (omitted k (mix l l') <-> omitted k (if P (k_name k) then l else l')).
  Proof.
    intros Hk. unfold omitted. split; intros H f Hf E; [apply (H f); [apply (mix_in k f l l' Hk (eq_sym E)); exact Hf|exact E]|apply (H f); [apply (mix_in k f l l' Hk (eq_sym E)); exact Hf|exact E]].
  Qed.
  Lemma mix_once l l' : NoDup (map fm_id l) -> NoDup (map fm_id l') -> NoDup (map fm_id (mix l l')).
  Proof.
    intros H H'. unfold mix. rewrite map_app.
    assert (forall g m, NoDup (map fm_id m) -> NoDup (map fm_id (filter g m))) as HF.
    { intros g m. induction m as [|f m IH]; intros Hm; [constructor|]. inversion Hm as [|? ? H1 H2]; subst. cbn. destruct (g f); [|auto]. cbn. constructor; [|auto].
      intros X. apply in_map_iff in X as (f' & E & X). apply filter_In in X as [X _]. apply H1. apply in_map_iff. now exists f'. }
    assert (forall i, In i (map fm_id (filter taken l)) -> ~ In i (map fm_id (filter (fun f => negb (taken f)) l'))) as HD.
    { intros i X Y. apply in_map_iff in X as (f & <- & X), Y as (g & E & Y). apply filter_In in X as [_ X], Y as [_ Y]. apply negb_true_iff in Y. unfold taken in X, Y. rewrite E in Y. congruence. }
    pose proof (HF taken l H) as A. pose proof (HF (fun f => negb (taken f)) l' H') as B. revert A HD. generalize (map fm_id (filter taken l)). intros u. induction u as [|i u IH]; intros A HD; [exact B|].
    inversion A as [|? ? A1 A2]; subst. cbn. constructor; [|apply IH; [exact A2|intros j Hj; apply HD; now right]]. rewrite in_app_iff. intros [X|X]; [contradiction|]. exact (HD i (or_introl eq_refl) X).
  Qed.
  Lemma mix_formed l l' : well_formed ks l -> well_formed ks l' -> well_formed ks (mix l l').
  Proof.
    intros [A1 A2 A3] [B1 B2 B3]. split.
    - now apply mix_once.
    - intros f Hf. unfold mix in Hf. apply in_app_iff in Hf as [Hf|Hf]; apply filter_In in Hf as [Hf _]; auto.
    - intros k Hk Ho. apply mix_omitted in Ho; [|exact Hk]. destruct (P (k_name k)); auto.
  Qed.
  Lemma mix_assigned l l' n v : Assigned ks (mix l l') n v <-> Assigned ks (if P n then l else l') n v.
  Proof.
    split; intros H.
    - destruct H as [k f v Hk Hf E Hv|k v Hk Ho Hv].
      + apply as_present with (f := f); auto. exact (proj1 (mix_in k f l l' Hk (eq_sym E)) Hf).
      + apply as_omitted; auto. exact (proj1 (mix_omitted k l l' Hk) Ho).
    - remember (if P n then l else l') as r eqn:Er. destruct H as [k f v Hk Hf E Hv|k v Hk Ho Hv]; subst r.
      + apply as_present with (f := f); auto. exact (proj2 (mix_in k f l l' Hk (eq_sym E)) Hf).
      + apply as_omitted; auto. exact (proj2 (mix_omitted k l l' Hk) Ho).
  Qed.
End Mix.

Lemma live_nodup {A} (f : key_info -> A) skip ks : NoDup (map f ks) -> NoDup (map f (live_keys skip ks)).
Proof.
  unfold live_keys. induction ks as [|k ks IH]; intros H; [constructor|]. inversion H as [|? ? H1 H2]; subst. cbn [filter]. destruct (skip (k_name k)) as [[]| |]; auto. cbn. constructor; [|auto].
  intros X. apply in_map_iff in X as (j & E & X). apply filter_In in X as [X _]. apply H1. apply in_map_iff. now exists j.
Qed.

Section Solutions.
  Variables (t : table_info) (ks : list key_info) (skip : string -> outcome bool).
  Hypothesis HK : table_keys t ks.
  Definition named (l : list expr) (n : string) : bool := existsb (fun e => mem_string n (GetVariables e)) l.
  Lemma named_iff l n : named l n = true <-> exists e, In e l /\ mentions e n.
  Proof.
    unfold named. rewrite existsb_exists. split; intros (e & He & H); exists e; (split; [exact He|]).
    - now apply GetVariables_in, mem_string_in.
    - now apply mem_string_in, GetVariables_in.
  Qed.
  (** Solutions of separate lists of constraints can be put together. *)
  Lemma solutions_mixed l l' fields fields' p p' : all_separate l l' -> solution t ks skip l fields p -> solution t ks skip l' fields' p' ->
    exists fields'' p'', solution t ks skip (l ++ l') fields'' p'' /\
      (forall e n v, In e l -> mentions e n -> (Assigned (live_keys skip ks) fields'' n v <-> Assigned (live_keys skip ks) fields n v)) /\
      (forall e n v, In e l' -> mentions e n -> (Assigned (live_keys skip ks) fields'' n v <-> Assigned (live_keys skip ks) fields' n v)).
  Proof.
    intros HS (A1 & A2 & key & A3 & A4) (B1 & B2 & key' & B3 & B4). pose proof (live_nodup k_id skip ks (tk_ids t ks HK)) as HI.
    pose (p'' := if some_attribute_dec l then p else p'). exists (mix (live_keys skip ks) (named l) fields fields'), p''.
    assert (forall e n, In e l -> mentions e n -> named l n = true) as N1 by (intros e n He Hn; apply named_iff; now exists e).
    assert (forall e n, In e l' -> mentions e n -> named l n = false) as N2.
    { intros e n He Hn. destruct (named l n) eqn:E; [|reflexivity]. apply named_iff in E as (f & Hf & Hm). destruct (HS f e Hf He) as [X _]. exfalso. exact (X n Hm Hn). }
    split; [split; [|split]|split].
    - now apply mix_formed.
    - intros Hpr. unfold p''. destruct (some_attribute_dec l); auto.
    - exists (fun n => if named l n then key n else key' n). split.
      + intros n v. rewrite (mix_assigned _ _ HI). destruct (named l n); [apply A3|apply B3].
      + apply Forall_app. rewrite Forall_forall in A4, B4. split; apply Forall_forall; intros e He.
        * apply (meant_frame _ _ key _ p); [intros n Hn; now rewrite (N1 e n He Hn)| |now apply A4]. intros Ha. unfold p''. destruct (some_attribute_dec l) as [_|X]; [reflexivity|]. exfalso. apply X. now exists e.
        * apply (meant_frame _ _ key' _ p'); [intros n Hn; now rewrite (N2 e n He Hn)| |now apply B4]. intros Ha. unfold p''. destruct (some_attribute_dec l) as [(f & Hf & X)|_]; [|reflexivity]. exfalso. destruct (HS f e Hf He) as [_ Y]. now apply Y.
    - intros e n v He Hn. rewrite (mix_assigned _ _ HI). now rewrite (N1 e n He Hn).
    - intros e n v He Hn. rewrite (mix_assigned _ _ HI). now rewrite (N2 e n He Hn).
  Qed.
  Lemma solution_part l l' fields p : (forall e, In e l' -> In e l) -> solution t ks skip l fields p -> solution t ks skip l' fields p.
  Proof. intros H (H1 & H2 & key & H3 & H4). split; [exact H1|]. split; [exact H2|]. exists key. split; [exact H3|]. rewrite Forall_forall in *. auto. Qed.
End Solutions.
