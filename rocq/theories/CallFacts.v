(** Lemmas on skip functions that remember (C104). *)
From Coq Require Import String List ZArith NArith Bool Sorted.
From Verif Require Import Base Num Token Ast AstConstructors Parser Info TypeChecker ConstraintInfo Interpreter Z3 Symbolic SkipCalls SpecSemantics SpecSymbolic SpecSolver SpecSkip SpecCalls.
From Verif Require Import LiteralFacts EntryFacts ExplainFacts SymFacts SymState SemFacts.
Import ListNotations.
Open Scope string_scope.
Open Scope list_scope.

Section Calls.
  Context {S : Type}.
  Variable ask : S -> string -> outcome bool * S.

  Lemma create_keys_replies l : forall s prio keys asserted r s', create_keys_asking ask s l prio keys asserted = (r, s') ->
    exists asked rest al, map fst l = asked ++ rest /\ Replies ask s asked al s' /\ (forall x, r = Ok x -> rest = []) /\ (forall skip, gives al skip -> create_keys skip l prio keys asserted = r).
  Proof.
    induction l as [|[n k] l IH]; intros s prio keys asserted r s' H; cbn [create_keys_asking] in H.
    - injection H as <- <-. exists [], [], []. split; [reflexivity|]. split; [constructor|]. split; [reflexivity|]. reflexivity.
    - destruct (ask s n) as [a s1] eqn:E.
      assert (forall c : outcome (bool * list (string * symbolic_key) * list term), (forall x, c <> Ok x) -> r = c -> s' = s1 ->
        (forall skip, skip n = a -> create_keys skip ((n, k) :: l) prio keys asserted = c) ->
        exists asked rest al, map fst ((n, k) :: l) = asked ++ rest /\ Replies ask s asked al s' /\ (forall x, r = Ok x -> rest = []) /\ (forall skip, gives al skip -> create_keys skip ((n, k) :: l) prio keys asserted = r)) as Stop.
      { intros c Hc -> -> Hs. exists [n], (map fst l), [(n, a)]. split; [reflexivity|]. split; [eapply rp_next; [exact E|constructor]|]. split; [intros x Hx; destruct (Hc x Hx)|]. intros skip Hg. apply Hs, Hg. now left. }
      assert (forall prio keys asserted, create_keys_asking ask s1 l prio keys asserted = (r, s') -> forall prio0 keys0 asserted0,
        (forall skip, skip n = a -> create_keys skip ((n, k) :: l) prio0 keys0 asserted0 = create_keys skip l prio keys asserted) ->
        exists asked rest al, map fst ((n, k) :: l) = asked ++ rest /\ Replies ask s asked al s' /\ (forall x, r = Ok x -> rest = []) /\ (forall skip, gives al skip -> create_keys skip ((n, k) :: l) prio0 keys0 asserted0 = r)) as Go.
      { intros p1 k1 a1 H1 p0 k0 a0 Hs. apply IH in H1 as (asked & rest & al & H1 & H2 & H3 & H4). exists (n :: asked), rest, ((n, a) :: al). split; [cbn; now rewrite H1|]. split; [eapply rp_next; eauto|]. split; [exact H3|].
        intros skip Hg. rewrite Hs by (apply Hg; now left). apply H4. intros n' a' Hi. apply Hg. now right. }
      destruct a as [[]|c m|w].
      + apply (Go _ _ _ H). intros skip Hs. cbn [create_keys]. rewrite Hs. reflexivity.
      + destruct (AddSymbolicKey k) as [[sk asserts]|c m|w] eqn:EA.
        * apply (Go _ _ _ H). intros skip Hs. cbn [create_keys]. rewrite Hs. cbn [bind]. rewrite EA. reflexivity.
        * injection H as <- <-. apply (Stop (Err c m)); try discriminate; auto. intros skip Hs. cbn [create_keys]. rewrite Hs. cbn [bind]. rewrite EA. reflexivity.
        * injection H as <- <-. apply (Stop (Crash w)); try discriminate; auto. intros skip Hs. cbn [create_keys]. rewrite Hs. cbn [bind]. rewrite EA. reflexivity.
      + injection H as <- <-. apply (Stop (Err c m)); try discriminate; auto. intros skip Hs. cbn [create_keys]. rewrite Hs. reflexivity.
      + injection H as <- <-. apply (Stop (Crash w)); try discriminate; auto. intros skip Hs. cbn [create_keys]. rewrite Hs. reflexivity.
  Qed.
  Lemma concretize_keys_replies cs m l : forall s acc r s', concretize_keys_asking ask cs m s l acc = (r, s') ->
    exists asked rest al, map fst l = asked ++ rest /\ Replies ask s asked al s' /\ (forall x, r = Ok x -> rest = []) /\ (forall skip, gives al skip -> concretize_keys (with_skip skip cs) m l acc = r).
  Proof.
    induction l as [|[n k] l IH]; intros s acc r s' H; cbn [concretize_keys_asking] in H.
    - injection H as <- <-. exists [], [], []. split; [reflexivity|]. split; [constructor|]. split; [reflexivity|]. reflexivity.
    - destruct (ask s n) as [a s1] eqn:E.
      assert (forall c : outcome (list field_match), (forall x, c <> Ok x) -> r = c -> s' = s1 ->
        (forall skip, skip n = a -> concretize_keys (with_skip skip cs) m ((n, k) :: l) acc = c) ->
        exists asked rest al, map fst ((n, k) :: l) = asked ++ rest /\ Replies ask s asked al s' /\ (forall x, r = Ok x -> rest = []) /\ (forall skip, gives al skip -> concretize_keys (with_skip skip cs) m ((n, k) :: l) acc = r)) as Stop.
      { intros c Hc -> -> Hs. exists [n], (map fst l), [(n, a)]. split; [reflexivity|]. split; [eapply rp_next; [exact E|constructor]|]. split; [intros x Hx; destruct (Hc x Hx)|]. intros skip Hg. apply Hs, Hg. now left. }
      assert (forall acc1, concretize_keys_asking ask cs m s1 l acc1 = (r, s') ->
        (forall skip, skip n = a -> concretize_keys (with_skip skip cs) m ((n, k) :: l) acc = concretize_keys (with_skip skip cs) m l acc1) ->
        exists asked rest al, map fst ((n, k) :: l) = asked ++ rest /\ Replies ask s asked al s' /\ (forall x, r = Ok x -> rest = []) /\ (forall skip, gives al skip -> concretize_keys (with_skip skip cs) m ((n, k) :: l) acc = r)) as Go.
      { intros a1 H1 Hs. apply IH in H1 as (asked & rest & al & H1 & H2 & H3 & H4). exists (n :: asked), rest, ((n, a) :: al). split; [cbn; now rewrite H1|]. split; [eapply rp_next; eauto|]. split; [exact H3|].
        intros skip Hg. rewrite Hs by (apply Hg; now left). apply H4. intros n' a' Hi. apply Hg. now right. }
      destruct a as [[]|c e|w].
      + apply (Go _ H). intros skip Hs. cbn [concretize_keys with_skip cs_skip]. rewrite Hs. reflexivity.
      + assert (forall skip, skip n = Ok false -> concretize_keys (with_skip skip cs) m ((n, k) :: l) acc =
          match (let* sk := FindPtrOrStatus (se_keys (cs_env cs)) n in ConcretizeKey sk k m) with Ok fm => concretize_keys (with_skip skip cs) m l (match fm with Some f => acc ++ [f] | None => acc end) | Err c e => Err c e | Crash w => Crash w end) as Hu.
        { intros skip Hs. cbn [concretize_keys with_skip cs_skip cs_env]. rewrite Hs. cbn [bind]. destruct (FindPtrOrStatus (se_keys (cs_env cs)) n) as [sk| |]; cbn [bind]; [|reflexivity..]. destruct (ConcretizeKey sk k m); reflexivity. }
        destruct (let* sk := FindPtrOrStatus (se_keys (cs_env cs)) n in ConcretizeKey sk k m) as [fm|c e|w] eqn:EA.
        * apply (Go _ H). exact Hu.
        * injection H as <- <-. apply (Stop (Err c e)); try discriminate; auto.
        * injection H as <- <-. apply (Stop (Crash w)); try discriminate; auto.
      + injection H as <- <-. apply (Stop (Err c e)); try discriminate; auto. intros skip Hs. cbn [concretize_keys with_skip cs_skip]. rewrite Hs. reflexivity.
      + injection H as <- <-. apply (Stop (Crash w)); try discriminate; auto. intros skip Hs. cbn [concretize_keys with_skip cs_skip]. rewrite Hs. reflexivity.
  Qed.
End Calls.

(** Adding constraints does not look at the function. *)
Lemma add_with_skip check skip cs e src : AddConstraint check (with_skip skip cs) e src = (fst (AddConstraint check cs e src), with_skip skip (snd (AddConstraint check cs e src))).
Proof.
  unfold AddConstraint. cbn [with_skip cs_env cs_stack]. destruct (negb (is_sat check (cs_stack cs))); [reflexivity|]. destruct (EvaluateConstraintSymbolically (cs_env cs) src e) as [u| |]; [|reflexivity..].
  destruct (negb (is_sbool u)); [reflexivity|]. destruct (negb (is_sat check _)); reflexivity.
Qed.
Lemma add_text_with_skip check pton skip cs text : AddConstraintString check pton (with_skip skip cs) text = (fst (AddConstraintString check pton cs text), with_skip skip (snd (AddConstraintString check pton cs text))).
Proof.
  unfold AddConstraintString. cbn [with_skip cs_table]. destruct (bind (ParseConstraint pton kTableConstraint _) _) as [e| |]; [|reflexivity..]. apply add_with_skip.
Qed.
Lemma conversation_with_skip check pton skip texts : forall cs, conversation check pton (with_skip skip cs) texts = (fst (conversation check pton cs texts), with_skip skip (snd (conversation check pton cs texts))).
Proof.
  induction texts as [|text texts IH]; intros cs; cbn [conversation]; [reflexivity|]. rewrite add_text_with_skip. destruct (AddConstraintString check pton cs text) as [r cs1]. cbn [fst snd]. rewrite IH.
  destruct (conversation check pton cs1 texts) as [l cs2]. reflexivity.
Qed.
Lemma ordered_names t : NoDup (map fst (ti_keys_by_name t)) -> in_byte_order t (map fst (Ordered (ti_keys_by_name t))).
Proof.
  intros HN. split.
  - pose proof (ordered_strong _ HN) as HS. induction HS as [|x l HS IH Hx]; cbn; constructor; [exact IH|]. apply Forall_forall. intros n Hn. apply in_map_iff in Hn as (y & <- & Hy). rewrite Forall_forall in Hx. exact (Hx y Hy).
  - intros n. split; intros H; apply in_map_iff in H as (y & <- & Hy); apply in_map; now apply ordered_in.
Qed.
