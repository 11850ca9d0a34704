(** C104: a skip function that remembers, and may change its mind. *)
From Coq Require Import String List ZArith NArith Bool Sorted.
From Verif Require Import Base Num Token Ast AstConstructors Parser Info TypeChecker ConstraintInfo Interpreter Z3 Symbolic SkipCalls SpecSemantics SpecSymbolic SpecSolver SpecSkip SpecCalls.
From Verif Require Import LiteralFacts EntryFacts ExplainFacts SymFacts SymState SemFacts CallFacts PropertiesParser PropertiesVerdict SymDemo.
Import ListNotations.
Open Scope string_scope.
Open Scope list_scope.

(** Create asks for the keys in byte order, for each at most once, and for all of them if it succeeds. The result is that of any function without memory that gives the same answers. *)
Theorem C104_create : forall (S : Type) (ask : S -> string -> outcome bool * S) check s t r s', NoDup (map fst (ti_keys_by_name t)) -> CreateAsking ask check s t = (r, s') ->
  exists asked rest al, in_byte_order t (asked ++ rest) /\ Replies ask s asked al s' /\ (forall cs, r = Ok cs -> rest = []) /\
    (forall skip, gives al skip -> outcome_map (with_skip uncalled) (Create check t skip) = r).
Proof.
  intros S ask check s t r s' HN H. unfold CreateAsking in H. destruct (create_keys_asking ask s (Ordered (ti_keys_by_name t)) false [] []) as [r0 s0] eqn:E. injection H as Hr <-.
  destruct (create_keys_replies ask _ _ _ _ _ _ _ E) as (asked & rest & al & H1 & H2 & H3 & H4). exists asked, rest, al. split; [rewrite <- H1; now apply ordered_names|]. split; [exact H2|]. split.
  - intros cs ->. apply SemFacts.bind_ok in Hr as (x & Hx & _). exact (H3 x Hx).
  - intros skip Hg. subst r. unfold Create. rewrite (H4 skip Hg). destruct r0 as [[[prio keys] asserted]|c m|w]; cbn [bind]; [|reflexivity..].
    set (rhs := if prio then _ else _). destruct rhs as [attrs base]. destruct (ti_constraint t) as [e|]; [|reflexivity].
    change (mkCS t (mkEnv keys attrs) skip [base]) with (with_skip skip (mkCS t (mkEnv keys attrs) uncalled [base])). rewrite add_with_skip.
    destruct (AddConstraint check (mkCS t (mkEnv keys attrs) uncalled [base]) e (ti_source t)) as [r c1] eqn:EA. cbn [fst snd]. destruct r as [[]| |]; cbn [outcome_map]; try reflexivity.
    f_equal. unfold AddConstraint in EA. cbn [cs_env cs_stack] in EA. destruct (negb (is_sat check [base])); [discriminate EA|]. destruct (EvaluateConstraintSymbolically _ _ e) as [u| |]; try discriminate EA. destruct (negb (is_sbool u)); [discriminate EA|].
    destruct (negb (is_sat check _)); [discriminate EA|]. injection EA as <-. reflexivity.
Qed.
Print Assumptions C104_create.
(** So does ConcretizeEntry, each time it is called. *)
Theorem C104_entry : forall (S : Type) (ask : S -> string -> outcome bool * S) check s cs r s', NoDup (map fst (ti_keys_by_name (cs_table cs))) -> ConcretizeEntryAsking ask check s cs = (r, s') ->
  exists asked rest al, in_byte_order (cs_table cs) (asked ++ rest) /\ Replies ask s asked al s' /\ (forall en, r = Ok en -> rest = []) /\ (forall skip, gives al skip -> ConcretizeEntry check (with_skip skip cs) = r).
Proof.
  intros S ask check s cs r s' HN H. unfold ConcretizeEntryAsking in H. unfold ConcretizeEntry. cbn [with_skip cs_stack cs_table cs_env]. destruct (check (assertions (cs_stack cs))) as [m|].
  - destruct (concretize_keys_asking ask cs m s (Ordered (ti_keys_by_name (cs_table cs))) []) as [r0 s0] eqn:E. injection H as Hr <-.
    destruct (concretize_keys_replies ask _ _ _ _ _ _ _ E) as (asked & rest & al & H1 & H2 & H3 & H4). exists asked, rest, al. split; [rewrite <- H1; now apply ordered_names|]. split; [exact H2|]. split.
    + intros en ->. apply SemFacts.bind_ok in Hr as (x & Hx & _). exact (H3 x Hx).
    + intros skip Hg. fold (with_skip skip cs). rewrite (H4 skip Hg). exact Hr.
  - injection H as <- <-. exists [], (map fst (Ordered (ti_keys_by_name (cs_table cs)))), []. split; [now apply ordered_names|]. split; [constructor|]. split; [discriminate|]. reflexivity.
Qed.
Print Assumptions C104_entry.
(** Adding constraints asks nothing and does not depend on the function. *)
Theorem C104_adding : forall check pton skip skip' cs texts, fst (conversation check pton (with_skip skip cs) texts) = fst (conversation check pton (with_skip skip' cs) texts) /\
  with_skip uncalled (snd (conversation check pton (with_skip skip cs) texts)) = with_skip uncalled (snd (conversation check pton (with_skip skip' cs) texts)).
Proof. intros check pton skip skip' cs texts. rewrite !conversation_with_skip. split; reflexivity. Qed.
Print Assumptions C104_adding.

(** While it keeps to its answers, the function may as well be one without memory. *)
Theorem C104_consistent : forall (S : Type) (ask : S -> string -> outcome bool * S) check pton skip s t cs s1 texts s2 r s3, NoDup (map fst (ti_keys_by_name t)) ->
  (forall s n, In n (map fst (ti_keys_by_name t)) -> fst (ask s n) = skip n) -> CreateAsking ask check s t = (Ok cs, s1) ->
  ConcretizeEntryAsking ask check s2 (snd (conversation check pton cs texts)) = (r, s3) ->
  exists cs0, Create check t skip = Ok cs0 /\ fst (conversation check pton cs0 texts) = fst (conversation check pton cs texts) /\ ConcretizeEntry check (snd (conversation check pton cs0 texts)) = r.
Proof.
  intros S ask check pton skip s t cs s1 texts s2 r s3 HN Hask HC HE.
  assert (forall s asked al s', Replies ask s asked al s' -> (forall n, In n asked -> In n (map fst (ti_keys_by_name t))) -> gives al skip) as Hg.
  { intros s0 asked al s' H. induction H as [s0|s0 n ns a s' al s'' E H IH]; intros Hin n' a' Hi; [destruct Hi|]. destruct Hi as [Hi|Hi]; [|exact (IH (fun n Hn => Hin n (or_intror Hn)) n' a' Hi)].
    injection Hi as <- <-. rewrite <- (Hask s0 n) by (apply Hin; now left). now rewrite E. }
  destruct (C104_create _ ask check s t _ _ HN HC) as (asked & rest & al & [_ H1] & H2 & _ & H4).
  assert (gives al skip) as Hg1 by (eapply Hg; [exact H2|]; intros n Hn; apply H1, in_or_app; now left). specialize (H4 skip Hg1).
  destruct (Create check t skip) as [cs0| |] eqn:E0; try discriminate H4. cbn [outcome_map] in H4. apply Ok_inj in H4. exists cs0. split; [reflexivity|].
  assert (cs_skip cs0 = skip /\ cs_table cs0 = t) as [Es Et].
  { unfold Create in E0. apply SemFacts.bind_ok in E0 as ([[prio keys] asserted] & _ & E0). set (rhs := if prio then _ else _) in E0. destruct rhs as [attrs base]. destruct (ti_constraint t) as [e|]; [|apply Ok_inj in E0 as <-; auto].
    unfold AddConstraint in E0. cbn [cs_env cs_stack] in E0. destruct (negb (is_sat check [base])); [discriminate E0|]. destruct (EvaluateConstraintSymbolically _ _ e) as [u| |]; try discriminate E0. destruct (negb (is_sbool u)); [discriminate E0|].
    destruct (negb (is_sat check _)); [discriminate E0|]. apply Ok_inj in E0 as <-. auto. }
  assert (cs0 = with_skip skip cs) as ->. { subst cs. destruct cs0. cbn in Es. subst. reflexivity. }
  assert (forall texts cs, cs_table (snd (conversation check pton cs texts)) = cs_table cs) as Htab.
  { clear. induction texts as [|text texts IH]; intros cs; cbn [conversation]; [reflexivity|]. destruct (AddConstraintString check pton cs text) as [r c1] eqn:E. destruct (conversation check pton c1 texts) as [l c2] eqn:E2. cbn [snd].
    specialize (IH c1). rewrite E2 in IH. cbn [snd] in IH. rewrite IH. clear - E. unfold AddConstraintString in E. destruct (bind _ _) as [e| |]; [|injection E as _ <-; reflexivity..].
    unfold AddConstraint in E. destruct (negb (is_sat check (cs_stack cs))); [injection E as _ <-; reflexivity|]. destruct (EvaluateConstraintSymbolically _ _ e) as [u| |]; [|injection E as _ <-; reflexivity..].
    destruct (negb (is_sbool u)); [injection E as _ <-; reflexivity|]. destruct (negb (is_sat check _)); injection E as _ <-; reflexivity. }
  rewrite conversation_with_skip. cbn [fst snd]. split; [reflexivity|].
  assert (cs_table (snd (conversation check pton cs texts)) = t) as Et' by (rewrite Htab; exact Et).
  destruct (C104_entry _ ask check s2 (snd (conversation check pton cs texts)) r s3) as (asked' & rest' & al' & [_ K1] & K2 & _ & K4); [now rewrite Et'|exact HE|].
  apply K4. eapply Hg; [exact K2|]. intros n Hn. rewrite <- Et'. apply K1, in_or_app. now left.
Qed.
Print Assumptions C104_consistent.

Lemma concretize_id sk k m f : ConcretizeKey sk k m = Ok (Some f) -> fm_id f = k_id k.
Proof.
  unfold ConcretizeKey. intros H. apply SemFacts.bind_ok in H as (w & _ & H). destruct (k_type k); try discriminate H.
  - apply SemFacts.bind_ok in H as (v & _ & H). apply SemFacts.bind_ok in H as (b & _ & H). apply Ok_inj in H. injection H as <-. reflexivity.
  - apply SemFacts.bind_ok in H as (v & _ & H). apply SemFacts.bind_ok in H as (z & _ & H). destruct (as_bool _); [discriminate H|]. apply SemFacts.bind_ok in H as (u & _ & H). apply SemFacts.bind_ok in H as (b & _ & H). apply SemFacts.bind_ok in H as (b' & _ & H). apply Ok_inj in H. injection H as <-. reflexivity.
  - apply SemFacts.bind_ok in H as (v & _ & H). apply SemFacts.bind_ok in H as (p & _ & H). destruct (Z.eqb p 0); [discriminate H|]. apply SemFacts.bind_ok in H as (u & _ & H). apply SemFacts.bind_ok in H as (b & _ & H). apply Ok_inj in H. injection H as <-. reflexivity.
  - apply SemFacts.bind_ok in H as (v & _ & H). apply SemFacts.bind_ok in H as (z & _ & H). destruct (as_bool _); [discriminate H|]. apply SemFacts.bind_ok in H as (u & _ & H). apply SemFacts.bind_ok in H as (b & _ & H). apply Ok_inj in H. injection H as <-. reflexivity.
Qed.
Section Change.
  Variables (t : table_info) (ks : list key_info) (was now_ : string -> outcome bool) (cs : constraint_solver) (m : model).
  Hypothesis HK : table_keys t ks.
  Hypothesis Hnow : forall k, In k ks -> exists b, now_ (k_name k) = Ok b.
  Let kept (f : field_match) : bool := existsb (fun k => N.eqb (k_id k) (fm_id f) && match now_ (k_name k) with Ok false => true | _ => false end) ks.
  Lemma kept_key k f : In k ks -> fm_id f = k_id k -> kept f = match now_ (k_name k) with Ok false => true | _ => false end.
  Proof.
    intros Hk Ef. unfold kept. destruct (match now_ (k_name k) with Ok false => true | _ => false end) eqn:E.
    - apply existsb_exists. exists k. split; [exact Hk|]. rewrite Ef, N.eqb_refl, E. reflexivity.
    - apply not_true_iff_false. intros H. apply existsb_exists in H as (k' & Hk' & H). apply andb_true_iff in H as [H1 H2]. apply N.eqb_eq in H1. assert (k' = k) as -> by (refine (nodup_keys k_id ks _ _ (tk_ids _ _ HK) _ _ _); congruence). congruence.
  Qed.
  Lemma change_more l : (forall n k, In (n, k) l -> In k ks /\ k_name k = n) -> (forall n k, In (n, k) l -> was n = Ok true -> now_ n = Ok true) ->
    forall acc acc' fields, concretize_keys (with_skip was cs) m l acc = Ok fields -> exists new, fields = acc ++ new /\ concretize_keys (with_skip now_ cs) m l acc' = Ok (acc' ++ filter kept new).
  Proof.
    induction l as [|[n k] l IH]; intros Hl Hm acc acc' fields H.
    - cbn in H. apply Ok_inj in H as <-. exists []. cbn. rewrite !app_nil_r. auto.
    - destruct (Hl n k (or_introl eq_refl)) as [Hk Hn]. assert (forall n k, In (n, k) l -> In k ks /\ k_name k = n) as Hl' by (intros n' k' Hi; apply Hl; now right).
      assert (forall n k, In (n, k) l -> was n = Ok true -> now_ n = Ok true) as Hm' by (intros n' k' Hi; apply (Hm n' k'); now right).
      specialize (IH Hl' Hm'). cbn [concretize_keys with_skip cs_skip cs_env] in H |- *. fold (with_skip was cs) in H. fold (with_skip now_ cs). apply SemFacts.bind_ok in H as (b & Hb & H). destruct b.
      + rewrite (Hm n k (or_introl eq_refl) Hb). cbn [bind]. exact (IH _ _ _ H).
      + apply SemFacts.bind_ok in H as (sk & E1 & H). apply SemFacts.bind_ok in H as (fm & E2 & H). destruct (Hnow k Hk) as (b & Eb). rewrite Hn in Eb. rewrite Eb. cbn [bind]. destruct b.
        * destruct fm as [f|].
          -- destruct (IH _ acc' _ H) as (new & -> & H2). exists (f :: new). split; [now rewrite <- app_assoc|]. cbn [filter]. rewrite (kept_key k f Hk (concretize_id _ _ _ _ E2)), Hn, Eb. exact H2.
          -- exact (IH _ _ _ H).
        * rewrite E1. cbn [bind]. rewrite E2. cbn [bind]. destruct fm as [f|].
          -- destruct (IH _ (acc' ++ [f]) _ H) as (new & -> & H2). exists (f :: new). split; [now rewrite <- app_assoc|]. cbn [filter]. rewrite (kept_key k f Hk (concretize_id _ _ _ _ E2)), Hn, Eb. rewrite H2, <- app_assoc. reflexivity.
          -- exact (IH _ _ _ H).
  Qed.
  Hypothesis Hgone : forall k, In k ks -> was (k_name k) = Ok true -> assoc_find String.eqb (k_name k) (se_keys (cs_env cs)) = None.
  Lemma change_less l : (forall n k, In (n, k) l -> In k ks /\ k_name k = n) -> StronglySorted (fun a b : string * key_info => string_ltb (fst a) (fst b) = true) l -> (exists n k, In (n, k) l /\ was n = Ok true /\ now_ n = Ok false) ->
    forall acc acc' fields, concretize_keys (with_skip was cs) m l acc = Ok fields ->
    exists n k, In (n, k) l /\ was n = Ok true /\ now_ n = Ok false /\ (forall n' k', In (n', k') l -> was n' = Ok true -> now_ n' = Ok false -> n' = n \/ string_ltb n n' = true) /\
      concretize_keys (with_skip now_ cs) m l acc' = Err NotFound ("Key not found: '" ++ n ++ "'")%string.
  Proof.
    induction l as [|[n k] l IH]; intros Hl HS He acc acc' fields H; [destruct He as (? & ? & [] & _)|].
    destruct (Hl n k (or_introl eq_refl)) as [Hk Hn]. assert (forall n k, In (n, k) l -> In k ks /\ k_name k = n) as Hl' by (intros n' k' Hi; apply Hl; now right).
    apply StronglySorted_inv in HS as [HS' Hx]. rewrite Forall_forall in Hx. destruct (Hnow k Hk) as (b & Eb). rewrite Hn in Eb.
    cbn [concretize_keys with_skip cs_skip cs_env] in H |- *. fold (with_skip was cs) in H. fold (with_skip now_ cs). apply SemFacts.bind_ok in H as (w & Hw & H). rewrite Eb. cbn [bind].
    assert (w = true /\ b = false \/ ~ (was n = Ok true /\ now_ n = Ok false)) as [[-> ->]|Hno]. { destruct w, b; auto; right; rewrite Hw, Eb; intros [? ?]; discriminate. }
    - exists n, k. split; [now left|]. split; [exact Hw|]. split; [exact Eb|]. split.
      + intros n' k' [Hi|Hi] _ _; [injection Hi as <- _; now left|right; exact (Hx (n', k') Hi)].
      + unfold FindPtrOrStatus. rewrite <- Hn, Hgone by (rewrite ?Hn; assumption). reflexivity.
    - assert (exists n k, In (n, k) l /\ was n = Ok true /\ now_ n = Ok false) as He'. { destruct He as (n' & k' & [Hi|Hi] & H1 & H2); [injection Hi as <- <-; tauto|eauto]. }
      assert (forall acc0 acc1, concretize_keys (with_skip was cs) m l acc0 = Ok fields -> exists n0 k0, In (n0, k0) ((n, k) :: l) /\ was n0 = Ok true /\ now_ n0 = Ok false /\
        (forall n' k', In (n', k') ((n, k) :: l) -> was n' = Ok true -> now_ n' = Ok false -> n' = n0 \/ string_ltb n0 n' = true) /\ concretize_keys (with_skip now_ cs) m l acc1 = Err NotFound ("Key not found: '" ++ n0 ++ "'")%string) as Go.
      { intros acc0 acc1 H0. destruct (IH Hl' HS' He' acc0 acc1 fields H0) as (n0 & k0 & K1 & K2 & K3 & K4 & K5). exists n0, k0. split; [now right|]. split; [exact K2|]. split; [exact K3|]. split; [|exact K5].
        intros n' k' [Hi|Hi] A1 A2; [injection Hi as <- <-; tauto|eauto]. }
      destruct w.
      + destruct b; [exact (Go _ _ H)|]. destruct Hno. auto.
      + apply SemFacts.bind_ok in H as (sk & E1 & H). apply SemFacts.bind_ok in H as (fm & E2 & H). destruct b; [exact (Go _ _ H)|]. rewrite E1. cbn [bind]. rewrite E2. cbn [bind]. exact (Go _ _ H).
  Qed.
End Change.

(** If it leaves out more keys when an entry is produced than when the solver was created, the entry is the one it would have been, without the fields of these keys. *)
Theorem C104_more : forall check pton t ks was now_ cs l entry, table_keys t ks -> History check pton t was cs l -> ConcretizeEntry check cs = Ok entry ->
  (forall k, In k ks -> exists b, now_ (k_name k) = Ok b) -> (forall k, In k ks -> was (k_name k) = Ok true -> now_ (k_name k) = Ok true) ->
  ConcretizeEntry check (with_skip now_ cs) = Ok (without_fields now_ ks entry).
Proof.
  intros check pton t ks was now_ cs l entry HK HH HE Hnow Hmore. destruct (history_holds t ks HK was check pton cs l HH) as (base & us & Hs). pose proof (h_table _ _ _ _ _ _ _ _ Hs) as Et. pose proof (h_skip _ _ _ _ _ _ _ _ Hs) as Es.
  assert (cs = with_skip was cs) as Ec by (destruct cs; cbn in Es; subst; reflexivity). unfold ConcretizeEntry in HE |- *. cbn [with_skip cs_stack cs_table cs_env]. fold (with_skip now_ cs). destruct (check (assertions (cs_stack cs))) as [m|]; [|discriminate HE].
  apply SemFacts.bind_ok in HE as (fields & Hf & HE). apply SemFacts.bind_ok in HE as (p & Hp & HE). apply Ok_inj in HE as <-. rewrite Et in Hf. rewrite Ec in Hf.
  destruct (change_more t ks was now_ cs m HK Hnow (Ordered (ti_keys_by_name t))) with (acc := @nil field_match) (acc' := @nil field_match) (fields := fields) as (new & E1 & E2); [..|exact Hf|].
  - intros n k Hi. exact (proj1 (in_ordered t ks HK n k) Hi).
  - intros n k Hi Hw. apply (in_ordered t ks HK) in Hi as [Hi <-]. now apply Hmore.
  - cbn [app] in E1. subst new. rewrite Et, E2. cbn [bind app]. rewrite Hp. cbn [bind]. unfold without_fields. cbn [pe_table_id pe_match pe_action pe_priority]. reflexivity.
Qed.
Print Assumptions C104_more.
(** If it no longer leaves out a key, no entry is produced: the error names the first such key. *)
Theorem C104_less : forall check pton t ks was now_ cs l entry k, table_keys t ks -> History check pton t was cs l -> ConcretizeEntry check cs = Ok entry ->
  (forall k, In k ks -> exists b, now_ (k_name k) = Ok b) -> In k ks -> was (k_name k) = Ok true -> now_ (k_name k) = Ok false ->
  exists k0, In k0 ks /\ was (k_name k0) = Ok true /\ now_ (k_name k0) = Ok false /\
    (forall k', In k' ks -> was (k_name k') = Ok true -> now_ (k_name k') = Ok false -> k_name k' = k_name k0 \/ string_ltb (k_name k0) (k_name k') = true) /\
    ConcretizeEntry check (with_skip now_ cs) = Err NotFound ("Key not found: '" ++ k_name k0 ++ "'")%string.
Proof.
  intros check pton t ks was now_ cs l entry k HK HH HE Hnow Hk Hwas Hn. destruct (history_holds t ks HK was check pton cs l HH) as (base & us & Hs). pose proof (h_table _ _ _ _ _ _ _ _ Hs) as Et. pose proof (h_skip _ _ _ _ _ _ _ _ Hs) as Es. pose proof (h_built _ _ _ _ _ _ _ _ Hs) as HB.
  assert (cs = with_skip was cs) as Ec by (destruct cs; cbn in Es; subst; reflexivity). unfold ConcretizeEntry in HE |- *. cbn [with_skip cs_stack cs_table cs_env]. fold (with_skip now_ cs). destruct (check (assertions (cs_stack cs))) as [m|]; [|discriminate HE].
  apply SemFacts.bind_ok in HE as (fields & Hf & _). rewrite Et in Hf. rewrite Ec in Hf.
  destruct (change_less ks was now_ cs m Hnow) with (l := Ordered (ti_keys_by_name t)) (acc := @nil field_match) (acc' := @nil field_match) (fields := fields) as (n & k0 & K1 & K2 & K3 & K4 & K5); [..|exact Hf|].
  - intros k' Hk' Hw. destruct (assoc_find String.eqb (k_name k') (se_keys (cs_env cs))) as [sk|] eqn:E; [|reflexivity]. apply (b_keys _ _ _ _ HB) in E as (k1 & a & Hk1 & En & Hl & _). unfold live in Hl. rewrite En in Hl. congruence.
  - intros n' k' Hi. exact (proj1 (in_ordered t ks HK n' k') Hi).
  - exact (ordered_strong _ (tk_by_name_unique _ _ HK)).
  - exists (k_name k), k. split; [now apply (in_ordered t ks HK)|auto].
  - apply (in_ordered t ks HK) in K1 as [K1 <-]. exists k0. split; [exact K1|]. split; [exact K2|]. split; [exact K3|]. split.
    + intros k' Hk' A1 A2. apply (K4 (k_name k') k'); auto. now apply (in_ordered t ks HK).
    + rewrite Et, K5. reflexivity.
Qed.
Print Assumptions C104_less.

(** A function that counts its calls, and leaves out "l" from the sixth call on. *)
Definition ca_ask (n : nat) (name : string) : outcome bool * nat := (Ok (String.eqb name "r" || (String.eqb name "l" && Nat.leb 5 n)), Datatypes.S n).
Definition ca_now : string -> outcome bool := fun n => Ok (String.eqb n "r" || String.eqb n "l").
Definition ca_made : outcome constraint_solver * nat := CreateAsking ca_ask sy_check 0%nat sy_table.
Definition ca_solver : constraint_solver := match ca_made with (Ok cs, _) => cs | _ => sy_cs end.
(** Five calls create the solver. Five more produce an entry, which now lacks "l": it violates the constraint of the table. *)
Example C104_case : NoDup (map fst (ti_keys_by_name sy_table)) /\ ca_made = (Ok ca_solver, 5%nat) /\ History sy_check pton1 sy_table sy_skip sy_cs2 [sy_checked; sy_more_checked] /\ table_keys sy_table sy_keys /\ ConcretizeEntry sy_check sy_cs2 = Ok sy_entry /\
  (forall k, In k sy_keys -> exists b, ca_now (k_name k) = Ok b) /\ (forall k, In k sy_keys -> sy_skip (k_name k) = Ok true -> ca_now (k_name k) = Ok true) /\
  sy_skip "r" = Ok true /\ never_skip "r" = Ok false /\ (forall k, In k sy_keys -> exists b, never_skip (k_name k) = Ok b).
Proof.
  split; [repeat constructor; cbn; intuition discriminate|]. split; [vm_compute; reflexivity|]. split; [exact sy_history|]. split; [exact sy_table_keys|]. split; [exact sy_concretized|]. split; [intros k _; unfold ca_now; eauto|].
  split; [intros k _ H; unfold sy_skip, ca_now in *; apply Ok_inj in H; now rewrite H|]. split; [reflexivity|]. split; [reflexivity|]. intros k _. unfold never_skip. eauto.
Qed.
(** What goes wrong then. *)
Definition ca_entry : p4_entry := Eval vm_compute in match fst (ConcretizeEntryAsking ca_ask sy_check 5%nat ca_solver) with Ok e => e | _ => sy_entry end.
Definition ca_reason : string := Eval vm_compute in the ""%string (ReasonEntryViolatesConstraint ca_entry sy_ci).
Theorem C104_drift : exists (ask : nat -> string -> outcome bool * nat) check t ci cs s1 en s2 reason, sound_solver check /\ GetTableInfoOrNull ci (ti_id t) = Some t /\
  CreateAsking ask check 0%nat t = (Ok cs, s1) /\ ConcretizeEntryAsking ask check s1 cs = (Ok en, s2) /\ ReasonEntryViolatesConstraint en ci = Ok reason /\ reason <> ""%string.
Proof.
  exists ca_ask, sy_check, sy_table, sy_ci, ca_solver, 5%nat, ca_entry, 10%nat, ca_reason. split; [exact sy_sound|]. split; [vm_compute; reflexivity|]. split; [vm_compute; reflexivity|]. split; [vm_compute; reflexivity|]. split; [vm_compute; reflexivity|]. discriminate.
Qed.
Print Assumptions C104_drift.
