(** C92: what a ConstraintSolver asks of Z3, and what it makes of the answers. *)
From Coq Require Import String Ascii List ZArith NArith Bool Lia.
From Verif Require Import Base Num Token Ast Quote AstConstructors Info TypeChecker Parser Interpreter Z3 Symbolic SpecTyping SpecSemantics SpecSymbolic SpecSolver SpecBounds SpecQueries
  LiteralFacts EntryFacts SemFacts ExplainFacts SymFacts SymFacts2 SymKeys SymState SymMeaning SymDemo PropertiesParser.
Import ListNotations.
Open Scope string_scope.

(** * Queries *)
Lemma sat_agree check check' st : (check (assertions st) <> None <-> check' (assertions st) <> None) -> is_sat check st = is_sat check' st.
Proof. unfold is_sat. destruct (check (assertions st)), (check' (assertions st)); intros [H1 H2]; try reflexivity; exfalso; [apply H1|apply H2]; congruence. Qed.
(** AddConstraint asks at most two questions: whether what was accepted so far is satisfiable, and whether it still is with the new constraint. Of the answers it only uses whether they are "sat". *)
Theorem C92_two_questions : forall check check' cs e src,
  (forall q, q = assertions (cs_stack cs) \/ (exists u, EvaluateConstraintSymbolically (cs_env cs) src e = Ok u /\ q = (assertions (cs_stack cs) ++ [u])%list) -> (check q <> None <-> check' q <> None)) ->
  AddConstraint check cs e src = AddConstraint check' cs e src.
Proof.
  intros check check' cs e src H. unfold AddConstraint. rewrite (sat_agree check check' (cs_stack cs)) by (apply H; now left). destruct (is_sat check' (cs_stack cs)); [|reflexivity]. cbn [negb].
  destruct (EvaluateConstraintSymbolically (cs_env cs) src e) as [u|c s|w] eqn:E; try reflexivity. destruct (is_sbool u); [|reflexivity]. cbn [negb].
  cbn [solver_add solver_push app]. rewrite (sat_agree check check' ([u] :: cs_stack cs)); [reflexivity|]. apply H. right. exists u. split; [reflexivity|apply assertions_push].
Qed.
Print Assumptions C92_two_questions.
(** So the answers to any sequence of requests do not depend on which decision procedure is used. *)
Lemma same_perform check check' pton cs r : same_answers check check' -> perform check pton cs r = perform check' pton cs r.
Proof.
  intros H. assert (forall e src, AddConstraint check cs e src = AddConstraint check' cs e src) as HA by (intros e src; apply C92_two_questions; intros q _; apply H).
  destruct r as [e src|text]; cbn [perform]; [apply HA|]. unfold AddConstraintString. cbv zeta. destruct (bind (ParseConstraint _ _ _) _) as [e|c s|w]; [apply HA|reflexivity|reflexivity].
Qed.
Theorem C92_any_procedure : forall check check' pton t skip, same_answers check check' ->
  Create check t skip = Create check' t skip /\ forall cs rs, replies check pton cs rs = replies check' pton cs rs.
Proof.
  intros check check' pton t skip H. split.
  - unfold Create. destruct (create_keys skip (Ordered (ti_keys_by_name t)) false [] []) as [[[prio keys] asserted]|c s|w]; cbn [bind]; try reflexivity.
    destruct prio; (destruct (ti_constraint t) as [e|]; [|reflexivity]); rewrite (C92_two_questions check check'); try reflexivity; intros q _; apply H.
  - intros cs rs. revert cs. induction rs as [|r rs IH]; intros cs; cbn [replies]; [reflexivity|]. rewrite (same_perform check check' pton cs r H). destruct (perform check' pton cs r) as [b cs']. now rewrite IH.
Qed.
Print Assumptions C92_any_procedure.
(** In particular, any two correct ones. *)
Theorem C92_correct_procedures : forall check check', sound_solver check -> complete_solver check -> sound_solver check' -> complete_solver check' -> same_answers check check'.
Proof.
  assert (forall check check', sound_solver check -> complete_solver check' -> forall q, check q <> None -> check' q <> None) as H.
  { intros check check' Hs Hc q Hq. destruct (check q) as [m|] eqn:E; [|congruence]. apply Hc. exists (complete m). exact (Hs _ _ E). }
  intros check check' H1 H2 H3 H4 q. split; apply H; assumption.
Qed.
Print Assumptions C92_correct_procedures.

(** * Models *)
Lemma lazy_keys cs m m' l : (forall n k sk, In (n, k) l -> assoc_find String.eqb n (se_keys (cs_env cs)) = Some sk -> ConcretizeKey sk k m = ConcretizeKey sk k m') ->
  forall acc, concretize_keys cs m l acc = concretize_keys cs m' l acc.
Proof.
  induction l as [|[n k] l IH]; intros H acc; cbn [concretize_keys]; [reflexivity|].
  assert (forall n k sk, In (n, k) l -> assoc_find String.eqb n (se_keys (cs_env cs)) = Some sk -> ConcretizeKey sk k m = ConcretizeKey sk k m') as H' by (intros n' k' sk' Hi; apply (H n' k'); now right).
  destruct (cs_skip cs n) as [b|c s|w]; cbn [bind]; try reflexivity. destruct b; [auto|]. unfold FindPtrOrStatus. destruct (assoc_find String.eqb n (se_keys (cs_env cs))) as [sk|] eqn:E; [|reflexivity]. cbn [bind].
  rewrite (H n k sk (or_introl eq_refl) E). destruct (ConcretizeKey sk k m') as [f|c s|w]; cbn [bind]; auto.
Qed.
(** ConcretizeEntry asks one question. Of the model it only uses the values of the symbols of the keys, and of the priority. *)
Theorem C92_model_values : forall check check' pton t ks skip cs l m m', table_keys t ks -> History check pton t skip cs l ->
  check (assertions (cs_stack cs)) = Some m -> check' (assertions (cs_stack cs)) = Some m' ->
  (forall k n s, In k ks -> live skip k -> In (n, s) (symbols k) -> complete m n s = complete m' n s) -> m "priority" SInt = m' "priority" SInt ->
  ConcretizeEntry check cs = ConcretizeEntry check' cs.
Proof.
  intros check check' pton t ks skip cs l m m' HK HH E E' Hk Hp. destruct (history_holds t ks HK skip check pton cs l HH) as (base & us & Hs). pose proof (h_built _ _ _ _ _ _ _ _ Hs) as HB.
  unfold ConcretizeEntry. rewrite E, E', (h_table _ _ _ _ _ _ _ _ Hs). rewrite (lazy_keys cs m m').
  - destruct (concretize_keys _ _ _ _) as [fields|c s|w]; cbn [bind]; try reflexivity. assert (se_attrs (cs_env cs) = [("priority", ZConst "priority" SInt)] \/ se_attrs (cs_env cs) = []) as [Ea|Ea]; [|rewrite Ea; change (assoc_find String.eqb kSymbolicPriorityAttributeName [("priority", ZConst "priority" SInt)]) with (Some (ZConst "priority" SInt)); cbn iota; now rewrite Hp|rewrite Ea; reflexivity].
    destruct (prio_dec ks) as [HP|HP]; [left; exact (b_prio _ _ _ _ HB HP)|right; exact (b_noprio _ _ _ _ HB HP)].
  - intros n k sk Hi Hf. apply (in_ordered t ks HK) in Hi as [Hi <-]. apply (b_keys _ _ _ _ HB) in Hf as (k' & a & Hk' & En & Hl & Ha).
    assert (k' = k) as -> by (refine (nodup_keys k_name ks _ _ _ Hk' Hi En); apply HK).
    specialize (Hk k). apply add_key_cases in Ha as (w & Hw & Hc). unfold symbols in Hk. unfold ConcretizeKey, eval_bv_string.
    destruct Hc as [(Et & -> & _)|[(Et & -> & _)|[(Et & -> & _)|(Et & -> & _)]]]; rewrite Et in *; unfold TypeBitwidthOrStatus; cbn [TypeBitwidth bind];
      unfold GetValue, GetMask, GetPrefixLength, GetFieldAccess; cbn [String.eqb Ascii.eqb Bool.eqb bind];
      cbn [zeval sort_of]; unfold z3_eq; cbn [sort_of]; cbn [sort_eqb]; rewrite ?Z.eqb_refl; cbn [bind zeval];
      repeat match goal with |- context [complete m ?n ?s] => rewrite (Hk n s Hi Hl) by (cbn; auto) end; reflexivity.
Qed.
Print Assumptions C92_model_values.

(** * Sizes *)
Definition result_size (r : sym_result) : Z :=
  match r with
  | RTerm t | RKey (SymExact t) => formula_size t
  | RKey (SymTernary a b) | RKey (SymLpm a b) => formula_size a + formula_size b
  end.
Lemma size_pos t : (1 <= formula_size t)%Z.
Proof. induction t; cbn [formula_size]; lia. Qed.
Lemma nodes_pos e : (1 <= nodes e)%Z.
Proof. induction e; cbn [nodes]; lia. Qed.
Definition atomic (r : sym_result) : Prop :=
  match r with
  | RTerm t | RKey (SymExact t) => formula_size t = 1%Z
  | RKey (SymTernary a b) | RKey (SymLpm a b) => formula_size a = 1%Z /\ formula_size b = 1%Z
  end.
Definition small (env : sym_env) : Prop :=
  (forall n k, assoc_find String.eqb n (se_keys env) = Some k -> atomic (RKey k)) /\ (forall n u, assoc_find String.eqb n (se_attrs env) = Some u -> atomic (RTerm u)).
Lemma bin_terms_size l op r t : bin_terms l op r = Ok t -> formula_size t = (1 + formula_size l + formula_size r)%Z.
Proof.
  destruct op; cbn [bin_terms]; unfold z3_eq, z3_ne, z3_cmp, z3_and, z3_or, z3_implies, sort_error; try discriminate; intros H;
    repeat match type of H with context [if ?b then _ else _] => destruct b | context [match sort_of ?b with _ => _ end] => destruct (sort_of b) end; try discriminate H; apply Ok_inj in H as <-; reflexivity.
Qed.
Lemma bin_pair_size a1 a2 op b1 b2 t : bin_pair a1 a2 op b1 b2 = Ok t -> formula_size t = (3 + formula_size a1 + formula_size a2 + formula_size b1 + formula_size b2)%Z.
Proof.
  unfold bin_pair. intros H. apply bind_ok in H as (_ & _ & H). apply bind_ok in H as (x & Hx & H). apply bind_ok in H as (y & Hy & H). apply bin_terms_size in Hx, Hy.
  assert (bin_terms x (match op with ONE => OOR | _ => OAND end) y = Ok t) as H' by (destruct op; exact H). apply bin_terms_size in H'. lia.
Qed.
Lemma eval_size env src : small env -> forall e r, EvalSymbolically env src e = Ok r -> (result_size r <= 3 * nodes e)%Z.
Proof.
  intros [HK HA]. assert (forall e r t, to_term src e r = Ok t -> r = RTerm t) as HT by (intros e r t H; now apply to_term_ok in H).
  induction e as [m b|m s|m k|m k|m a IH|m a IH|m a IH|m o a IHa b IHb|m f a IH|m n|m]; intros r H; cbn [EvalSymbolically nodes] in *.
  - apply Ok_inj in H as <-. cbn. lia.
  - apply bind_ok in H as (t & Ht & H). apply Ok_inj in H as <-. unfold z3_int_val in Ht. destruct (mpz_set_str s 10); [|discriminate Ht]. apply Ok_inj in Ht as <-. cbn. lia.
  - apply bind_ok in H as (sk & Hs & H). apply Ok_inj in H as <-. unfold FindPtrOrStatus in Hs. destruct (assoc_find String.eqb k (se_keys env)) as [sk'|] eqn:E; [|discriminate Hs]. apply Ok_inj in Hs as ->. apply HK in E. destruct sk; cbn in *; lia.
  - discriminate H.
  - apply bind_ok in H as (x & Hx & H). apply bind_ok in H as (t & Ht & H). apply bind_ok in H as (u & Hu & H). apply Ok_inj in H as <-. apply HT in Ht as ->. apply IH in Hx. unfold z3_not in Hu. destruct (is_sbool t); [|discriminate Hu]. apply Ok_inj in Hu as <-. cbn [result_size formula_size] in *. lia.
  - apply bind_ok in H as (x & Hx & H). apply bind_ok in H as (t & Ht & H). apply bind_ok in H as (u & Hu & H). apply Ok_inj in H as <-. apply HT in Ht as ->. apply IH in Hx. unfold z3_minus in Hu. destruct (sort_of t); try discriminate Hu; apply Ok_inj in Hu as <-; cbn [result_size formula_size] in *; lia.
  - apply bind_ok in H as (x & Hx & H). apply bind_ok in H as (t & Ht & H). apply HT in Ht as ->. apply IH in Hx. cbn [result_size] in Hx. unfold EvalTypeCast in H. apply bind_ok in H as (w & _ & H).
    destruct (m_type m); try discriminate H; unfold z3_int2bv, z3_bv_val, sort_error in H; try (apply bind_ok in H as (u & Hu & H)); repeat match type of Hu with context [if ?b then _ else _] => destruct b end; try discriminate Hu; try (apply Ok_inj in Hu as <-); apply Ok_inj in H as <-; cbn [result_size formula_size]; lia.
  - apply bind_ok in H as (x & Hx & H). apply bind_ok in H as (y & Hy & H). apply bind_ok in H as (u & Hu & H). apply Ok_inj in H as <-. apply IHa in Hx. apply IHb in Hy. unfold bin_results, bin_keys in Hu. cbn [result_size].
    destruct x as [[x1|x1 x2|x1 x2]|x1], y as [[y1|y1 y2|y1 y2]|y1]; try discriminate Hu; try apply bin_terms_size in Hu; try apply bin_pair_size in Hu; cbn [result_size] in *; lia.
  - apply bind_ok in H as (sk & Hs & H). apply bind_ok in H as (t & Ht & H). apply Ok_inj in H as <-. unfold FindPtrOrStatus in Hs. destruct (assoc_find String.eqb (e_key a) (se_keys env)) as [sk'|] eqn:E; [|discriminate Hs]. apply Ok_inj in Hs as ->. apply HK in E.
    pose proof (nodes_pos a). destruct sk as [v|v w|v w]; cbn [GetFieldAccess] in Ht; repeat match type of Ht with context [if ?b then _ else _] => destruct b end; try discriminate Ht; apply Ok_inj in Ht as <-; cbn [result_size atomic] in *; lia.
  - apply bind_ok in H as (t & Ht & H). apply Ok_inj in H as <-. unfold FindPtrOrStatus in Ht. destruct (assoc_find String.eqb n (se_attrs env)) as [u|] eqn:E; [|discriminate Ht]. apply Ok_inj in Ht as ->. apply HA in E. cbn in *. lia.
  - discriminate H.
Qed.
Lemma total_app {A} (f : A -> Z) l l' : total f (l ++ l') = (total f l + total f l')%Z.
Proof. unfold total. induction l as [|a l IH]; cbn [fold_right app]; [reflexivity|]. rewrite IH. lia. Qed.
Lemma create_size skip l : forall prio keys asserted p' keys' asserted', create_keys skip l prio keys asserted = Ok (p', keys', asserted') ->
  (forall n k, In (n, k) keys -> atomic (RKey k)) ->
  (forall n k, In (n, k) keys' -> atomic (RKey k)) /\ (total formula_size asserted' <= total formula_size asserted + 21 * Z.of_nat (length l))%Z.
Proof.
  induction l as [|[n ki] l IH]; intros prio keys asserted p' keys' asserted' H Hk; cbn [create_keys] in H.
  - apply Ok_inj in H. injection H as <- <- <-. split; [exact Hk|cbn; lia].
  - apply bind_ok in H as (b & Hb & H). destruct b.
    + apply IH in H as [H1 H2]; [|exact Hk]. split; [exact H1|]. cbn [length]. lia.
    + apply bind_ok in H as ([sk a] & Ha & H). apply add_key_cases in Ha as (w & Hw & Hc).
      assert (atomic (RKey sk) /\ (total formula_size a <= 21)%Z) as [Hs Hl].
      { destruct Hc as [(_ & -> & ->)|[(_ & -> & ->)|[(_ & -> & ->)|(_ & -> & ->)]]]; cbn; lia. }
      apply IH in H as [H1 H2].
      * split; [exact H1|]. rewrite total_app in H2. cbn [length]. lia.
      * intros n' k' Hi. apply in_app_or in Hi as [Hi|[[= <- <-]|[]]]; [exact (Hk _ _ Hi)|exact Hs].
Qed.
Lemma ordered_length {V} (l : list (string * V)) : length (Ordered l) = length l.
Proof. unfold Ordered. induction l as [|x l IH]; cbn [fold_right]; [reflexivity|]. cbn [length]. rewrite <- IH. generalize (fold_right insert_sorted [] l) as m. induction m as [|y m IHm]; cbn [insert_sorted length]; [reflexivity|]. destruct (string_ltb (fst x) (fst y)); cbn [length]; lia. Qed.
Definition bounded (t : table_info) (cs : constraint_solver) (l : list expr) : Prop :=
  cs_table cs = t /\ small (cs_env cs) /\ (total formula_size (assertions (cs_stack cs)) <= 21 * Z.of_nat (length (ti_keys_by_name t)) + 6 + 3 * total nodes l)%Z.
Lemma encoded_size env src e u : small env -> EvaluateConstraintSymbolically env src e = Ok u -> (formula_size u <= 3 * nodes e)%Z.
Proof.
  unfold EvaluateConstraintSymbolically. intros Hs H. destruct (negb _); [discriminate H|]. apply bind_ok in H as (r & Hr & H). apply (eval_size env src Hs) in Hr. apply to_term_ok in H as ->. exact Hr.
Qed.
Lemma add_bounded t check cs l e src cs' : bounded t cs l -> AddConstraint check cs e src = (Ok true, cs') -> bounded t cs' (l ++ [e]).
Proof.
  intros (Ht & H1 & H2) H. apply add_cases in H as [[E _]|(_ & u & Hu & -> & _)]; [congruence|]. split; [exact Ht|]. split; cbn [set_stack cs_env cs_stack]; [exact H1|]. rewrite assertions_push, !total_app. apply (encoded_size _ _ _ _ H1) in Hu. unfold total at 2 4. cbn [fold_right]. lia.
Qed.
Lemma history_bounded check pton t skip cs l : History check pton t skip cs l -> bounded t cs l.
Proof.
  induction 1 as [cs H|cs l e src cs' H IH HA|cs l e src r cs' H IH HA Hr|cs l text e0 e cs' H IH HA Hp Hi|cs l text r cs' H IH HA Hr].
  - unfold Create in H. apply bind_ok in H as ([[prio keys] asserted] & Hc & H). apply create_size in Hc as [Hk Hl]; [|intros n k []]. rewrite ordered_length in Hl. change (total formula_size []) with 0%Z in Hl.
    set (pr := if prio then _ else _) in H. assert (exists attrs base, pr = (attrs, base) /\ (forall n u, assoc_find String.eqb n attrs = Some u -> atomic (RTerm u)) /\ (total formula_size base <= 21 * Z.of_nat (length (ti_keys_by_name t)) + 6)%Z) as (attrs & base & -> & Ha & Hb).
    { unfold pr. destruct prio; eexists _, _; (split; [reflexivity|]); (split; [intros n u Hf; try discriminate Hf|]).
      - apply (afind_in String.eqb String.eqb_eq) in Hf. destruct Hf as [[= _ <-]|[]]. reflexivity.
      - rewrite total_app. cbn -[Z.mul Z.of_nat total] in *. change (total formula_size _) with 6%Z at 2. lia.
      - lia. }
    assert (bounded t (mkCS t (mkEnv keys attrs) skip [base]) []) as HB.
    { split; [reflexivity|]. split; [split; cbn [cs_env se_keys se_attrs]; [intros n k Hf; apply (afind_in String.eqb String.eqb_eq) in Hf; exact (Hk _ _ Hf)|exact Ha]|]. cbn [cs_stack]. unfold assertions. cbn [rev concat app]. rewrite app_nil_r. unfold total at 2. cbn [fold_right]. lia. }
    destruct (ti_constraint t) as [e|]; [|apply Ok_inj in H as <-; exact HB]. destruct (AddConstraint check _ e (ti_source t)) as [[[|]|c s|w] cs'] eqn:EA; try discriminate H. apply Ok_inj in H as ->. exact (add_bounded _ _ _ [] _ _ _ HB EA).
  - eapply add_bounded; eauto.
  - apply add_cases in HA as [[_ ->]|[E _]]; [exact IH|congruence].
  - rewrite <- (proj1 IH) in Hp, Hi. rewrite (add_text check pton cs text e0 e Hp Hi) in HA. eapply add_bounded; eauto.
  - apply add_text_cases in HA as [[_ ->]|(e0 & e & Hp & Hi & HA)]; [exact IH|]. apply add_cases in HA as [[_ ->]|[E _]]; [exact IH|congruence].
Qed.
(** The formula for a constraint is at most three times as large as the constraint. All formulas a solver holds are linear in the number of keys and the size of the accepted constraints: refused ones leave nothing behind, and nothing is ever copied. *)
Theorem C92_linear : forall check pton t skip cs l, History check pton t skip cs l ->
  (forall src e u, EvaluateConstraintSymbolically (cs_env cs) src e = Ok u -> (formula_size u <= 3 * nodes e)%Z) /\
  (total formula_size (assertions (cs_stack cs)) <= 21 * Z.of_nat (length (ti_keys_by_name t)) + 6 + 3 * total nodes l)%Z.
Proof.
  intros check pton t skip cs l H. apply history_bounded in H as (_ & H1 & H2). split; [|exact H2]. intros src e u. exact (encoded_size _ _ _ _ H1).
Qed.
Print Assumptions C92_linear.
(** The hypotheses hold of a solver with all kinds of keys that accepted two constraints, and of two decision procedures with different models. *)
Definition other_check : solver := fun q => match sy_check q with Some m => Some (fun n s => if String.eqb n "unused" then Some (default_zval s) else m n s) | None => None end.
Example C92_case : History sy_check pton1 sy_table sy_skip sy_cs2 [sy_checked; sy_more_checked] /\ same_answers sy_check other_check /\
  total formula_size (assertions (cs_stack sy_cs2)) = 74%Z /\ total nodes [sy_checked; sy_more_checked] = 35%Z /\
  ConcretizeEntry other_check sy_cs2 = Ok sy_entry /\ fst (replies other_check pton1 sy_cs [AddText sy_more; AddText "false"; AddText sy_more]) = [Ok true; Ok false; Ok true].
Proof.
  split; [exact sy_history|]. split; [intros q; unfold other_check; destruct (sy_check q); split; congruence|]. split; [vm_compute; reflexivity|]. split; [vm_compute; reflexivity|]. split; vm_compute; reflexivity.
Qed.
