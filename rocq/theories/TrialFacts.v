(** Facts for C100. *)
From Coq Require Import String List ZArith Lia Bool.
From Verif Require Import Base Num Token Ast Quote AstConstructors Parser Info TypeChecker Interpreter Z3 Symbolic SpecLexer SpecGrammar SpecTyping SpecSemantics SpecInfo SpecSymbolic SpecSolver SpecSession SpecSkip SpecTrial.
From Verif Require Import LiteralFacts SemFacts InfoFacts EntryFacts ExplainFacts SymFacts SymKeys SymState PropertiesSymbolic.
Import ListNotations.

Lemma in_up_to n z : In z (up_to n) <-> (0 <= z <= n)%Z.
Proof.
  unfold up_to. rewrite in_map_iff. split.
  - intros (i & <- & Hi). apply in_seq in Hi. lia.
  - intros H. exists (Z.to_nat z). split; [lia|]. apply in_seq. lia.
Qed.
Lemma zeval_occurring m m' u : (forall n s, In (n, s) (occurring u) -> m n s = m' n s) -> zeval m u = zeval m' u.
Proof.
  induction u; cbn [occurring zeval]; intros H; try reflexivity.
  1: apply H; now left.
  all: try (rewrite IHu by exact H; reflexivity).
  all: rewrite IHu1 by (intros; apply H; apply in_or_app; now left); rewrite IHu2 by (intros; apply H; apply in_or_app; now right); reflexivity.
Qed.
Lemma same_symbol_eq x y : same_symbol x y = true <-> x = y.
Proof.
  destruct x as [n s], y as [n' s']. unfold same_symbol. cbn [fst snd]. rewrite andb_true_iff, String.eqb_eq, sort_eqb_eq. split; [intros [-> ->]; reflexivity|intros [= -> ->]; auto].
Qed.
Lemma in_once x l : In x (once l) <-> In x l.
Proof.
  induction l as [|y l IH]; cbn [once]; [tauto|]. destruct (existsb (same_symbol y) l) eqn:E; cbn [In]; [|now rewrite IH].
  apply existsb_exists in E as (z & Hz & E). apply same_symbol_eq in E as <-. rewrite IH. split; [now right|intros [<-|H]; assumption].
Qed.
Definition in_sort (top : Z) (v : zval) (s : sort) : Prop := In v (values top s).
Lemma choices_in top l c : In c (choices top l) -> map fst c = l /\ forall x v, In (x, v) c -> in_sort top v (snd x).
Proof.
  revert c. induction l as [|x l IH]; intros c H; cbn [choices] in H.
  - destruct H as [<-|[]]. split; [reflexivity|]. intros x v [].
  - apply in_flat_map in H as (v & Hv & H). apply in_map_iff in H as (c' & <- & H). apply IH in H as [H1 H2]. split; [cbn; now rewrite H1|]. intros y u [E|Hi]; [injection E as <- <-; exact Hv|eauto].
Qed.
Lemma chosen_exists top (m : assignment) l : (forall n s, In (n, s) l -> in_sort top (m n s) s) -> In (map (fun x => (x, m (fst x) (snd x))) l) (choices top l).
Proof.
  induction l as [|[n s] l IH]; intros H; cbn [choices map]; [now left|]. apply in_flat_map. exists (m n s). split; [apply H; now left|]. apply in_map. apply IH. intros; apply H; now right.
Qed.
Lemma chosen_some c n s v : chosen c n s = Some v -> In ((n, s), v) c.
Proof.
  unfold chosen. destruct (find _ c) as [[[n' s'] v']|] eqn:E; [|discriminate]. intros [= <-]. apply find_some in E as [E1 E2]. cbn [fst snd] in *. apply same_symbol_eq in E2. now rewrite E2 in E1.
Qed.
Lemma chosen_map (m : assignment) l n s : In (n, s) l -> chosen (map (fun x => (x, m (fst x) (snd x))) l) n s = Some (m n s).
Proof.
  intros H. destruct (chosen (map (fun x => (x, m (fst x) (snd x))) l) n s) as [v|] eqn:E.
  - apply chosen_some in E. apply in_map_iff in E as ([n' s'] & E & _). cbn in E. injection E as <- <- <-. reflexivity.
  - exfalso. unfold chosen in E. destruct (find _ _) eqn:F; [discriminate|]. apply find_none with (x := ((n, s), m n s)) in F.
    + cbn [fst snd] in F. rewrite (proj2 (same_symbol_eq _ _) eq_refl) in F. discriminate.
    + apply in_map_iff. exists (n, s). auto.
Qed.
Lemma chosen_sorted top l c : In c (choices top l) -> well_sorted (complete (chosen c)).
Proof.
  intros H n. apply choices_in in H as [_ H]. unfold complete. split; [|split].
  - intros w Hw. assert (0 < 2 ^ w)%Z by (apply Z.pow_pos_nonneg; lia). destruct (chosen c n (SBV w)) as [v|] eqn:E; [|exists 0%Z; split; [reflexivity|lia]].
    apply chosen_some, H in E. unfold in_sort, values in E. cbn [snd] in E. apply in_map_iff in E as (z & <- & Hz). apply in_up_to in Hz. exists z. split; [reflexivity|lia].
  - destruct (chosen c n SInt) as [v|] eqn:E; [|exists 0%Z; reflexivity]. apply chosen_some, H in E. cbn [snd] in E. unfold in_sort, values in E. apply in_map_iff in E as (z & <- & _). eauto.
  - destruct (chosen c n SBool) as [v|] eqn:E; [|exists false; reflexivity]. apply chosen_some, H in E. cbn [snd] in E. destruct E as [<-|[<-|[]]]; eauto.
Qed.
Lemma trial_sound top : sound_solver (trial top).
Proof.
  intros q m H. unfold trial in H. apply find_some in H as [H1 H2]. apply in_map_iff in H1 as (c & <- & Hc). split; [exact (chosen_sorted _ _ _ Hc)|]. intros u Hu. rewrite forallb_forall in H2. apply zval_eqb_eq. auto.
Qed.
Lemma trial_complete top q m : satisfies m q -> (forall n s, In (n, s) (flat_map occurring q) -> in_sort top (m n s) s) -> trial top q <> None.
Proof.
  intros Hs Hm E. unfold trial in E. apply find_none with (x := chosen (map (fun x => (x, m (fst x) (snd x))) (once (flat_map occurring q)))) in E.
  - apply not_true_iff_false in E. apply E. apply forallb_forall. intros u Hu. apply zval_eqb_eq. rewrite <- (Hs u Hu). apply zeval_occurring. intros n s Hi. unfold complete. rewrite chosen_map; [reflexivity|]. apply in_once, in_flat_map. eauto.
  - apply in_map. apply chosen_exists. intros n s Hi. apply Hm. now apply in_once.
Qed.

(** * Where the symbols come from *)
Section Symbols.
  Variable P : string * sort -> Prop.
  Definition only (u : term) : Prop := forall x, In x (occurring u) -> P x.
  Definition only_result (r : sym_result) : Prop := match r with RTerm t | RKey (SymExact t) => only t | RKey (SymTernary a b) | RKey (SymLpm a b) => only a /\ only b end.
  Definition only_env (env : sym_env) : Prop :=
    (forall n k, assoc_find String.eqb n (se_keys env) = Some k -> only_result (RKey k)) /\ (forall n u, assoc_find String.eqb n (se_attrs env) = Some u -> only u).
  Lemma only_two a b : only a -> only b -> forall x, In x (occurring a ++ occurring b) -> P x.
  Proof. intros Ha Hb x Hx. apply in_app_or in Hx as [Hx|Hx]; auto. Qed.
  Lemma bin_terms_only l op r t : bin_terms l op r = Ok t -> only l -> only r -> only t.
  Proof.
    intros H Hl Hr. assert (occurring t = occurring l ++ occurring r)%list as E; [|intros x; rewrite E; now apply only_two].
    destruct op; cbn [bin_terms] in H; unfold z3_eq, z3_ne, z3_cmp, z3_and, z3_or, z3_implies, sort_error in H; try discriminate H;
      repeat match type of H with context [if ?b then _ else _] => destruct b | context [match sort_of ?b with _ => _ end] => destruct (sort_of b) end; try discriminate H; apply Ok_inj in H as <-; reflexivity.
  Qed.
  Lemma bin_pair_only a1 a2 op b1 b2 t : bin_pair a1 a2 op b1 b2 = Ok t -> only a1 -> only a2 -> only b1 -> only b2 -> only t.
  Proof.
    unfold bin_pair. intros H H1 H2 H3 H4. apply bind_ok in H as (_ & _ & H). apply bind_ok in H as (x & Hx & H). apply bind_ok in H as (y & Hy & H). apply bin_terms_only in Hx; auto. apply bin_terms_only in Hy; auto.
    assert (bin_terms x (match op with ONE => OOR | _ => OAND end) y = Ok t) as H' by (destruct op; exact H). eapply bin_terms_only; eauto.
  Qed.
  Lemma eval_only env src : only_env env -> forall e r, EvalSymbolically env src e = Ok r -> only_result r.
  Proof.
    intros [HK HA]. assert (forall e r t, to_term src e r = Ok t -> r = RTerm t) as HT by (intros e r t H; now apply to_term_ok in H).
    induction e as [m b|m s|m k|m k|m a IH|m a IH|m a IH|m o a IHa b IHb|m f a IH|m n|m]; intros r H; cbn [EvalSymbolically] in H.
    - apply Ok_inj in H as <-. intros x [].
    - apply bind_ok in H as (t & Ht & H). apply Ok_inj in H as <-. unfold z3_int_val in Ht. destruct (mpz_set_str s 10); [|discriminate Ht]. apply Ok_inj in Ht as <-. intros x [].
    - apply bind_ok in H as (sk & Hs & H). apply Ok_inj in H as <-. unfold FindPtrOrStatus in Hs. destruct (assoc_find String.eqb k (se_keys env)) as [sk'|] eqn:E; [|discriminate Hs]. apply Ok_inj in Hs as ->. exact (HK _ _ E).
    - discriminate H.
    - apply bind_ok in H as (x & Hx & H). apply bind_ok in H as (t & Ht & H). apply bind_ok in H as (u & Hu & H). apply Ok_inj in H as <-. apply HT in Ht as ->. apply IH in Hx. unfold z3_not in Hu. destruct (is_sbool t); [|discriminate Hu]. apply Ok_inj in Hu as <-. exact Hx.
    - apply bind_ok in H as (x & Hx & H). apply bind_ok in H as (t & Ht & H). apply bind_ok in H as (u & Hu & H). apply Ok_inj in H as <-. apply HT in Ht as ->. apply IH in Hx. unfold z3_minus in Hu. destruct (sort_of t); try discriminate Hu; apply Ok_inj in Hu as <-; exact Hx.
    - apply bind_ok in H as (x & Hx & H). apply bind_ok in H as (t & Ht & H). apply HT in Ht as ->. apply IH in Hx. cbn [only_result] in Hx. unfold EvalTypeCast in H. apply bind_ok in H as (w & _ & H).
      destruct (m_type m); try discriminate H; unfold z3_int2bv, z3_bv_val, sort_error in H; try (apply bind_ok in H as (u & Hu & H)); repeat match type of Hu with context [if ?b then _ else _] => destruct b end; try discriminate Hu; try (apply Ok_inj in Hu as <-); apply Ok_inj in H as <-; cbn [only_result];
        first [exact Hx | split; [exact Hx|intros y []]].
    - apply bind_ok in H as (x & Hx & H). apply bind_ok in H as (y & Hy & H). apply bind_ok in H as (u & Hu & H). apply Ok_inj in H as <-. apply IHa in Hx. apply IHb in Hy. unfold bin_results, bin_keys in Hu. cbn [only_result].
      destruct x as [[x1|x1 x2|x1 x2]|x1], y as [[y1|y1 y2|y1 y2]|y1]; try discriminate Hu; cbn [only_result] in *; try (eapply bin_terms_only; eauto; fail); eapply bin_pair_only; try exact Hu; tauto.
    - apply bind_ok in H as (sk & Hs & H). apply bind_ok in H as (t & Ht & H). apply Ok_inj in H as <-. unfold FindPtrOrStatus in Hs. destruct (assoc_find String.eqb (e_key a) (se_keys env)) as [sk'|] eqn:E; [|discriminate Hs]. apply Ok_inj in Hs as ->. apply HK in E.
      destruct sk as [v|v w|v w]; cbn [GetFieldAccess] in Ht; repeat match type of Ht with context [if ?b then _ else _] => destruct b end; try discriminate Ht; apply Ok_inj in Ht as <-; cbn [only_result] in *; tauto.
    - apply bind_ok in H as (t & Ht & H). apply Ok_inj in H as <-. unfold FindPtrOrStatus in Ht. destruct (assoc_find String.eqb n (se_attrs env)) as [u|] eqn:E; [|discriminate Ht]. apply Ok_inj in Ht as ->. exact (HA _ _ E).
    - discriminate H.
  Qed.
  Lemma encoded_only env src e u : only_env env -> EvaluateConstraintSymbolically env src e = Ok u -> only u.
  Proof. unfold EvaluateConstraintSymbolically. intros Hs H. destruct (negb _); [discriminate H|]. apply bind_ok in H as (r & Hr & H). apply (eval_only env src Hs) in Hr. apply to_term_ok in H as ->. exact Hr. Qed.
End Symbols.

(** The symbols of the keys the solver handles, and the priority. *)
Definition known (ks : list key_info) (skip : string -> outcome bool) (x : string * sort) : Prop :=
  (exists k sk a, In k ks /\ live skip k /\ AddSymbolicKey k = Ok (sk, a) /\ In x (symbols k)) \/ (prioritized ks /\ x = ("priority"%string, SInt)).
Lemma key_only ks skip k sk a : In k ks -> live skip k -> AddSymbolicKey k = Ok (sk, a) -> only_result (known ks skip) (RKey sk) /\ forall u, In u a -> only (known ks skip) u.
Proof.
  intros Hk Hl Ha. assert (forall x, In x (symbols k) -> known ks skip x) as HS by (intros x Hx; left; exists k, sk, a; auto). clear Hk Hl.
  apply add_key_cases in Ha as (w & Hw & Hc). unfold symbols in HS.
  destruct Hc as [(Et & -> & ->)|[(Et & -> & ->)|[(Et & -> & ->)|(Et & -> & ->)]]]; rewrite Et in HS; cbn [In] in HS; cbn [only_result]; unfold only.
  all: split; [repeat split|]; cbn [occurring In app]; intros; repeat match goal with H : _ \/ _ |- _ => destruct H | H : False |- _ => destruct H end; subst; cbn [occurring In app] in *; repeat match goal with H : _ \/ _ |- _ => destruct H | H : False |- _ => destruct H end; subst; apply HS; auto.
Qed.
Section History.
  Variables (check : solver) (pton : inet_pton6) (t : table_info) (ks : list key_info) (skip : string -> outcome bool).
  Hypothesis HK : table_keys t ks.
  Let ok cs := cs_table cs = t /\ only_env (known ks skip) (cs_env cs) /\ forall u, In u (assertions (cs_stack cs)) -> only (known ks skip) u.
  Lemma add_only cs e src cs' : ok cs -> AddConstraint check cs e src = (Ok true, cs') -> ok cs'.
  Proof.
    intros (Ht & H1 & H2) H. apply add_cases in H as [[E _]|(_ & u & Hu & -> & _)]; [congruence|]. split; [exact Ht|]. split; cbn [set_stack cs_env cs_stack]; [exact H1|]. intros v Hv. rewrite assertions_push in Hv. apply in_app_or in Hv as [Hv|[<-|[]]]; [auto|]. exact (encoded_only _ _ _ _ _ H1 Hu).
  Qed.
  Lemma create_only : forall l prio keys asserted p' keys' asserted', create_keys skip l prio keys asserted = Ok (p', keys', asserted') -> (forall n k, In (n, k) l -> In k ks /\ k_name k = n) ->
    (forall n k, In (n, k) keys -> only_result (known ks skip) (RKey k)) -> (forall u, In u asserted -> only (known ks skip) u) ->
    (forall n k, In (n, k) keys' -> only_result (known ks skip) (RKey k)) /\ (forall u, In u asserted' -> only (known ks skip) u).
  Proof.
    induction l as [|[n ki] l IH]; intros prio keys asserted p' keys' asserted' H Hin Hk Hu; cbn [create_keys] in H.
    - apply Ok_inj in H. injection H as <- <- <-. auto.
    - destruct (Hin n ki (or_introl eq_refl)) as [Hi En]. assert (forall n k, In (n, k) l -> In k ks /\ k_name k = n) as Hin' by (intros; apply Hin; now right).
      apply bind_ok in H as (b & Hb & H). destruct b; [eapply IH; eauto|].
      apply bind_ok in H as ([sk a] & Ha & H). destruct (key_only ks skip ki sk a Hi) as [K1 K2]; [unfold live; now rewrite En|exact Ha|].
      eapply IH; [exact H|exact Hin'| |].
      + intros n' k' Hi'. apply in_app_or in Hi' as [Hi'|[[= <- <-]|[]]]; [exact (Hk _ _ Hi')|exact K1].
      + intros u Hu'. apply in_app_or in Hu' as [Hu'|Hu']; auto.
  Qed.
  Lemma history_only cs l : History check pton t skip cs l -> ok cs.
  Proof.
    induction 1 as [cs H|cs l e src cs' H IH HA|cs l e src r cs' H IH HA Hr|cs l text e0 e cs' H IH HA Hp Hi|cs l text r cs' H IH HA Hr].
    - unfold Create in H. apply bind_ok in H as ([[prio keys] asserted] & Hc & H). pose proof (create_keys_ok _ _ _ _ _ _ _ _ Hc) as (_ & _ & _ & _ & Hpr & _).
      apply create_only in Hc as [Hk Hl]; [|intros n k Hi; now apply (in_ordered t ks HK) in Hi|intros n k []|intros u []].
      assert (prio = true -> prioritized ks) as HP. { intros ->. apply (needs_prioritized t ks HK). destruct (proj1 Hpr eq_refl) as [E|E]; [discriminate E|exact E]. }
      set (pr := if prio then _ else _) in H. assert (exists attrs base, pr = (attrs, base) /\ (forall n u, assoc_find String.eqb n attrs = Some u -> only (known ks skip) u) /\ (forall u, In u base -> only (known ks skip) u)) as (attrs & base & -> & Ha & Hb).
      { assert (prio = true -> known ks skip ("priority"%string, SInt)) as Hkn by (intros E; right; auto).
        unfold pr. destruct prio; eexists _, _; (split; [reflexivity|]); (split; [intros n u Hf; try discriminate Hf|]).
        - apply (afind_in String.eqb String.eqb_eq) in Hf. destruct Hf as [[= _ <-]|[]]. intros x [<-|[]]. now apply Hkn.
        - intros u Hu. apply in_app_or in Hu as [Hu|Hu]; [auto|]. destruct Hu as [<-|[<-|[]]]; intros x [<-|[]]; now apply Hkn.
        - exact Hl. }
      assert (ok (mkCS t (mkEnv keys attrs) skip [base])) as HB.
      { split; [reflexivity|]. split; [split; cbn [cs_env se_keys se_attrs]; [intros n k Hf; apply (afind_in String.eqb String.eqb_eq) in Hf; exact (Hk _ _ Hf)|exact Ha]|]. cbn [cs_stack]. unfold assertions. cbn [rev concat app]. rewrite app_nil_r. exact Hb. }
      destruct (ti_constraint t) as [e|]; [|apply Ok_inj in H as <-; exact HB]. destruct (AddConstraint check _ e (ti_source t)) as [[[|]|c s|w] cs'] eqn:EA; try discriminate H. apply Ok_inj in H as ->. exact (add_only _ _ _ _ HB EA).
    - eapply add_only; eauto.
    - apply add_cases in HA as [[_ ->]|[E _]]; [exact IH|congruence].
    - rewrite <- (proj1 IH) in Hp, Hi. rewrite (add_text check pton cs text e0 e Hp Hi) in HA. eapply add_only; eauto.
    - apply add_text_cases in HA as [[_ ->]|(e0 & e & Hp & Hi & HA)]; [exact IH|]. apply add_cases in HA as [[_ ->]|[E _]]; [exact IH|congruence].
  Qed.
  (** What an assignment that satisfies the formulas of a solver gives these symbols. *)
  Lemma known_bounded cs l top m : History check pton t skip cs l -> high_enough top ks skip -> well_sorted m -> satisfies m (assertions (cs_stack cs)) -> forall n s, known ks skip (n, s) -> in_sort top (m n s) s.
  Proof.
    intros HH [T1 T2] Hm Hs n s Hkn. destruct (history_holds t ks HK skip check pton cs l HH) as (base & us & Hh). rewrite (h_assertions _ _ _ _ _ _ _ _ Hh) in Hs. apply satisfies_app in Hs as [Hs _].
    apply (b_base _ _ _ _ (h_built _ _ _ _ _ _ _ _ Hh) m Hm) in Hs as [S1 S2].
    assert (forall w, (0 < w)%Z -> in_sort top (m n (SBV w)) (SBV w)) as Hbv. { intros w Hw. destruct (proj1 (Hm n) w Hw) as (v & -> & Hv). unfold in_sort, values. apply in_map. apply in_up_to. lia. }
    destruct Hkn as [(k & sk & a & Hk & Hl & Ha & Hx)|[HP [= -> ->]]].
    - pose proof (S1 k sk a Hk Hl Ha) as Hsa. apply add_key_cases in Ha as (w & Hw & Hc). unfold symbols in Hx.
      destruct Hc as [(Et & _ & _)|[(Et & _ & _)|[(Et & _ & _)|(Et & _ & ->)]]]; rewrite Et in Hx; cbn [In] in Hx.
      1-3: repeat match goal with H : _ \/ _ |- _ => destruct H as [[= <- <-]|H] | H : False |- _ => destruct H end; now apply Hbv.
      destruct Hx as [[= <- <-]|[[= <- <-]|[]]]; [now apply Hbv|]. specialize (Hsa _ (or_introl eq_refl)). cbn [zeval] in Hsa.
      injection Hsa as Hsa. apply andb_true_iff in Hsa as [Hsa _]. cbn [as_bool] in Hsa. apply andb_true_iff in Hsa as [A1 A2]. cbn [as_bool icmp_holds] in A1, A2. apply Z.geb_le in A1. apply Z.leb_le in A2.
      destruct (proj1 (proj2 (Hm (c_str (k_name k ++ "_prefix_length"))))) as (z & Ez). rewrite Ez in *. cbn [as_int] in A1, A2. unfold in_sort, values. apply in_map. apply in_up_to. specialize (T1 k w Hk Hl Et). lia.
    - destruct (S2 HP) as (p & Ep & Hp). unfold pictures_priority in Ep. unfold priority_ok in Hp. rewrite Ep. unfold in_sort, values. apply in_map. apply in_up_to. specialize (T2 HP). lia.
  Qed.
  (** So trying all values finds a model if there is one. *)
  Lemma trial_finds cs l top us : History check pton t skip cs l -> high_enough top ks skip -> (forall u, In u us -> only (known ks skip) u) ->
    satisfiable (assertions (cs_stack cs) ++ us)%list -> trial top (assertions (cs_stack cs) ++ us)%list <> None.
  Proof.
    intros HH Ht Hu (m & Hm & Hs). apply (trial_complete top _ m Hs). intros n s Hi. pose proof Hs as Hs'. apply satisfies_app in Hs' as [Hs1 _]. apply (known_bounded cs l top m HH Ht Hm Hs1).
    apply in_flat_map in Hi as (u & Hu' & Hx). destruct (history_only cs l HH) as (_ & _ & Ho). apply in_app_or in Hu' as [Hu'|Hu']; [exact (Ho u Hu' _ Hx)|exact (Hu u Hu' _ Hx)].
  Qed.
  Lemma trial_misses cs l top e src : History check pton t skip cs l -> high_enough top ks skip ->
    (satisfiable (assertions (cs_stack cs)) -> trial top (assertions (cs_stack cs)) <> None) /\
    forall u, EvaluateConstraintSymbolically (cs_env cs) src e = Ok u -> satisfiable (assertions (cs_stack cs) ++ [u])%list -> trial top (assertions (cs_stack cs) ++ [u])%list <> None.
  Proof.
    intros HH Ht. split.
    - pose proof (trial_finds cs l top [] HH Ht (fun u (H : In u []) => match H with end)) as H. now rewrite app_nil_r in H.
    - intros u Hu. apply (trial_finds cs l top [u] HH Ht). intros v [<-|[]]. destruct (history_only cs l HH) as (_ & He & _). exact (encoded_only _ _ _ _ _ He Hu).
  Qed.
End History.
