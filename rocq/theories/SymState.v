(** What a ConstraintSolver holds after any sequence of calls. *)
From Coq Require Import String Ascii List ZArith NArith Bool Lia.
From Verif Require Import Base Num Token Ast Quote AstConstructors Info TypeChecker Parser Interpreter Z3 Symbolic SpecLexer SpecGrammar SpecTyping TypeFacts SpecSemantics SpecSymbolic SpecSolver
  NumFacts LiteralFacts EntryFacts SemFacts SemFacts2 ExplainFacts SymFacts SymFacts2 SymBytes SymKeys.
Import ListNotations.
Open Scope string_scope.

(** * The loop of Create *)
Definition needs_priority (l : list (string * key_info)) : Prop := exists n k w, In (n, k) l /\ (k_type k = TTernary w \/ k_type k = TOptional w).
Lemma create_keys_ok skip l : forall prio keys asserted p' keys' asserted', create_keys skip l prio keys asserted = Ok (p', keys', asserted') ->
  exists new newa, keys' = (keys ++ new)%list /\ asserted' = (asserted ++ newa)%list /\ (p' = true <-> prio = true \/ needs_priority l) /\
    (forall n k, In (n, k) l -> exists b, skip n = Ok b) /\
    (forall n sk, In (n, sk) new -> exists k a, In (n, k) l /\ skip n = Ok false /\ AddSymbolicKey k = Ok (sk, a)) /\
    (forall n k, In (n, k) l -> skip n = Ok false -> exists sk a, In (n, sk) new /\ AddSymbolicKey k = Ok (sk, a)) /\
    (forall m, satisfies m newa <-> forall n k sk a, In (n, k) l -> skip n = Ok false -> AddSymbolicKey k = Ok (sk, a) -> satisfies m a) /\
    (NoDup (map fst l) -> NoDup (map fst new)).
Proof.
  induction l as [|[n ki] l IH]; intros prio keys asserted p' keys' asserted' H; cbn [create_keys] in H.
  - apply Ok_inj in H. injection H as <- <- <-. exists [], []. rewrite !app_nil_r. split; [reflexivity|]. split; [reflexivity|].
    split; [split; [auto|intros [H|(n & k & w & [] & _)]; exact H]|]. split; [intros n k []|]. split; [intros n sk []|]. split; [intros n k []|]. split; [|constructor].
    intros m. split; [intros _ n k sk a []|intros _; apply satisfies_nil].
  - apply bind_ok in H as (b & Hb & H). set (prio1 := match k_type ki with TTernary _ | TOptional _ => true | _ => prio end) in *.
    assert (prio1 = true <-> prio = true \/ exists w, k_type ki = TTernary w \/ k_type ki = TOptional w) as Hp.
    { unfold prio1. destruct (k_type ki) eqn:E; split; try (intros [H'|(w' & [H'|H'])]; discriminate || exact H'); eauto; intros [H'|(w' & [H'|H'])]; auto; discriminate H'. }
    assert (forall P : Prop, (P <-> prio1 = true \/ needs_priority l) -> (P <-> prio = true \/ needs_priority ((n, ki) :: l))) as Hnp.
    { intros P ->. rewrite Hp. split.
      - intros [[H'|(w & H')]|(n' & k & w & Hi & H')]; [auto|right; exists n, ki, w; cbn; auto|right; exists n', k, w; cbn; auto].
      - intros [H'|(n' & k & w & [E|Hi] & H')]; [auto|injection E as <- <-; left; right; eauto|right; exists n', k, w; auto]. }
    destruct b.
    + apply IH in H as (new & newa & -> & -> & H3 & H4 & H5 & H6 & H7 & H8). exists new, newa. split; [reflexivity|]. split; [reflexivity|]. split; [now apply Hnp|].
      split; [intros n' k [E|Hi]; [injection E as <- <-; eauto|eauto]|]. split; [intros n' sk Hi; destruct (H5 _ _ Hi) as (k & a & Hk & HH); exists k, a; cbn; auto|].
      split; [intros n' k [E|Hi] Hs; [injection E as <- <-; congruence|now apply (H6 n' k)]|]. split; [|cbn; intros HN; inversion HN; auto].
      intros m. rewrite H7. split; intros HH n' k sk a; [|intros Hi; apply (HH n' k); now right]. intros [E|Hi] Hs Ha; [injection E as <- <-; congruence|eauto].
    + apply bind_ok in H as ([sk a] & Ha & H). apply IH in H as (new & newa & -> & -> & H3 & H4 & H5 & H6 & H7 & H8). exists ((n, sk) :: new), (a ++ newa)%list. rewrite <- !app_assoc. cbn [app].
      split; [reflexivity|]. split; [reflexivity|]. split; [now apply Hnp|]. split; [intros n' k [E|Hi]; [injection E as <- <-; eauto|eauto]|].
      split; [intros n' sk' [E|Hi]; [injection E as <- <-; exists ki, a; cbn; auto|destruct (H5 _ _ Hi) as (k & a' & Hk & HH); exists k, a'; cbn; auto]|].
      split; [intros n' k [E|Hi] Hs; [injection E as <- <-; exists sk, a; cbn; auto|destruct (H6 n' k Hi Hs) as (sk' & a' & Hi' & Ha'); exists sk', a'; cbn; auto]|]. split.
      * intros m. rewrite satisfies_app, H7. split.
        -- intros [HA HB] n' k sk' a' [E|Hi] Hs Ha'; [injection E as <- <-; rewrite Ha in Ha'; apply Ok_inj in Ha'; injection Ha' as <- <-; exact HA|eauto].
        -- intros HH. split; [apply (HH n ki sk a); cbn; auto|]. intros n' k sk' a' Hi. apply (HH n' k). now right.
      * cbn. intros HN. inversion HN as [|? ? Hn HN']; subst. constructor; [|auto]. intros Hi. apply Hn. apply in_map_iff in Hi as ([n' sk'] & E & Hi). cbn in E. subst n'.
        destruct (H5 _ _ Hi) as (k & _ & Hk & _). apply in_map_iff. exists (n, k). auto.
Qed.
Lemma create_keys_total skip l : (forall n k, In (n, k) l -> skip n = Ok true \/ skip n = Ok false /\ representable k) ->
  forall prio keys asserted, exists r, create_keys skip l prio keys asserted = Ok r.
Proof.
  induction l as [|[n ki] l IH]; intros Hs prio keys asserted; cbn [create_keys]; [eauto|].
  assert (forall n k, In (n, k) l -> skip n = Ok true \/ skip n = Ok false /\ representable k) as Hs' by (intros n' k' Hi; apply Hs; now right).
  destruct (Hs n ki (or_introl eq_refl)) as [E|[E Hr]]; rewrite E; cbn [bind]; [auto|]. apply add_key_iff in Hr as ([sk a] & ->). cbn [bind]. auto.
Qed.

Lemma ordered_nodup {V} (l : list (string * V)) : NoDup (map fst l) -> NoDup (map fst (Ordered l)).
Proof.
  intros HN. pose proof (ordered_strong l HN) as HS. induction HS as [|x m HS IH Hx]; cbn; [constructor|]. constructor; [|exact IH].
  intros Hi. apply in_map_iff in Hi as (y & E & Hy). rewrite Forall_forall in Hx. specialize (Hx y Hy). unfold klt in Hx. rewrite E in Hx. revert Hx. apply slt_irrefl.
Qed.

(** * Adding constraints *)
Definition encodes (env : sym_env) (e : expr) (u : term) : Prop := exists src, EvaluateConstraintSymbolically env src e = Ok u.
Lemma assertions_push u st : assertions ([u] :: st) = (assertions st ++ [u])%list.
Proof. unfold assertions. cbn [rev]. rewrite concat_app. cbn. reflexivity. Qed.
Section Add.
  Variable check : solver.
  Lemma sat_iff st : is_sat check st = true <-> check (assertions st) <> None.
  Proof. unfold is_sat. destruct (check (assertions st)); split; congruence. Qed.
  Lemma add_cases cs e src r cs' : AddConstraint check cs e src = (r, cs') ->
    (r <> Ok true /\ cs' = cs) \/
    (r = Ok true /\ exists u, EvaluateConstraintSymbolically (cs_env cs) src e = Ok u /\ cs' = set_stack cs ([u] :: cs_stack cs) /\ check (assertions (cs_stack cs)) <> None /\ check (assertions (cs_stack cs) ++ [u])%list <> None).
  Proof.
    unfold AddConstraint. destruct (is_sat check (cs_stack cs)) eqn:E1; cbn [negb]; [|intros [= <- <-]; left; split; [discriminate|reflexivity]].
    destruct (EvaluateConstraintSymbolically (cs_env cs) src e) as [u|c s|w]; try (intros [= <- <-]; left; split; [discriminate|reflexivity]).
    destruct (is_sbool u); cbn [negb]; [|intros [= <- <-]; left; split; [discriminate|reflexivity]].
    cbn [solver_add solver_push solver_pop tl app]. destruct (is_sat check ([u] :: cs_stack cs)) eqn:E2; cbn [negb]; intros [= <- <-].
    - right. split; [reflexivity|]. exists u. split; [reflexivity|]. split; [reflexivity|]. apply sat_iff in E1, E2. rewrite assertions_push in E2. auto.
    - left. split; [discriminate|]. destruct cs; reflexivity.
  Qed.
  Lemma add_true cs e src u : check (assertions (cs_stack cs)) <> None -> EvaluateConstraintSymbolically (cs_env cs) src e = Ok u -> sort_of u = SBool -> check (assertions (cs_stack cs) ++ [u])%list <> None ->
    AddConstraint check cs e src = (Ok true, set_stack cs ([u] :: cs_stack cs)).
  Proof.
    intros H1 H2 Hb H3. unfold AddConstraint. apply sat_iff in H1. apply is_sbool_eq in Hb. rewrite H1, H2. cbn [negb]. rewrite Hb. cbn [negb solver_add solver_push solver_pop tl app]. rewrite <- assertions_push in H3. apply sat_iff in H3. now rewrite H3.
  Qed.
  Lemma add_false cs e src u : check (assertions (cs_stack cs)) <> None -> EvaluateConstraintSymbolically (cs_env cs) src e = Ok u -> sort_of u = SBool -> check (assertions (cs_stack cs) ++ [u])%list = None ->
    AddConstraint check cs e src = (Ok false, cs).
  Proof.
    intros H1 H2 Hb H3. unfold AddConstraint. apply sat_iff in H1. apply is_sbool_eq in Hb. rewrite H1, H2. cbn [negb]. rewrite Hb. cbn [negb solver_add solver_push solver_pop tl app]. rewrite <- assertions_push in H3. unfold is_sat. rewrite H3. cbn [negb]. now destruct cs.
  Qed.
  Lemma add_error cs e src : check (assertions (cs_stack cs)) <> None -> (exists c s, EvaluateConstraintSymbolically (cs_env cs) src e = Err c s) -> exists c s, AddConstraint check cs e src = (Err c s, cs).
  Proof. intros H1 (c & s & H2). unfold AddConstraint. apply sat_iff in H1. rewrite H1, H2. cbn [negb]. eauto. Qed.
  Variable pton : inet_pton6.
  Lemma add_text_cases cs text r cs' : AddConstraintString check pton cs text = (r, cs') ->
    (r <> Ok true /\ cs' = cs) \/
    exists e0 e, ParseConstraint pton kTableConstraint (text_source (cs_table cs) text) = Ok e0 /\ InferTable e0 (cs_table cs) = Ok e /\ AddConstraint check cs e (text_source (cs_table cs) text) = (r, cs').
  Proof.
    unfold AddConstraintString, text_source. destruct (ParseConstraint _ _ _) as [e0|c s|w]; cbn [bind]; try (intros [= <- <-]; left; split; [discriminate|reflexivity]).
    destruct (InferTable e0 (cs_table cs)) as [e|c s|w] eqn:E; try (intros [= <- <-]; left; split; [discriminate|reflexivity]). intros H. right. eauto.
  Qed.
  Lemma add_text cs text e0 e : ParseConstraint pton kTableConstraint (text_source (cs_table cs) text) = Ok e0 -> InferTable e0 (cs_table cs) = Ok e ->
    AddConstraintString check pton cs text = AddConstraint check cs e (text_source (cs_table cs) text).
  Proof. unfold AddConstraintString, text_source. intros -> H. cbn [bind]. now rewrite H. Qed.
End Add.

Section State.
  Variables (t : table_info) (ks : list key_info).
  Hypothesis HK : table_keys t ks.
  Variable skip : string -> outcome bool.
  Record built (env : sym_env) (base : list term) : Prop := {
    b_skip : forall k, In k ks -> exists b, skip (k_name k) = Ok b;
    b_keys : forall n sk, assoc_find String.eqb n (se_keys env) = Some sk <-> exists k a, In k ks /\ k_name k = n /\ live skip k /\ AddSymbolicKey k = Ok (sk, a);
    b_repr : forall k, In k ks -> live skip k -> representable k;
    b_prio : prioritized ks -> se_attrs env = [("priority", ZConst "priority" SInt)];
    b_noprio : ~ prioritized ks -> se_attrs env = [];
    b_base : forall m, well_sorted m -> (satisfies m base <-> (forall k sk a, In k ks -> live skip k -> AddSymbolicKey k = Ok (sk, a) -> satisfies m a) /\
      (prioritized ks -> exists p, pictures_priority m p /\ priority_ok p)) }.
  Lemma in_ordered n k : In (n, k) (Ordered (ti_keys_by_name t)) <-> In k ks /\ k_name k = n.
  Proof. rewrite ordered_in. apply (by_name t ks HK). Qed.
  Lemma needs_prioritized : needs_priority (Ordered (ti_keys_by_name t)) <-> prioritized ks.
  Proof.
    split.
    - intros (n & k & w & Hi & H). apply in_ordered in Hi as [Hi _]. exists k, w. auto.
    - intros (k & w & Hi & H). exists (k_name k), k, w. split; [now apply in_ordered|exact H].
  Qed.
  Lemma prio_sat m : well_sorted m -> (satisfies m (snd AddSymbolicPriority) <-> exists p, pictures_priority m p /\ priority_ok p).
  Proof.
    intros Hm. unfold AddSymbolicPriority, z3_int_const. cbn [snd]. rewrite !satisfies_cons. cbn [zeval]. destruct (proj1 (proj2 (Hm "priority"))) as (p & Ep). change (c_str kSymbolicPriorityAttributeName) with "priority". rewrite Ep. cbn [as_int icmp_holds].
    rewrite !VB_iff, Z.gtb_lt, Z.leb_le. unfold pictures_priority, priority_ok. split.
    - intros (H1 & H2 & _). exists p. split; [exact Ep|lia].
    - intros (p' & Ep' & Hp). assert (p' = p) as -> by congruence. split; [lia|]. split; [lia|apply satisfies_nil].
  Qed.
  Lemma built_env prio keys asserted : create_keys skip (Ordered (ti_keys_by_name t)) false [] [] = Ok (prio, keys, asserted) ->
    built (mkEnv keys (if prio then [(kSymbolicPriorityAttributeName, fst AddSymbolicPriority)] else [])) (if prio then asserted ++ snd AddSymbolicPriority else asserted)%list.
  Proof.
    intros H. apply create_keys_ok in H as (new & newa & -> & -> & H3 & H4 & H5 & H6 & H7 & H8). cbn [app] in *.
    assert (prio = true <-> prioritized ks) as Hp. { rewrite H3, needs_prioritized. split; [intros [H|H]; [discriminate|exact H]|auto]. }
    specialize (H8 (ordered_nodup _ (tk_by_name_unique _ _ HK))). split.
    - intros k Hk. apply (H4 (k_name k) k). now apply in_ordered.
    - intros n sk. cbn [se_keys]. rewrite (afind_iff String.eqb String.eqb_eq) by exact H8. split.
      + intros Hi. destruct (H5 _ _ Hi) as (k & a & Hk & Hs & Ha). apply in_ordered in Hk as [Hk <-]. exists k, a. auto.
      + intros (k & a & Hk & <- & Hs & Ha). destruct (H6 (k_name k) k) as (sk' & a' & Hi & Ha'); [now apply in_ordered|exact Hs|]. rewrite Ha in Ha'. apply Ok_inj in Ha'. injection Ha' as <- <-. exact Hi.
    - intros k Hk Hs. destruct (H6 (k_name k) k) as (sk' & a' & Hi & Ha'); [now apply in_ordered|exact Hs|]. apply add_key_iff. eauto.
    - intros HP. cbn [se_attrs]. destruct prio; [reflexivity|]. apply Hp in HP. discriminate.
    - intros HP. cbn [se_attrs]. destruct prio; [|reflexivity]. destruct HP. now apply Hp.
    - intros m Hm. assert (satisfies m newa <-> forall k sk a, In k ks -> live skip k -> AddSymbolicKey k = Ok (sk, a) -> satisfies m a) as Hn.
      { rewrite H7. split; [intros HH k sk a Hk Hs Ha; apply (HH (k_name k) k sk a); [now apply in_ordered|exact Hs|exact Ha]|]. intros HH n k sk a Hi Hs Ha. apply in_ordered in Hi as [Hi <-]. eauto. }
      rewrite <- Hn. destruct prio.
      + rewrite satisfies_app, prio_sat by exact Hm. pose proof (proj1 Hp eq_refl). tauto.
      + assert (~ prioritized ks) by (intros HP; apply Hp in HP; discriminate). tauto.
  Qed.

  Definition own : list expr := match ti_constraint t with Some e => [e] | None => [] end.
  (** The state of a solver that accepted [l]. *)
  Record holds (check : solver) (cs : constraint_solver) (l : list expr) (base us : list term) : Prop := {
    h_table : cs_table cs = t; h_skip : cs_skip cs = skip; h_built : built (cs_env cs) base;
    h_assertions : assertions (cs_stack cs) = (base ++ us)%list;
    h_encoded : Forall2 (encodes (cs_env cs)) l us;
    h_sat : us = [] \/ check (base ++ us)%list <> None }.
  Variable check : solver.
  Lemma create_holds cs : Create check t skip = Ok cs -> exists base us, holds check cs own base us.
  Proof.
    unfold Create, own. intros H. apply bind_ok in H as ([[prio keys] asserted] & Hc & H). apply built_env in Hc.
    assert ((if prio then ([(kSymbolicPriorityAttributeName, fst AddSymbolicPriority)], (asserted ++ snd AddSymbolicPriority)%list) else ([], asserted))
      = ((if prio then [(kSymbolicPriorityAttributeName, fst AddSymbolicPriority)] else []), (if prio then asserted ++ snd AddSymbolicPriority else asserted)%list)) as E by now destruct prio.
    rewrite E in H. clear E. revert Hc H. generalize (if prio then asserted ++ snd AddSymbolicPriority else asserted)%list as base. generalize (if prio then [(kSymbolicPriorityAttributeName, fst AddSymbolicPriority)] else []) as attrs. intros attrs base Hb H.
    assert (assertions [base] = base) as Ea by (unfold assertions; cbn; apply app_nil_r).
    destruct (ti_constraint t) as [e|].
    - destruct (AddConstraint check _ e (ti_source t)) as [[b| |] cs'] eqn:EA; try discriminate H. destruct b; [|discriminate H]. apply Ok_inj in H as ->.
      apply add_cases in EA as [[E _]|(_ & u & Hu & -> & _ & Hs)]; [congruence|]. cbn [cs_stack cs_env] in *. exists base, [u]. rewrite Ea in Hs. split; cbn [set_stack cs_table cs_skip cs_env cs_stack]; auto.
      repeat constructor. now exists (ti_source t).
    - apply Ok_inj in H as <-. exists base, []. split; cbn [cs_table cs_skip cs_env cs_stack]; auto.
  Qed.
  Lemma add_holds cs l base us e src cs' : holds check cs l base us -> AddConstraint check cs e src = (Ok true, cs') -> exists u, holds check cs' (l ++ [e])%list base (us ++ [u])%list.
  Proof.
    intros [H1 H2 H3 H4 H5 H6] H. apply add_cases in H as [[E _]|(_ & u & Hu & -> & _ & Hs)]; [congruence|]. exists u. split; cbn [set_stack cs_table cs_skip cs_env cs_stack]; auto.
    - rewrite assertions_push, H4, app_assoc. reflexivity.
    - apply Forall2_app; [exact H5|]. repeat constructor. now exists src.
    - right. rewrite H4 in Hs. now rewrite app_assoc.
  Qed.
  Variable pton : inet_pton6.
  Lemma history_holds cs l : History check pton t skip cs l -> exists base us, holds check cs l base us.
  Proof.
    induction 1 as [cs H|cs l e src cs' H (base & us & IH) HA|cs l e src r cs' H (base & us & IH) HA Hr|cs l text e0 e cs' H (base & us & IH) HA Hp Hi|cs l text r cs' H (base & us & IH) HA Hr].
    - now apply create_holds.
    - destruct (add_holds _ _ _ _ _ _ _ IH HA) as (u & Hu). eauto.
    - apply add_cases in HA as [[_ ->]|[E _]]; [eauto|congruence].
    - rewrite <- (h_table _ _ _ _ _ IH) in Hp, Hi. rewrite (add_text check pton cs text e0 e Hp Hi) in HA. destruct (add_holds _ _ _ _ _ _ _ IH HA) as (u & Hu). eauto.
    - apply add_text_cases in HA as [[_ ->]|(e0 & e & Hp & Hi & HA)]; [eauto|]. apply add_cases in HA as [[_ ->]|[E _]]; [eauto|congruence].
  Qed.
  (** The well-formedness assertions alone can be met. *)
  Definition trivial : assignment := fun _ s => match s with SBV w => VV w 0 | SInt => VI 1 | SBool => VB true end.
  Lemma trivial_sorted : well_sorted trivial.
  Proof. intros n. split; [|split; eexists; reflexivity]. intros w Hw. exists 0%Z. split; [reflexivity|]. split; [lia|]. apply Z.pow_pos_nonneg; lia. Qed.
  Lemma trivial_key k sk a : AddSymbolicKey k = Ok (sk, a) -> satisfies trivial a.
  Proof.
    intros Ha. destruct (key_pictured k sk a Ha trivial trivial_sorted) as (v & Hv). apply (key_canonical_value k sk a Ha trivial v trivial_sorted Hv).
    apply add_key_cases in Ha as (w & Hw & Hc). assert (0 < 2 ^ w)%Z by (apply Z.pow_pos_nonneg; lia).
    destruct Hc as [(E & _)|[(E & _)|[(E & _)|(E & _)]]]; rewrite E; inversion Hv as [w' z Et E1|w' z x Et E1 E2|w' z p Et E1 E2]; subst; rewrite E in Et; try (destruct Et as [Et|Et]); try discriminate Et; injection Et as <-;
      cbn in *; injection E1 as <-; try (injection E2 as <-); constructor; try lia; auto.
    - intros i Hi. now rewrite Z.bits_0 in Hi.
    - exists 0%Z. lia.
  Qed.
  Lemma base_satisfiable env base : built env base -> satisfiable base.
  Proof.
    intros Hb. exists trivial. split; [exact trivial_sorted|]. apply (b_base _ _ Hb _ trivial_sorted). split; [intros k sk a _ _; apply trivial_key|]. intros _. exists 1%Z. split; [reflexivity|unfold priority_ok; lia].
  Qed.
  Lemma holds_satisfiable cs l base us : sound_solver check -> holds check cs l base us -> satisfiable (assertions (cs_stack cs)).
  Proof.
    intros Hs [H1 H2 H3 H4 H5 H6]. rewrite H4. destruct H6 as [->|H6]; [rewrite app_nil_r; eapply base_satisfiable; eauto|].
    destruct (check (base ++ us)%list) as [m|] eqn:E; [|congruence]. exists (complete m). apply (Hs _ _ E).
  Qed.
End State.
