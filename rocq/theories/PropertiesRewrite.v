(** C80: rewriting constraints does not change what a solver does. *)
From Coq Require Import String Ascii List ZArith NArith Bool Lia.
From Verif Require Import Base Num Token Ast Lexer Quote AstConstructors Parser Info TypeChecker ConstraintInfo Interpreter Z3 Symbolic SpecLexer SpecGrammar SpecParser SpecTyping SpecSemantics SpecInfo SpecMisc SpecLaws SpecSymbolic SpecSolver SpecReading SpecSession SpecShared
  StrFacts NumFacts LiteralFacts ParserFacts4 TypeFacts EvalFacts SemFacts SemFacts2 EntryFacts EntryFacts2 InfoFacts InfoFacts2 InterpFacts InterpFacts2 LawFacts CombineFacts RenameFacts SymFacts SymFacts2 SymKeys SymState SymMeaning SymComplete SymDemo ReadingFacts ReadingFacts2 ReadingFacts3 SolverLawFacts
  PropertiesParser PropertiesTypes PropertiesInfo PropertiesVerdict PropertiesSymbolic PropertiesReading PropertiesSession.
Import ListNotations.
Open Scope string_scope.

(** * Rewriting preserves types and the solver's reading. *)
Lemma rewrites_read keys r e f : NoDup (map fst keys) -> fits (InTable keys) r -> Rewrites (InTable keys) e f ->
  (forall t, Typed (InTable keys) e t <-> Typed (InTable keys) f t) /\ (forall v, Meant signed_order (InTable keys) r e v <-> Meant signed_order (InTable keys) r f v).
Proof.
  intros HN HR H. induction H as [a b HL Ta Tb La Lb|a b HA|a b H IH|a b c H1 IH1 H2 IH2|m n a b H IH|m n o a b c d H1 IH1 H2 IH2].
  - split.
    + intros t. split; intros Ht.
      * rewrite (typed_fun _ _ _ (scope_witness keys HN) _ _ _ Ht Ta). exact Tb.
      * rewrite (typed_fun _ _ _ (scope_witness keys HN) _ _ _ Ht Tb). exact Ta.
    + destruct (solver_law keys HN r HR a b HL Ta Tb La Lb) as (x & Hx & Hy). intros v. split; intros Hv.
      * rewrite (reading_unique keys HN r _ _ _ Hv Hx). exact Hy.
      * rewrite (reading_unique keys HN r _ _ _ Hv Hy). exact Hx.
  - pose proof (alike_sym _ _ HA) as HA'. split; intros; split; eauto using typed_alike, meant_alike.
  - destruct IH as [I1 I2]. split; intros; symmetry; auto.
  - destruct IH1 as [I1 I2], IH2 as [J1 J2]. split; intros; [rewrite I1|rewrite I2]; auto.
  - destruct IH as [I1 I2]. split; intros x; split; intros Hx; inversion Hx; subst; constructor; first [now apply I1|now apply I2].
  - destruct IH1 as [I1 I2], IH2 as [J1 J2]. split; intros x; split; intros Hx; inversion Hx; subst.
    all: try solve [econstructor; try eassumption; first [now apply I1|now apply J1]].
    all: try solve [eapply mn_left; try eassumption; now apply I2].
    all: try solve [apply mn_both; try assumption; first [now apply I2|now apply J2]].
    all: try (eapply mn_compare; try eassumption; first [now apply I1|now apply J1|now apply I2|now apply J2]).
Qed.
(** Only the keys mentioned matter. *)
Lemma meant_agree cmp G key key' p e v : (forall n, mentions e n -> key n = key' n) -> Meant cmp G (TableEnv key p) e v -> Meant cmp G (TableEnv key' p) e v.
Proof.
  intros Hk H. remember (TableEnv key p) as r eqn:Er. revert Er Hk. induction H; intros Er Hk; subst.
  - constructor.
  - now constructor.
  - injection Er as -> ->. eapply mn_key; [reflexivity|]. rewrite <- Hk; [assumption|constructor].
  - discriminate Er.
  - injection Er as -> ->. now eapply mn_priority.
  - constructor. apply IHMeant; [reflexivity|]. intros k Hm. apply Hk. now constructor.
  - constructor. apply IHMeant; [reflexivity|]. intros k Hm. apply Hk. now constructor.
  - eapply mn_left; eauto. apply IHMeant; [reflexivity|]. intros k Hm. apply Hk. now apply me_left.
  - eapply mn_both; eauto; [apply IHMeant1|apply IHMeant2]; try reflexivity; intros k Hm; apply Hk; [now apply me_left|now apply me_right].
  - eapply mn_compare; eauto; [apply IHMeant1|apply IHMeant2]; try reflexivity; intros k Hm; apply Hk; [now apply me_left|now apply me_right].
  - eapply mn_field; eauto. apply IHMeant; [reflexivity|]. intros k Hm. apply Hk. now constructor.
Qed.
Definition some_value (t : ty) : value :=
  match t with
  | TBool => VBool true
  | TExact _ => VExact 0
  | TTernary _ | TOptional _ => VTernary 0 0
  | TLpm _ => VLpm 0 0
  | TRange _ => VRange 0 0
  | _ => VInt 0
  end.
Lemma some_ranged t : SpecTyping.usable t -> t <> TNotSet -> (forall w, width t w -> (0 <= w)%Z) -> ranged t (some_value t).
Proof.
  intros [H1 H2] H3 Hw. assert (forall w, width t w -> (0 <= 0 < 2 ^ w)%Z) as H0 by (intros w Hwt; split; [lia|]; apply Z.pow_pos_nonneg; [lia|auto]).
  destruct t; try congruence; try (now destruct (H2 name)); cbn [some_value]; constructor; try (apply H0; constructor).
Qed.
Lemma canonical_ranged t f v : (forall w, width t w -> (0 <= w)%Z) -> canonical_match t f v -> ranged t v.
Proof.
  intros Hw H. assert (forall w, width t w -> (0 < 2 ^ w)%Z) as H0 by (intros w Hwt; apply Z.pow_pos_nonneg; [lia|auto]).
  destruct H as [w s (_ & _ & H)|w s m (_ & _ & H) (_ & _ & H') Hn Hm|w|w s (_ & _ & H)|w|w s p (_ & _ & H) Hp Hm|w]; (assert (0 < 2 ^ w)%Z as Hpos by (apply H0; constructor)); try pose proof (unsigned_nonneg s); try pose proof (unsigned_nonneg m); constructor; lia.
Qed.

Section Rewriting.
  Variables (t : table_info) (ks : list key_info) (skip : string -> outcome bool).
  Hypothesis HK : table_keys t ks.
  Hypothesis Hw : int32_widths ks.
  Hypothesis Hset : forall k, In k ks -> k_type k <> TNotSet.
  Let G := InTable (ti_keys_by_name t).
  Lemma full_env fields key p : well_formed (live_keys skip ks) fields -> (forall n v, key n = Some v <-> Assigned (live_keys skip ks) fields n v) ->
    exists key', fits G (TableEnv key' p) /\ forall k, In k (live_keys skip ks) -> key (k_name k) = key' (k_name k).
  Proof.
    intros HW Hkey. assert (forall k, In k ks -> live skip k -> exists v, key (k_name k) = Some v /\ ranged (k_type k) v) as Hlive.
    { intros k Hk Hl. destruct (formed_value t ks HK skip fields k HW Hk Hl) as (f & v & Hc & Hf). exists v. assert (In k (live_keys skip ks)) as Hk' by now apply live_in. split.
      - apply Hkey. destruct f as [x|]; [apply (as_present _ _ k (mkFM (k_id k) x)); auto|apply as_omitted; auto]; [apply canonical_field; [exact Hc|intros w Hw'; exact (int32_nonneg ks Hw k w Hk Hw')]|now apply canonical_wild].
      - exact (canonical_ranged _ _ _ (fun w H => int32_nonneg ks Hw k w Hk H) Hc). }
    exists (fun n => match find (fun k => String.eqb (k_name k) n) ks with Some k => match skip (k_name k) with Ok false => key n | _ => Some (some_value (k_type k)) end | None => None end). split.
    - constructor.
      + intros n ty (k & Hk & <-) Hu. apply (tk_by_name t ks HK) in Hk. apply in_map_iff in Hk as (k' & E & Hk). injection E as E ->.
        destruct (find _ ks) as [k'|] eqn:Ef.
        * apply find_some in Ef as [Hk' En]. apply String.eqb_eq in En. assert (k' = k) as -> by (apply (nodup_keys k_name ks); auto; [apply HK|congruence]).
          destruct (skip (k_name k)) as [[]| |] eqn:Es.
          -- eexists. split; [reflexivity|]. apply some_ranged; [exact Hu|exact (Hset k Hk)|intros w0 Hwt; exact (int32_nonneg ks Hw k w0 Hk Hwt)].
          -- rewrite <- E. apply Hlive; [exact Hk|exact Es].
          -- eexists. split; [reflexivity|]. apply some_ranged; [exact Hu|exact (Hset k Hk)|intros w0 Hwt; exact (int32_nonneg ks Hw k w0 Hk Hwt)].
          -- eexists. split; [reflexivity|]. apply some_ranged; [exact Hu|exact (Hset k Hk)|intros w0 Hwt; exact (int32_nonneg ks Hw k w0 Hk Hwt)].
        * exfalso. apply (find_none _ _ Ef) in Hk. now rewrite E, String.eqb_refl in Hk.
      + intros n ty w (k & Hk & <-) Hwt. apply (tk_by_name t ks HK) in Hk. apply in_map_iff in Hk as (k' & E & Hk). injection E as E ->. exact (int32_nonneg ks Hw k w Hk Hwt).
    - intros k Hk. apply live_in in Hk as [Hk Hl]. destruct (find _ ks) as [k'|] eqn:Ef.
      + apply find_some in Ef as [Hk' En]. apply String.eqb_eq in En. assert (k' = k) as -> by (apply (nodup_keys k_name ks); auto; apply HK). unfold live in Hl. now rewrite Hl.
      + exfalso. apply (find_none _ _ Ef) in Hk. now rewrite String.eqb_refl in Hk.
  Qed.
  Lemma rewritten_reading fields key p e f : well_formed (live_keys skip ks) fields -> (forall n v, key n = Some v <-> Assigned (live_keys skip ks) fields n v) ->
    solvable t ks skip e -> solvable t ks skip f -> Rewrites G e f -> forall v, Meant signed_order G (TableEnv key p) e v <-> Meant signed_order G (TableEnv key p) f v.
  Proof.
    intros HW Hkey (_ & _ & Me & _) (_ & _ & Mf & _) HR v. destruct (full_env fields key p HW Hkey) as (key' & HF & Hag).
    destruct (rewrites_read _ _ _ _ (tk_by_name_unique t ks HK) HF HR) as [_ H].
    assert (forall n, mentions e n -> key n = key' n) as He by (intros n Hn; destruct (Me n Hn) as (k & Hk & <-); auto).
    assert (forall n, mentions f n -> key n = key' n) as Hf by (intros n Hn; destruct (Mf n Hn) as (k & Hk & <-); auto).
    split; intros Hv.
    - apply (meant_agree _ _ key' key p); [intros; symmetry; auto|]. apply H. now apply (meant_agree _ _ key key' p).
    - apply (meant_agree _ _ key' key p); [intros; symmetry; auto|]. apply H. now apply (meant_agree _ _ key key' p).
  Qed.
End Rewriting.

(** * C80 *)
(** Constraints that can be rewritten into each other have the same solutions, together with any others. *)
Theorem C80_same_solutions : forall t ks skip l es es' fields p, table_keys t ks -> int32_widths ks -> (forall k, In k ks -> k_type k <> TNotSet) ->
  Forall2 (fun e f => solvable t ks skip e /\ solvable t ks skip f /\ Rewrites (InTable (ti_keys_by_name t)) e f) es es' ->
  (solution t ks skip (l ++ es) fields p <-> solution t ks skip (l ++ es') fields p).
Proof.
  intros t ks skip l es es' fields p HK Hw Hset HF.
  split; intros (H1 & H2 & key & H3 & H4); (split; [exact H1|]); (split; [exact H2|]); exists key; (split; [exact H3|]); apply Forall_app in H4 as [H4 H5]; apply Forall_app; (split; [exact H4|]).
  - revert H5. induction HF as [|e f es es' (S1 & S2 & HR) HF IH]; intros H5; [constructor|]. inversion H5 as [|? ? H6 H7]; subst. constructor; [|auto]. exact (proj1 (rewritten_reading t ks skip HK Hw Hset fields key p e f H1 H3 S1 S2 HR _) H6).
  - revert H5. induction HF as [|e f es es' (S1 & S2 & HR) HF IH]; intros H5; [constructor|]. inversion H5 as [|? ? H6 H7]; subst. constructor; [|auto]. exact (proj2 (rewritten_reading t ks skip HK Hw Hset fields key p e f H1 H3 S1 S2 HR _) H6).
Qed.
Print Assumptions C80_same_solutions.
(** A session in which some of the constraints are rewritten is accepted just the same, unless Z3 overlooks a model on the way. *)
Theorem C80_same_answers : forall check pton t ks skip cs l l0 texts texts' es es', pton_ok pton -> table_keys t ks -> int32_widths ks -> (forall k, In k ks -> k_type k <> TNotSet) -> sound_solver check ->
  History check pton t skip cs l -> written t l0 l -> Forall2 (usable pton t ks skip) texts es -> Forall2 (usable pton t ks skip) texts' es' -> Forall2 (Rewrites (InTable (ti_keys_by_name t))) es es' ->
  (exists cs', Accepts check pton cs texts cs') -> (exists cs', Accepts check pton cs texts' cs') \/ gets_stuck check pton cs texts'.
Proof.
  intros check pton t ks skip cs l l0 texts texts' es es' Hp HK Hw Hset Hso HH HL HU HU' HR HA.
  apply (C72_session check pton t ks skip cs l l0 texts' es' Hp HK Hw Hso HH HL HU').
  apply (C72_session check pton t ks skip cs l l0 texts es Hp HK Hw Hso HH HL HU) in HA as (fields & p & HS). exists fields, p.
  split; [|exact (proj2 HS)]. apply proj1 in HS. apply (C80_same_solutions t ks skip l0 es es' fields p HK Hw Hset); [|exact HS].
  clear - HU HU' HR. revert texts texts' HU HU'. induction HR as [|e f es es' H HR IH]; intros texts texts' HU HU'; [constructor|]. inversion HU as [|? ? ? ? [_ S1] HU1]; subst. inversion HU' as [|? ? ? ? [_ S2] HU2]; subst. constructor; [auto|]. eapply IH; eauto.
Qed.
Print Assumptions C80_same_answers.
(** One constraint: both texts are answered alike. *)
Theorem C80_same_answer : forall check pton t ks skip cs l l0 a a' e e' b cs1, pton_ok pton -> table_keys t ks -> int32_widths ks -> (forall k, In k ks -> k_type k <> TNotSet) -> sound_solver check ->
  History check pton t skip cs l -> written t l0 l -> usable pton t ks skip a e -> usable pton t ks skip a' e' -> Rewrites (InTable (ti_keys_by_name t)) e e' ->
  AddConstraintString check pton cs a = (Ok b, cs1) -> overlooks check pton cs a \/ overlooks check pton cs a' \/ exists cs1', AddConstraintString check pton cs a' = (Ok b, cs1').
Proof.
  intros check pton t ks skip cs l l0 a a' e e' b cs1 Hp HK Hw Hset Hso HH HL HU HU' HR E.
  destruct (step check pton t ks skip Hp HK Hw Hso cs l l0 a e HH HL HU) as [Ho|(x & cs2 & E2 & H2)]; [auto|]. rewrite E in E2. injection E2 as <- <-.
  destruct (step check pton t ks skip Hp HK Hw Hso cs l l0 a' e' HH HL HU') as [Ho|(y & cs3 & E3 & H3)]; [auto|].
  assert (forall fields p, coherent_solution t ks skip (l0 ++ [e]) fields p <-> coherent_solution t ks skip (l0 ++ [e']) fields p) as HS.
  { intros fields p. apply and_iff_compat_r. apply (C80_same_solutions t ks skip l0 [e] [e'] fields p HK Hw Hset). constructor; [|constructor]. exact (conj (proj2 HU) (conj (proj2 HU') HR)). }
  destruct b, y.
  - eauto.
  - destruct H2 as (_ & _ & _ & fields & p & H2). right. left. apply H3. exists fields, p. now apply HS.
  - destruct H3 as (_ & _ & _ & fields & p & H3). left. apply H2. exists fields, p. now apply HS.
  - eauto.
Qed.
Print Assumptions C80_same_answer.

(** * Case *)
Definition rw_text : string := "e != 0 && t::value >= 2".
Definition rw_text' : string := "! (e == 0) ; 2 <= t::value".
Definition rw_tree : expr := Eval vm_compute in the no_expr (ParseConstraint pton1 kTableConstraint (text_source sy_table rw_text)).
Definition rw_tree' : expr := Eval vm_compute in the no_expr (ParseConstraint pton1 kTableConstraint (text_source sy_table rw_text')).
Lemma rw_parsed : ParseConstraint pton1 kTableConstraint (text_source sy_table rw_text) = Ok rw_tree /\ ParseConstraint pton1 kTableConstraint (text_source sy_table rw_text') = Ok rw_tree'.
Proof. split; vm_compute; reflexivity. Qed.
Lemma rw_usable : usable pton1 sy_table sy_keys sy_skip rw_text rw_tree.
Proof.
  eapply se_solvable; [exact (proj1 rw_parsed)|vm_compute; reflexivity|reflexivity|].
  intros n Hn. repeat match goal with H : mentions _ _ |- _ => inversion H; clear H; subst end; cbn; eauto 10.
Qed.
Lemma rw_usable' : usable pton1 sy_table sy_keys sy_skip rw_text' rw_tree'.
Proof.
  eapply se_solvable; [exact (proj2 rw_parsed)|vm_compute; reflexivity|reflexivity|].
  intros n Hn. repeat match goal with H : mentions _ _ |- _ => inversion H; clear H; subst end; cbn; eauto 10.
Qed.
Lemma rw_typed x : (match InferTable x sy_table with Ok y => is_bool_type (e_type y) | _ => false end) = true -> Typed (InTable (ti_keys_by_name sy_table)) x TBool.
Proof.
  intros H. destruct (InferTable x _) as [y| |] eqn:E; [|discriminate..]. apply bool_iff in H. rewrite <- H.
  exact (proj1 (infer_ok None (Some sy_table) _ (table_in_scope _ _ sy_table_keys) _ _ E)).
Qed.
Lemma rw_rewrites : Rewrites (InTable (ti_keys_by_name sy_table)) rw_tree rw_tree'.
Proof.
  pose proof (proj1 (proj2 (proj2 rw_usable))) as L. pose proof (proj1 (proj2 (proj2 rw_usable'))) as L'. unfold rw_tree, rw_tree' in *. cbn [literals] in L, L'.
  apply rw_bin.
  - eapply rw_trans; [apply rw_law; [apply (law_ne _ (at_ default_loc default_loc) (at_ default_loc default_loc))|apply rw_typed; vm_compute; reflexivity|apply rw_typed; vm_compute; reflexivity|cbn [literals]; tauto|cbn [literals]; tauto]|]. apply rw_alike. repeat constructor.
  - eapply rw_trans; [apply rw_law; [apply (law_ge _ (at_ default_loc default_loc))|apply rw_typed; vm_compute; reflexivity|apply rw_typed; vm_compute; reflexivity|cbn [literals]; tauto|cbn [literals]; tauto]|]. apply rw_alike. repeat constructor.
Qed.
Example C80_case : (forall k, In k sy_keys -> k_type k <> TNotSet) /\ usable pton1 sy_table sy_keys sy_skip rw_text rw_tree /\ usable pton1 sy_table sy_keys sy_skip rw_text' rw_tree' /\
  Rewrites (InTable (ti_keys_by_name sy_table)) rw_tree rw_tree' /\ rw_tree <> rw_tree' /\
  fst (AddConstraintString sy_check pton1 sy_cs rw_text) = Ok true /\ fst (AddConstraintString sy_check pton1 sy_cs rw_text') = Ok true.
Proof.
  split; [intros k Hk; repeat (destruct Hk as [<-|Hk]; [discriminate|]); destruct Hk|]. split; [exact rw_usable|]. split; [exact rw_usable'|]. split; [exact rw_rewrites|]. split; [discriminate|]. split; vm_compute; reflexivity.
Qed.
