(** C72, C73: adding several constraints to a solver, and asking it what follows from them. *)
From Coq Require Import String Ascii List ZArith NArith Bool Lia Permutation.
From Verif Require Import Base Num Token Ast Lexer Quote AstConstructors Parser Info TypeChecker ConstraintInfo Interpreter Z3 Symbolic SpecLexer SpecGrammar SpecParser SpecTyping SpecSemantics SpecInfo SpecMisc SpecLaws SpecSymbolic SpecSolver SpecReading SpecSession SpecShared
  StrFacts NumFacts LiteralFacts ParserFacts4 TypeFacts EvalFacts SemFacts SemFacts2 EntryFacts EntryFacts2 InfoFacts InfoFacts2 InterpFacts InterpFacts2 LawFacts CombineFacts RenameFacts SymFacts SymFacts2 SymKeys SymState SymMeaning SymComplete SymDemo ReadingFacts ReadingFacts2 ReadingFacts3
  PropertiesParser PropertiesTypes PropertiesInfo PropertiesVerdict PropertiesSymbolic PropertiesReading SharedFacts.
Import ListNotations.
Open Scope string_scope.

(** * Readings of combined constraints *)
Lemma meant_alike cmp G r e f v : Alike e f -> Meant cmp G r e v -> Meant cmp G r f v.
Proof.
  intros H. revert v. induction H; intros v Hd; inversion Hd; subst; try solve [econstructor; eauto].
  eapply mn_compare; eauto using typed_alike.
Qed.
Lemma mentions_alike e f n : Alike e f -> mentions f n -> mentions e n.
Proof. induction 1; intros Hm; inversion Hm; subst; solve [econstructor; eauto]. Qed.
Lemma attribute_alike e f : Alike e f -> has_attribute f -> has_attribute e.
Proof. induction 1; intros Hm; inversion Hm; subst; solve [econstructor; eauto]. Qed.
Lemma solvable_alike t ks skip e f : Alike e f -> solvable t ks skip e -> solvable t ks skip f.
Proof.
  intros H (H1 & H2 & H3 & H4). split; [eapply typed_alike; eauto|]. split; [eapply literals_alike; eauto|]. split; [intros n Hn; apply H3; eapply mentions_alike; eauto|intros Ha; apply H4; eapply attribute_alike; eauto].
Qed.
Lemma solvable_bin t ks skip m o a b : connective o -> solvable t ks skip a -> solvable t ks skip b -> solvable t ks skip (EBin m o a b).
Proof.
  intros Ho (A1 & A2 & A3 & A4) (B1 & B2 & B3 & B4). split; [now apply T_conn|]. split; [now split|]. split.
  - intros n Hn. inversion Hn; subst; auto.
  - intros Hn. inversion Hn; subst; auto.
Qed.
Lemma solvable_not t ks skip m a : solvable t ks skip a -> solvable t ks skip (ENot m a).
Proof.
  intros (A1 & A2 & A3 & A4). split; [now apply T_not|]. split; [exact A2|]. split.
  - intros n Hn. inversion Hn; subst; auto.
  - intros Hn. inversion Hn; subst; auto.
Qed.
Lemma meant_and cmp G r m a b : Meant cmp G r (EBin m OAND a b) (VBool true) <-> Meant cmp G r a (VBool true) /\ Meant cmp G r b (VBool true).
Proof.
  split.
  - intros H. inversion H as [| | | | | | |m1 o1 a1 b1 x y Hc Ha Ht|m1 o1 a1 b1 x y Hc Ha Hb|m1 o1 a1 b1 ta tb t u v u' v' x Hc|]; subst; [|destruct x, y; try discriminate; auto|inversion Hc; match goal with X : ordering _ |- _ => inversion X | X : equality _ |- _ => inversion X end].
    specialize (Ht false). now destruct x.
  - intros [Ha Hb]. exact (mn_both cmp G r m OAND a b true true c_and Ha Hb).
Qed.
Lemma meant_or cmp G r m a b : Meant cmp G r (EBin m OOR a b) (VBool true) -> Meant cmp G r a (VBool true) \/ Meant cmp G r b (VBool true).
Proof.
  intros H. inversion H as [| | | | | | |m1 o1 a1 b1 x y Hc Ha Ht|m1 o1 a1 b1 x y Hc Ha Hb|m1 o1 a1 b1 ta tb t u v u' v' x Hc|]; subst; [|destruct x, y; try discriminate; auto|inversion Hc; match goal with X : ordering _ |- _ => inversion X | X : equality _ |- _ => inversion X end].
  specialize (Ht false). destruct x; [auto|discriminate Ht].
Qed.
Lemma meant_or_intro cmp G r m a b x : Meant cmp G r a (VBool x) -> (x = true \/ Meant cmp G r b (VBool true)) -> Meant cmp G r (EBin m OOR a b) (VBool true).
Proof.
  intros Ha [->|Hb]; [exact (mn_left cmp G r m OOR a b true true c_or Ha (fun _ => eq_refl))|].
  pose proof (mn_both cmp G r m OOR a b x true c_or Ha Hb) as H. now destruct x.
Qed.
Lemma meant_not cmp G r m a x : Meant cmp G r (ENot m a) (VBool x) <-> Meant cmp G r a (VBool (negb x)).
Proof.
  split; intros H.
  - inversion H as [| | | | |m1 e1 b Ha| | | | |]; subst. now rewrite negb_involutive.
  - rewrite <- (negb_involutive x). now apply mn_not.
Qed.

Lemma meant_ext cmp G key key' p e v : (forall n, key n = key' n) -> Meant cmp G (TableEnv key p) e v -> Meant cmp G (TableEnv key' p) e v.
Proof.
  intros Hk H. remember (TableEnv key p) as r eqn:Er. revert Er. induction H; intros Er; subst; try solve [econstructor; eauto].
  - injection Er as -> ->. eapply mn_key; [reflexivity|]. now rewrite <- Hk.
  - discriminate Er.
  - injection Er as -> ->. now eapply mn_priority.
Qed.

Section Session.
  Variables (check : solver) (pton : inet_pton6) (t : table_info) (ks : list key_info) (skip : string -> outcome bool).
  Hypothesis Hp : pton_ok pton.
  Hypothesis HK : table_keys t ks.
  Hypothesis Hw : int32_widths ks.
  Hypothesis Hso : sound_solver check.
  Let G := InTable (ti_keys_by_name t).
  (** A handled constraint is true or false of every coherent entry. *)
  Lemma meant_total cs l e0 fields p key : History check pton t skip cs l -> solvable t ks skip e0 -> well_formed (live_keys skip ks) fields -> (prioritized ks -> priority_ok p) -> coherent ks skip fields p ->
    (forall n v, key n = Some v <-> Assigned (live_keys skip ks) fields n v) -> exists b, Meant signed_order G (TableEnv key p) e0 (VBool b).
  Proof.
    intros HH Hsv HW Hpr Hco Hkey. destruct (history_holds t ks HK skip check pton cs l HH) as (base & us & Hs). pose proof (h_built _ _ _ _ _ _ _ _ Hs) as HB. pose proof (b_repr _ _ _ _ HB) as Hrep.
    destruct (infer_complete None (Some t) _ (table_in_scope t ks HK) e0 TBool (proj1 Hsv)) as (e & Hi & _).
    destruct (solvable_encodes _ _ _ _ _ _ _ (text_source t "") HK HB Hsv Hi) as (Et & u & Hu & Hbo).
    destruct (shared_assignment t ks skip fields key p HK Hrep HW Hpr Hkey Hco) as (m & Hm & M1 & M2).
    destruct (term_meant t ks skip HK Hw (cs_env cs) base HB m fields key p Hm HW Hkey) with (e0 := e0) (e := e) (u := u) as (b & Hb & _); eauto; [apply Hsv|now exists (text_source t "")].
  Qed.
  (** One text. *)
  Lemma step cs l l0 text e0 : History check pton t skip cs l -> written t l0 l -> usable pton t ks skip text e0 ->
    overlooks check pton cs text \/ exists b cs', AddConstraintString check pton cs text = (Ok b, cs') /\
      (if b then exists e, History check pton t skip cs' (l ++ [e]) /\ written t (l0 ++ [e0]) (l ++ [e]) /\ exists fields p, coherent_solution t ks skip (l0 ++ [e0]) fields p
       else cs' = cs /\ ((exists fields p, coherent_solution t ks skip (l0 ++ [e0]) fields p) -> overlooks check pton cs text)).
  Proof.
    intros HH HL [Hr Hsv]. apply (text_iff pton Hp) in Hr. destruct (history_holds t ks HK skip check pton cs l HH) as (base & us & Hs). pose proof (h_table _ _ _ _ _ _ _ _ Hs) as Et.
    destruct (infer_complete None (Some t) _ (table_in_scope t ks HK) e0 TBool (proj1 Hsv)) as (e & Hi & _). pose proof (h_built _ _ _ _ _ _ _ _ Hs) as HB.
    destruct (solvable_encodes _ _ _ _ _ _ _ (text_source t text) HK HB Hsv Hi) as (_ & u & Hu & Hbo). pose proof (C45_always_satisfiable _ _ _ _ _ _ _ HK Hso HH) as Hsat. pose proof (h_assertions _ _ _ _ _ _ _ _ Hs) as EA.
    assert (written t (l0 ++ [e0]) (l ++ [e])) as HL' by (apply Forall2_app; [exact HL|constructor; [split; [exact Hi|apply Hsv]|constructor]]).
    assert (Forall2 (encodes (cs_env cs)) (l ++ [e]) (us ++ [u])) as HE by (apply Forall2_app; [exact (h_encoded _ _ _ _ _ _ _ _ Hs)|constructor; [now exists (text_source t text)|constructor]]).
    assert (AddConstraintString check pton cs text = AddConstraint check cs e (text_source t text)) as EQ by (rewrite (add_text check pton cs text e0 e); rewrite Et; auto).
    destruct (check (assertions (cs_stack cs))) as [mo0|] eqn:E1; [|left; eexists; split; [left; reflexivity|auto]]. right. assert (check (assertions (cs_stack cs)) <> None) as E1' by congruence.
    destruct (check (assertions (cs_stack cs) ++ [u])%list) as [mo|] eqn:E2.
    - exists true. eexists. assert (check (assertions (cs_stack cs) ++ [u])%list <> None) as E2' by congruence. pose proof (add_true check cs e (text_source t text) u E1' Hu Hbo E2') as EAdd. split; [rewrite EQ; exact EAdd|]. exists e. split; [|split; [exact HL'|]].
      + eapply hi_added; eauto.
      + apply (sat_coherent t ks skip HK Hw (cs_env cs) base HB (l0 ++ [e0]) (l ++ [e]) (us ++ [u])%list HL' HE). rewrite app_assoc, <- EA. exists (complete mo). exact (Hso _ _ E2).
    - exists false, cs. split; [rewrite EQ; apply (add_false check cs e _ u); auto|]. split; [reflexivity|]. intros (fields & p & H).
      exists (assertions (cs_stack cs) ++ [u])%list. split; [right; exists e0, e, (text_source t text), u; rewrite Et; auto|]. split; [|exact E2].
      rewrite EA, <- app_assoc. exact (coherent_sat t ks skip HK Hw (cs_env cs) base HB _ _ _ _ _ HL' HE H).
  Qed.
  Lemma solution_fewer l l' fields p : (forall e, In e l' -> In e l) -> coherent_solution t ks skip l fields p -> coherent_solution t ks skip l' fields p.
  Proof. intros H ((H1 & H2 & key & H3 & H4) & Hc). split; [|exact Hc]. split; [exact H1|]. split; [exact H2|]. exists key. split; [exact H3|]. rewrite Forall_forall in *. auto. Qed.
  Lemma history_soluble cs l l0 : History check pton t skip cs l -> written t l0 l -> exists fields p, coherent_solution t ks skip l0 fields p.
  Proof.
    intros HH HL. destruct (history_holds t ks HK skip check pton cs l HH) as (base & us & Hs). pose proof (C45_always_satisfiable _ _ _ _ _ _ _ HK Hso HH) as Hsat. rewrite (h_assertions _ _ _ _ _ _ _ _ Hs) in Hsat.
    exact (sat_coherent t ks skip HK Hw (cs_env cs) base (h_built _ _ _ _ _ _ _ _ Hs) l0 l us HL (h_encoded _ _ _ _ _ _ _ _ Hs) Hsat).
  Qed.
  Lemma accepted_history cs l l0 texts es cs' : History check pton t skip cs l -> written t l0 l -> Forall2 (usable pton t ks skip) texts es -> Accepts check pton cs texts cs' ->
    exists l', History check pton t skip cs' l' /\ written t (l0 ++ es) l'.
  Proof.
    intros HH HL HU HA. revert l l0 es HH HL HU. induction HA as [cs|cs text cs1 texts cs' EA HA IH]; intros l l0 es HH HL HU.
    - inversion HU; subst. exists l. now rewrite app_nil_r.
    - inversion HU as [|? e0 ? es' [Hr Hsv] HU']; subst. apply (text_iff pton Hp) in Hr. destruct (infer_complete None (Some t) _ (table_in_scope t ks HK) e0 TBool (proj1 Hsv)) as (e & Hi & _).
      destruct (IH (l ++ [e])%list (l0 ++ [e0])%list es') as (l' & H1 & H2); auto.
      + eapply hi_added_text; eauto.
      + apply Forall2_app; [exact HL|]. constructor; [split; [exact Hi|apply Hsv]|constructor].
      + exists l'. split; [exact H1|]. now rewrite <- app_assoc in H2.
  Qed.
  Lemma stuck_later cs text cs1 texts : AddConstraintString check pton cs text = (Ok true, cs1) -> gets_stuck check pton cs1 texts -> gets_stuck check pton cs (text :: texts).
  Proof. intros E (before & x & after & cs2 & -> & HA & HO). exists (text :: before), x, after, cs2. split; [reflexivity|]. split; [|exact HO]. econstructor; eauto. Qed.
  Lemma soluble_accepted cs l l0 texts es : History check pton t skip cs l -> written t l0 l -> Forall2 (usable pton t ks skip) texts es ->
    (exists fields p, coherent_solution t ks skip (l0 ++ es) fields p) -> (exists cs', Accepts check pton cs texts cs') \/ gets_stuck check pton cs texts.
  Proof.
    intros HH HL HU HS. revert cs l l0 HH HL HS. induction HU as [|text e0 texts es HU1 HU IH]; intros cs l l0 HH HL HS; [left; exists cs; constructor|].
    assert (forall o : overlooks check pton cs text, gets_stuck check pton cs (text :: texts)) as Hhere. { intros o. exists [], text, texts, cs. repeat split; auto. constructor. }
    destruct (step cs l l0 text e0 HH HL HU1) as [Ho|([] & cs1 & E & H)]; [right; auto| |].
    - destruct H as (e & H1 & H2 & _). destruct (IH cs1 _ _ H1 H2) as [(cs' & HA)|Hst].
      + now rewrite <- app_assoc.
      + left. exists cs'. econstructor; eauto.
      + right. eapply stuck_later; eauto.
    - destruct H as [_ H]. right. apply Hhere, H. destruct HS as (fields & p & HS). exists fields, p. eapply solution_fewer; [|exact HS]. intros e. rewrite !in_app_iff. cbn. tauto.
  Qed.
  (** Nothing is overlooked where there is nothing to see. *)
  Lemma insoluble_seen cs l l0 text e0 : History check pton t skip cs l -> written t l0 l -> usable pton t ks skip text e0 -> check (assertions (cs_stack cs)) <> None ->
    (forall fields p, ~ coherent_solution t ks skip (l0 ++ [e0]) fields p) -> ~ overlooks check pton cs text.
  Proof.
    intros HH HL [Hr Hsv] Hc Hn (q & Hq & Hsat & Eq). destruct Hq as [->|(e0' & e & src & u & Ep & Ei & Eu & ->)]; [contradiction|]. destruct (history_holds t ks HK skip check pton cs l HH) as (base & us & Hs). pose proof (h_table _ _ _ _ _ _ _ _ Hs) as Et.
    apply (text_iff pton Hp) in Hr. rewrite Et in Ep, Ei. rewrite Hr in Ep. injection Ep as <-. pose proof (h_built _ _ _ _ _ _ _ _ Hs) as HB. pose proof (h_assertions _ _ _ _ _ _ _ _ Hs) as EA.
    destruct (solvable_encodes _ _ _ _ _ _ _ src HK HB Hsv Ei) as (Ety & _ & _).
    destruct (sat_coherent t ks skip HK Hw (cs_env cs) base HB (l0 ++ [e0]) (l ++ [e]) (us ++ [u])%list) as (fields & p & HS).
    - apply Forall2_app; [exact HL|constructor; [split; [exact Ei|apply Hsv]|constructor]].
    - apply Forall2_app; [exact (h_encoded _ _ _ _ _ _ _ _ Hs)|constructor; [now exists src|constructor]].
    - now rewrite app_assoc, <- EA.
    - exact (Hn fields p HS).
  Qed.
End Session.

(** * C72: a session's answers depend only on the set of constraints *)
(** If all the texts are accepted there is an entry of which all the constraints hold, and if there is one all are accepted, unless Z3 overlooks a model on the way. *)
Theorem C72_session : forall check pton t ks skip cs l l0 texts es, pton_ok pton -> table_keys t ks -> int32_widths ks -> sound_solver check ->
  History check pton t skip cs l -> written t l0 l -> Forall2 (usable pton t ks skip) texts es ->
  ((exists cs', Accepts check pton cs texts cs') -> exists fields p, coherent_solution t ks skip (l0 ++ es) fields p) /\
  ((exists fields p, coherent_solution t ks skip (l0 ++ es) fields p) -> (exists cs', Accepts check pton cs texts cs') \/ gets_stuck check pton cs texts).
Proof.
  intros check pton t ks skip cs l l0 texts es Hp HK Hw Hso HH HL HU. split.
  - intros (cs' & HA). destruct (accepted_history check pton t ks skip Hp HK cs l l0 texts es cs' HH HL HU HA) as (l' & H1 & H2). exact (history_soluble check pton t ks skip HK Hw Hso cs' l' _ H1 H2).
  - exact (soluble_accepted check pton t ks skip Hp HK Hw Hso cs l l0 texts es HH HL HU).
Qed.
Print Assumptions C72_session.
(** Accepted texts are accepted in every other order, and so are some of them, and repetitions. *)
Theorem C72_order : forall check pton t ks skip cs l l0 texts es texts', pton_ok pton -> table_keys t ks -> int32_widths ks -> sound_solver check ->
  History check pton t skip cs l -> written t l0 l -> Forall2 (usable pton t ks skip) texts es -> (exists cs', Accepts check pton cs texts cs') ->
  (forall text, In text texts' -> In text texts) -> (exists cs', Accepts check pton cs texts' cs') \/ gets_stuck check pton cs texts'.
Proof.
  intros check pton t ks skip cs l l0 texts es texts' Hp HK Hw Hso HH HL HU HA Hsub.
  assert (exists es', Forall2 (usable pton t ks skip) texts' es' /\ forall e, In e es' -> In e es) as (es' & HU' & He).
  { revert Hsub. induction texts' as [|x texts' IH]; intros Hsub; [exists []; split; [constructor|easy]|]. destruct IH as (es' & H1 & H2); [intros y Hy; apply Hsub; now right|].
    assert (In x texts) as Hx by (apply Hsub; now left). assert (exists e, In e es /\ usable pton t ks skip x e) as (e & He & Hu).
    { clear - HU Hx. induction HU as [|y e texts es H HU IH]; [contradiction|]. destruct Hx as [->|Hx]; [exists e; split; [now left|exact H]|]. destruct (IH Hx) as (e' & H1 & H2). exists e'. split; [now right|exact H2]. }
    exists (e :: es'). split; [now constructor|]. intros e' [<-|H']; auto. }
  apply (C72_session check pton t ks skip cs l l0 texts' es' Hp HK Hw Hso HH HL HU').
  apply (C72_session check pton t ks skip cs l l0 texts es Hp HK Hw Hso HH HL HU) in HA as (fields & p & HS). exists fields, p. eapply solution_fewer; [|exact HS]. intros e. rewrite !in_app_iff. intros [H|H]; [left; exact H|right; exact (He e H)].
Qed.
Print Assumptions C72_order.
(** A conjunction is accepted iff its operands are, one after the other, and later constraints are then treated alike. *)
Theorem C72_conjunction : forall check pton t ks skip cs l l0 op a b ea eb rest es, pton_ok pton -> table_keys t ks -> int32_widths ks -> sound_solver check ->
  History check pton t skip cs l -> written t l0 l -> connects op OAND -> ~ ends_in_comment a -> ~ ends_in_comment b ->
  usable pton t ks skip a ea -> usable pton t ks skip b eb -> Forall2 (usable pton t ks skip) rest es ->
  ((exists cs', Accepts check pton cs (combined op a b :: rest) cs') -> (exists cs', Accepts check pton cs (a :: b :: rest) cs') \/ gets_stuck check pton cs (a :: b :: rest)) /\
  ((exists cs', Accepts check pton cs (a :: b :: rest) cs') -> (exists cs', Accepts check pton cs (combined op a b :: rest) cs') \/ gets_stuck check pton cs (combined op a b :: rest)).
Proof.
  intros check pton t ks skip cs l l0 op a b ea eb rest es Hp HK Hw Hso HH HL Hop Na Nb [Ra Sa] [Rb Sb] HR.
  destruct (combined_reads pton _ op OAND a b _ _ (cs_loc (text_source t "")) ea eb Hop Na Nb Ra Rb) as (m & ea' & eb' & Rc & Aa & Ab).
  assert (solvable t ks skip (EBin m OAND ea' eb')) as Sc by (apply solvable_bin; [constructor|eapply solvable_alike; eauto|eapply solvable_alike; eauto]).
  assert (Forall2 (usable pton t ks skip) (combined op a b :: rest) (EBin m OAND ea' eb' :: es)) as U1 by (constructor; [split; [exact Rc|exact Sc]|exact HR]).
  assert (Forall2 (usable pton t ks skip) (a :: b :: rest) (ea :: eb :: es)) as U2 by (constructor; [split; [exact Ra|exact Sa]|constructor; [split; [exact Rb|exact Sb]|exact HR]]).
  assert (forall fields p, coherent_solution t ks skip (l0 ++ EBin m OAND ea' eb' :: es) fields p <-> coherent_solution t ks skip (l0 ++ ea :: eb :: es) fields p) as HS.
  { intros fields p. unfold coherent_solution, solution. split; intros ((H1 & H2 & key & H3 & H4) & Hc); (split; [|exact Hc]); (split; [exact H1|split; [exact H2|exists key; split; [exact H3|]]]); rewrite Forall_app in H4 |- *; destruct H4 as [H4 H5]; (split; [exact H4|]).
    - inversion H5 as [|? ? H6 H7]; subst. apply meant_and in H6 as [H6 H8]. constructor; [eapply meant_alike; [apply alike_sym, Aa|exact H6]|]. constructor; [eapply meant_alike; [apply alike_sym, Ab|exact H8]|exact H7].
    - inversion H5 as [|? ? H6 H7]; subst. inversion H7 as [|? ? H8 H9]; subst. constructor; [|exact H9]. apply meant_and. split; eapply meant_alike; eauto. }
  pose proof (C72_session check pton t ks skip cs l l0 _ _ Hp HK Hw Hso HH HL U1) as [S1 S2]. pose proof (C72_session check pton t ks skip cs l l0 _ _ Hp HK Hw Hso HH HL U2) as [S3 S4]. split; intros HA.
  - apply S4. destruct (S1 HA) as (fields & p & H). exists fields, p. now apply HS.
  - apply S2. destruct (S3 HA) as (fields & p & H). exists fields, p. now apply HS.
Qed.
Print Assumptions C72_conjunction.
(** A disjunction is accepted iff one of its operands would be. *)
Theorem C72_disjunction : forall check pton t ks skip cs l l0 a b ea eb, pton_ok pton -> table_keys t ks -> int32_widths ks -> sound_solver check ->
  History check pton t skip cs l -> written t l0 l -> ~ ends_in_comment a -> ~ ends_in_comment b -> usable pton t ks skip a ea -> usable pton t ks skip b eb ->
  ((exists cs', Accepts check pton cs [combined "||" a b] cs') -> (exists cs', Accepts check pton cs [a] cs') \/ (exists cs', Accepts check pton cs [b] cs') \/ gets_stuck check pton cs [a] \/ gets_stuck check pton cs [b]) /\
  ((exists cs', Accepts check pton cs [a] cs') \/ (exists cs', Accepts check pton cs [b] cs') -> (exists cs', Accepts check pton cs [combined "||" a b] cs') \/ gets_stuck check pton cs [combined "||" a b]).
Proof.
  intros check pton t ks skip cs l l0 a b ea eb Hp HK Hw Hso HH HL Na Nb [Ra Sa] [Rb Sb].
  destruct (combined_reads pton _ "||" OOR a b _ _ (cs_loc (text_source t "")) ea eb co_or Na Nb Ra Rb) as (m & ea' & eb' & Rc & Aa & Ab).
  pose proof (solvable_alike _ _ _ _ _ Aa Sa) as Sa'. pose proof (solvable_alike _ _ _ _ _ Ab Sb) as Sb'.
  assert (Forall2 (usable pton t ks skip) [combined "||" a b] [EBin m OOR ea' eb']) as U by (constructor; [split; [exact Rc|apply solvable_bin; auto; constructor]|constructor]).
  assert (Forall2 (usable pton t ks skip) [a] [ea]) as Ua by (constructor; [split; [exact Ra|exact Sa]|constructor]).
  assert (Forall2 (usable pton t ks skip) [b] [eb]) as Ub by (constructor; [split; [exact Rb|exact Sb]|constructor]).
  pose proof (C72_session check pton t ks skip cs l l0 _ _ Hp HK Hw Hso HH HL U) as [S1 S2]. pose proof (C72_session check pton t ks skip cs l l0 _ _ Hp HK Hw Hso HH HL Ua) as [A1 A2]. pose proof (C72_session check pton t ks skip cs l l0 _ _ Hp HK Hw Hso HH HL Ub) as [B1 B2]. split.
  - intros HA. destruct (S1 HA) as (fields & p & (H1 & H2 & key & H3 & H4) & Hc). rewrite Forall_app in H4. destruct H4 as [H4 H5]. inversion H5 as [|? ? H6 _]; subst. apply meant_or in H6 as [H6|H6].
    + destruct A2 as [?|?]; auto. exists fields, p. split; [|exact Hc]. split; [exact H1|]. split; [exact H2|]. exists key. split; [exact H3|]. apply Forall_app. split; [exact H4|]. constructor; [eapply meant_alike; [apply alike_sym, Aa|exact H6]|constructor].
    + destruct B2 as [?|?]; auto. exists fields, p. split; [|exact Hc]. split; [exact H1|]. split; [exact H2|]. exists key. split; [exact H3|]. apply Forall_app. split; [exact H4|]. constructor; [eapply meant_alike; [apply alike_sym, Ab|exact H6]|constructor].
  - intros HA. apply S2. destruct HA as [HA|HA].
    + destruct (A1 HA) as (fields & p & (H1 & H2 & key & H3 & H4) & Hc). rewrite Forall_app in H4. destruct H4 as [H4 H5]. inversion H5 as [|? ? H6 _]; subst. exists fields, p. split; [|exact Hc]. split; [exact H1|]. split; [exact H2|]. exists key. split; [exact H3|]. apply Forall_app. split; [exact H4|]. constructor; [|constructor].
      apply (meant_or_intro _ _ _ _ _ _ true); [eapply meant_alike; eauto|auto].
    + destruct (B1 HA) as (fields & p & (H1 & H2 & key & H3 & H4) & Hc). rewrite Forall_app in H4. destruct H4 as [H4 H5]. inversion H5 as [|? ? H6 _]; subst. exists fields, p. split; [|exact Hc]. split; [exact H1|]. split; [exact H2|]. exists key. split; [exact H3|]. apply Forall_app. split; [exact H4|]. constructor; [|constructor].
      destruct (meant_total check pton t ks skip HK Hw cs l ea' fields p key HH Sa' H1 H2 Hc H3) as (x & Hx). apply (meant_or_intro _ _ _ _ _ _ x Hx). right. eapply meant_alike; eauto.
Qed.
Print Assumptions C72_disjunction.

(** * C73: asking what follows *)
(** The negation of a constraint is refused, and nothing changes, iff the constraint holds of all entries of which the constraints so far hold, unless Z3 overlooks a model. *)
Theorem C73_follows : forall check pton t ks skip cs l l0 a ea, pton_ok pton -> table_keys t ks -> int32_widths ks -> sound_solver check ->
  History check pton t skip cs l -> written t l0 l -> ~ ends_in_comment a -> usable pton t ks skip a ea ->
  (AddConstraintString check pton cs (negated a) = (Ok false, cs) -> forall fields p, coherent_solution t ks skip l0 fields p -> coherent_solution t ks skip (l0 ++ [ea]) fields p \/ overlooks check pton cs (negated a)) /\
  ((forall fields p, coherent_solution t ks skip l0 fields p -> coherent_solution t ks skip (l0 ++ [ea]) fields p) -> AddConstraintString check pton cs (negated a) = (Ok false, cs) \/ overlooks check pton cs (negated a)).
Proof.
  intros check pton t ks skip cs l l0 a ea Hp HK Hw Hso HH HL Na [Ra Sa].
  destruct (negated_reads pton _ a _ (cs_loc (text_source t "")) ea Na Ra) as (m & ea' & Rn & Aa). pose proof (solvable_alike _ _ _ _ _ Aa Sa) as Sa'.
  assert (usable pton t ks skip (negated a) (ENot m ea')) as Un by (split; [exact Rn|now apply solvable_not]).
  destruct (step check pton t ks skip Hp HK Hw Hso cs l l0 _ _ HH HL Un) as [Ho|(b & cs' & E & H)]; [auto|]. split.
  - intros E' fields p ((H1 & H2 & key & H3 & H4) & Hc). rewrite E' in E. injection E as <- <-. destruct H as [_ H]. destruct (meant_total check pton t ks skip HK Hw cs l ea' fields p key HH Sa' H1 H2 Hc H3) as ([] & Hx).
    + left. split; [|exact Hc]. split; [exact H1|]. split; [exact H2|]. exists key. split; [exact H3|]. apply Forall_app. split; [exact H4|]. constructor; [eapply meant_alike; [apply alike_sym, Aa|exact Hx]|constructor].
    + right. apply H. exists fields, p. split; [|exact Hc]. split; [exact H1|]. split; [exact H2|]. exists key. split; [exact H3|]. apply Forall_app. split; [exact H4|]. constructor; [now apply meant_not|constructor].
  - intros HF. left. destruct b; [|destruct H as [-> _]; exact E]. exfalso. destruct H as (_ & _ & _ & fields & p & HS). assert (coherent_solution t ks skip l0 fields p) as H0 by (eapply solution_fewer; [|exact HS]; intros e He; apply in_app_iff; auto).
    apply HF in H0. destruct HS as ((H1 & H2 & key & H3 & H4) & _), H0 as ((_ & _ & key' & H3' & H4') & _). apply Forall_app in H4 as [_ H4], H4' as [_ H4']. inversion H4 as [|? ? H5 _]; subst. inversion H4' as [|? ? H5' _]; subst.
    apply meant_not in H5. cbn [negb] in H5. apply (meant_alike _ _ _ _ _ _ Aa) in H5'.
    assert (forall n, key n = key' n) as Ek. { intros n. destruct (key n) as [v|] eqn:E1; [apply H3, H3' in E1; congruence|]. destruct (key' n) as [v|] eqn:E2; [apply H3', H3 in E2; congruence|reflexivity]. }
    apply (meant_ext _ _ _ _ _ _ _ (fun n => eq_sym (Ek n))) in H5'. discriminate (meant_fun None (Some t) _ (table_in_scope t ks HK) signed_order (fun _ _ _ _ _ _ => signed_fun _ _ _ _ _ _) _ _ _ _ H5 H5').
Qed.
Print Assumptions C73_follows.

(** * Cases *)
Lemma no_comment s : existsb (Ascii.eqb "/"%char) (chars s) = false -> ~ ends_in_comment s.
Proof. intros H. apply no_slash. now apply (no_special "/"%char s). Qed.
Definition se_text : string := "e != 0".
Definition se_tree : expr := Eval vm_compute in the no_expr (ParseConstraint pton1 kTableConstraint (text_source sy_table se_text)).
Definition se_other : string := "o::mask == 511 || t::value == 3".
Definition se_other_tree : expr := Eval vm_compute in the no_expr (ParseConstraint pton1 kTableConstraint (text_source sy_table se_other)).
Lemma se_parsed : ParseConstraint pton1 kTableConstraint (text_source sy_table se_text) = Ok se_tree /\ ParseConstraint pton1 kTableConstraint (text_source sy_table se_other) = Ok se_other_tree.
Proof. split; vm_compute; reflexivity. Qed.
Lemma se_solvable text e0 e : ParseConstraint pton1 kTableConstraint (text_source sy_table text) = Ok e0 -> InferTable e0 sy_table = Ok e -> e_type e = TBool ->
  (forall n, mentions e0 n -> exists k, In k (live_keys sy_skip sy_keys) /\ k_name k = n) -> usable pton1 sy_table sy_keys sy_skip text e0.
Proof.
  intros H1 H2 H3 H4. split; [exact (proj1 (text_iff pton1 pton1_ok _ _ _) H1)|]. split; [rewrite <- H3; exact (proj1 (infer_ok None (Some sy_table) _ (table_in_scope _ _ sy_table_keys) _ _ H2))|].
  split; [exact (parse_literals _ _ _ _ pton1_ok H1)|]. split; [exact H4|]. intros _. exists (mkKey 2 "t" (TTernary 16)), 16%Z. cbn; auto.
Qed.
Lemma se_usable : usable pton1 sy_table sy_keys sy_skip se_text se_tree.
Proof.
  eapply se_solvable; [exact (proj1 se_parsed)|vm_compute; reflexivity|reflexivity|].
  intros n Hn. repeat match goal with H : mentions _ _ |- _ => inversion H; clear H; subst end. cbn; eauto 10.
Qed.
Lemma se_other_usable : usable pton1 sy_table sy_keys sy_skip se_other se_other_tree.
Proof.
  eapply se_solvable; [exact (proj2 se_parsed)|vm_compute; reflexivity|reflexivity|].
  intros n Hn. repeat match goal with H : mentions _ _ |- _ => inversion H; clear H; subst end; cbn; eauto 10.
Qed.
Lemma se_history : History sy_check pton1 sy_table sy_skip sy_cs [sy_checked] /\ written sy_table [sy_tree] [sy_checked].
Proof. split; [exact (hi_create sy_check pton1 sy_table sy_skip sy_cs sy_created)|]. constructor; [split; [exact (proj1 sy_inferred)|exact (proj1 sy_literals)]|constructor]. Qed.
Lemma se_accepts texts : forall cs, (fix run cs texts := match texts with [] => true | x :: r => match AddConstraintString sy_check pton1 cs x with (Ok true, cs') => run cs' r | _ => false end end) cs texts = true -> exists cs', Accepts sy_check pton1 cs texts cs'.
Proof.
  induction texts as [|x texts IH]; intros cs H; [exists cs; constructor|]. destruct (AddConstraintString sy_check pton1 cs x) as [[[]| | ] cs1] eqn:E; try discriminate H. destruct (IH cs1 H) as (cs' & H'). exists cs'. econstructor; eauto.
Qed.
(** Three constraints are accepted in two orders, and as a conjunction; a disjunction with a false operand is accepted, too. *)
Example C72_case : (History sy_check pton1 sy_table sy_skip sy_cs [sy_checked] /\ written sy_table [sy_tree] [sy_checked]) /\
  Forall2 (usable pton1 sy_table sy_keys sy_skip) [se_other; se_text] [se_other_tree; se_tree] /\
  (exists cs', Accepts sy_check pton1 sy_cs [se_other; se_text; sy_more] cs') /\ (exists cs', Accepts sy_check pton1 sy_cs [sy_more; se_text; se_other; se_text] cs') /\
  (exists cs', Accepts sy_check pton1 sy_cs [combined "&&" se_other se_text; sy_more] cs') /\ (exists cs', Accepts sy_check pton1 sy_cs [combined ";" se_other se_text] cs') /\
  (exists cs', Accepts sy_check pton1 sy_cs [combined "||" "e == 0" se_text] cs') /\ fst (AddConstraintString sy_check pton1 sy_cs "e == 0") = Ok false /\
  ~ ends_in_comment se_other /\ ~ ends_in_comment se_text.
Proof.
  split; [exact se_history|]. split; [constructor; [exact se_other_usable|constructor; [exact se_usable|constructor]]|].
  do 5 (split; [apply se_accepts; vm_compute; reflexivity|]). split; [vm_compute; reflexivity|]. split; [exact (no_comment se_other eq_refl)|exact (no_comment se_text eq_refl)].
Qed.
(** The table's own constraint implies e != 0; the negation of that is refused, and nothing is overlooked. *)
Lemma se_follows fields p : coherent_solution sy_table sy_keys sy_skip [sy_tree] fields p -> coherent_solution sy_table sy_keys sy_skip ([sy_tree] ++ [se_tree]) fields p.
Proof.
  intros ((H1 & H2 & key & H3 & H4) & Hc). split; [|exact Hc]. split; [exact H1|]. split; [exact H2|]. exists key. split; [exact H3|]. inversion H4 as [|? ? H5 _]; subst. constructor; [exact H5|]. constructor; [|constructor].
  unfold sy_tree in H5. apply meant_and in H5 as [H5 _]. apply meant_and in H5 as [H5 _]. eapply meant_alike; [|exact H5]. unfold se_tree. repeat constructor.
Qed.
Example C73_case : usable pton1 sy_table sy_keys sy_skip se_text se_tree /\ ~ ends_in_comment se_text /\ AddConstraintString sy_check pton1 sy_cs (negated se_text) = (Ok false, sy_cs) /\
  ~ overlooks sy_check pton1 sy_cs (negated se_text) /\ (forall fields p, coherent_solution sy_table sy_keys sy_skip [sy_tree] fields p -> coherent_solution sy_table sy_keys sy_skip ([sy_tree] ++ [se_tree]) fields p) /\
  fst (AddConstraintString sy_check pton1 sy_cs (negated "t::value == 3")) = Ok true.
Proof.
  split; [exact se_usable|]. split; [exact (no_comment se_text eq_refl)|]. split; [vm_compute; reflexivity|]. split; [|split; [exact se_follows|vm_compute; reflexivity]].
  destruct (negated_reads pton1 _ se_text _ (cs_loc (text_source sy_table "")) se_tree (no_comment se_text eq_refl) (proj1 se_usable)) as (m & e & Rn & Aa).
  apply (insoluble_seen sy_check pton1 sy_table sy_keys sy_skip pton1_ok sy_table_keys sy_widths sy_cs [sy_checked] [sy_tree] _ (ENot m e)).
  - apply se_history.
  - apply se_history.
  - split; [exact Rn|]. apply solvable_not. exact (solvable_alike _ _ _ _ _ Aa (proj2 se_usable)).
  - vm_compute. discriminate.
  - intros fields p HS. assert (coherent_solution sy_table sy_keys sy_skip [sy_tree] fields p) as H0 by (eapply solution_fewer; [|exact HS]; intros x Hx; apply in_app_iff; auto).
    apply se_follows in H0. destruct HS as ((H1 & H2 & key & H3 & H4) & _), H0 as ((_ & _ & key' & H3' & H4') & _). apply Forall_app in H4 as [_ H4], H4' as [_ H4']. inversion H4 as [|? ? H5 _]; subst. inversion H4' as [|? ? H5' _]; subst.
    apply meant_not in H5. cbn [negb] in H5. apply (meant_alike _ _ _ _ _ _ Aa) in H5'.
    assert (forall n, key n = key' n) as Ek. { intros n. destruct (key n) as [v|] eqn:E1; [apply H3, H3' in E1; congruence|]. destruct (key' n) as [v|] eqn:E2; [apply H3', H3 in E2; congruence|reflexivity]. }
    apply (meant_ext _ _ _ _ _ _ _ (fun n => eq_sym (Ek n))) in H5'. discriminate (meant_fun None (Some sy_table) _ (table_in_scope _ _ sy_table_keys) signed_order (fun _ _ _ _ _ _ => signed_fun _ _ _ _ _ _) _ _ _ _ H5 H5').
Qed.
