(** Constraint trees that no type checker has seen, given to the solver (C86). *)
From Coq Require Import String List ZArith Bool.
From Verif Require Import Base Num Token Ast Quote AstConstructors Info TypeChecker Parser Interpreter Z3 Symbolic SpecLexer SpecGrammar SpecTyping TypeFacts SpecSemantics SpecSolver SpecSymbolic SpecSorts SymFacts SymState SymMeaning SortsFacts SolverFacts InterpFacts2 SymDemo PropertiesParser PropertiesSymbolic PropertiesSolver.
Import ListNotations.
Open Scope string_scope.

(** AddConstraint takes exactly the trees whose sorts fit, and anything else has one flaw, which decides what the caller sees; the solver stays as it is. *)
Theorem C86_any_tree : forall check pton t ks skip cs l e src, table_keys t ks -> History check pton t skip cs l -> check (assertions (cs_stack cs)) <> None ->
  (constrains ks skip e /\ exists b, fst (AddConstraint check cs e src) = Ok b) \/
  (~ constrains ks skip e /\ exists r, Flaw ks skip e r /\ (forall r', Flaw ks skip e r' -> r' = r) /\ seen src r (fst (AddConstraint check cs e src)) /\ snd (AddConstraint check cs e src) = cs).
Proof.
  intros check pton t ks skip cs l e src HK HH Hc. destruct (history_holds t ks HK skip check pton cs l HH) as (base & us & Hh). pose proof (h_built _ _ _ _ _ _ _ _ Hh) as HB.
  unfold AddConstraint. apply sat_iff in Hc. rewrite Hc. cbn [negb].
  destruct (constraint_verdict ks skip (cs_env cs) base HB src e) as [(Hk & u & -> & Hu)|(w & Hw & H)].
  - left. split; [exact Hk|]. apply is_sbool_eq in Hu. rewrite Hu. cbn [negb]. destruct (is_sat check (solver_add u (solver_push (cs_stack cs)))); cbn [negb fst]; eauto.
  - right. split; [exact (flaw_constrains ks skip (cs_env cs) base HB e w Hw)|]. exists w. split; [exact Hw|]. split; [intros r' Hr'; exact (flaw_fun ks skip (cs_env cs) base HB e r' w Hr' Hw)|].
    destruct H as [H|(-> & u & -> & Hu)].
    + destruct (seen_bind src w (EvaluateConstraintSymbolically (cs_env cs) src e) (fun _ => Ok true) H) as [Hn Hs].
      destruct (EvaluateConstraintSymbolically (cs_env cs) src e) as [u|c m|x]; [now destruct (Hn u)|..]; cbn [fst snd bind] in *; (split; [exact Hs|reflexivity]).
    + destruct (is_sbool u) eqn:E; [apply is_sbool_eq in E; contradiction|]. cbn [negb fst snd]. split; reflexivity.
Qed.
Print Assumptions C86_any_tree.
(** So the type checker is what keeps Z3 from throwing. *)
Theorem C86_checked : forall check pton t ks skip cs l e0 e, table_keys t ks -> (forall k w, In k ks -> skipped skip k -> width (k_type k) w -> (0 < w)%Z) -> History check pton t skip cs l ->
  literals e0 -> InferTable e0 t = Ok e -> ~ Flaw ks skip e NoSuchOperation.
Proof.
  intros check pton t ks skip cs l e0 e HK Hw HH Hl Hi Hf. destruct (history_holds t ks HK skip check pton cs l HH) as (base & us & Hh). pose proof (h_built _ _ _ _ _ _ _ _ Hh) as HB.
  destruct (constraint_verdict ks skip (cs_env cs) base HB (ti_source t) e) as [(Hk & _)|(w & Hfw & H)]; [exact (flaw_constrains ks skip (cs_env cs) base HB e _ Hf Hk)|].
  assert (w = NoSuchOperation) as -> by exact (flaw_fun ks skip (cs_env cs) base HB e _ _ Hfw Hf). cbn [seen] in H.
  destruct (encode_outcome t ks skip HK Hw (cs_env cs) base e0 e (ti_source t) HB Hl Hi) as [(u & E & Hu)|(c & m & E)]; destruct H as [H|(_ & u' & H & Hn)]; congruence.
Qed.
Print Assumptions C86_checked.

(** Trees made by hand, for the table of SymDemo.v: keys e (exact), t (ternary), r (range, left out), l (lpm) and o (optional). *)
Definition st_at (t : ty) : meta := mkMeta (mkLoc 0 0 SrcNone) (mkLoc 0 0 SrcNone) t.
Definition st_field (k f : string) : expr := EField (st_at TUnknown) f (EKey (st_at TUnknown) k).
Definition st_is (o : binop) (a b : expr) : expr := EBin (st_at TBool) o a b.
Definition st_one : expr := EInt (st_at TInt) "1".
Definition st_mixed : expr := st_is OEQ (st_field "e" "value") st_one.
Definition st_absent : expr := st_is OEQ (st_field "r" "low") st_one.
Definition st_param : expr := st_is OEQ (EParam (st_at TInt) "p") st_one.
Definition st_untyped : expr := st_is ONE (st_field "e" "value") (ENeg (st_at TInt) (st_field "e" "value")).
(** The documented claim, that such constraints yield an InvalidArgumentError or InternalError, fails: Z3 throws, and there are other errors. *)
Theorem C86_documented_refuted : exists check t ks skip cs l, table_keys t ks /\ History check pton1 t skip cs l /\ (forall e, In e [st_mixed; st_absent; st_param] -> forall e0, InferTable e0 t <> Ok e) /\
  (forall src, fst (AddConstraint check cs st_mixed src) = Crash Z3Exception) /\ (forall src, exists m, fst (AddConstraint check cs st_absent src) = Err NotFound m) /\
  (forall src, exists m, fst (AddConstraint check cs st_param src) = Err Unimplemented m).
Proof.
  exists sy_check, sy_table, sy_keys, sy_skip, sy_cs2, [sy_checked; sy_more_checked]. split; [exact sy_table_keys|]. split; [exact sy_history|]. split.
  - intros e He e0 Hi. destruct (infer_ok None (Some sy_table) _ (table_in_scope sy_table sy_keys sy_table_keys) _ _ Hi) as (_ & HA & _).
    assert (forall o a b, Annotated (InTable (ti_keys_by_name sy_table)) (st_is o a b) -> Annotated (InTable (ti_keys_by_name sy_table)) a) as H1 by (intros o a b H; inversion H; subst; assumption).
    assert (forall k f, ~ Annotated (InTable (ti_keys_by_name sy_table)) (st_field k f)) as H2. { intros k f H. inversion H as [| | | | | | | | | | |m f' e' HA' Hf]; subst. inversion HA' as [| |keys m n Hk Hd Hu| | | | | | | | |]; subst. now destruct (proj1 Hu). }
    destruct He as [<-|[<-|[<-|[]]]]; apply H1 in HA; [exact (H2 _ _ HA)|exact (H2 _ _ HA)|]. inversion HA. discriminate.
  - split; [|split]; intros src; vm_compute; [reflexivity|eexists; reflexivity..].
Qed.
Print Assumptions C86_documented_refuted.
Example C86_case : table_keys sy_table sy_keys /\ History sy_check pton1 sy_table sy_skip sy_cs2 [sy_checked; sy_more_checked] /\ sy_check (assertions (cs_stack sy_cs2)) <> None /\
  constrains sy_keys sy_skip st_untyped /\ (forall src, fst (AddConstraint sy_check sy_cs2 st_untyped src) = Ok true) /\
  Flaw sy_keys sy_skip st_mixed NoSuchOperation /\ Flaw sy_keys sy_skip st_absent Missing /\ Flaw sy_keys sy_skip st_param Unsupported /\
  Flaw sy_keys sy_skip (st_is OLT (EKey (st_at TUnknown) "t") (EKey (st_at TUnknown) "o")) Invalid /\
  Flaw sy_keys sy_skip (ENot (st_at TBool) (EKey (st_at TUnknown) "l")) (Misused (EKey (st_at TUnknown) "l")).
Proof.
  assert (forall k s, In k sy_keys -> k_name k <> "r" -> key_sorting (k_type k) s -> key_at sy_keys sy_skip (k_name k) s) as HK.
  { intros k s Hk Hn Hs. exists k. split; [exact Hk|]. split; [|split; [reflexivity|exact Hs]]. unfold live, sy_skip. now apply String.eqb_neq in Hn as ->. }
  assert (key_at sy_keys sy_skip "e" (Exactly (SBV 8))) as He by (apply (HK (mkKey 1 "e" (TExact 8))); [cbn; tauto|discriminate|constructor]).
  assert (key_at sy_keys sy_skip "t" (Masked (SBV 16) (SBV 16))) as Ht by (apply (HK (mkKey 2 "t" (TTernary 16))); [cbn; tauto|discriminate|constructor]).
  assert (key_at sy_keys sy_skip "l" (Prefixed (SBV 32) SInt)) as Hl by (apply (HK (mkKey 4 "l" (TLpm 32))); [cbn; tauto|discriminate|constructor]).
  assert (key_at sy_keys sy_skip "o" (Masked (SBV 9) (SBV 9))) as Ho by (apply (HK (mkKey 5 "o" (TOptional 9))); [cbn; tauto|discriminate|constructor]).
  assert (forall s, ~ key_at sy_keys sy_skip "r" s) as Hr. { intros s (k & Hk & Hlv & En & _). unfold live in Hlv. rewrite En in Hlv. discriminate. }
  assert (Sorts sy_keys sy_skip (st_field "e" "value") (One (SBV 8))) as Hev by (eapply so_field; [exact He|constructor]).
  assert (Sorts sy_keys sy_skip st_one (One SInt)) as H1 by (eapply so_int with (n := 1%Z); reflexivity).
  split; [exact sy_table_keys|]. split; [exact sy_history|]. split; [vm_compute; discriminate|]. split.
  { split; [reflexivity|]. eapply so_bin; [exact Hev|apply so_neg_bits; exact Hev|]. constructor. constructor. }
  split; [intros src; vm_compute; reflexivity|]. split.
  { apply fl_in; [reflexivity|]. apply fw_here. eapply wr_bin; [exact Hev|exact H1|]. constructor; [discriminate|]. intros H. inversion H. }
  split. { apply fl_in; [reflexivity|]. apply fw_left. apply fw_here. apply wr_field_key. exact Hr. }
  split. { apply fl_in; [reflexivity|]. apply fw_left. apply fw_here. constructor. }
  split. { apply fl_in; [reflexivity|]. apply fw_here. eapply wr_bin_form; [apply so_key; exact Ht|apply so_key; exact Ho|intros H; inversion H|]. intros H. inversion H as [| |? ? ? ? ? Hq|]; subst. destruct Hq; discriminate. }
  apply fl_in; [reflexivity|]. apply fw_here. eapply wr_not_match; [apply so_key; exact Hl|]. intros [a E]. discriminate.
Qed.
