(** Concrete tables and solvers for the cases of PropertiesSymbolic.v. *)
From Coq Require Import String Ascii List ZArith NArith Bool Lia.
From Verif Require Import Base Num Token Ast Quote AstConstructors Info TypeChecker Parser ConstraintInfo Interpreter Z3 Symbolic SpecLexer SpecGrammar SpecTyping TypeFacts SpecSemantics SpecInfo SpecSymbolic SpecSolver
  EntryFacts EvalFacts InfoFacts InterpFacts InterpFacts2 SemFacts SemFacts2 SymFacts SymFacts2 SymComplete PropertiesParser PropertiesInfo PropertiesVerdict.
Import ListNotations.
Open Scope string_scope.
(** A solver that knows one assignment. *)
Definition candidate (mo : model) : solver := fun l => if forallb (fun u => zval_eqb (zeval (complete mo) u) (VB true)) l then Some mo else None.
Lemma candidate_sound mo : well_sorted (complete mo) -> sound_solver (candidate mo).
Proof.
  intros Hm l m H. unfold candidate in H. destruct (forallb _ l) eqn:E; [|discriminate H]. injection H as <-. split; [exact Hm|]. intros u Hu. rewrite forallb_forall in E. apply zval_eqb_eq. auto.
Qed.
(** An assignment from a list of bit-vector and integer symbols. *)
Definition listed (l : list ((string * sort) * Z)) : model := fun n s =>
  match assoc_find symbol_eqb (n, s) l, s with Some z, SBV w => if Z.leb 0 z && Z.ltb z (2 ^ w) then Some (VV w z) else None | Some z, SInt => Some (VI z) | _, _ => None end.
Lemma listed_sorted l : well_sorted (complete (listed l)).
Proof.
  intros n. unfold complete, listed. split; [|split].
  - intros w Hw. assert (0 < 2 ^ w)%Z by (apply Z.pow_pos_nonneg; lia). destruct (assoc_find symbol_eqb (n, SBV w) l) as [z|]; [|exists 0%Z; split; [reflexivity|lia]].
    destruct (Z.leb_spec 0 z); cbn [andb]; [|exists 0%Z; split; [reflexivity|lia]]. destruct (Z.ltb_spec z (2 ^ w)); [exists z|exists 0%Z]; split; auto; lia.
  - destruct (assoc_find symbol_eqb (n, SInt) l); cbn; eauto.
  - destruct (assoc_find symbol_eqb (n, SBool) l); cbn; eauto.
Qed.
Definition never_skip : string -> outcome bool := fun _ => Ok false.
(** A table with all kinds of keys; its range key is skipped. *)
Definition sy_text : string := "e != 0 && (t::mask == 0 || ::priority > 3) && l::prefix_length >= 8".
Definition sy_decl : p4_table := mkP4Table (mkPre 3 "sy" [restriction "entry" [sy_text]])
  [mkMF 1 "e" 8 (MMatchType MTExact); mkMF 2 "t" 16 (MMatchType MTTernary); mkMF 3 "r" 4 (MMatchType MTRange); mkMF 4 "l" 32 (MMatchType MTLpm); mkMF 5 "o" 9 (MMatchType MTOptional)].
Definition sy_keys : list key_info := [mkKey 1 "e" (TExact 8); mkKey 2 "t" (TTernary 16); mkKey 3 "r" (TRange 4); mkKey 4 "l" (TLpm 32); mkKey 5 "o" (TOptional 9)].
Definition no_table : table_info := mkTable 0 "" None (mkCSource "" (mkLoc 0 0 SrcNone)) [] [].
Definition no_expr : expr := ENotSet (mkMeta (mkLoc 0 0 SrcNone) (mkLoc 0 0 SrcNone) TNotSet).
Definition sy_ci : constraint_info := Eval vm_compute in the (mkInfo [] []) (P4ToConstraintInfo pton1 (mkP4Info [sy_decl] [])).
Definition sy_table : table_info := Eval vm_compute in match GetTableInfoOrNull sy_ci 3 with Some t => t | None => no_table end.
Definition sy_skip : string -> outcome bool := fun n => Ok (String.eqb n "r").
Definition sy_source : csource := mkCSource sy_text (mkLoc 0 0 (SrcTable "sy")).
Definition sy_tree : expr := Eval vm_compute in the no_expr (ParseConstraint pton1 kTableConstraint sy_source).
Definition sy_checked : expr := Eval vm_compute in match ti_constraint sy_table with Some e => e | None => no_expr end.
Definition sy_model : model := listed [(("e", SBV 8), 7%Z); (("t", SBV 16), 258%Z); (("t_mask", SBV 16), 1282%Z); (("l", SBV 32), 167772160%Z); (("l_prefix_length", SInt), 8%Z); (("o", SBV 9), 300%Z); (("o_mask", SBV 9), 511%Z); (("priority", SInt), 12%Z)].
Definition sy_check : solver := candidate sy_model.
Definition sy_cs : constraint_solver := the (mkCS no_table (mkEnv [] []) never_skip []) (Create sy_check sy_table sy_skip).
Definition sy_more : string := "e::value != 9 && o::mask == 511 -> ::priority <= 12".
Definition sy_more_tree : expr := Eval vm_compute in the no_expr (ParseConstraint pton1 kTableConstraint (text_source sy_table sy_more)).
Definition sy_more_checked : expr := Eval vm_compute in the no_expr (InferTable sy_more_tree sy_table).
Definition sy_cs2 : constraint_solver := snd (AddConstraintString sy_check pton1 sy_cs sy_more).
Definition sy_entry : p4_entry := Eval vm_compute in the (mkEntry 0 [] None 0) (ConcretizeEntry sy_check sy_cs2).

Lemma sy_table_keys : table_keys sy_table sy_keys.
Proof.
  split; try (intros x; cbn; tauto); repeat constructor; cbn; intuition discriminate.
Qed.
Lemma sy_widths : int32_widths sy_keys.
Proof. intros k w Hk Hw. cbn in Hk. repeat (destruct Hk as [<-|Hk]; [cbn in Hw; inversion Hw; subst; lia|]). contradiction. Qed.
Lemma sy_sound : sound_solver sy_check.
Proof. apply candidate_sound, listed_sorted. Qed.
Lemma sy_created : Create sy_check sy_table sy_skip = Ok sy_cs.
Proof. vm_compute. reflexivity. Qed.
Lemma sy_added : AddConstraintString sy_check pton1 sy_cs sy_more = (Ok true, sy_cs2).
Proof. vm_compute. reflexivity. Qed.
Lemma sy_history : History sy_check pton1 sy_table sy_skip sy_cs2 [sy_checked; sy_more_checked].
Proof.
  change [sy_checked; sy_more_checked] with ([sy_checked] ++ [sy_more_checked])%list. apply (hi_added_text _ _ _ _ sy_cs [sy_checked] sy_more sy_more_tree).
  - exact (hi_create sy_check pton1 sy_table sy_skip sy_cs sy_created).
  - exact sy_added.
  - vm_compute. reflexivity.
  - vm_compute. reflexivity.
Qed.
Lemma sy_concretized : ConcretizeEntry sy_check sy_cs2 = Ok sy_entry.
Proof. vm_compute. reflexivity. Qed.
Lemma sy_skipped k : In k sy_keys -> ~ live sy_skip k -> exists v, wildcard (k_type k) v.
Proof.
  intros Hk Hl. cbn in Hk. repeat (destruct Hk as [<-|Hk]; [try (destruct Hl; reflexivity); eexists; constructor; lia|]). contradiction.
Qed.
Lemma sy_inferred : InferTable sy_tree sy_table = Ok sy_checked /\ InferTable sy_more_tree sy_table = Ok sy_more_checked.
Proof. split; vm_compute; reflexivity. Qed.
Lemma sy_parsed : ParseConstraint pton1 kTableConstraint sy_source = Ok sy_tree.
Proof. vm_compute. reflexivity. Qed.
Lemma sy_more_parsed : ParseConstraint pton1 kTableConstraint (text_source sy_table sy_more) = Ok sy_more_tree.
Proof. vm_compute. reflexivity. Qed.
Lemma sy_literals : literals sy_tree /\ literals sy_more_tree.
Proof. split; [exact (parse_literals _ _ _ _ pton1_ok sy_parsed)|exact (parse_literals _ _ _ _ pton1_ok sy_more_parsed)]. Qed.
(** Neither constraint orders fixed-width numbers. *)
Fixpoint orders_bits (e : expr) : bool :=
  match e with
  | EBin _ o a b => match o, e_type a with (OGT | OGE | OLT | OLE), (TInt | TBool) => false | (OGT | OGE | OLT | OLE), _ => true | _, _ => false end || orders_bits a || orders_bits b
  | ENot _ a | ENeg _ a | ECast _ a | EField _ _ a => orders_bits a
  | _ => false
  end.
Lemma orders_cast t x : orders_bits (CastTransitivelyTo x t) = orders_bits x.
Proof. unfold CastTransitivelyTo, WrapWithCast. do 2 match goal with |- context [if ?c then _ else _] => destruct c end; reflexivity. Qed.
Lemma reorders_checked t G r e0 : NoDup (map fst (ti_keys_by_name t)) -> G = InTable (ti_keys_by_name t) -> reorders G r e0 -> forall e, InferTable e0 t = Ok e -> orders_bits e = true.
Proof.
  intros HN -> H. pose proof (scope_ti t HN) as HS. unfold InferTable. induction H as [m o a b ta tb c w u v u' v' x y Ho Ta Tb Hc Hw|m a H IH|m o a b H IH|m o a b H IH]; intros e Hi.
  - apply (inv_bin _ _ _ HS) in Hi as (xa & xb & E1 & E2 & [(Hn & _)|(d & Hd & _ & ->)]); [destruct Ho; inversion Hn|].
    destruct (infer_ok _ _ _ HS _ _ E1) as (T1 & A1 & _), (infer_ok _ _ _ HS _ _ E2) as (T2 & _).
    assert (e_type xa = ta) as Ea by (eapply (typed_fun _ _ _ HS); eauto). assert (e_type xb = tb) as Eb by (eapply (typed_fun _ _ _ HS); eauto). rewrite Ea, Eb in Hd. rewrite (common_fun _ _ _ _ Hd Hc) in *.
    cbn [set_type orders_bits]. apply orb_true_iff. left. apply orb_true_iff. left.
    destruct (cast_spec _ xa c A1) as (_ & Ec & _); [rewrite Ea; apply Hc|]. rewrite Ec. destruct Ho; inversion Hw; subst; reflexivity.
  - apply (inv_not _ _ _ HS) in Hi as (x & E & _ & ->). cbn. eauto.
  - apply (inv_bin _ _ _ HS) in Hi as (xa & xb & E1 & E2 & [(_ & _ & _ & ->)|(d & _ & _ & ->)]); cbn [set_type orders_bits]; rewrite ?orders_cast, (IH _ E1), orb_true_r; reflexivity.
  - apply (inv_bin _ _ _ HS) in Hi as (xa & xb & E1 & E2 & [(_ & _ & _ & ->)|(d & _ & _ & ->)]); cbn [set_type orders_bits]; rewrite ?orders_cast, (IH _ E2), orb_true_r; reflexivity.
Qed.
Lemma exact_checked t G e0 : NoDup (map fst (ti_keys_by_name t)) -> G = InTable (ti_keys_by_name t) -> orders_exact G e0 -> forall e, InferTable e0 t = Ok e -> orders_bits e = true.
Proof.
  intros HN -> H. pose proof (scope_ti t HN) as HS. unfold InferTable. induction H as [m o a b ta tb w Ho Ta Tb Hc|m a H IH|m a H IH|m o a b H IH|m o a b H IH|m f a H IH]; intros e Hi.
  - apply (inv_bin _ _ _ HS) in Hi as (xa & xb & E1 & E2 & [(Hn & _)|(d & Hd & _ & ->)]); [destruct Ho; inversion Hn|].
    destruct (infer_ok _ _ _ HS _ _ E1) as (T1 & A1 & _), (infer_ok _ _ _ HS _ _ E2) as (T2 & _).
    assert (e_type xa = ta) as Ea by (eapply (typed_fun _ _ _ HS); eauto). assert (e_type xb = tb) as Eb by (eapply (typed_fun _ _ _ HS); eauto). rewrite Ea, Eb in Hd. rewrite (common_fun _ _ _ _ Hd Hc) in *.
    cbn [set_type orders_bits]. apply orb_true_iff. left. apply orb_true_iff. left.
    destruct (cast_spec _ xa (TExact w) A1) as (_ & Ec & _); [rewrite Ea; apply Hc|]. rewrite Ec. destruct Ho; reflexivity.
  - apply (inv_not _ _ _ HS) in Hi as (x & E & _ & ->). cbn. eauto.
  - apply (inv_neg _ _ _ HS) in Hi as (x & E & _ & ->). cbn. eauto.
  - apply (inv_bin _ _ _ HS) in Hi as (xa & xb & E1 & E2 & [(_ & _ & _ & ->)|(d & _ & _ & ->)]); cbn [set_type orders_bits]; rewrite ?orders_cast, (IH _ E1), orb_true_r; reflexivity.
  - apply (inv_bin _ _ _ HS) in Hi as (xa & xb & E1 & E2 & [(_ & _ & _ & ->)|(d & _ & _ & ->)]); cbn [set_type orders_bits]; rewrite ?orders_cast, (IH _ E2), orb_true_r; reflexivity.
  - apply (inv_field _ _ _ HS) in Hi as (x & ? & E & _ & ->). cbn. eauto.
Qed.
Lemma sy_no_exact : ~ orders_exact (InTable (ti_keys_by_name sy_table)) sy_tree.
Proof.
  intros H. assert (NoDup (map fst (ti_keys_by_name sy_table))) as HN by (repeat constructor; cbn; intuition discriminate).
  discriminate (exact_checked sy_table _ _ HN eq_refl H _ (proj1 sy_inferred)).
Qed.
Lemma sy_no_reorder r : ~ reorders (InTable (ti_keys_by_name sy_table)) r sy_tree /\ ~ reorders (InTable (ti_keys_by_name sy_table)) r sy_more_tree.
Proof.
  destruct sy_inferred as [E1 E2]. split; intros H; [apply (reorders_checked sy_table _ _ _) with (e := sy_checked) in H|apply (reorders_checked sy_table _ _ _) with (e := sy_more_checked) in H]; auto; try discriminate H;
    repeat constructor; cbn; intuition discriminate.
Qed.
(** The concretized entry and what its names stand for. *)
Definition sy_values : list (string * value) := Eval vm_compute in match ParseTableEntry sy_entry sy_table with Ok (mkCtx (CtxTable _ _ l) _) => l | _ => [] end.
Definition sy_key : string -> option value := fun n => assoc_find String.eqb n sy_values.
Lemma sy_values_ok : ParseTableEntry sy_entry sy_table = Ok (mkCtx (CtxTable "sy" 12 sy_values) (ti_source sy_table)).
Proof. vm_compute. reflexivity. Qed.
Lemma sy_consistent : consistent sy_keys (pe_match sy_entry).
Proof. exact (proj1 (entry_ok _ _ sy_table_keys _ _ sy_values_ok)). Qed.
Lemma sy_key_iff n v : sy_key n = Some v <-> Assigned sy_keys (pe_match sy_entry) n v.
Proof.
  destruct (entry_ok _ _ sy_table_keys _ _ sy_values_ok) as (_ & keys & E & HN & HI). injection E as E. rewrite <- HI, <- E. rewrite <- E in HN. unfold sy_key. apply (afind_iff String.eqb String.eqb_eq). exact HN.
Qed.
Lemma sy_pictures k v : In k sy_keys -> live sy_skip k -> Assigned sy_keys (pe_match sy_entry) (k_name k) v -> pictures (complete sy_model) k v.
Proof.
  intros Hk Hl Hv. apply sy_key_iff in Hv. cbn in Hk. repeat destruct Hk as [<-|Hk]; try contradiction; try discriminate Hl; vm_compute in Hv; injection Hv as <-.
  - now apply (pi_exact _ _ 8).
  - apply (pi_ternary _ _ 16); auto.
  - now apply (pi_lpm _ _ 32).
  - apply (pi_ternary _ _ 9); auto.
Qed.
Lemma sy_priority : pictures_priority (complete sy_model) 12.
Proof. reflexivity. Qed.
Lemma sy_constraint : ti_constraint sy_table = Some sy_checked.
Proof. reflexivity. Qed.

(** Tables whose constraints order 8-bit values. *)
Definition one_table (text : string) (mfs : list match_field) : p4_table := mkP4Table (mkPre 3 "sg" [restriction "entry" [text]]) mfs.
Definition made_info (text : string) (mfs : list match_field) : constraint_info := the (mkInfo [] []) (P4ToConstraintInfo pton1 (mkP4Info [one_table text mfs] [])).
Definition made_table (text : string) (mfs : list match_field) : table_info := match GetTableInfoOrNull (made_info text mfs) 3 with Some t => t | None => no_table end.
Definition made_tree (text : string) : expr := the no_expr (ParseConstraint pton1 kTableConstraint (mkCSource text (mkLoc 0 0 (SrcTable "sg")))).
Definition sg_fields : list match_field := [mkMF 1 "v" 8 (MMatchType MTTernary)].
Definition sg_keys : list key_info := [mkKey 1 "v" (TTernary 8)].
Definition sg_low : table_info := Eval vm_compute in made_table "v::value < 1" sg_fields.
Definition sg_low_tree : expr := Eval vm_compute in made_tree "v::value < 1".
Definition sg_high : table_info := Eval vm_compute in made_table "v::value > 127" sg_fields.
Definition sg_model : model := listed [(("v", SBV 8), 200%Z); (("v_mask", SBV 8), 255%Z); (("priority", SInt), 5%Z)].
Definition sg_check : solver := candidate sg_model.
Definition sg_cs : constraint_solver := the (mkCS no_table (mkEnv [] []) never_skip []) (Create sg_check sg_low never_skip).
Definition sg_match : list field_match := [mkFM 1 (FMTernary (String (ascii_of_nat 200) "") (String (ascii_of_nat 255) ""))].
Definition sg_entry : p4_entry := mkEntry 3 sg_match None 5.
(** A key whose name is that of another key's mask symbol. *)
Definition al_fields : list match_field := [mkMF 1 "x" 8 (MMatchType MTTernary); mkMF 2 "x_mask" 8 (MMatchType MTExact)].
Definition al_keys : list key_info := [mkKey 1 "x" (TTernary 8); mkKey 2 "x_mask" (TExact 8)].
Definition al_table : table_info := Eval vm_compute in made_table "x::mask == 1 && x_mask == 2" al_fields.
Definition al_match : list field_match := [mkFM 1 (FMTernary (String (ascii_of_nat 1) "") (String (ascii_of_nat 1) "")); mkFM 2 (FMExact (String (ascii_of_nat 2) ""))].
Definition al_entry : p4_entry := mkEntry 3 al_match None 5.
(** A constraint on the priority of a table whose entries have none. *)
Definition np_fields : list match_field := [mkMF 1 "x" 8 (MMatchType MTExact)].
Definition np_keys : list key_info := [mkKey 1 "x" (TExact 8)].
Definition np_table : table_info := Eval vm_compute in made_table "::priority == 0" np_fields.
Definition np_match : list field_match := [mkFM 1 (FMExact (String (ascii_of_nat 2) ""))].
Definition np_entry : p4_entry := mkEntry 3 np_match None 0.
Definition sg_key : string -> option value := fun n => if String.eqb n "v" then Some (VTernary 200 255) else None.
Definition sg_low_checked : expr := Eval vm_compute in match ti_constraint sg_low with Some e => e | None => no_expr end.
Lemma sg_low_inferred : InferTable sg_low_tree sg_low = Ok sg_low_checked.
Proof. vm_compute. reflexivity. Qed.
Lemma sg_low_keys : table_keys sg_low sg_keys.
Proof. split; try (intros x; cbn; tauto); repeat constructor; cbn; intuition discriminate. Qed.
Lemma sg_widths : int32_widths sg_keys.
Proof. intros k w [<-|[]] Hw. cbn in Hw. inversion Hw; subst. lia. Qed.
Lemma sg_created : Create sg_check sg_low never_skip = Ok sg_cs.
Proof. vm_compute. reflexivity. Qed.
Lemma sg_low_parsed : ParseConstraint pton1 kTableConstraint (mkCSource "v::value < 1" (mkLoc 0 0 (SrcTable "sg"))) = Ok sg_low_tree.
Proof. vm_compute. reflexivity. Qed.
Lemma sg_literals : literals sg_low_tree.
Proof. exact (parse_literals _ _ _ _ pton1_ok sg_low_parsed). Qed.
Lemma sg_values_ok : ParseTableEntry sg_entry sg_low = Ok (mkCtx (CtxTable "sg" 5 [("v", VTernary 200 255)]) (ti_source sg_low)).
Proof. vm_compute. reflexivity. Qed.
Lemma sg_consistent : consistent sg_keys (pe_match sg_entry).
Proof. exact (proj1 (entry_ok _ _ sg_low_keys _ _ sg_values_ok)). Qed.
Lemma sg_key_iff n v : sg_key n = Some v <-> Assigned sg_keys (pe_match sg_entry) n v.
Proof.
  destruct (entry_ok _ _ sg_low_keys _ _ sg_values_ok) as (_ & keys & E & HN & HI). injection E as E. rewrite <- HI, <- E. unfold sg_key. destruct (String.eqb_spec n "v") as [->|Hn]; cbn; split.
  - intros [= <-]. auto.
  - now intros [[= <-]|[]].
  - discriminate.
  - intros [[= <- _]|[]]. congruence.
Qed.
Lemma sg_pictures k v : In k sg_keys -> Assigned sg_keys (pe_match sg_entry) (k_name k) v -> pictures (complete sg_model) k v.
Proof. intros [<-|[]] Hv. apply sg_key_iff in Hv. vm_compute in Hv. injection Hv as <-. apply (pi_ternary _ _ 8); auto. Qed.
Lemma sg_low_false : ~ Den (InTable (ti_keys_by_name sg_low)) (TableEnv sg_key 5) sg_low_tree (VBool true).
Proof.
  intros H.
  assert (env_eq (env_of (mkCtx (CtxTable "sg" 5 [("v", VTernary 200 255)]) (ti_source sg_low))) (TableEnv sg_key 5)) as HE by (exact (entry_env_eq _ _ _ _ _ sg_low_keys sg_values_ok sg_key_iff)).
  assert (Den (InTable (ti_keys_by_name sg_low)) (TableEnv sg_key 5) sg_low_tree (VBool false)) as H2.
  { apply (den_ext _ _ _ _ _ HE). assert (ev (mkCtx (CtxTable "sg" 5 [("v", VTernary 200 255)]) (ti_source sg_low)) sg_low_checked = Ok (VBool false)) as He by (vm_compute; reflexivity).
    exact (ev_sound None (Some sg_low) _ (table_in_scope _ _ sg_low_keys) _ _ _ _ sg_low_inferred sg_literals He). }
  pose proof (den_fun None (Some sg_low) _ (table_in_scope _ _ sg_low_keys) _ _ _ _ H H2). discriminate.
Qed.
(** C42, C47. *)
Lemma t_apart : apart [mkKey 2 "t" (TTernary 16)].
Proof. repeat constructor; cbn; intuition discriminate. Qed.
Ltac byte := split; [discriminate|split; [right; discriminate|reflexivity]].
Lemma two_bytes : canonical_bytes 16 (String (ascii_of_nat 1) (String (ascii_of_nat 2) "")).
Proof. byte. Qed.
Lemma masked_land v m : Z.land v m = v -> masked v m.
Proof. intros E i Hi. rewrite <- E, Z.land_spec in Hi. now apply andb_true_iff in Hi as [_ Hi]. Qed.
Lemma t_canonical : canonical_match (TTernary 16) (Some (FMTernary (String (ascii_of_nat 1) (String (ascii_of_nat 2) "")) (String (ascii_of_nat 5) (String (ascii_of_nat 2) "")))) (VTernary 258 1282).
Proof.
  apply (ca_ternary 16 (String (ascii_of_nat 1) (String (ascii_of_nat 2) "")) (String (ascii_of_nat 5) (String (ascii_of_nat 2) ""))); [byte|byte|discriminate|apply masked_land; reflexivity].
Qed.
(** C46. *)
Lemma sg_apart : apart sg_keys.
Proof. repeat constructor; cbn; intuition discriminate. Qed.
Lemma sg_representable k : In k sg_keys -> representable k.
Proof. intros [<-|[]]. exists 8%Z. cbn. split; [lia|auto]. Qed.
Lemma sg_formed : well_formed sg_keys sg_match.
Proof.
  split; [repeat constructor; cbn; tauto| |].
  - intros f [<-|[]]. exists (mkKey 1 "v" (TTernary 8)), (VTernary 200 255). split; [now left|]. split; [reflexivity|].
    apply (ca_ternary 8 (String (ascii_of_nat 200) "") (String (ascii_of_nat 255) "")); [byte|byte|discriminate|apply masked_land; reflexivity].
  - intros k [<-|[]] _. eexists. constructor.
Qed.
Lemma sg_high_keys : table_keys sg_high sg_keys.
Proof. split; try (intros x; cbn; tauto); repeat constructor; cbn; intuition discriminate. Qed.
Lemma unordered t e0 e : NoDup (map fst (ti_keys_by_name t)) -> InferTable e0 t = Ok e -> orders_bits e = false -> forall r, ~ reorders (InTable (ti_keys_by_name t)) r e0.
Proof. intros HN Hi Ho r H. rewrite (reorders_checked t _ r e0 HN eq_refl H e Hi) in Ho. discriminate Ho. Qed.
Definition ac_text : string := "v::mask == 255 && ::priority >= 5".
Definition ac_table : table_info := Eval vm_compute in made_table ac_text sg_fields.
Definition ac_tree : expr := Eval vm_compute in made_tree ac_text.
Definition ac_checked : expr := Eval vm_compute in match ti_constraint ac_table with Some e => e | None => no_expr end.
Lemma ac_parsed : ParseConstraint pton1 kTableConstraint (mkCSource ac_text (mkLoc 0 0 (SrcTable "sg"))) = Ok ac_tree.
Proof. vm_compute. reflexivity. Qed.
Lemma ac_inferred : InferTable ac_tree ac_table = Ok ac_checked.
Proof. vm_compute. reflexivity. Qed.
Lemma ac_literals : literals ac_tree.
Proof. exact (parse_literals _ _ _ _ pton1_ok ac_parsed). Qed.
Lemma ac_keys : table_keys ac_table sg_keys.
Proof. split; try (intros x; cbn; tauto); repeat constructor; cbn; intuition discriminate. Qed.
(** No assignment fulfils the assertions. *)
Lemma sorted_bits m n w : well_sorted m -> (0 < w)%Z -> exists z, m n (SBV w) = VV w z /\ (0 <= z < 2 ^ w)%Z.
Proof. intros H Hw. exact (proj1 (H n) w Hw). Qed.
Ltac refuse check H Hs :=
  vm_compute in H; repeat match type of H with context [check ?l] => let E := fresh "E" in destruct (check l) eqn:E; [apply Hs in E as [? E]|]; cbn beta iota in H; try discriminate H end; clear H.
Lemma sg_high_refused check cs : sound_solver check -> Create check sg_high never_skip <> Ok cs.
Proof.
  intros Hs H. refuse check H Hs. match goal with A : satisfies (complete ?mo) (_ :: _ :: _ :: ?u :: []) |- _ => specialize (A u ltac:(cbn; tauto)); destruct (sorted_bits (complete mo) "v" 8) as (z & Ez & Hz); [assumption|lia|]; cbn [zeval] in A; rewrite Ez in A; cbn in A; injection A as A end.
  apply Z.gtb_lt in E0. unfold signed in E0. change (2 ^ (8 - 1))%Z with 128%Z in E0. change (2 ^ 8)%Z with 256%Z in *. destruct (Z.ltb_spec z 128); lia.
Qed.
Lemma al_table_keys : table_keys al_table al_keys.
Proof. split; try (intros x; cbn; tauto); repeat constructor; cbn; intuition discriminate. Qed.
Lemma al_refused check cs : sound_solver check -> Create check al_table never_skip <> Ok cs.
Proof.
  intros Hs H. refuse check H Hs. match goal with A : satisfies (complete ?mo) (_ :: _ :: _ :: ?u :: []) |- _ => specialize (A u ltac:(cbn; tauto)); destruct (sorted_bits (complete mo) "x_mask" 8) as (z & Ez & Hz); [assumption|lia|]; cbn [zeval] in A; rewrite Ez in A; cbn in A; injection A as A end.
  apply andb_true_iff in E0 as [E1 E2]. destruct (Z.eqb_spec z 1); [|discriminate]. destruct (Z.eqb_spec z 2); [lia|discriminate].
Qed.
Lemma al_representable k : In k al_keys -> representable k.
Proof. intros [<-|[<-|[]]]; exists 8%Z; cbn; (split; [lia|auto]). Qed.
Lemma al_formed : well_formed al_keys al_match.
Proof.
  split; [repeat constructor; cbn; intuition discriminate| |].
  - intros f [<-|[<-|[]]].
    + exists (mkKey 1 "x" (TTernary 8)), (VTernary 1 1). split; [now left|]. split; [reflexivity|]. apply (ca_ternary 8 (String (ascii_of_nat 1) "") (String (ascii_of_nat 1) "")); [byte|byte|discriminate|apply masked_land; reflexivity].
    + exists (mkKey 2 "x_mask" (TExact 8)), (VExact 2). split; [now right; left|]. split; [reflexivity|]. apply (ca_exact 8 (String (ascii_of_nat 2) "")). byte.
  - intros k [<-|[<-|[]]] Ho; [eexists; constructor|]. exfalso. apply (Ho (mkFM 2 (FMExact (String (ascii_of_nat 2) "")))); cbn; auto.
Qed.
Definition al_tree : expr := Eval vm_compute in made_tree "x::mask == 1 && x_mask == 2".
Lemma al_unordered r : ~ reorders (InTable (ti_keys_by_name al_table)) r al_tree.
Proof. eapply unordered; [repeat constructor; cbn; intuition discriminate|vm_compute; reflexivity|reflexivity]. Qed.
Lemma np_table_keys : table_keys np_table np_keys.
Proof. split; try (intros x; cbn; tauto); repeat constructor; cbn; intuition discriminate. Qed.
Lemma np_refused check cs : sound_solver check -> Create check np_table never_skip <> Ok cs.
Proof. intros Hs H. refuse check H Hs. Qed.
Lemma np_representable k : In k np_keys -> representable k.
Proof. intros [<-|[]]; exists 8%Z; cbn; (split; [lia|auto]). Qed.
Lemma np_apart : apart np_keys.
Proof. repeat constructor; cbn; intuition discriminate. Qed.
Lemma np_formed : well_formed np_keys np_match.
Proof.
  split; [repeat constructor; cbn; intuition discriminate| |].
  - intros f [<-|[]]. exists (mkKey 1 "x" (TExact 8)), (VExact 2). split; [now left|]. split; [reflexivity|]. apply (ca_exact 8 (String (ascii_of_nat 2) "")). byte.
  - intros k [<-|[]] Ho. exfalso. apply (Ho (mkFM 1 (FMExact (String (ascii_of_nat 2) "")))); cbn; auto.
Qed.
Definition np_tree : expr := Eval vm_compute in made_tree "::priority == 0".
Lemma np_unordered r : ~ reorders (InTable (ti_keys_by_name np_table)) r np_tree.
Proof. eapply unordered; [repeat constructor; cbn; intuition discriminate|vm_compute; reflexivity|reflexivity]. Qed.
(** C48. *)
Definition sk_text : string := "e == 7 || r::low == 0".
Definition sk_tree : expr := Eval vm_compute in the no_expr (ParseConstraint pton1 kTableConstraint (text_source sy_table sk_text)).
Lemma sk_parsed : ParseConstraint pton1 kTableConstraint (text_source sy_table sk_text) = Ok sk_tree.
Proof. vm_compute. reflexivity. Qed.
Definition sk_checked : expr := Eval vm_compute in the no_expr (InferTable sk_tree sy_table).
Lemma sk_inferred : InferTable sk_tree sy_table = Ok sk_checked.
Proof. vm_compute. reflexivity. Qed.
Lemma sk_mentions : mentions sk_tree "r".
Proof. unfold sk_tree. apply me_right, me_left, me_field, me_key. Qed.
Lemma sk_refused : exists s, AddConstraintString sy_check pton1 sy_cs2 sk_text = (Err NotFound s, sy_cs2).
Proof. vm_compute. eexists. reflexivity. Qed.
(** C46: the entry seen by the solver, without the skipped key. *)
Definition sl_keys : list key_info := [mkKey 1 "e" (TExact 8); mkKey 2 "t" (TTernary 16); mkKey 4 "l" (TLpm 32); mkKey 5 "o" (TOptional 9)].
Definition sl_table : table_info := mkTable 3 "sy" None (ti_source sy_table) (map (fun k => (k_id k, k)) sl_keys) (map (fun k => (k_name k, k)) sl_keys).
Definition sl_values : list (string * value) := Eval vm_compute in match ParseTableEntry sy_entry sl_table with Ok (mkCtx (CtxTable _ _ l) _) => l | _ => [] end.
Definition sl_key : string -> option value := fun n => assoc_find String.eqb n sl_values.
Lemma sl_live : live_keys sy_skip sy_keys = sl_keys.
Proof. reflexivity. Qed.
Lemma sl_table_keys : table_keys sl_table sl_keys.
Proof. split; try (intros x; cbn; tauto); repeat constructor; cbn; intuition discriminate. Qed.
Lemma sl_parsed : ParseTableEntry sy_entry sl_table = Ok (mkCtx (CtxTable "sy" 12 sl_values) (ti_source sy_table)).
Proof. vm_compute. reflexivity. Qed.
Lemma sl_key_iff n v : sl_key n = Some v <-> Assigned (live_keys sy_skip sy_keys) (pe_match sy_entry) n v.
Proof.
  rewrite sl_live. destruct (entry_ok _ _ sl_table_keys _ _ sl_parsed) as (_ & keys & E & HN & HI). injection E as E. rewrite <- HI, <- E. rewrite <- E in HN. unfold sl_key. apply (afind_iff String.eqb String.eqb_eq). exact HN.
Qed.
Lemma sl_den : Den (InTable (ti_keys_by_name sy_table)) (TableEnv sl_key 12) sy_tree (VBool true).
Proof.
  assert (ev (mkCtx (CtxTable "sy" 12 sl_values) (ti_source sy_table)) sy_checked = Ok (VBool true)) as He by (vm_compute; reflexivity).
  exact (ev_sound None (Some sy_table) _ (table_in_scope _ _ sy_table_keys) _ _ _ _ (proj1 sy_inferred) (proj1 sy_literals) He).
Qed.
Lemma sl_mentions n : mentions sy_tree n -> exists k, In k (live_keys sy_skip sy_keys) /\ k_name k = n.
Proof.
  rewrite sl_live. unfold sy_tree. intros H.
  repeat match goal with H : mentions ?e _ |- _ => match e with EBin _ _ _ _ => idtac | EField _ _ _ => idtac | EInt _ _ => idtac | EAttr _ _ => idtac | EKey _ _ => idtac end; inversion H; clear H; subst end;
    [exists (mkKey 1 "e" (TExact 8))|exists (mkKey 2 "t" (TTernary 16))|exists (mkKey 4 "l" (TLpm 32))]; (split; [cbn; tauto|reflexivity]).
Qed.
