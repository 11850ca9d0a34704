(** C51 and C52: sizes of constraints, equality of locations and types. *)
From Coq Require Import String Ascii List ZArith NArith Bool Lia.
From Verif Require Import Base Num Token Ast Quote Info TypeChecker SpecLexer SpecGrammar SpecTyping TypeFacts StrFacts NumFacts LiteralFacts SpecSemantics EvalFacts SemFacts SemFacts2 ExplainFacts SpecInfo Cli SpecMisc SymDemo.
Import ListNotations.
Open Scope string_scope.

(** * C51 *)
Lemma Size_size e p : fst (Size e p None) = size e.
Proof.
  revert p. induction e as [m b|m s|m n|m n|m e IH|m e IH|m e IH|m o l IHl r IHr|m f e IH|m n|m]; intros p; cbn [Size size]; try reflexivity.
  - specialize (IH (false :: p)). destruct (Size_spec e e [] None eq_refl I) as (_ & _ & _). destruct (Size e (false :: p) None) as [[na| |] c]; cbn in IH; rewrite <- IH; reflexivity.
  - assert (forall e p, snd (Size e p None) = None) as HN.
    { clear. induction e as [m b|m s|m n|m n|m e IH|m e IH|m e IH|m o l IHl r IHr|m f e IH|m n|m]; intros p; cbn [Size]; try reflexivity.
      - specialize (IH (false :: p)). destruct (Size e (false :: p) None) as [[na| |] c]; cbn in *; subst; reflexivity.
      - specialize (IHl (false :: p)). destruct (Size l (false :: p) None) as [[na| |] c]; cbn in *; subst; try reflexivity. specialize (IHr (true :: p)). destruct (Size r (true :: p) None) as [[nb| |] c]; cbn in *; subst; reflexivity. }
    specialize (IHl (false :: p)). specialize (HN l (false :: p)) as HN1. destruct (Size l (false :: p) None) as [[na| |] c]; cbn in IHl, HN1; subst; rewrite <- IHl; try reflexivity.
    specialize (IHr (true :: p)). destruct (Size r (true :: p) None) as [[nb| |] c]; cbn in IHr; rewrite <- IHr; reflexivity.
Qed.
Theorem C51_positive : forall e p n, fst (Size e p None) = Ok n -> (0 < n)%Z.
Proof. intros e p n. rewrite Size_size, size_Nodes. induction 1; lia. Qed.
Print Assumptions C51_positive.
Theorem C51_larger_than_operands : forall e s p q n k, Operand e s -> fst (Size e p None) = Ok n -> fst (Size s q None) = Ok k -> (k < n)%Z.
Proof.
  intros e s p q n k Ho Hn Hk. assert (forall e p n, fst (Size e p None) = Ok n -> (0 < n)%Z) as Hpos by exact C51_positive. rewrite Size_size in Hn, Hk. apply size_Nodes in Hn, Hk.
  destruct Ho; inversion Hn; subst; match goal with A : Nodes ?x ?i, B : Nodes ?x ?j |- _ => pose proof (Nodes_fun _ _ _ A B); subst end; try lia;
    repeat match goal with A : Nodes ?x ?i |- _ => apply size_Nodes in A; rewrite <- (Size_size x []) in A; apply Hpos in A end; lia.
Qed.
Print Assumptions C51_larger_than_operands.
Theorem C51_locations : forall e e' p p', Alike e e' -> fst (Size e p None) = fst (Size e' p' None).
Proof. intros e e' p p' H. rewrite !Size_size. induction H; cbn [size]; repeat match goal with E : size _ = size _ |- _ => rewrite E; clear E end; reflexivity. Qed.
Print Assumptions C51_locations.
Lemma size_cast x t n : size x = Ok n -> n = 1%Z -> size (CastTransitivelyTo x t) = Ok 1%Z.
Proof. intros H ->. unfold CastTransitivelyTo, WrapWithCast. do 2 match goal with |- context [if ?c then _ else _] => destruct c end; try reflexivity; exact H. Qed.
Lemma typed_size keys e t : Typed (InTable keys) e t -> exists n, size e = Ok n /\ (t <> TBool -> n = 1%Z).
Proof.
  induction 1 as [m b|m s|k m n t Hk|k m n t Hk|m|m e H IH|m e H IH|m o a b Hc H1 IH1 H2 IH2|m o a b ta tb t Hc H1 IH1 H2 IH2 Hco|m o a b ta tb t Hc H1 IH1 H2 IH2 Hco Ho|m f e t t' H IH Hf]; cbn [size]; try discriminate Hk; eauto.
  - destruct IH as (n & -> & _). cbn. eexists. split; [reflexivity|congruence].
  - destruct IH1 as (n & -> & _), IH2 as (k & -> & _). cbn. eexists. split; [reflexivity|congruence].
  - destruct IH1 as (n & -> & _), IH2 as (k & -> & _). cbn. eexists. split; [reflexivity|congruence].
  - destruct IH1 as (n & -> & _), IH2 as (k & -> & _). cbn. eexists. split; [reflexivity|congruence].
Qed.
(** Type-correct table constraints have a size, and the casts that type checking adds do not change it. *)
Theorem C51_table_constraints : forall keys e t p, Typed (InTable keys) e t -> exists n, fst (Size e p None) = Ok n.
Proof. intros keys e t p H. rewrite Size_size. destruct (typed_size _ _ _ H) as (n & E & _). eauto. Qed.
Print Assumptions C51_table_constraints.
Lemma operand_cast x t keys l : Typed (InTable keys) l (e_type x) -> size x = size l -> convertible (e_type x) t -> size (CastTransitivelyTo x t) = size l.
Proof.
  intros HT E Hc. destruct (typed_size _ _ _ HT) as (n & En & H1). destruct (e_type x) eqn:Et; try (rewrite H1 in En by discriminate; rewrite En; eapply size_cast; [rewrite E; exact En|reflexivity]).
  assert (t = TBool) as ->. { destruct Hc as [<-|Hb]; [reflexivity|]. exfalso. remember TBool as b eqn:Eb. clear - Hb Eb. induction Hb as [a c Hs|a c d Hx IH1 Hy IH2]; subst; [inversion Hs|auto]. }
  rewrite <- E. unfold CastTransitivelyTo. rewrite Et. cbn. now rewrite ?Et.
Qed.
Theorem C51_casts : forall t e0 e p, NoDup (map fst (ti_keys_by_name t)) -> InferTable e0 t = Ok e -> fst (Size e p None) = fst (Size e0 p None).
Proof.
  intros t e0 e p HN. rewrite !Size_size. assert (in_scope None (Some t) (InTable (ti_keys_by_name t))) as HS by now constructor. unfold InferTable.
  revert e. induction e0 as [m b|m s|m n|m n|m e IH|m e IH|m e IH|m o l IHl r IHr|m f e IH|m n|m]; intros e' Hi.
  - now rewrite (inv_atom _ _ _ HS _ _ Hi).
  - now rewrite (inv_atom _ _ _ HS _ _ Hi).
  - destruct (inv_atom _ _ _ HS _ _ Hi) as [ty ->]. reflexivity.
  - destruct (inv_atom _ _ _ HS _ _ Hi) as [ty ->]. reflexivity.
  - apply (inv_not _ _ _ HS) in Hi as (x & E & _ & ->). cbn. now rewrite (IH _ E).
  - apply (inv_neg _ _ _ HS) in Hi as (x & E & _ & ->). reflexivity.
  - destruct (inv_atom _ _ _ HS _ _ Hi).
  - apply (inv_bin _ _ _ HS) in Hi as (x & y & E1 & E2 & [(_ & _ & _ & ->)|(c & (C1 & C2 & _) & _ & ->)]); cbn [set_type size].
    + now rewrite (IHl _ E1), (IHr _ E2).
    + rewrite (operand_cast x c (ti_keys_by_name t) l), (operand_cast y c (ti_keys_by_name t) r); auto; [exact (proj1 (infer_ok _ _ _ HS _ _ E2))|exact (proj1 (infer_ok _ _ _ HS _ _ E1))].
  - apply (inv_field _ _ _ HS) in Hi as (x & ty & E & _ & ->). reflexivity.
  - destruct (inv_atom _ _ _ HS _ _ Hi) as (_ & ->). reflexivity.
  - destruct (inv_atom _ _ _ HS _ _ Hi).
Qed.
Print Assumptions C51_casts.
(** In general a size is missing exactly if there is an uncounted node. *)
Theorem C51_failure : forall e p, (exists m, fst (Size e p None) = Err InvalidArgument m) <-> Uncounted e.
Proof.
  intros e p. rewrite Size_size. split.
  - induction e as [m b|m s|m n|m n|m e IH|m e IH|m e IH|m o l IHl r IHr|m f e IH|m n|m]; cbn [size]; intros [x H]; try discriminate H; try constructor.
    + apply (un_operand _ e); [constructor|]. apply IH. destruct (size e); [discriminate H| |discriminate H]. injection H as -> ->. eauto.
    + destruct (size l) as [na|c1 s1|] eqn:E1; [|apply (un_operand _ l); [constructor|]; apply IHl; injection H as -> ->; eauto|discriminate H].
      destruct (size r) as [nb|c2 s2|] eqn:E2; [discriminate H|apply (un_operand _ r); [constructor|]; apply IHr; injection H as -> ->; eauto|discriminate H].
  - assert (forall e, (exists n, size e = Ok n) \/ size e = Err InvalidArgument "invalid expression: ") as Htot.
    { clear. induction e as [m b|m s|m n|m n|m e IH|m e IH|m e IH|m o l IHl r IHr|m f e IH|m n|m]; cbn [size]; eauto.
      - destruct IH as [[n ->]| ->]; cbn; eauto.
      - destruct IHl as [[n ->]| ->]; cbn; eauto. destruct IHr as [[k ->]| ->]; cbn; eauto. }
    induction 1 as [m n|m|e s Ho H IH]; cbn [size]; eauto. destruct IH as [x IH]. destruct Ho; cbn [size].
    + rewrite IH. cbn. eauto.
    + rewrite IH. cbn. eauto.
    + destruct (Htot a) as [[n ->]| ->]; cbn; eauto. rewrite IH. cbn. eauto.
Qed.
Print Assumptions C51_failure.
Lemma bind_some (o : outcome Z) (f : Z -> Z) : (exists n, (let* x := o in Ok (f x)) = Ok n) <-> exists n, o = Ok n.
Proof. split; intros [n H]; [apply bind_ok in H as (x & E & _); eauto|rewrite H; cbn; eauto]. Qed.
Lemma both m o a b : ((exists n, size a = Ok n) <-> ~ exists n, mentions a n) -> ((exists n, size b = Ok n) <-> ~ exists n, mentions b n) ->
  ((exists n, (let* na := size a in let* nb := size b in Ok (1 + na + nb)%Z) = Ok n) <-> ~ exists n, mentions (EBin m o a b) n).
Proof.
  intros Ha Hb. split.
  - intros [n H]. apply bind_ok in H as (x & Ex & H). apply bind_ok in H as (y & Ey & _). intros [k Hk]. inversion Hk; subst; [apply (proj1 Ha); eauto|apply (proj1 Hb); eauto].
  - intros H. destruct (proj2 Ha) as [x Ex]; [intros [k Hk]; apply H; exists k; now apply me_left|]. destruct (proj2 Hb) as [y Ey]; [intros [k Hk]; apply H; exists k; now apply me_right|].
    rewrite Ex. cbn. rewrite Ey. cbn. eauto.
Qed.
(** So an action constraint has a size exactly if it mentions no parameter. *)
Theorem C51_action_constraints : forall params e t p, (forall n ty, declared params n ty -> usable ty -> exists w, ty = TBit w) -> Typed (InAction params) e t ->
  ((exists n, fst (Size e p None) = Ok n) <-> ~ exists n, mentions e n).
Proof.
  intros params e t p Hb HT. rewrite Size_size.
  assert (forall e t, Typed (InAction params) e t -> (t = TBool \/ t = TInt \/ exists w, t = TBit w) /\ (t = TInt -> forall n, ~ mentions e n)) as Hint.
  { clear e t HT. induction 1 as [m b|m s|k m n t Hk|k m n t Hk Hd Hu|m|m e H IH|m e H IH|m o a b Hc H1 IH1 H2 IH2|m o a b ta tb t Hc H1 IH1 H2 IH2 Hco|m o a b ta tb t Hc H1 IH1 H2 IH2 Hco Ho|m f e t t' H IH Hf]; try discriminate Hk.
    - split; [auto|discriminate].
    - split; [auto|]. intros _ n Hm. inversion Hm.
    - injection Hk as <-. destruct (Hb _ _ Hd Hu) as [w ->]. split; [eauto|discriminate].
    - split; [auto|]. intros _ n Hm. inversion Hm.
    - split; [auto|discriminate].
    - split; [auto|]. intros _ n Hm. inversion Hm; subst. now apply (proj2 IH eq_refl n).
    - split; [auto|discriminate].
    - split; [auto|discriminate].
    - split; [auto|discriminate].
    - destruct IH as [[->|[->|[w ->]]] _]; inversion Hf. }
  induction HT as [m b|m s|k m n t Hk|k m n t Hk Hd Hu|m|m e H IH|m e H IH|m o a b Hc H1 IH1 H2 IH2|m o a b ta tb t Hc H1 IH1 H2 IH2 Hco|m o a b ta tb t Hc H1 IH1 H2 IH2 Hco Ho|m f e t t' H IH Hf]; cbn [size]; try discriminate Hk.
  - split; [|eauto]. intros _ [n Hm]. inversion Hm.
  - split; [|eauto]. intros _ [n Hm]. inversion Hm.
  - split; [intros [x E]; discriminate E|]. intros Hn. elim Hn. exists n. constructor.
  - split; [|eauto]. intros _ [n Hm]. inversion Hm.
  - rewrite bind_some, IH. split; intros Hn [n Hm]; apply Hn; exists n; [now inversion Hm; subst|now constructor].
  - split; [|eauto]. intros _ [n Hm]. inversion Hm; subst. now apply (proj2 (Hint _ _ H) eq_refl n).
  - apply both; auto.
  - apply both; auto.
  - apply both; auto.
  - destruct (Hint _ _ H) as [[->|[->|[w ->]]] _]; inversion Hf.
Qed.
Print Assumptions C51_action_constraints.
(** A constraint with casts, and one on an action parameter. *)
Example C51_case : (exists e, InferTable al_tree al_table = Ok e /\ has_cast e /\ fst (Size e [] None) = Ok 7%Z) /\ fst (Size al_tree [] None) = Ok 7%Z /\ Typed (InTable (ti_keys_by_name al_table)) al_tree TBool /\
  let p := mkKey 1 "p" (TBit 8) in let m := mkMeta default_loc default_loc TNotSet in
  Typed (InAction [("p", p)]) (EBin m OEQ (EParam m "p") (EInt m "1")) TBool /\ Uncounted (EBin m OEQ (EParam m "p") (EInt m "1")).
Proof.
  assert (exists e, InferTable al_tree al_table = Ok e /\ has_cast e /\ e_type e = TBool /\ fst (Size e [] None) = Ok 7%Z) as (e & Hi & Hc & Ht & Hs).
  { eexists. split; [vm_compute; reflexivity|]. split; [apply hc_left, hc_right, hc_here|]. split; reflexivity. }
  split; [eauto|]. split; [reflexivity|]. split. { rewrite <- Ht. refine (proj1 (infer_ok None (Some al_table) _ _ _ _ Hi)). constructor. repeat constructor; cbn; intuition discriminate. }
  cbn zeta. split.
  - eapply T_eq; [constructor|eapply T_param; [reflexivity|exists (mkKey 1 "p" (TBit 8)); split; [now left|reflexivity]|split; [discriminate|discriminate]]|apply T_int|].
    split; [left; reflexivity|]. split; [right; apply below_step, step_int|]. tauto.
  - eapply un_operand; [apply od_left|constructor].
Qed.

(** * C52 *)
(** Equality of types is equality. *)
Theorem C52_types : forall a b, ty_eqb a b = true <-> a = b.
Proof.
  intros a b. destruct a, b; cbn; try (split; intros H; (discriminate H || reflexivity)); rewrite ?String.eqb_eq, ?Z.eqb_eq; split; intros H; congruence.
Qed.
Print Assumptions C52_types.
(** Equality of locations ignores exactly the names of actions. *)
Theorem C52_locations_partial : forall a b, loc_eq a b = true <->
  l_line a = l_line b /\ l_col a = l_col b /\ (l_src a = l_src b \/ exists x y, l_src a = SrcAction x /\ l_src b = SrcAction y).
Proof.
  intros [la ca sa] [lb cb sb]. unfold loc_eq. cbn [l_line l_col l_src]. rewrite !andb_true_iff, !Z.eqb_eq. split.
  - intros ((((-> & ->) & Hs) & Hf) & Ht). split; [reflexivity|]. split; [reflexivity|]. destruct sa, sb; try discriminate Hs; [now left|left; cbn in Hf; apply String.eqb_eq in Hf; congruence|left; cbn in Ht; apply String.eqb_eq in Ht; congruence|right; eauto].
  - intros (-> & -> & [->|(x & y & -> & ->)]); repeat split; rewrite ?String.eqb_refl; try reflexivity. destruct sb; reflexivity.
Qed.
Print Assumptions C52_locations_partial.
Theorem C52_equality_partial : forall a b, (forall x, l_src a <> SrcAction x) -> (loc_eq a b = true <-> a = b).
Proof.
  intros a b Ha. rewrite C52_locations_partial. destruct a as [la ca sa], b as [lb cb sb]. cbn in *. split; [intros (-> & -> & [->|(x & y & -> & _)]); [reflexivity|now elim (Ha x)]|intros [= -> -> ->]; auto].
Qed.
Print Assumptions C52_equality_partial.
Theorem C52_locations_refuted : exists a b, loc_eq a b = true /\ a <> b.
Proof. exists (mkLoc 0 0 (SrcAction "a")), (mkLoc 0 0 (SrcAction "b")). split; [reflexivity|discriminate]. Qed.
Print Assumptions C52_locations_refuted.
(** Still it is an equivalence. *)
Theorem C52_equivalence : (forall a, loc_eq a a = true) /\ (forall a b, loc_eq a b = loc_eq b a) /\ (forall a b c, loc_eq a b = true -> loc_eq b c = true -> loc_eq a c = true).
Proof.
  split; [intros a; apply C52_locations_partial; auto|]. split.
  - intros a b. apply eq_iff_eq_true. rewrite !C52_locations_partial. split; intros (-> & -> & [->|(x & y & -> & ->)]); eauto 8.
  - intros a b c. rewrite !C52_locations_partial. intros (-> & -> & H) (-> & -> & H'). split; [reflexivity|]. split; [reflexivity|]. destruct H as [->|(x & y & -> & Hb)]; [exact H'|]. destruct H' as [<-|(x' & y' & _ & ->)]; eauto.
Qed.
Print Assumptions C52_equivalence.
(** * Names of types *)
Lemma dec_inj a b : dec a = dec b -> a = b.
Proof.
  assert (forall n m, dec_N n = dec_N m -> n = m) as HN. { intros n m E. pose proof (dec_N_Decimal n) as [H1 _]. pose proof (dec_N_Decimal m) as [H2 _]. rewrite E in H1. exact (Reads_fun _ _ _ _ H1 H2). }
  assert (forall p r, dec_N p <> String "-" r) as Hm. { intros p r E. destruct (dec_N_Decimal p) as [H1 _]. destruct (Reads_only _ _ _ "-"%char H1) as [_ [d Hd]]; [rewrite E; now left|]. now apply dchar_plain in Hd as (_ & _ & Hd). }
  intros E. destruct a as [|a|a], b as [|b|b]; cbn [dec] in E; try reflexivity; try discriminate E.
  - change "0" with (dec_N 0) in E. now apply HN in E.
  - change "0" with (dec_N 0) in E. now apply HN in E.
  - apply HN in E. congruence.
  - now apply Hm in E.
  - symmetry in E. now apply Hm in E.
  - injection E as E. apply HN in E. congruence.
Qed.
Lemma width_inj a b : dec a ++ ">" = dec b ++ ">" -> a = b.
Proof. intros E. apply dec_inj. now apply sapp_inv_tail in E. Qed.
(** Names of types determine them, apart from LPM types, which are named like numbers, and unsupported
    types, which may have any name. *)
Theorem C52_type_names_partial : forall a b, TypeName a = TypeName b -> (forall n, a <> TUnsupported n) -> (forall n, b <> TUnsupported n) ->
  a = b \/ exists w, (a = TBit w /\ b = TLpm w) \/ (a = TLpm w /\ b = TBit w).
Proof.
  intros a b E Ha Hb. destruct a as [|na| | |w|w|w|w|w|w|], b as [|nb| | |w'|w'|w'|w'|w'|w'|]; try (now elim (Ha na)); try (now elim (Hb nb)); cbn in E; try discriminate E; try (now left);
    injection E as E; apply width_inj in E as ->; eauto.
Qed.
Print Assumptions C52_type_names_partial.
Theorem C52_type_names_refuted : exists a b w, TypeName a = TypeName b /\ a = TLpm w /\ b = TBit w /\ a <> b.
Proof. exists (TLpm 8), (TBit 8), 8%Z. repeat split. discriminate. Qed.
Print Assumptions C52_type_names_refuted.
Example C52_case : TypeName (TTernary 16) = "ternary<16>" /\ TypeName (TTernary 16) <> TypeName (TTernary 32) /\ loc_eq (mkLoc 1 2 (SrcTable "t")) (mkLoc 1 2 (SrcTable "t")) = true /\
  loc_eq (mkLoc 1 2 (SrcTable "t")) (mkLoc 1 2 (SrcTable "u")) = false.
Proof. repeat split; discriminate. Qed.
