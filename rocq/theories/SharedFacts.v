(** Coherent entries give assignments, and assignments coherent entries. *)
From Coq Require Import String Ascii List ZArith NArith Bool Lia.
From Verif Require Import Base Num Token Ast Quote AstConstructors Info TypeChecker Parser ConstraintInfo Interpreter Z3 Symbolic SpecLexer SpecGrammar SpecTyping TypeFacts SpecSemantics SpecInfo SpecSymbolic SpecSolver SpecReading SpecShared
  StrFacts NumFacts LiteralFacts ParserFacts4 EntryFacts EvalFacts SemFacts SemFacts2 ExplainFacts VerdictFacts InfoFacts InfoFacts2 InterpFacts InterpFacts2 SymFacts SymFacts2 SymBytes SymKeys SymState SymMeaning SymComplete ReadingFacts ReadingFacts2 PropertiesSymbolic ReadingFacts3.
Import ListNotations.
Open Scope string_scope.

(** * Entries to assignments *)
Definition from (bs : list ((string * sort) * zval)) : assignment := fun n s => match assoc_find symbol_eqb (n, s) bs with Some v => v | None => default_zval s end.
Lemma afind_some bs x (v : zval) : In (x, v) bs -> exists v', assoc_find symbol_eqb x bs = Some v'.
Proof.
  induction bs as [|[y u] bs IH]; cbn; [tauto|]. intros [E|H].
  - injection E as -> ->. rewrite (proj2 (symbol_eqb_eq x x) eq_refl). eauto.
  - destruct (symbol_eqb x y); eauto.
Qed.
Lemma from_in bs n s v : (forall x u u', In (x, u) bs -> In (x, u') bs -> u = u') -> In ((n, s), v) bs -> from bs n s = v.
Proof.
  intros Hf Hi. unfold from. destruct (afind_some bs (n, s) v Hi) as (v' & E). rewrite E. exact (Hf _ _ _ (afind_in symbol_eqb symbol_eqb_eq _ _ _ E) Hi).
Qed.
Lemma from_sorted bs : (forall n s v, In ((n, s), v) bs -> fits_sort s v) -> well_sorted (from bs).
Proof.
  intros Hb. assert (forall n s, fits_sort s (from bs n s)) as H.
  { intros n s. unfold from. destruct (assoc_find symbol_eqb (n, s) bs) as [v|] eqn:E; [exact (Hb n s v (afind_in symbol_eqb symbol_eqb_eq _ _ _ E))|].
    destruct s; cbn; eauto. intros Hw. exists 0%Z. split; [reflexivity|]. split; [lia|]. apply Z.pow_pos_nonneg; lia. }
  intros n. split; [|split]; [intros w Hw; exact (H n (SBV w) Hw)|exact (H n SInt)|exact (H n Z3.SBool)].
Qed.
(** Bindings are needed numbers. *)
Definition zval_of (s : sort) (z : Z) : zval := match s with SBV w => VV w z | _ => VI z end.
Lemma bindings_stored k v n s x : canonical_value (k_type k) v -> (In ((n, s), x) (bindings k v) <-> exists n' z, stored k v n' s z /\ n = c_str n' /\ x = zval_of s z).
Proof.
  intros H. unfold bindings. split.
  - inversion H as [w z Hz Et Ev|w z y Hz Hx Hm Et Ev|w z y Hz Hx Et Ev|w z q Hz Hq Hm Et Ev]; cbn [In].
    + intros [E|[]]; injection E as <- <- <-. exists (k_name k), z. split; [now constructor|auto].
    + intros [E|[E|[]]]; injection E as <- <- <-; [exists (k_name k), z|exists (k_name k ++ "_mask"), y]; (split; [constructor; auto|auto]).
    + intros [E|[E|[]]]; injection E as <- <- <-; [exists (k_name k), z|exists (k_name k ++ "_mask"), y]; (split; [constructor; auto|auto]).
    + intros [E|[E|[]]]; injection E as <- <- <-; [exists (k_name k), z|exists (k_name k ++ "_prefix_length"), q]; (split; [econstructor; eauto|auto]).
  - intros (n' & z & Hs & -> & ->). inversion Hs as [w z' Et|w z' x' Et|w z' x' Et|w z' q Et|w z' q Et]; subst; try destruct Et as [Et|Et]; rewrite Et; cbn; auto.
Qed.
Section Build.
  Variables (t : table_info) (ks : list key_info) (skip : string -> outcome bool) (fields : list field_match) (key : string -> option value) (p : Z).
  Hypothesis HK : table_keys t ks.
  Hypothesis Hrep : forall k, In k ks -> live skip k -> representable k.
  Hypothesis HW : well_formed (live_keys skip ks) fields.
  Hypothesis Hpr : prioritized ks -> priority_ok p.
  Hypothesis Hkey : forall n v, key n = Some v <-> Assigned (live_keys skip ks) fields n v.
  Hypothesis Hco : coherent ks skip fields p.
  Let lk := live_keys skip ks.
  Let val (k : key_info) : value := match key (k_name k) with Some v => v | None => VBool true end.
  Let kb := concat (map (fun k => bindings k (val k)) lk).
  Lemma shared_val k : In k lk -> Assigned lk fields (k_name k) (val k) /\ canonical_value (k_type k) (val k).
  Proof. intros Hk. destruct (val_ok t ks skip fields key HK Hrep HW Hkey k Hk) as (E & Hc & _). split; [now apply Hkey|exact Hc]. Qed.
  Lemma kb_needs n s x : In ((n, s), x) kb <-> exists k n' z, In k lk /\ stored k (val k) n' s z /\ n = c_str n' /\ x = zval_of s z.
  Proof.
    unfold kb. rewrite in_concat. split.
    - intros (l & Hl & Hi). apply in_map_iff in Hl as (k & <- & Hk). apply (bindings_stored k (val k) n s x (proj2 (shared_val k Hk))) in Hi as (n' & z & H). exists k, n', z. auto.
    - intros (k & n' & z & Hk & H). exists (bindings k (val k)). split; [apply in_map_iff; eauto|]. apply (bindings_stored k (val k) n s x (proj2 (shared_val k Hk))). eauto.
  Qed.
  (** The bindings, with the priority if entries have one. *)
  Lemma shared_bindings : exists bs, (forall b, In b kb -> In b bs) /\ (prioritized ks -> In (("priority", SInt), VI p) bs) /\
    (forall b, In b bs -> In b kb \/ prioritized ks /\ b = (("priority", SInt), VI p)).
  Proof.
    destruct (prio_dec ks) as [HP|HP]; [exists ((("priority", SInt), VI p) :: kb)|exists kb]; (split; [cbn; auto|]); (split; [cbn; tauto|]).
    - intros b [<-|Hb]; auto.
    - auto.
  Qed.
  Lemma shared_assignment : exists m, well_sorted m /\ (forall k v, In k ks -> live skip k -> key (k_name k) = Some v -> pictures m k v) /\ (prioritized ks -> pictures_priority m p).
  Proof.
    destruct shared_bindings as (bs & B1 & B2 & B3).
    assert (forall n s x, In ((n, s), x) bs -> exists z, Needs ks skip fields p n s z /\ x = zval_of s z) as HN.
    { intros n s x Hi. destruct (B3 _ Hi) as [Hb|[HP E]].
      - apply kb_needs in Hb as (k & n' & z & Hk & Hs & -> & ->). exists z. split; [|reflexivity]. exact (ne_key _ _ _ _ k (val k) n' s z Hk (proj1 (shared_val k Hk)) Hs).
      - injection E as -> -> ->. exists p. split; [now constructor|reflexivity]. }
    assert (forall x u u', In (x, u) bs -> In (x, u') bs -> u = u') as Hf.
    { intros [n s] u u' H1 H2. destruct (HN _ _ _ H1) as (z & N1 & ->). destruct (HN _ _ _ H2) as (z' & N2 & ->). now rewrite (Hco n s z z' N1 N2). }
    exists (from bs). split; [|split].
    - apply from_sorted. intros n s v Hi. apply (bindings_fit lk val p) with (n := n).
      + intros k Hk. exact (proj2 (val_ok t ks skip fields key HK Hrep HW Hkey k Hk)).
      + destruct (B3 _ Hi) as [Hb|[_ ->]]; [right; exact Hb|now left].
    - intros k v Hk Hl E. assert (In k lk) as Hk' by now apply live_in. destruct (shared_val k Hk') as [_ Hc].
      assert (val k = v) as Ev by (unfold val; now rewrite E).
      assert (forall n s z, stored k (val k) n s z -> from bs (c_str n) s = zval_of s z) as HS.
      { intros n s z Hs. apply from_in; [exact Hf|]. apply B1, kb_needs. exists k, n, z. auto. }
      rewrite Ev in HS, Hc. clear Ev. inversion Hc as [w z Hz Et Ez|w z x Hz Hx Hm Et Ez|w z x Hz Hx Et Ez|w z q Hz Hq Hm Et Ez]; subst v; symmetry in Et.
      + apply (pi_exact _ _ w); [exact Et|]. apply (HS _ (SBV w)). now constructor.
      + apply (pi_ternary _ _ w); [now left|apply (HS _ (SBV w)); constructor; now left|apply (HS _ (SBV w)); constructor; now left].
      + apply (pi_ternary _ _ w); [now right|apply (HS _ (SBV w)); constructor; now right|apply (HS _ (SBV w)); constructor; now right].
      + apply (pi_lpm _ _ w); [exact Et|apply (HS _ (SBV w)); now constructor|apply (HS _ SInt); econstructor; exact Et].
    - intros HP. exact (from_in bs "priority" SInt (VI p) Hf (B2 HP)).
  Qed.
  Lemma shared_base m env base : well_sorted m -> (forall k v, In k ks -> live skip k -> key (k_name k) = Some v -> pictures m k v) -> (prioritized ks -> pictures_priority m p) -> built ks skip env base -> satisfies m base.
  Proof.
    intros Hm H1 H2 HB. apply (b_base _ _ _ _ HB m Hm). split.
    - intros k sk a Hk Hl Ha. assert (In k lk) as Hk' by now apply live_in. destruct (val_ok t ks skip fields key HK Hrep HW Hkey k Hk') as (E & Hc & _). apply (key_canonical_value k sk a Ha m (val k) Hm); [|exact Hc]. now apply H1.
    - intros HP. exists p. auto.
  Qed.
End Build.

(** * Assignments to entries *)
Lemma pictures_stored m k v n s z : pictures m k v -> stored k v n s z -> m (c_str n) s = zval_of s z.
Proof.
  intros Hp Hs. inversion Hs as [w z' Et|w z' x Et|w z' x Et|w z' q Et|w z' q Et]; subst; inversion Hp; subst; cbn [zval_of];
    repeat match goal with H : _ \/ _ |- _ => destruct H end; congruence.
Qed.
Lemma zval_of_inj s z z' : zval_of s z = zval_of s z' -> z = z'.
Proof. destruct s; cbn; congruence. Qed.
Lemma pictured_coherent ks skip fields p m : (forall k v, In k ks -> live skip k -> Assigned (live_keys skip ks) fields (k_name k) v -> pictures m k v) -> (prioritized ks -> pictures_priority m p) ->
  coherent ks skip fields p.
Proof.
  intros H1 H2. assert (forall n s z, Needs ks skip fields p n s z -> m n s = zval_of s z) as H.
  { intros n s z HN. destruct HN as [k v n s z Hk Ha Hs|HP]; [|exact (H2 HP)]. pose proof (proj1 (live_in skip ks k) Hk) as [Hk' Hl]. exact (pictures_stored m k v n s z (H1 k v Hk' Hl Ha) Hs). }
  intros n s z z' N1 N2. apply (zval_of_inj s). rewrite <- (H _ _ _ N1). exact (H _ _ _ N2).
Qed.

Section Decide.
  Variables (t : table_info) (ks : list key_info) (skip : string -> outcome bool).
  Hypothesis HK : table_keys t ks.
  Hypothesis Hw : int32_widths ks.
  Variables (env : sym_env) (base : list term).
  Hypothesis HB : built ks skip env base.
  Lemma coherent_model l0 l us fields p : written t l0 l -> Forall2 (encodes env) l us -> coherent_solution t ks skip l0 fields p -> exists m, well_sorted m /\ satisfies m (base ++ us) /\
    (forall k v, In k ks -> live skip k -> Assigned (live_keys skip ks) fields (k_name k) v -> pictures m k v) /\ (prioritized ks -> pictures_priority m p).
  Proof.
    intros H0 H1 ((HW & Hpr & key & Hkey & HF) & Hco). pose proof (b_repr _ _ _ _ HB) as Hrep.
    destruct (shared_assignment t ks skip fields key p HK Hrep HW Hpr Hkey Hco) as (m & Hm & M1 & M2). exists m. split; [exact Hm|]. split; [apply satisfies_app; split|split; [|exact M2]].
    - exact (shared_base t ks skip fields key p HK Hrep HW Hpr Hkey m env base Hm M1 M2 HB).
    - exact (proj2 (terms_true t ks skip HK Hw env base HB m fields key p Hm HW Hkey M1 M2 l0 l us H0 H1) HF).
    - intros k v Hk Hl Ha. apply (M1 k v Hk Hl). now apply Hkey.
  Qed.
  Lemma coherent_sat l0 l us fields p : written t l0 l -> Forall2 (encodes env) l us -> coherent_solution t ks skip l0 fields p -> satisfiable (base ++ us).
  Proof. intros H0 H1 H. destruct (coherent_model l0 l us fields p H0 H1 H) as (m & Hm & Hs & _). exists m. auto. Qed.
  (** What concretization gives for a model. *)
  Lemma model_solution l0 l us m fields p : written t l0 l -> Forall2 (encodes env) l us -> well_sorted m -> satisfies m (base ++ us) -> well_formed (live_keys skip ks) fields ->
    (prioritized ks -> priority_ok p /\ pictures_priority m p) -> (forall k v, In k ks -> live skip k -> Assigned ks fields (k_name k) v -> pictures m k v) -> coherent_solution t ks skip l0 fields p.
  Proof.
    intros H0 H1 Hm Hs HW H2 H3.
    assert (forall k v, In k ks -> live skip k -> Assigned (live_keys skip ks) fields (k_name k) v -> pictures m k v) as H4.
    { intros k v Hk Hl Ha. apply (H3 k v Hk Hl). eapply assigned_mono; [|exact Ha]. intros k' Hk'. now apply live_in in Hk'. }
    split; [|exact (pictured_coherent ks skip fields p m H4 (fun HP => proj2 (H2 HP)))]. split; [exact HW|]. split; [intros HP; now apply H2|].
    destruct (key_function (live_keys skip ks) fields) as (key & Hkey); [apply nodup_filter; apply HK|apply nodup_filter; apply HK|apply live_formed; [apply int32_nonneg, Hw|exact HW]|].
    exists key. split; [exact Hkey|]. apply satisfies_app in Hs as [_ Hs].
    refine (proj1 (terms_true t ks skip HK Hw env base HB m fields key p Hm HW Hkey _ (fun HP => proj2 (H2 HP)) l0 l us H0 H1) Hs).
    intros k v Hk Hl Ev. apply (H4 k v Hk Hl). now apply Hkey.
  Qed.
  Lemma sat_coherent l0 l us : written t l0 l -> Forall2 (encodes env) l us -> satisfiable (base ++ us) -> exists fields p, coherent_solution t ks skip l0 fields p.
  Proof.
    intros H0 H1 (m & Hm & Hs). set (mo := fun n s => Some (m n s) : option zval). set (chk := fun _ : list term => Some mo).
    set (cs' := mkCS t env skip [(base ++ us)%list]).
    assert (holds t ks skip chk cs' l base us) as HH. { split; cbn; auto; [unfold assertions; cbn; apply app_nil_r|]. right. discriminate. }
    destruct (concretize_ok t ks HK skip chk cs' l base us HH mo Hm Hs) as (fields & p & _ & HW & H2 & _ & H4); [intros k w Hk Hkw; exact (proj2 (Hw k w Hk Hkw))|reflexivity|].
    exists fields, p. exact (model_solution l0 l us m fields p H0 H1 Hm Hs HW H2 H4).
  Qed.
End Decide.
