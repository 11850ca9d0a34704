(** The solver decides whether there are solutions. *)
From Coq Require Import String Ascii List ZArith NArith Bool Lia.
From Verif Require Import Base Num Token Ast Quote AstConstructors Info TypeChecker Parser ConstraintInfo Interpreter Z3 Symbolic SpecLexer SpecGrammar SpecTyping TypeFacts SpecSemantics SpecInfo SpecSymbolic SpecSolver SpecReading
  NumFacts LiteralFacts ParserFacts4 EntryFacts EvalFacts SemFacts SemFacts2 ExplainFacts VerdictFacts InfoFacts InfoFacts2 InterpFacts InterpFacts2 SymFacts SymFacts2 SymBytes SymKeys SymState SymMeaning SymComplete ReadingFacts ReadingFacts2 PropertiesSymbolic.
Import ListNotations.
Open Scope string_scope.

Lemma nodup_filter {A B} (f : A -> B) (g : A -> bool) l : NoDup (map f l) -> NoDup (map f (filter g l)).
Proof.
  induction l as [|a l IH]; cbn; intros H; [constructor|]. inversion H as [|? ? Hn H']; subst. destruct (g a); cbn; [|auto]. constructor; [|auto].
  intros Hi. apply Hn. apply in_map_iff in Hi as (x & E & Hx). apply filter_In in Hx as [Hx _]. apply in_map_iff. eauto.
Qed.
(** The table with only the given keys. *)
Lemma some_table ks : NoDup (map k_id ks) -> NoDup (map k_name ks) -> exists t, table_keys t ks.
Proof.
  intros H1 H2. exists (mkTable 0 "" None (mkCSource "" (mkLoc 0 0 SrcNone)) (map (fun k => (k_id k, k)) ks) (map (fun k => (k_name k, k)) ks)).
  split; cbn; auto; try (intros x; tauto); rewrite map_map; assumption.
Qed.
Lemma key_function ks fields : NoDup (map k_id ks) -> NoDup (map k_name ks) -> consistent ks fields -> exists key, forall n v, key n = Some v <-> Assigned ks fields n v.
Proof.
  intros H1 H2 Hc. destruct (some_table ks H1 H2) as [t HK]. destruct (entry_total t ks HK (mkEntry 0 fields None 0) Hc) as [ctx Hp].
  destruct (entry_ok t ks HK _ ctx Hp) as (_ & keys & _ & HN & HA). exists (fun n => assoc_find String.eqb n keys). intros n v. rewrite (afind_iff String.eqb String.eqb_eq) by exact HN. apply HA.
Qed.
Lemma assigned_mono ks ks' fields n v : (forall k, In k ks -> In k ks') -> Assigned ks fields n v -> Assigned ks' fields n v.
Proof. intros H Ha. destruct Ha as [k f v Hk Hf Hid Hv|k v Hk Ho Hw]; [eapply as_present; eauto|eapply as_omitted; eauto]. Qed.
Lemma live_formed ks skip fields : (forall k w, In k ks -> width (k_type k) w -> (0 <= w)%Z) -> well_formed (live_keys skip ks) fields -> consistent (live_keys skip ks) fields.
Proof.
  intros Hw [W1 W2 W3]. split; [|exact W1|].
  - intros f Hf. destruct (W2 f Hf) as (k & v & Hk & E & Hc). exists k, v. split; [exact Hk|]. split; [exact E|]. apply canonical_field; [exact Hc|]. apply live_in in Hk as [Hk _]. intros w. now apply Hw.
  - intros k Hk Ho. destruct (W3 k Hk Ho) as (v & Hv). exists v. now apply canonical_wild.
Qed.

Section Decide.
  Variables (t : table_info) (ks : list key_info) (skip : string -> outcome bool).
  Hypothesis HK : table_keys t ks.
  Hypothesis Hw : int32_widths ks.
  Let lk := live_keys skip ks.
  Let G := InTable (ti_keys_by_name t).
  (** Terms have the value of the reading. *)
  Section Term.
  Variables (env : sym_env) (base : list term).
  Hypothesis HB : built ks skip env base.
  Variables (m : assignment) (fields : list field_match) (key : string -> option value) (p : Z).
  Hypothesis Hm : well_sorted m.
  Hypothesis HW : well_formed lk fields.
  Hypothesis Hkey : forall n v, key n = Some v <-> Assigned lk fields n v.
  Hypothesis Hpi : forall k v, In k ks -> live skip k -> key (k_name k) = Some v -> pictures m k v.
  Hypothesis Hpp : prioritized ks -> pictures_priority m p.
  Lemma live_value k : In k ks -> live skip k -> exists v, key (k_name k) = Some v.
  Proof.
    intros Hk Hl. destruct (formed_value t ks HK skip fields k HW Hk Hl) as (f & v & Hc & Hf). exists v. apply Hkey. assert (In k lk) as Hk' by now apply live_in.
    destruct f as [x|]; [apply (as_present _ _ k (mkFM (k_id k) x)); auto|apply as_omitted; auto]; [apply canonical_field; [exact Hc|intros w Hw'; exact (int32_nonneg ks Hw k w Hk Hw')]|now apply canonical_wild].
  Qed.
  Lemma term_meant e0 e u : InferTable e0 t = Ok e -> literals e0 -> encodes env e u -> exists b, Meant signed_order G (TableEnv key p) e0 (VBool b) /\ zeval m u = VB b.
  Proof.
    intros Hi Hl He. apply encodes_bool in He as (Et & src & He).
    destruct (sym_meant env src t (tk_by_name_unique _ _ HK) m key p) with (e := e0) (e' := e) (res := RTerm u) as (v & Hv & Hs); auto.
    - intros n sk ty Hn Hd. destruct (env_key t ks HK skip env base HB _ _ _ Hn Hd) as (k & a & Hk & <- & <- & Hlv & Ha). destruct (live_value k Hk Hlv) as (v & Ev). exists v. split; [exact Ev|].
      exact (key_stands k sk a Ha m v Hm (Hpi k v Hk Hlv Ev)).
    - intros x Hx. destruct (env_prio ks skip env base HB x Hx) as [HP ->]. split; [reflexivity|exact (Hpp HP)].
    - rewrite Et in Hs. inversion Hs; subst. eauto.
  Qed.
  Lemma term_true e0 e u : InferTable e0 t = Ok e -> literals e0 -> encodes env e u -> (zeval m u = VB true <-> Meant signed_order G (TableEnv key p) e0 (VBool true)).
  Proof.
    intros Hi Hl He. destruct (term_meant e0 e u Hi Hl He) as (b & Hb & Ez). split.
    - intros E. assert (b = true) as <- by congruence. exact Hb.
    - intros H. pose proof (meant_fun None (Some t) G (table_in_scope t ks HK) signed_order (fun _ _ _ _ _ _ => signed_fun _ _ _ _ _ _) _ _ _ _ Hb H) as [= ->]. exact Ez.
  Qed.
  Lemma terms_true l0 l us : written t l0 l -> Forall2 (encodes env) l us -> (satisfies m us <-> Forall (fun e => Meant signed_order G (TableEnv key p) e (VBool true)) l0).
  Proof.
    intros H0 H1. revert us H1. induction H0 as [|e0 e l0 l [Hi Hl] H0 IH]; intros us H1; inversion H1 as [|? u ? us' He H1']; subst.
    - split; [constructor|intros _; apply satisfies_nil].
    - rewrite satisfies_cons, Forall_cons_iff, (IH us' H1'), (term_true e0 e u Hi Hl He). tauto.
  Qed.
  End Term.

  Section Sat.
  Variables (env : sym_env) (base : list term).
  Hypothesis HB : built ks skip env base.
  Hypothesis Hap : apart lk.
  Lemma solution_sat l0 l us fields p : written t l0 l -> Forall2 (encodes env) l us -> solution t ks skip l0 fields p -> satisfiable (base ++ us).
  Proof.
    intros H0 H1 (HW & Hpr & key & Hkey & HF). pose proof (b_repr _ _ _ _ HB) as Hrep.
    set (m := assign lk (fun k => match key (k_name k) with Some v => v | None => VBool true end) p).
    assert (well_sorted m) as Hm by (eapply m_sorted; eauto). exists m. split; [exact Hm|]. apply satisfies_app. split; [eapply m_base; eauto|].
    eapply (terms_true env base HB m fields key p Hm HW Hkey); eauto; [intros k v Hk Hl Ev; eapply m_pictures; eauto|intros _; eapply m_priority; eauto].
  Qed.
  Lemma sat_solution l0 l us : written t l0 l -> Forall2 (encodes env) l us -> satisfiable (base ++ us) -> exists fields p, solution t ks skip l0 fields p.
  Proof.
    intros H0 H1 (m & Hm & Hs). set (mo := fun n s => Some (m n s) : option zval). set (chk := fun _ : list term => Some mo).
    set (cs' := mkCS t env skip [(base ++ us)%list]).
    assert (holds t ks skip chk cs' l base us) as HH. { split; cbn; auto; [unfold assertions; cbn; apply app_nil_r|]. right. discriminate. }
    destruct (concretize_ok t ks HK skip chk cs' l base us HH mo Hm Hs) as (fields & p & _ & HW & H2 & _ & H4); [intros k w Hk Hkw; exact (proj2 (Hw k w Hk Hkw))|reflexivity|].
    exists fields, p. split; [exact HW|]. split; [intros HP; now apply H2|].
    destruct (key_function lk fields) as (key & Hkey); [apply nodup_filter; apply HK|apply nodup_filter; apply HK|apply live_formed; [apply int32_nonneg, Hw|exact HW]|].
    exists key. split; [exact Hkey|]. apply satisfies_app in Hs as [_ Hs].
    eapply (terms_true env base HB m fields key p Hm HW Hkey); eauto; [|intros HP; now apply H2].
    intros k v Hk Hl Ev. apply (H4 k v Hk Hl). apply Hkey in Ev. eapply assigned_mono; [|exact Ev]. intros k' Hk'. now apply live_in in Hk'.
  Qed.
  End Sat.
End Decide.
