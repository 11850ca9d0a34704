(** Facts about enumerating the entries of a solver. *)
From Coq Require Import String Ascii List ZArith NArith Bool Lia Permutation.
From Verif Require Import Base Num Token Ast AstConstructors Parser Info TypeChecker Interpreter Z3 Symbolic SpecLexer SpecGrammar SpecParser SpecTyping SpecSemantics SpecInfo SpecSymbolic SpecSolver SpecReading SpecIdioms SpecSession SpecShared SpecSingle
  LiteralFacts ParserFacts4 TypeFacts SemFacts2 EvalFacts EntryFacts ReadingFacts ReadingFacts2 ReadingFacts3 InterpFacts2 SymKeys SymState SymMeaning SharedFacts SharedFacts2 PropertiesParser PropertiesSession SingleFacts.
Import ListNotations.
Open Scope string_scope.

Lemma assigned_perm ks l l' n v : Permutation l l' -> Assigned ks l n v -> Assigned ks l' n v.
Proof.
  intros HP H. destruct H as [k f v Hk Hf Hid Hv|k v Hk Ho Hv]; [eapply as_present; eauto; eapply Permutation_in; eauto|].
  apply as_omitted; auto. intros f Hf. apply Ho. eapply Permutation_in; [apply Permutation_sym; exact HP|exact Hf].
Qed.
Lemma value_bounded t v : (forall w, width t w -> (0 < w)%Z) -> canonical_value t v -> bounded t v.
Proof.
  intros Hw H. destruct H as [w z Hz|w z x Hz Hx _|w z x Hz Hx|w z p Hz Hp _]; assert (0 < w)%Z as Hpos by (apply Hw; constructor); (assert (0 < 2 ^ w)%Z as Hq by (apply Z.pow_pos_nonneg; lia)); constructor; try lia.
Qed.
Lemma signed_equal t u v x : documented t OEQ u v x -> signed_order t OEQ u v x.
Proof. intros H. left. split; [constructor|exact H]. Qed.
Lemma unordered_equal t u v x : documented t OEQ u v x -> unordered_exact t OEQ u v x.
Proof. intros H. split; [exact H|]. intros [Ho _]. inversion Ho. Qed.

(** * Finitely many values *)
Lemma finite_z n : exists l, forall z, (0 <= z < n)%Z -> In z l.
Proof. exists (map Z.of_nat (seq 0 (Z.to_nat n))). intros z Hz. apply in_map_iff. exists (Z.to_nat z). split; [lia|]. apply in_seq. lia. Qed.
Lemma finite_values t : exists l, forall v, canonical_value t v -> In v l.
Proof.
  assert (forall w, exists l, forall x y, (0 <= x < 2 ^ w)%Z -> (0 <= y <= 2 ^ w)%Z \/ (0 <= y <= w)%Z -> In (x, y) l) as HP.
  { intros w. destruct (finite_z (2 ^ w)) as [l1 H1]. destruct (finite_z (2 ^ w + 1)) as [l2 H2]. destruct (finite_z (w + 1)) as [l3 H3]. exists (list_prod l1 (l2 ++ l3)). intros x y Hx Hy. apply in_prod; [auto|]. apply in_or_app.
    destruct Hy; [left; apply H2; lia|right; apply H3; lia]. }
  destruct t as [|n| | |w|w|w|w|w|w|]; try (exists []; intros v H; inversion H; fail).
  - destruct (finite_z (2 ^ w)) as [l Hl]. exists (map VExact l). intros v H. inversion H; subst. apply in_map. auto.
  - destruct (HP w) as [l Hl]. exists (map (fun '(x, y) => VTernary x y) l). intros v H. inversion H as [|? z x Hz Hx| |]; subst. apply in_map_iff. exists (z, x). split; [reflexivity|]. apply Hl; [exact Hz|left; lia].
  - destruct (HP w) as [l Hl]. exists (map (fun '(x, y) => VLpm x y) l). intros v H. inversion H as [| | |? z p Hz Hx]; subst. apply in_map_iff. exists (z, p). split; [reflexivity|]. apply Hl; [exact Hz|right; lia].
  - destruct (HP w) as [l Hl]. exists (map (fun '(x, y) => VTernary x y) l). intros v H. inversion H as [| |? z x Hz Hx|]; subst. apply in_map_iff. exists (z, x). split; [reflexivity|]. apply Hl; [exact Hz|left]. destruct Hx as [[-> _]| ->]; lia.
Qed.
Lemma finite_vectors (ks : list key_info) : exists L, forall vs, Forall2 (fun k v => canonical_value (k_type k) v) ks vs -> In vs L.
Proof.
  induction ks as [|k ks [L HL]]; [exists [[]]; intros vs H; inversion H; now left|]. destruct (finite_values (k_type k)) as [l Hl].
  exists (map (fun '(v, vs) => v :: vs) (list_prod l L)). intros vs H. inversion H as [|? v ? vs' Hv Hvs]; subst. apply in_map_iff. exists (v, vs'). split; [reflexivity|]. apply in_prod; auto.
Qed.
Lemma nodup_codes {A B} (R : A -> B -> Prop) (same : A -> A -> Prop) l cs : Forall2 R l cs -> (forall a b c, In a l -> In b l -> R a c -> R b c -> same a b) -> ForallOrdPairs (fun a b => ~ same a b) l -> NoDup cs.
Proof.
  intros HF. induction HF as [|a c l cs Hac HF IH]; intros HR HO; [constructor|]. inversion HO as [|? ? Ha Hl]; subst. constructor.
  - intros Hin. assert (exists b, In b l /\ R b c) as (b & Hb & Hbc). { clear - HF Hin. induction HF as [|x y l cs Hxy HF IH]; [destruct Hin|]. destruct Hin as [->|Hin]; [exists x; split; [now left|exact Hxy]|]. destruct (IH Hin) as (b & Hb & H). exists b. split; [now right|exact H]. }
    rewrite Forall_forall in Ha. apply (Ha b Hb). exact (HR a b c (or_introl eq_refl) (or_intror Hb) Hac Hbc).
  - apply IH; [|exact Hl]. intros x y z Hx Hy. apply HR; now right.
Qed.
Lemma weaken2 {A B} (R S : A -> B -> Prop) l cs : (forall a c, R a c -> S a c) -> Forall2 R l cs -> Forall2 S l cs.
Proof. intros H HF. induction HF; constructor; auto. Qed.
Lemma choose_codes {A B} (R : A -> B -> Prop) l : (forall a, In a l -> exists c, R a c) -> exists cs, Forall2 R l cs.
Proof.
  induction l as [|a l IH]; intros H; [exists []; constructor|]. destruct (H a (or_introl eq_refl)) as [c Hc]. destruct IH as [cs Hcs]; [intros b Hb; apply H; now right|]. exists (c :: cs). now constructor.
Qed.

Lemma common_code {A B} (R S : A -> B -> Prop) l cs a : Forall2 R l cs -> Forall2 S l cs -> In a l -> exists c, R a c /\ S a c.
Proof.
  intros HR HS Ha. revert HS. induction HR as [|x c l cs Hx HR IH]; intros HS; [destruct Ha|]. inversion HS; subst. destruct Ha as [->|Ha]; eauto.
Qed.

Section Enumerate.
  Variables (num : N -> string) (check : solver) (pton : inet_pton6) (t : table_info) (ks : list key_info) (skip : string -> outcome bool).
  Hypothesis Hnum : forall n, Decimal (num n) n.
  Hypothesis Hp : pton_ok pton.
  Hypothesis HK : table_keys t ks.
  Hypothesis Hw : int32_widths ks.
  Hypothesis Hrep : forall k, In k ks -> live skip k -> representable k.
  Let lk := live_keys skip ks.
  Let G := InTable (ti_keys_by_name t).
  Lemma lk_fun l n v v' : NoDup (map fm_id l) -> Assigned lk l n v -> Assigned lk l n v' -> v = v'.
  Proof.
    destruct (some_table lk) as [t' HK']; [apply nodup_filter; apply HK|apply nodup_filter; apply HK|]. exact (assigned_fun t' lk HK' l n v v').
  Qed.
  Lemma lk_value l k : well_formed lk l -> In k lk -> exists v, Assigned lk l (k_name k) v /\ canonical_value (k_type k) v /\ bounded (k_type k) v.
  Proof.
    intros HW Hk. destruct (formed_value2 t ks skip HK Hrep l k HW Hk) as (f & v & Hc & _ & Ha). exists v. pose proof (fun w => lk_pos ks skip Hrep k w Hk) as Hpos.
    assert (canonical_value (k_type k) v) as Hv by (apply canonical_iff; eauto). split; [exact Ha|]. split; [exact Hv|now apply value_bounded].
  Qed.
  Lemma lk_bounded l k v : well_formed lk l -> In k lk -> Assigned lk l (k_name k) v -> bounded (k_type k) v.
  Proof. intros HW Hk Ha. destruct (lk_value l k HW Hk) as (v' & Ha' & _ & Hb). now rewrite (lk_fun l _ v v' (wf_once _ _ HW) Ha Ha'). Qed.
  Lemma lk_declared k : In k lk -> declared (ti_keys_by_name t) (k_name k) (k_type k).
  Proof. intros Hk. apply live_in in Hk as [Hk _]. exists k. split; [|reflexivity]. now apply (by_name t ks HK). Qed.
  Lemma same_iff entry fields p key : well_formed lk (pe_match entry) -> well_formed lk fields -> (forall n v, key n = Some v <-> Assigned lk fields n v) ->
    ((forall k v, In k lk -> Assigned lk (pe_match entry) (k_name k) v -> key (k_name k) = Some v) /\ (prioritized ks -> p = pe_priority entry) <-> is_entry ks entry fields p).
  Proof.
    intros HW HW' Hkey. split.
    - intros [H HPr]. split; [|intros HP; symmetry; auto]. apply (SharedFacts2.same_entry t ks skip HK Hrep); auto. intros k v v' Hk Ha Ha'. apply (lk_fun fields (k_name k)); [apply HW'| |exact Ha']. apply Hkey. now apply H.
    - intros [HP HPr]. split; [|intros HPi; symmetry; auto]. intros k v Hk Ha. apply Hkey. eapply assigned_perm; eauto.
  Qed.
  Lemma lk_key fields : well_formed lk fields -> exists key, forall n v, key n = Some v <-> Assigned lk fields n v.
  Proof. intros HW. apply key_function; [apply nodup_filter; apply HK|apply nodup_filter; apply HK|]. apply live_formed; [|exact HW]. intros k w Hk Hkw. exact (proj1 (Hw k w Hk Hkw)). Qed.
  (** The text that excludes an entry is read as it is meant. *)
  Lemma excluding_meant entry text : well_formed lk (pe_match entry) -> excluding num ks skip entry text ->
    exists e, usable pton t ks skip text e /\ forall fields p key, well_formed lk fields -> (forall n v, key n = Some v <-> Assigned lk fields n v) ->
      exists b, Meant signed_order G (TableEnv key p) e (VBool b) /\ (b = false <-> is_entry ks entry fields p).
  Proof.
    intros HW (q & Hpr & Hq & ->). destruct (C10_print_parse pton kTableConstraint num (SNot q) (mkLoc 0 0 (SrcTable (ti_name t))) Hp Hnum Hpr) as (e & Hparse & HM).
    assert (exists m a, e = ENot m a /\ forall fields p key, well_formed lk fields -> (forall n v, key n = Some v <-> Assigned lk fields n v) ->
      says signed_order (ti_keys_by_name t) key p (fun n => exists k, In k lk /\ k_name k = n) (prioritized ks) a (is_entry ks entry fields p)) as (m & a & -> & HS).
    { inversion HM as [| | | |m ? a Ma| | |]; subst. exists m, a. split; [reflexivity|]. intros fields p key HW' Hkey. eapply says_iff; [exact (same_iff entry fields p key HW HW' Hkey)|].
      assert (forall k, In k lk -> exists u, key (k_name k) = Some u /\ of_type (k_type k) u) as Hval.
      { intros k Hk. destruct (lk_value fields k HW' Hk) as (u & Ha & _ & Hb). exists u. split; [now apply Hkey|apply (bounded_type _ _ Hb)]. }
      assert (forall k v, In k lk -> Assigned lk (pe_match entry) (k_name k) v -> bounded (k_type k) v) as Hb by (intros k v; apply lk_bounded; exact HW).
      assert (forall k v v', In k lk -> Assigned lk (pe_match entry) (k_name k) v -> Assigned lk (pe_match entry) (k_name k) v' -> v = v') as Hf by (intros k v v' _; apply lk_fun; apply HW).
      destruct Hq as [[HP Hd]|[HP Hd]].
      - eapply says_iff; [|eapply says_weaken; [| |exact (says_description signed_order signed_equal (ti_keys_by_name t) key p lk lk_declared Hval _ _ _ _ Hb Hf Hd Ma)]; [auto|auto]]. tauto.
      - eapply says_iff; [|exact (says_describes signed_order signed_equal (ti_keys_by_name t) key p lk lk_declared Hval _ _ _ _ (prioritized ks) Hb Hf Hd Ma)]. tauto. }
    destruct (lk_key (pe_match entry) HW) as (key & Hkey). exists (ENot m a). split.
    - split; [apply (text_iff pton Hp); exact Hparse|]. destruct (says_not _ _ _ _ _ _ m _ _ (HS (pe_match entry) 0%Z key HW Hkey)) as (H1 & H2 & H3 & H4 & _). split; [exact H1|]. split; [exact H2|]. split; [exact H3|exact H4].
    - intros fields p key' HW' Hkey'. destruct (HS fields p key' HW' Hkey') as (_ & _ & _ & _ & b & Hb & E). exists (negb b). split; [now apply mn_not|]. rewrite <- E. destruct b; cbn; intuition congruence.
  Qed.
  Lemma excluding_solutions entry text : well_formed lk (pe_match entry) -> excluding num ks skip entry text ->
    exists e, usable pton t ks skip text e /\ forall l fields p, (coherent_solution t ks skip (l ++ [e]) fields p <-> coherent_solution t ks skip l fields p /\ ~ is_entry ks entry fields p).
  Proof.
    intros HW Hex. destruct (excluding_meant entry text HW Hex) as (e & Hu & He). exists e. split; [exact Hu|]. intros l fields p. split.
    - intros ((H1 & H2 & key & H3 & H4) & Hc). apply Forall_app in H4 as [H4 H5]. inversion H5 as [|? ? H6 _]; subst. split; [split; [|exact Hc]; split; [exact H1|]; split; [exact H2|]; now exists key|].
      destruct (He fields p key H1 H3) as (b & Hb & E). assert (b = true) as -> by (pose proof (meant_fun _ _ _ (table_in_scope t ks HK) signed_order signed_fun _ _ _ _ Hb H6) as X; now injection X). intros Hi. apply E in Hi. discriminate Hi.
    - intros (((H1 & H2 & key & H3 & H4) & Hc) & Hn). split; [|exact Hc]. split; [exact H1|]. split; [exact H2|]. exists key. split; [exact H3|]. apply Forall_app. split; [exact H4|]. constructor; [|constructor].
      destruct (He fields p key H1 H3) as (b & Hb & E). destruct b; [exact Hb|]. destruct (Hn (proj1 E eq_refl)).
  Qed.
  Lemma excluding_decides entry text fields p : well_formed lk (pe_match entry) -> excluding num ks skip entry text -> well_formed lk fields -> is_entry ks entry fields p \/ ~ is_entry ks entry fields p.
  Proof.
    intros HW Hex HW'. destruct (excluding_meant entry text HW Hex) as (e & _ & He). destruct (lk_key fields HW') as (key & Hkey). destruct (He fields p key HW' Hkey) as ([] & _ & E); [right|left; now apply E]. intros H. apply E in H. discriminate H.
  Qed.
  Lemma excluding_exists entry : identifiers lk -> well_formed lk (pe_match entry) -> (prioritized ks -> priority_ok (pe_priority entry)) -> exists text, excluding num ks skip entry text.
  Proof.
    intros Hid HW HPr. assert (forall k, In k lk -> exists v, Assigned lk (pe_match entry) (k_name k) v /\ bounded (k_type k) v) as Hv by (intros k Hk; destruct (lk_value _ k HW Hk) as (v & H1 & _ & H2); eauto).
    destruct (prio_dec ks) as [HP|HP].
    - destruct (description_exists lk (pe_match entry) (pe_priority entry) Hid) as (q & Hq & Hpq); [destruct (HPr HP); lia|exact Hv|]. eexists. exists q. split; [exact Hpq|]. split; [left; now split|reflexivity].
    - destruct (describes_exists lk (pe_match entry) lk Hid (fun _ H => H) Hv) as (q & Hq & Hpq). eexists. exists q. split; [exact Hpq|]. split; [right; now split|reflexivity].
  Qed.
  (** Different entries are finitely many. *)
  Lemma finitely_many : exists n, forall entries, Forall (fun x => well_formed lk (pe_match x) /\ (prioritized ks -> priority_ok (pe_priority x))) entries ->
    ForallOrdPairs (fun x y => ~ is_entry ks x (pe_match y) (pe_priority y)) entries -> (List.length entries <= n)%nat.
  Proof.
    destruct (finite_vectors lk) as [L HL]. destruct (finite_z 2147483648) as [P HPz]. exists (List.length (list_prod L P)). intros entries HF HO.
    set (R := fun (x : p4_entry) (c : list value * Z) => Forall2 (fun k v => Assigned lk (pe_match x) (k_name k) v) lk (fst c) /\ In c (list_prod L P) /\ (prioritized ks -> snd c = pe_priority x)).
    rewrite Forall_forall in HF. destruct (choose_codes R entries) as [cs Hcs].
    { intros x Hx. destruct (HF x Hx) as [HW HPr]. assert (exists vs, Forall2 (fun k v => Assigned lk (pe_match x) (k_name k) v /\ canonical_value (k_type k) v) lk vs) as [vs Hvs].
      { apply choose_codes. intros k Hk. destruct (lk_value _ k HW Hk) as (v & H1 & H2 & _). eauto. }
      assert (exists z, (0 <= z < 2147483648)%Z /\ (prioritized ks -> z = pe_priority x)) as (z & Hz1 & Hz2) by (destruct (prio_dec ks) as [HP|HP]; [exists (pe_priority x); split; [destruct (HPr HP); lia|auto]|exists 0%Z; split; [lia|contradiction]]).
      exists (vs, z). split; [|split].
      - cbn [fst]. eapply weaken2; [|exact Hvs]. intros k v [H _]. exact H.
      - apply in_prod; [apply HL; eapply weaken2; [|exact Hvs]; intros k v [_ H]; exact H|]. apply HPz. exact Hz1.
      - exact Hz2. }
    assert (NoDup cs) as HN.
    { eapply (nodup_codes R (fun x y => is_entry ks x (pe_match y) (pe_priority y))); [exact Hcs| |exact HO]. intros x y [vs z] Hx Hy (X1 & _ & X3) (Y1 & _ & Y3). cbn [fst snd] in *. destruct (HF x Hx) as [WX _], (HF y Hy) as [WY _]. split; [|intros HP; rewrite <- X3, <- Y3 by exact HP; reflexivity].
      apply (SharedFacts2.same_entry t ks skip HK Hrep); auto. intros k v v' Hk Ha Ha'.
      assert (exists u, Assigned lk (pe_match x) (k_name k) u /\ Assigned lk (pe_match y) (k_name k) u) as (u & U1 & U2).
      { exact (common_code _ _ lk vs k X1 Y1 Hk). }
      rewrite (lk_fun _ _ v u (wf_once _ _ WX) Ha U1). exact (lk_fun _ _ u v' (wf_once _ _ WY) U2 Ha'). }
    assert (incl cs (list_prod L P)) as Hin. { clear - Hcs. intros c Hc. induction Hcs as [|x y l cs (_ & H & _) Hcs IH]; [destruct Hc|]. destruct Hc as [<-|Hc]; auto. }
    assert (List.length entries = List.length cs) as -> by (clear - Hcs; induction Hcs; cbn; congruence). exact (NoDup_incl_length HN Hin).
  Qed.
End Enumerate.
