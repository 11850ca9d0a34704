(** Parsing of entries and actions. *)
From Coq Require Import String Ascii List ZArith NArith Bool Lia Permutation.
From Verif Require Import Base Num Token Ast Quote Info TypeChecker Interpreter SpecLexer SpecGrammar SpecTyping TypeFacts NumFacts LiteralFacts SpecSemantics EvalFacts SemFacts SemFacts2.
Import ListNotations.
Open Scope string_scope.

(** * Integers *)
Lemma be_number s acc : be_value acc s = number acc (map N_of_ascii (chars s)).
Proof. revert acc. induction s as [|c s IH]; intros acc; cbn; [reflexivity|apply IH]. Qed.
Lemma strip_number s : be_value 0 (strip_leading_zeros s) = be_value 0 s.
Proof.
  induction s as [|c s IH]; cbn [strip_leading_zeros]; [reflexivity|]. destruct (Ascii.eqb_spec c NUL) as [->|]; [|reflexivity]. rewrite IH. reflexivity.
Qed.
Lemma p4rt_unsigned s : ParseP4RTInteger s = unsigned s.
Proof. unfold ParseP4RTInteger, unsigned. now rewrite strip_number, be_number. Qed.

(** * Association lists *)
Section Assoc.
  Context {K V : Type} (eqb : K -> K -> bool) (eqb_eq : forall a b, eqb a b = true <-> a = b).
  Lemma afind_in (l : list (K * V)) k v : assoc_find eqb k l = Some v -> In (k, v) l.
  Proof.
    induction l as [|[k' v'] l IH]; cbn; [discriminate|]. destruct (eqb k k') eqn:E; [intros [= <-]; apply eqb_eq in E as <-; auto|auto].
  Qed.
  Lemma afind_none (l : list (K * V)) k : assoc_find eqb k l = None <-> ~ In k (map fst l).
  Proof.
    induction l as [|[k' v'] l IH]; cbn; [tauto|]. destruct (eqb k k') eqn:E.
    - apply eqb_eq in E as ->. split; [discriminate|tauto].
    - rewrite IH. assert (k' <> k) by (intros ->; rewrite (proj2 (eqb_eq k k) eq_refl) in E; discriminate). tauto.
  Qed.
  Lemma afind_iff (l : list (K * V)) k v : NoDup (map fst l) -> (assoc_find eqb k l = Some v <-> In (k, v) l).
  Proof.
    intros HN. split; [apply afind_in|]. induction l as [|[k' v'] l IH]; cbn; [intros []|]. inversion HN as [|? ? Hn HN']; subst. intros [[= -> ->]|H].
    - now rewrite (proj2 (eqb_eq k k) eq_refl).
    - destruct (eqb k k') eqn:E; [|auto]. apply eqb_eq in E as ->. destruct Hn. apply in_map_iff. exists (k', v). auto.
  Qed.
  Lemma afind_app (l m : list (K * V)) k : assoc_find eqb k (l ++ m) = match assoc_find eqb k l with Some v => Some v | None => assoc_find eqb k m end.
  Proof. induction l as [|[k' v'] l IH]; cbn; [reflexivity|]. destruct (eqb k k'); auto. Qed.
  Lemma afind_same (l m : list (K * V)) k : NoDup (map fst l) -> NoDup (map fst m) -> same_entries l m -> assoc_find eqb k l = assoc_find eqb k m.
  Proof.
    intros Hl Hm H. destruct (assoc_find eqb k l) as [v|] eqn:E.
    - apply afind_iff in E; [|exact Hl]. apply H in E. symmetry. now apply afind_iff.
    - destruct (assoc_find eqb k m) as [v|] eqn:E'; [|reflexivity]. apply afind_in, H in E'. apply afind_iff in E'; [congruence|exact Hl].
  Qed.
End Assoc.
Lemma nodup_app_r {A} (l m : list A) : NoDup (l ++ m) -> NoDup m.
Proof. induction l; cbn; [auto|]. inversion 1; auto. Qed.
Lemma nodup_app_l {A} (l m : list A) : NoDup (l ++ m) -> NoDup l.
Proof. induction l as [|a l IH]; cbn; [constructor|]. inversion 1 as [|? ? Hn H']; subst. constructor; [|auto]. intros Hi. apply Hn, in_or_app. auto. Qed.
Lemma nodup_keys {A B} (f : A -> B) l a b : NoDup (map f l) -> In a l -> In b l -> f a = f b -> a = b.
Proof.
  induction l as [|x l IH]; cbn; [intros _ []|]. inversion 1 as [|? ? Hn HN]; subst. intros [->|Ha] [->|Hb] E; auto.
  - destruct Hn. rewrite E. now apply in_map.
  - destruct Hn. rewrite <- E. now apply in_map.
Qed.

Lemma nodup_snoc {A} (l : list A) x : NoDup l -> ~ In x l -> NoDup (l ++ [x]).
Proof. intros H Hx. apply (NoDup_Add (a := x) (l := l)); [|split; assumption]. rewrite <- (app_nil_r l) at 1. apply Add_app. Qed.

Section Table.
  Variable t : table_info.
  Variable ks : list key_info.
  Hypothesis HK : table_keys t ks.
  Lemma by_id id k : assoc_find N.eqb id (ti_keys_by_id t) = Some k <-> In k ks /\ k_id k = id.
  Proof.
    rewrite (afind_iff N.eqb N.eqb_eq) by apply HK. rewrite (tk_by_id _ _ HK (id, k)), in_map_iff. split.
    - intros (x & [= <- <-] & Hx). auto.
    - intros [Hx <-]. exists k. auto.
  Qed.
  Lemma by_name n k : In (n, k) (ti_keys_by_name t) <-> In k ks /\ k_name k = n.
  Proof.
    rewrite (tk_by_name _ _ HK (n, k)), in_map_iff. split.
    - intros (x & [= <- <-] & Hx). auto.
    - intros [Hx <-]. exists k. auto.
  Qed.
  Definition key_of (f : field_match) (nv : string * value) : Prop :=
    exists k, In k ks /\ k_id k = fm_id f /\ fst nv = k_name k /\ field_value (k_type k) (fm_value f) (snd nv).
  Lemma ParseKey_ok f nv : ParseKey f t = Ok nv <-> key_of f nv.
  Proof.
    unfold ParseKey, key_of. split.
    - destruct (assoc_find N.eqb (fm_id f) (ti_keys_by_id t)) as [k|] eqn:E; [|discriminate]. apply by_id in E as [Hk Hid]. intros H. exists k. split; [exact Hk|]. split; [exact Hid|].
      destruct (fm_value f), (k_type k) eqn:Et; try discriminate H; rewrite ?p4rt_unsigned in H;
        try (apply Ok_inj in H as <-; (split; [reflexivity|constructor])).
      unfold MaxValueForBitwidth, shl1 in H. destruct (Z.ltb_spec w 0); [discriminate H|]. cbn [bind] in H. apply Ok_inj in H as <-. split; [reflexivity|constructor; assumption].
    - intros (k & Hk & Hid & Hn & Hv). destruct nv as [n v]. cbn [fst snd] in *. subst n.
      assert (assoc_find N.eqb (fm_id f) (ti_keys_by_id t) = Some k) as -> by (apply by_id; auto).
      destruct Hv as [| | | |w s0 Hw]; rewrite ?p4rt_unsigned; try reflexivity.
      unfold MaxValueForBitwidth, shl1. destruct (Z.ltb_spec w 0); [lia|]. reflexivity.
  Qed.
  Lemma parse_fields_ok l : forall keys keys', NoDup (map fst keys) ->
    (parse_fields t l keys = Ok keys' <-> exists nv, keys' = (keys ++ nv)%list /\ Forall2 key_of l nv /\ NoDup (map fst keys')).
  Proof.
    induction l as [|f l IH]; intros keys keys' HN; cbn [parse_fields].
    - split.
      + intros H. apply Ok_inj in H as <-. exists []. rewrite app_nil_r. auto.
      + intros (nv & -> & H & _). inversion H; subst. now rewrite app_nil_r.
    - rewrite bind_ok. split.
      + intros ([n v] & Hk & H). unfold assoc_insert in H. destruct (assoc_find String.eqb n keys) eqn:E; [discriminate|].
        apply (afind_none String.eqb String.eqb_eq) in E. apply IH in H.
        * destruct H as (nv & -> & Hf & HN'). exists ((n, v) :: nv). rewrite <- app_assoc in *. split; [reflexivity|]. split; [|exact HN']. constructor; [now apply ParseKey_ok|exact Hf].
        * rewrite map_app. cbn. apply nodup_snoc; assumption.
      + intros (nv & -> & Hf & HN'). inversion Hf as [|? [n v] ? nv' Hk Hf']; subst. exists (n, v). split; [now apply ParseKey_ok|].
        unfold assoc_insert. rewrite map_app in HN'. cbn [map fst] in HN'. destruct (assoc_find String.eqb n keys) as [u|] eqn:E.
        * exfalso. apply (afind_in String.eqb String.eqb_eq) in E. apply NoDup_remove_2 in HN'. apply HN', in_or_app. left. apply in_map_iff. exists (n, u). auto.
        * apply IH; [|exists nv'; rewrite <- app_assoc; split; [reflexivity|split; [exact Hf'|rewrite map_app; exact HN']]].
          rewrite map_app. cbn [map fst]. apply (nodup_app_l _ (map fst nv')). rewrite <- app_assoc. exact HN'.
  Qed.
  Lemma default_ok k v : default_value k = Ok v <-> wildcard (k_type k) v.
  Proof.
    unfold default_value, MaxValueForBitwidth, shl1. split.
    - destruct (k_type k) as [| | | | | | | |w| |]; try discriminate; try (destruct (Z.ltb_spec w 0); [discriminate|]); cbn [bind]; intros E; apply Ok_inj in E as <-; now constructor.
    - destruct 1 as [| | |w Hw]; try reflexivity. destruct (Z.ltb_spec w 0); [lia|reflexivity].
  Qed.
  Lemma fill_ok l : forall keys keys', NoDup (map fst l) -> NoDup (map fst keys) -> fill_defaults l keys = Ok keys' ->
    NoDup (map fst keys') /\
    (forall n k, In (n, k) l -> In n (map fst keys) \/ exists v, default_value k = Ok v) /\
    (forall n v, In (n, v) keys' <-> In (n, v) keys \/ ~ In n (map fst keys) /\ exists k, In (n, k) l /\ default_value k = Ok v).
  Proof.
    induction l as [|[n k] l IH]; intros keys keys' HN HN' H; cbn [fill_defaults] in H.
    - apply Ok_inj in H as <-. split; [exact HN'|]. split; [intros ? ? []|]. intros n v. split; [auto|]. intros [H|(_ & k & [] & _)]. exact H.
    - cbn [map fst] in HN. inversion HN as [|? ? Hn HNl]; subst. destruct (assoc_find String.eqb n keys) as [u|] eqn:E.
      + apply IH in H as (H1 & H2 & H3); [|exact HNl|exact HN']. assert (In n (map fst keys)) as Hin by (apply (afind_in String.eqb String.eqb_eq) in E; apply in_map_iff; exists (n, u); auto).
        split; [exact H1|]. split.
        * intros n' k' [[= <- <-]|Hk]; [now left|eauto].
        * intros n' v. rewrite H3. split; [intros [H|(Ha & k' & Hk & Hd)]; [auto|right; split; [exact Ha|exists k'; cbn; auto]]|].
          intros [H|(Ha & k' & [[= <- <-]|Hk] & Hd)]; [auto|contradiction|right; split; [exact Ha|eauto]].
      + apply (afind_none String.eqb String.eqb_eq) in E. apply bind_ok in H as (v & Hv & H). apply IH in H as (H1 & H2 & H3); [|exact HNl|rewrite map_app; now apply nodup_snoc].
        split; [exact H1|]. split.
        * intros n' k' [[= <- <-]|Hk]; [eauto|]. apply H2 in Hk as Hk'. destruct Hk' as [Hk'|Hk']; [|auto]. rewrite map_app in Hk'. apply in_app_or in Hk' as [Hk'|[<-|[]]]; [auto|].
          destruct Hn. apply in_map_iff. exists (n, k'). auto.
        * intros n' v'. rewrite H3. rewrite in_app_iff, map_app, in_app_iff. cbn [In map fst]. split.
          -- intros [[H|[[= <- <-]|[]]]|(Ha & k' & Hk & Hd)]; [auto|right; split; [exact E|eauto]|right; split; [tauto|eauto]].
          -- intros [H|(Ha & k' & [[= <- <-]|Hk] & Hd)]; [auto|left; right; left; congruence|]. right. split; [|eauto]. intros [Hx|[<-|[]]]; [auto|].
             apply Hn. apply in_map_iff. exists (n, k'). auto.
  Qed.
  Lemma fill_total l : forall keys, (forall n k, In (n, k) l -> In n (map fst keys) \/ exists v, default_value k = Ok v) -> exists keys', fill_defaults l keys = Ok keys'.
  Proof.
    induction l as [|[n k] l IH]; intros keys H; cbn [fill_defaults]; [eauto|]. destruct (assoc_find String.eqb n keys) as [u|] eqn:E.
    - apply IH. intros n' k' Hk. apply H. now right.
    - apply (afind_none String.eqb String.eqb_eq) in E. destruct (H n k (or_introl eq_refl)) as [?|(v & ->)]; [contradiction|]. cbn [bind]. apply IH.
      intros n' k' Hk. destruct (H n' k' (or_intror Hk)) as [?|?]; [left; rewrite map_app, in_app_iff; auto|auto].
  Qed.

  Lemma fields_consistent l nv : Forall2 (key_of) l nv -> NoDup (map fst nv) ->
    (forall f, In f l -> exists k v, In k ks /\ k_id k = fm_id f /\ field_value (k_type k) (fm_value f) v) /\ NoDup (map fm_id l) /\
    (forall n v, In (n, v) nv <-> exists k f, In k ks /\ In f l /\ fm_id f = k_id k /\ n = k_name k /\ field_value (k_type k) (fm_value f) v).
  Proof.
    induction 1 as [|f [n v] l nv (k & Hk & Hid & Hn & Hv) H IH]; cbn [map fst snd] in *; intros HN.
    - split; [intros f []|]. split; [constructor|]. intros n v. split; [intros []|intros (k & f & _ & [] & _)].
    - inversion HN as [|? ? Hx HN']; subst. destruct (IH HN') as (H1 & H2 & H3). split; [|split].
      + intros f' [<-|Hf]; [exists k, v; auto|auto].
      + constructor; [|exact H2]. intros Hi. apply in_map_iff in Hi as (f' & Hid' & Hf'). destruct (H1 _ Hf') as (k' & v' & Hk' & Hid'' & Hv').
        apply Hx. apply in_map_iff. exists (k_name k', v'). split; [|apply H3; exists k', f'; auto].
        cbn. f_equal. apply (nodup_keys k_id ks); [apply HK|exact Hk'|exact Hk|congruence].
      + intros n' v'. cbn [In]. rewrite H3. split.
        * intros [[= <- <-]|(k' & f' & Hk' & Hf' & E1 & E2 & E3)]; [exists k, f; auto 6|exists k', f'; auto 6].
        * intros (k' & f' & Hk' & [<-|Hf'] & E1 & E2 & E3); [left|right; eauto 8].
          assert (k' = k) as -> by (apply (nodup_keys k_id ks); [apply HK|exact Hk'|exact Hk|congruence]). rewrite E2. f_equal.
          destruct Hv; inversion E3; reflexivity.
  Qed.
  Lemma fields_parse l : (forall f, In f l -> exists k v, In k ks /\ k_id k = fm_id f /\ field_value (k_type k) (fm_value f) v) -> NoDup (map fm_id l) ->
    exists nv, Forall2 key_of l nv /\ NoDup (map fst nv).
  Proof.
    induction l as [|f l IH]; intros H HN; [exists []; split; constructor|]. cbn [map] in HN. inversion HN as [|? ? Hx HN']; subst.
    destruct IH as (nv & Hf & Hnd); [intros f' Hf'; apply H; now right|exact HN'|]. destruct (H f (or_introl eq_refl)) as (k & v & Hk & Hid & Hv).
    exists ((k_name k, v) :: nv). split; [constructor; [exists k; auto|exact Hf]|]. cbn. constructor; [|exact Hnd]. intros Hi. apply in_map_iff in Hi as ([n' v'] & E & Hi). cbn in E. subst n'.
    destruct (fields_consistent l nv Hf Hnd) as (_ & _ & H3). apply H3 in Hi as (k' & f' & Hk' & Hf' & Hid' & En & _).
    assert (k = k') as <- by (apply (nodup_keys k_name ks); [apply HK|assumption..]). apply Hx. apply in_map_iff. exists f'. split; [congruence|exact Hf'].
  Qed.

  (** Entries are parsed iff they fit the table, and then every key has the value
      it is assigned. *)
  Lemma entry_ok e ctx : ParseTableEntry e t = Ok ctx -> consistent ks (pe_match e) /\
    exists keys, ctx = mkCtx (CtxTable (ti_name t) (pe_priority e) keys) (ti_source t) /\ NoDup (map fst keys) /\
      (forall n v, In (n, v) keys <-> Assigned ks (pe_match e) n v).
  Proof.
    unfold ParseTableEntry. intros H. apply bind_ok in H as (keys & Hp & H). apply bind_ok in H as (keys' & Hf & H). apply Ok_inj in H as <-.
    apply parse_fields_ok in Hp as (nv & E & Hf2 & HN); [|constructor]. cbn in E. subst nv. destruct (fields_consistent _ _ Hf2 HN) as (H1 & H2 & H3).
    apply fill_ok in Hf as (F1 & F2 & F3); [|apply HK|exact HN].
    assert (forall k, In k ks -> (In (k_name k) (map fst keys) <-> ~ omitted k (pe_match e))) as Hom.
    { intros k Hk. split.
      - intros Hi Ho. apply in_map_iff in Hi as ([n v] & E & Hi). cbn in E. subst n. apply H3 in Hi as (k' & f & Hk' & Hf & Hid & En & _).
        assert (k = k') as <- by (apply (nodup_keys k_name ks); [apply HK|assumption..]). exact (Ho f Hf Hid).
      - intros Hno. destruct (in_dec string_dec (k_name k) (map fst keys)) as [|Hni]; [assumption|]. destruct Hno. intros f Hf Hid.
        destruct (H1 f Hf) as (k' & v & Hk' & Hid' & Hv). assert (k' = k) as -> by (apply (nodup_keys k_id ks); [apply HK|exact Hk'|exact Hk|congruence]).
        apply Hni. apply in_map_iff. exists (k_name k, v). split; [reflexivity|]. apply H3. exists k, f. auto 6. }
    split.
    - constructor; [exact H1|exact H2|]. intros k Hk Ho. destruct (F2 (k_name k) k) as [Hi|(v & Hv)]; [apply by_name; auto|apply Hom in Hi; [contradiction|exact Hk]|]. exists v. now apply default_ok.
    - exists keys'. split; [reflexivity|]. split; [exact F1|]. intros n v. rewrite F3. split.
      + intros [Hi|(Hni & k & Hk & Hd)].
        * apply H3 in Hi as (k & f & Hk & Hf & Hid & -> & Hv). eapply as_present; eauto.
        * apply by_name in Hk as [Hk <-]. apply as_omitted; [exact Hk| |now apply default_ok].
          intros f Hf Hid. destruct (H1 f Hf) as (k' & v' & Hk' & Hid' & Hv'). assert (k' = k) as -> by (apply (nodup_keys k_id ks); [apply HK|exact Hk'|exact Hk|congruence]).
          apply Hni. apply in_map_iff. exists (k_name k, v'). split; [reflexivity|]. apply H3. exists k, f. auto 6.
      + intros [k f v' Hk Hf Hid Hv|k v' Hk Ho Hw].
        * left. apply H3. exists k, f. auto 6.
        * right. split; [intros Hi; apply Hom in Hi; [contradiction|exact Hk]|]. exists k. split; [apply by_name; auto|now apply default_ok].
  Qed.
  Lemma entry_total e : consistent ks (pe_match e) -> exists ctx, ParseTableEntry e t = Ok ctx.
  Proof.
    intros [C1 C2 C3]. destruct (fields_parse _ C1 C2) as (nv & Hf & HN). unfold ParseTableEntry.
    assert (parse_fields t (pe_match e) [] = Ok nv) as -> by (apply parse_fields_ok; [constructor|exists nv; auto]). cbn [bind].
    destruct (fields_consistent _ _ Hf HN) as (H1 & H2 & H3).
    destruct (fill_total (ti_keys_by_name t) nv) as (keys' & ->); [|cbn [bind]; eauto].
    intros n k Hk. apply by_name in Hk as [Hk <-]. destruct (in_dec string_dec (k_name k) (map fst nv)) as [|Hni]; [auto|]. right.
    destruct (C3 k Hk) as (v & Hv); [|exists v; now apply default_ok]. intros f Hff Hid. destruct (C1 f Hff) as (k' & v & Hk' & Hid' & Hv).
    assert (k' = k) as -> by (apply (nodup_keys k_id ks); [apply HK|exact Hk'|exact Hk|congruence]).
    apply Hni. apply in_map_iff. exists (k_name k, v). split; [reflexivity|]. apply H3. exists k, f. auto 6.
  Qed.
  Lemma entry_iff e : (exists ctx, ParseTableEntry e t = Ok ctx) <-> consistent ks (pe_match e).
  Proof. split; [intros [ctx H]; apply (entry_ok e ctx H)|apply entry_total]. Qed.
  (** Values are unique. *)
  Lemma assigned_fun l n v v' : NoDup (map fm_id l) -> Assigned ks l n v -> Assigned ks l n v' -> v = v'.
  Proof.
    intros HN H H'. destruct H as [k f v Hk Hf Hid Hv|k v Hk Ho Hw]; inversion H' as [k' f' v0 Hk' Hf' Hid' Hv' E|k' v0 Hk' Ho' Hw' E]; subst;
      (assert (k' = k) as -> by (apply (nodup_keys k_name ks); [apply HK|assumption..])).
    - assert (f = f') as <- by (apply (nodup_keys fm_id l); [assumption..|congruence]). destruct Hv; inversion Hv'; reflexivity.
    - destruct (Ho' f Hf Hid).
    - destruct (Ho f' Hf' Hid').
    - destruct Hw; inversion Hw'; reflexivity.
  Qed.
  Lemma field_value_typed ty f v : field_value ty f v -> of_type ty v.
  Proof. destruct 1; constructor. Qed.
  Lemma wildcard_typed ty v : wildcard ty v -> of_type ty v.
  Proof. destruct 1; constructor. Qed.
  (** A parsed entry is a good environment. *)
  Lemma entry_env e ctx : ParseTableEntry e t = Ok ctx -> (forall n k w, In (n, k) (ti_keys_by_name t) -> width (k_type k) w -> (0 <= w)%Z) ->
    env_ok (InTable (ti_keys_by_name t)) (env_of ctx).
  Proof.
    intros H Hw. apply entry_ok in H as ([C1 C2 C3] & keys & -> & HN & HA). cbn. constructor; [|intros n ty w (k & Hk & <-); eauto].
    intros n ty (k & Hk & <-) _. apply by_name in Hk as [Hk <-].
    assert (exists v, Assigned ks (pe_match e) (k_name k) v /\ of_type (k_type k) v) as (v & Hv & Hty).
    { destruct (existsb (fun f => N.eqb (fm_id f) (k_id k)) (pe_match e)) eqn:E.
      - apply existsb_exists in E as (f & Hf & Hid). apply N.eqb_eq in Hid. destruct (C1 f Hf) as (k' & v & Hk' & Hid' & Hv).
        assert (k' = k) as -> by (apply (nodup_keys k_id ks); [apply HK|exact Hk'|exact Hk|congruence]). exists v. split; [eapply as_present; eauto|eapply field_value_typed; eauto].
      - assert (omitted k (pe_match e)) as Ho. { intros f Hf Hid. assert (existsb (fun f => N.eqb (fm_id f) (k_id k)) (pe_match e) = true) as X; [|congruence]. apply existsb_exists. exists f. split; [exact Hf|now apply N.eqb_eq]. }
        destruct (C3 k Hk Ho) as (v & Hv). exists v. split; [now apply as_omitted|now apply wildcard_typed]. }
    exists v. split; [|exact Hty]. apply (afind_iff String.eqb String.eqb_eq); [exact HN|now apply HA].
  Qed.
End Table.

Section Action.
  Variable a : action_info.
  Variable ps : list key_info.
  Hypothesis HP : action_params a ps.
  Lemma param_by_id id k : assoc_find N.eqb id (ai_params_by_id a) = Some k <-> In k ps /\ k_id k = id.
  Proof.
    rewrite (afind_iff N.eqb N.eqb_eq) by apply HP. rewrite (ap_by_id _ _ HP (id, k)), in_map_iff. split.
    - intros (x & [= <- <-] & Hx). auto.
    - intros [Hx <-]. exists k. auto.
  Qed.
  Lemma param_by_name n k : In (n, k) (ai_params_by_name a) <-> In k ps /\ k_name k = n.
  Proof.
    rewrite (ap_by_name _ _ HP (n, k)), in_map_iff. split.
    - intros (x & [= <- <-] & Hx). auto.
    - intros [Hx <-]. exists k. auto.
  Qed.
  Lemma parse_params_ok l : forall params, NoDup (map fst params) -> (forall n, In n (map fst params) -> exists p, In p ps /\ k_name p = n) ->
    forall params', parse_params a l params = Ok params' ->
    (forall id s, In (id, s) l -> exists p, In p ps /\ k_id p = id) /\ NoDup (map fst l) /\ NoDup (map fst params') /\
    (forall p, In p ps -> In (k_name p) (map fst params) -> ~ In (k_id p) (map fst l)) /\
    (forall n z, In (n, z) params' <-> In (n, z) params \/ Passed ps l n z).
  Proof.
    induction l as [|[id s] l IH]; intros params HN Hps params' H; cbn [parse_params] in H.
    - apply Ok_inj in H as <-. split; [intros ? ? []|]. split; [constructor|]. split; [exact HN|]. split; [intros p _ _ []|]. intros n z. split; [auto|]. intros [?|(p & s & _ & [] & _)]; assumption.
    - destruct (assoc_find N.eqb id (ai_params_by_id a)) as [p|] eqn:E; [|discriminate]. apply param_by_id in E as [Hp <-].
      destruct (assoc_find String.eqb (k_name p) params) eqn:E; [discriminate|]. apply (afind_none String.eqb String.eqb_eq) in E. unfold param_info in *.
      apply IH in H as (H1 & H2 & H3 & H4 & H5).
      + split; [intros id' s' [[= <- <-]|Hi]; eauto|]. split; [|split; [exact H3|split]].
        * cbn. constructor; [|exact H2]. apply H4; [exact Hp|]. rewrite map_app, in_app_iff. cbn. auto.
        * intros p' Hp' Hn [Hid|Hid]; [|exact (H4 p' Hp' ltac:(rewrite map_app, in_app_iff; auto) Hid)].
          cbn in Hid. assert (p = p') as <- by (apply (nodup_keys k_id ps); [apply HP|assumption..]). contradiction.
        * intros n z. rewrite H5, in_app_iff. cbn [In]. split.
          -- intros [[?|[[= <- <-]|[]]]|(p' & s' & Hp' & Hi & -> & ->)]; [auto| |right; exists p', s'; cbn; auto]. right. exists p, s. rewrite p4rt_unsigned. cbn. auto.
          -- intros [?|(p' & s' & Hp' & [[= Hid <-]|Hi] & -> & ->)]; [auto| |right; exists p', s'; auto]. left. right. left.
             assert (p = p') as <- by (apply (nodup_keys k_id ps); [apply HP|assumption..]). now rewrite p4rt_unsigned.
      + rewrite map_app. cbn. now apply nodup_snoc.
      + intros n. rewrite map_app, in_app_iff. intros [?|[<-|[]]]; eauto.
  Qed.
  Lemma parse_params_total l : forall params, NoDup (map fst l) -> (forall id s, In (id, s) l -> exists p, In p ps /\ k_id p = id) ->
    (forall p, In p ps -> In (k_id p) (map fst l) -> ~ In (k_name p) (map fst params)) -> exists params', parse_params a l params = Ok params'.
  Proof.
    induction l as [|[id s] l IH]; intros params HN Hk Hd; cbn [parse_params]; [eauto|]. cbn in HN. inversion HN as [|? ? Hx HN']; subst.
    destruct (Hk id s (or_introl eq_refl)) as (p & Hp & <-). assert (assoc_find N.eqb (k_id p) (ai_params_by_id a) = Some p) as -> by (apply param_by_id; auto).
    unfold param_info in *. assert (assoc_find String.eqb (k_name p) params = None) as -> by (apply (afind_none String.eqb String.eqb_eq), Hd; cbn; auto).
    apply IH; [exact HN'|intros; eapply Hk; right; eassumption|]. intros p' Hp' Hi. rewrite map_app, in_app_iff. cbn. intros [Hj|[Hj|[]]].
    - apply (Hd p'); cbn; auto.
    - assert (p = p') as <- by (apply (nodup_keys k_name ps); [apply HP|assumption..]). contradiction.
  Qed.
  Lemma action_ok x ctx : ParseAction x a = Ok ctx -> acceptable ps (pa_params x) /\
    exists params, ctx = mkCtx (CtxAction (pa_id x) (ai_name a) params) (ai_source a) /\ NoDup (map fst params) /\
      (forall n z, In (n, z) params <-> Passed ps (pa_params x) n z).
  Proof.
    unfold ParseAction. intros H. apply bind_ok in H as (params & Hp & H). apply Ok_inj in H as <-.
    apply parse_params_ok in Hp as (H1 & H2 & H3 & _ & H5); [|constructor|intros ? []]. split; [split; assumption|]. exists params. split; [reflexivity|]. split; [exact H3|].
    intros n z. rewrite H5. cbn. tauto.
  Qed.
  Lemma action_total x : acceptable ps (pa_params x) -> exists ctx, ParseAction x a = Ok ctx.
  Proof.
    intros [H1 H2]. unfold ParseAction. destruct (parse_params_total (pa_params x) [] H2 H1) as (params & ->); [cbn; auto|]. cbn. eauto.
  Qed.
End Action.
