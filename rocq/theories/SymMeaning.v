(** What the constraints of a solver mean for entries. *)
From Coq Require Import String Ascii List ZArith NArith Bool Lia.
From Verif Require Import Base Num Token Ast Quote AstConstructors Info TypeChecker Parser Interpreter Z3 Symbolic SpecLexer SpecGrammar SpecTyping TypeFacts SpecSemantics SpecSymbolic SpecSolver
  NumFacts LiteralFacts EntryFacts EvalFacts SemFacts SemFacts2 ExplainFacts VerdictFacts InterpFacts InterpFacts2 SymFacts SymFacts2 SymBytes SymKeys SymState.
Import ListNotations.
Open Scope string_scope.

Lemma live_in skip ks k : In k (live_keys skip ks) <-> In k ks /\ live skip k.
Proof.
  unfold live_keys, live. rewrite filter_In. destruct (skip (k_name k)) as [[]| |]; split; intros [H1 H2]; split; auto; discriminate.
Qed.

(** * Canonical matches are matches *)
Lemma canonical_field t f v : canonical_match t (Some f) v -> (forall w, width t w -> (0 <= w)%Z) -> field_value t f v.
Proof. intros H Hw. inversion H; subst; constructor. apply Hw. constructor. Qed.
Lemma canonical_wild t v : canonical_match t None v -> wildcard t v.
Proof. intros H. inversion H; subst; constructor. Qed.
Lemma canonical_fun t f v v' : canonical_match t f v -> canonical_match t f v' -> v = v'.
Proof. intros H1 H2. destruct H1; inversion H2; reflexivity. Qed.
Lemma field_fun t f v v' : field_value t f v -> field_value t f v' -> v = v'.
Proof. intros H1 H2. destruct H1; inversion H2; reflexivity. Qed.
Lemma canonical_field_eq t f v v' : canonical_match t (Some f) v -> field_value t f v' -> v' = v.
Proof. intros H1 H2. inversion H1; subst; inversion H2; reflexivity. Qed.
Lemma wildcard_fun t v v' : wildcard t v -> wildcard t v' -> v = v'.
Proof. intros H1 H2. destruct H1; inversion H2; reflexivity. Qed.

Section Meaning.
  Variables (t : table_info) (ks : list key_info).
  Hypothesis HK : table_keys t ks.
  Variable skip : string -> outcome bool.
  Let G := InTable (ti_keys_by_name t).
  Variable check : solver.
  Lemma declared_in n ty : declared (ti_keys_by_name t) n ty <-> exists k, In k ks /\ k_name k = n /\ k_type k = ty.
  Proof. unfold declared. split; [intros (k & Hk & E); apply (by_name t ks HK) in Hk as [Hk <-]; eauto|intros (k & Hk & <- & E); exists k; split; [now apply (by_name t ks HK)|exact E]]. Qed.
  Lemma same_name k k' : In k ks -> In k' ks -> k_name k = k_name k' -> k = k'.
  Proof. apply (nodup_keys k_name ks). apply HK. Qed.
  Lemma same_id k k' : In k ks -> In k' ks -> k_id k = k_id k' -> k = k'.
  Proof. apply (nodup_keys k_id ks). apply HK. Qed.
  (** * The encoding *)
  Section Env.
  Variables (env : sym_env) (base : list term).
  Hypothesis HB : built ks skip env base.
  Lemma env_key n sk ty : assoc_find String.eqb n (se_keys env) = Some sk -> declared (ti_keys_by_name t) n ty ->
    exists k a, In k ks /\ k_name k = n /\ k_type k = ty /\ live skip k /\ AddSymbolicKey k = Ok (sk, a).
  Proof.
    intros H Hd. apply (b_keys _ _ _ _ HB) in H as (k & a & Hk & <- & Hl & Ha). apply declared_in in Hd as (k' & Hk' & E & Et). rewrite (same_name k' k Hk' Hk E) in Et. exists k, a. auto.
  Qed.
  Lemma env_prio u : assoc_find String.eqb "priority" (se_attrs env) = Some u -> prioritized ks /\ u = ZConst "priority" SInt.
  Proof.
    destruct (In_dec (fun a b : bool => bool_dec a b) true (map (fun k => match k_type k with TTernary _ | TOptional _ => true | _ => false end) ks)) as [Hi|Hn].
    - assert (prioritized ks) as HP. { apply in_map_iff in Hi as (k & E & Hk). exists k. destruct (k_type k) eqn:Et; try discriminate E; eexists; eauto. }
      rewrite (b_prio _ _ _ _ HB HP). cbn. intros [= <-]. auto.
    - rewrite (b_noprio _ _ _ _ HB); [discriminate|]. intros (k & w & Hk & E). apply Hn, in_map_iff. exists k. split; [destruct E as [-> | ->]; reflexivity|exact Hk].
  Qed.
  Lemma prio_dec : prioritized ks \/ ~ prioritized ks.
  Proof.
    destruct (In_dec (fun a b : bool => bool_dec a b) true (map (fun k => match k_type k with TTernary _ | TOptional _ => true | _ => false end) ks)) as [Hi|Hn].
    - left. apply in_map_iff in Hi as (k & E & Hk). exists k. destruct (k_type k) eqn:Et; try discriminate E; eexists; eauto.
    - right. intros (k & w & Hk & E). apply Hn, in_map_iff. exists k. split; [destruct E as [-> | ->]; reflexivity|exact Hk].
  Qed.
  Lemma encodes_bool e u : encodes env e u -> e_type e = TBool /\ exists src, EvalSymbolically env src e = Ok (RTerm u).
  Proof.
    intros (src & H). unfold EvaluateConstraintSymbolically in H. destruct (is_bool_type (e_type e)) eqn:E; [|discriminate H]. cbn [negb] in H. split; [destruct (e_type e); try discriminate E; reflexivity|].
    apply bind_ok in H as (r & Hr & H). apply to_term_ok in H as ->. eauto.
  Qed.
  Variables (m : assignment) (key : string -> option value) (p : Z).
  Hypothesis Hm : well_sorted m.
  Hypothesis Hkey : forall k v, In k ks -> live skip k -> key (k_name k) = Some v -> pictures m k v.
  Hypothesis Hp : prioritized ks -> pictures_priority m p.
  Lemma encode_den e0 e u b : InferTable e0 t = Ok e -> encodes env e u -> ~ reorders G (TableEnv key p) e0 -> Den G (TableEnv key p) e0 (VBool b) -> zeval m u = VB b.
  Proof.
    intros Hi He Hr Hd. apply encodes_bool in He as (Et & src & He).
    pose proof (sym_den env src t (tk_by_name_unique _ _ HK) m key p) as H. specialize (H ltac:(
      intros n sk v ty Hn Hdd Hv; destruct (env_key _ _ _ Hn Hdd) as (k & a & Hk & <- & <- & Hl & Ha); exact (key_stands k sk a Ha m v Hm (Hkey k v Hk Hl Hv)))).
    specialize (H ltac:(intros x Hx; destruct (env_prio x Hx) as [HP ->]; split; [reflexivity|exact (Hp HP)])). specialize (H e0 (VBool b) Hd Hr e (RTerm u) Hi He). rewrite Et in H. now inversion H.
  Qed.
  End Env.
  (** Constraints that can be encoded. *)
  Lemma encode_total env base e0 e src : built ks skip env base -> literals e0 -> InferTable e0 t = Ok e -> e_type e = TBool ->
    (forall n, mentions e0 n -> exists k, In k ks /\ k_name k = n /\ live skip k) -> (has_attribute e0 -> prioritized ks) -> exists u, EvaluateConstraintSymbolically env src e = Ok u /\ sort_of u = SBool.
  Proof.
    intros HB Hl Hi Et Hme Hat. unfold EvaluateConstraintSymbolically. rewrite Et. cbn [is_bool_type negb].
    destruct (sym_total env src t (tk_by_name_unique _ _ HK)) with (e := e0) (e' := e) as [(r & Hr & Hs)|(_ & Hmi)]; auto.
    - intros n sk ty Hn Hd. destruct (env_key env base HB _ _ _ Hn Hd) as (k & a & _ & _ & <- & _ & Ha). exact (key_shaped k sk a Ha).
    - intros u Hu. destruct (env_prio env base HB u Hu) as [_ ->]. reflexivity.
    - intros n ty w Hn Hd Hw. destruct (Hme n Hn) as (k & Hk & <- & Hlv). apply declared_in in Hd as (k' & Hk' & E & <-). rewrite (same_name k' k Hk' Hk E) in Hw. destruct (b_repr _ _ _ _ HB k Hk Hlv) as (w' & Hw' & [E'|[E'|[E'|E']]]); rewrite E' in Hw; inversion Hw; subst; assumption.
    - rewrite Et in Hs. inversion Hs; subst. exists t0. rewrite Hr. split; [reflexivity|assumption].
    - exfalso. destruct Hmi as [(n & Hn & E)|[Ha E]].
      + destruct (Hme n Hn) as (k & Hk & <- & Hlv). destruct (proj2 (add_key_iff k) (b_repr _ _ _ _ HB k Hk Hlv)) as ([sk a] & Ha). assert (assoc_find String.eqb (k_name k) (se_keys env) = Some sk) as E'; [|congruence]. apply (b_keys _ _ _ _ HB). exists k, a. auto.
      + rewrite (b_prio _ _ _ _ HB (Hat Ha)) in E. discriminate E.
  Qed.
  Lemma encode_skipped env base e0 e src n : built ks skip env base -> InferTable e0 t = Ok e -> mentions e0 n -> (forall k, In k ks -> k_name k = n -> ~ live skip k) ->
    forall u, EvaluateConstraintSymbolically env src e <> Ok u.
  Proof.
    intros HB Hi Hn Hs u Hu. destruct (encodes_bool env e u (ex_intro _ src Hu)) as (_ & src' & He). pose proof (sym_mentions env src' t (tk_by_name_unique _ _ HK) e0 e _ n Hi He Hn) as H.
    destruct (assoc_find String.eqb n (se_keys env)) as [sk|] eqn:E; [|congruence]. apply (b_keys _ _ _ _ HB) in E as (k & a & Hk & En & Hl & _). exact (Hs k Hk En Hl).
  Qed.
  Lemma encode_err env base e0 e src n : built ks skip env base -> literals e0 -> InferTable e0 t = Ok e -> mentions e0 n -> (forall k, In k ks -> k_name k = n -> ~ live skip k) ->
    (forall k w, In k ks -> width (k_type k) w -> (0 < w)%Z) -> exists c s, EvaluateConstraintSymbolically env src e = Err c s.
  Proof.
    intros HB Hl Hi Hn Hs Hw. pose proof (encode_skipped env base e0 e src n HB Hi Hn Hs) as Hno. unfold EvaluateConstraintSymbolically in *. destruct (is_bool_type (e_type e)); cbn [negb] in *; [|eauto].
    destruct (sym_total env src t (tk_by_name_unique _ _ HK)) with (e := e0) (e' := e) as [(r & Hr & _)|((c & s & ->) & _)]; auto.
    - intros n' sk ty Hn' Hd. destruct (env_key env base HB _ _ _ Hn' Hd) as (k & a & _ & _ & <- & _ & Ha). exact (key_shaped k sk a Ha).
    - intros u Hu. destruct (env_prio env base HB u Hu) as [_ ->]. reflexivity.
    - intros n' ty w _ Hd Hww. apply declared_in in Hd as (k' & Hk' & E & <-). eauto.
    - pose proof (sym_mentions env src t (tk_by_name_unique _ _ HK) e0 e _ n Hi Hr Hn) as H. destruct (assoc_find String.eqb n (se_keys env)) as [sk|] eqn:E; [|congruence]. apply (b_keys _ _ _ _ HB) in E as (k & a & Hk & En & Hlv & _). destruct (Hs k Hk En Hlv).
    - cbn [bind]. eauto.
  Qed.

  (** * Well-formed entries *)
  Lemma formed_consistent l : (forall k w, In k ks -> width (k_type k) w -> (0 <= w)%Z) -> well_formed (live_keys skip ks) l ->
    (forall k, In k ks -> ~ live skip k -> exists v, wildcard (k_type k) v) -> consistent ks l.
  Proof.
    intros Hw [W1 W2 W3] Hs. split; [|exact W1|].
    - intros f Hf. destruct (W2 f Hf) as (k & v & Hk & E & Hc). apply live_in in Hk as [Hk _]. exists k, v. split; [exact Hk|]. split; [exact E|]. apply canonical_field; [exact Hc|]. intros w. now apply Hw.
    - intros k Hk Ho. assert (live skip k \/ ~ live skip k) as [Hl|Hl]. { unfold live. destruct (skip (k_name k)) as [[]| |]; auto; right; discriminate. }
      + destruct (W3 k) as (v & Hv); [now apply live_in|exact Ho|]. exists v. now apply canonical_wild.
      + auto.
  Qed.
  (** The value of a live key. *)
  Lemma formed_value l k : well_formed (live_keys skip ks) l -> In k ks -> live skip k ->
    exists f v, canonical_match (k_type k) f v /\ match f with Some x => In (mkFM (k_id k) x) l | None => omitted k l end.
  Proof.
    intros [W1 W2 W3] Hk Hl. destruct (in_dec N.eq_dec (k_id k) (map fm_id l)) as [Hi|Hn].
    - apply in_map_iff in Hi as (f & E & Hf). destruct (W2 f Hf) as (k' & v & Hk' & E' & Hc). apply live_in in Hk' as [Hk' _]. assert (k' = k) as -> by (apply same_id; congruence). exists (Some (fm_value f)), v. split; [exact Hc|]. destruct f. cbn in *. congruence.
    - assert (omitted k l) as Ho. { intros f Hf E. apply Hn, in_map_iff. eauto. } destruct (W3 k) as (v & Hv); [now apply live_in|exact Ho|]. exists None, v. auto.
  Qed.
  Lemma formed_assigned l k f v v' : NoDup (map fm_id l) -> In k ks -> canonical_match (k_type k) f v -> match f with Some x => In (mkFM (k_id k) x) l | None => omitted k l end ->
    Assigned ks l (k_name k) v' -> v' = v.
  Proof.
    intros HN Hk Hc Hf Ha. inversion Ha as [k' f' v0 Hk' Hf' E' Hv En|k' v0 Hk' Ho Hwi En]; subst; (assert (k' = k) as -> by now apply same_name).
    - destruct f as [x|]; [|destruct (Hf f' Hf' E')]. assert (f' = mkFM (k_id k) x) as -> by (apply (nodup_keys fm_id l); auto). exact (canonical_field_eq _ _ _ _ Hc Hv).
    - destruct f as [x|]; [destruct (Ho _ Hf eq_refl)|]. apply canonical_wild in Hc. eapply wildcard_fun; eauto.
  Qed.

  (** * Reading entries off models *)
  Section Model.
  Variables (cs : constraint_solver) (l : list expr) (base us : list term).
  Hypothesis HH : holds t ks skip check cs l base us.
  Variable mo : model.
  Let m := complete mo.
  Hypothesis Hm : well_sorted m.
  Hypothesis Hs : satisfies m (base ++ us).
  Hypothesis Hmax : forall k w, In k ks -> width (k_type k) w -> (w <= 2147483647)%Z.
  Lemma concretize_keys_ok nk : (forall n k, In (n, k) nk -> In k ks /\ k_name k = n) -> NoDup (map fst nk) -> forall acc,
    exists fs, concretize_keys cs mo nk acc = Ok (acc ++ fs)%list /\
      NoDup (map fm_id fs) /\
      (forall f, In f fs -> exists k v, In (k_name k, k) nk /\ live skip k /\ k_id k = fm_id f /\ canonical_match (k_type k) (Some (fm_value f)) v /\ pictures m k v) /\
      (forall k, In (k_name k, k) nk -> live skip k -> omitted k fs -> exists v, canonical_match (k_type k) None v /\ pictures m k v).
  Proof.
    pose proof (h_built _ _ _ _ _ _ _ _ HH) as HB. apply satisfies_app in Hs as [Hbase _]. apply (b_base _ _ _ _ HB m Hm) in Hbase as [Hbase _].
    induction nk as [|[n k] nk IH]; intros Hin HN acc; cbn [concretize_keys].
    - exists []. rewrite app_nil_r. split; [reflexivity|]. split; [constructor|]. split; [intros f []|intros k []].
    - destruct (Hin n k (or_introl eq_refl)) as [Hk <-]. inversion HN as [|? ? Hni HN']; subst. assert (forall n k, In (n, k) nk -> In k ks /\ k_name k = n) as Hin' by (intros n' k' Hi; apply Hin; now right).
      destruct (b_skip _ _ _ _ HB k Hk) as (b & Eb). rewrite (h_skip _ _ _ _ _ _ _ _ HH), Eb. cbn [bind]. destruct b.
      + destruct (IH Hin' HN' acc) as (fs & E & H1 & H2 & H3). exists fs. split; [exact E|]. split; [exact H1|]. split.
        * intros f Hf. destruct (H2 f Hf) as (k' & v & Hk' & HR). exists k', v. split; [now right|exact HR].
        * intros k' [E'|Hk'] Hl; [injection E' as _ <-; unfold live in Hl; congruence|]. intros Ho. exact (H3 k' Hk' Hl Ho).
      + destruct (proj2 (add_key_iff k) (b_repr _ _ _ _ HB k Hk Eb)) as ([sk a] & Ha). assert (FindPtrOrStatus (se_keys (cs_env cs)) (k_name k) = Ok sk) as ->. { apply find_ok. apply (b_keys _ _ _ _ HB). exists k, a. auto. }
        cbn [bind]. destruct (key_concrete k sk a Ha mo Hm (Hbase k sk a Hk Eb Ha) (fun w => Hmax k w Hk)) as (f & v & -> & Hc & Hpi). cbn [bind].
        destruct (IH Hin' HN' (match option_map (mkFM (k_id k)) f with Some f => (acc ++ [f])%list | None => acc end)) as (fs & E & H1 & H2 & H3).
        assert (~ In (k_id k) (map fm_id fs)) as Hid. { intros Hi. apply in_map_iff in Hi as (g & Eg & Hg). destruct (H2 g Hg) as (k' & v' & Hk' & _ & E' & _). destruct (Hin' _ _ Hk') as [Hk'' _]. assert (k' = k) as -> by (apply same_id; congruence). apply Hni. apply in_map_iff. exists (k_name k, k). auto. }
        destruct f as [x|]; cbn [option_map] in *.
        * exists (mkFM (k_id k) x :: fs). split; [rewrite E, <- app_assoc; reflexivity|]. split; [cbn; constructor; assumption|]. split.
          -- intros g [<-|Hg]; [exists k, v; cbn; auto|]. destruct (H2 g Hg) as (k' & v' & Hk' & HR). exists k', v'. split; [now right|exact HR].
          -- intros k' [E'|Hk'] Hl Ho; [injection E' as _ <-; destruct (Ho _ (or_introl eq_refl) eq_refl)|]. apply (H3 k' Hk' Hl). intros g Hg. apply Ho. now right.
        * exists fs. split; [exact E|]. split; [exact H1|]. split.
          -- intros g Hg. destruct (H2 g Hg) as (k' & v' & Hk' & HR). exists k', v'. split; [now right|exact HR].
          -- intros k' [E'|Hk'] Hl Ho; [injection E' as _ <-; eauto|exact (H3 k' Hk' Hl Ho)].
  Qed.
  Lemma concretize_ok : check (assertions (cs_stack cs)) = Some mo -> exists fields p, ConcretizeEntry check cs = Ok (mkEntry (ti_id t) fields None p) /\ well_formed (live_keys skip ks) fields /\
    (prioritized ks -> priority_ok p /\ pictures_priority m p) /\ (~ prioritized ks -> p = 0%Z) /\
    (forall k v, In k ks -> live skip k -> Assigned ks fields (k_name k) v -> pictures m k v).
  Proof.
    intros Hch. pose proof (h_built _ _ _ _ _ _ _ _ HH) as HB. unfold ConcretizeEntry. rewrite Hch.
    destruct (concretize_keys_ok (Ordered (ti_keys_by_name t))) with (acc := @nil field_match) as (fs & E & H1 & H2 & H3).
    - intros n k Hi. now apply (in_ordered t ks HK) in Hi.
    - apply ordered_nodup. apply HK.
    - rewrite (h_table _ _ _ _ _ _ _ _ HH), E. cbn [bind app].
      assert (well_formed (live_keys skip ks) fs) as HW.
      { split; [exact H1| |].
        - intros f Hf. destruct (H2 f Hf) as (k & v & Hk & Hl & Eid & Hc & _). apply (in_ordered t ks HK) in Hk as [Hk _]. exists k, v. split; [now apply live_in|auto].
        - intros k Hk Ho. apply live_in in Hk as [Hk Hl]. destruct (H3 k) as (v & Hv & _); [now apply (in_ordered t ks HK)|exact Hl|exact Ho|]. eauto. }
      assert (forall k v, In k ks -> live skip k -> Assigned ks fs (k_name k) v -> pictures m k v) as HP.
      { intros k v Hk Hl Ha. assert (In (k_name k, k) (Ordered (ti_keys_by_name t))) as Hio by now apply (in_ordered t ks HK). inversion Ha as [k' f' v0 Hk' Hf' E' Hv En|k' v0 Hk' Ho Hwi En]; subst; (assert (k' = k) as -> by now apply same_name).
        - destruct (H2 f' Hf') as (k' & v' & Hk'' & _ & Eid & Hc & Hpi). apply (in_ordered t ks HK) in Hk'' as [Hk'' _]. assert (k' = k) as -> by (apply same_id; congruence). now rewrite (canonical_field_eq _ _ _ _ Hc Hv).
        - destruct (H3 k Hio Hl Ho) as (v' & Hc & Hpi). apply canonical_wild in Hc. now rewrite (wildcard_fun _ _ _ Hwi Hc). }
      destruct prio_dec as [Hpr|Hpr].
      + rewrite (b_prio _ _ _ _ HB Hpr). cbn [assoc_find kSymbolicPriorityAttributeName String.eqb Ascii.eqb Bool.eqb]. apply satisfies_app in Hs as [Hbase _]. apply (b_base _ _ _ _ HB m Hm) in Hbase as [_ Hbase]. destruct (Hbase Hpr) as (p & Hpp & Hok).
        assert (mo "priority" SInt = Some (VI p)) as Emo. { unfold pictures_priority, m, complete in Hpp. destruct (mo "priority" SInt) as [v|]; [congruence|]. cbn in Hpp. injection Hpp as <-. unfold priority_ok in Hok. lia. }
        rewrite Emo. cbn [get_numeral_int]. unfold priority_ok in Hok. destruct (Z.leb_spec (-2147483648) p); [|lia]. destruct (Z.leb_spec p 2147483647); [|lia]. cbn [andb bind]. exists fs, p. split; [reflexivity|]. split; [exact HW|]. split; [intros _; split; [unfold priority_ok; lia|exact Hpp]|]. split; [intros; contradiction|exact HP].
      + rewrite (b_noprio _ _ _ _ HB Hpr). cbn [assoc_find bind]. exists fs, 0%Z. split; [reflexivity|]. split; [exact HW|]. split; [intros; contradiction|]. auto.
  Qed.
  End Model.
End Meaning.
