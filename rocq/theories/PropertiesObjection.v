(** What is answered for an entry that does not fit the program (C110). *)
From Coq Require Import String Ascii List ZArith NArith Bool Lia.
From Verif Require Import Base Num Token Ast Lexer Quote AstConstructors Parser Info TypeChecker ConstraintInfo Interpreter SpecLexer SpecGrammar SpecParser SpecTyping SpecSemantics SpecInfo SpecExplain SpecOrder SpecObjection
  StrFacts NumFacts LiteralFacts ParserFacts4 TypeFacts SemFacts EntryFacts EntryFacts2 EntryFacts3 InfoFacts InfoFacts2 InterpFacts InterpFacts2 PropertiesParser PropertiesInfo PropertiesVerdict PropertiesExplain PropertiesEntries PropertiesOrder.
Import ListNotations.
Open Scope string_scope.

(** * Ids *)
Lemma repeat_snoc n : repeat_char n "0" ++ "0" = repeat_char (S n) "0".
Proof. induction n as [|n IH]; [reflexivity|]. cbn [repeat_char String.append] in *. now rewrite IH. Qed.
Lemma hex_digit_char d : (d < 16)%N -> hex_digit d = digit_char d.
Proof. intros H. assert (In d (map N.of_nat (seq 0 16))) as Hd by (apply in_map_iff; exists (N.to_nat d); split; [lia|apply in_seq; lia]). cbn in Hd. repeat (destruct Hd as [<-|Hd]; [reflexivity|]). destruct Hd. Qed.
Lemma string_snoc l c : string_of_list (l ++ [c]) = string_of_list l ++ String c "".
Proof. induction l as [|x l IH]; cbn; [reflexivity|now rewrite IH]. Qed.
Lemma hex_digits k : forall ds, Forall (fun d => (d < 16)%N) ds -> (List.length ds <= k)%nat ->
  hex k (of_digits 16 ds) = repeat_char (k - List.length ds) "0" ++ string_of_list (map digit_char ds).
Proof.
  induction k as [|k IH]; intros ds Hd Hl.
  - destruct ds; [reflexivity|cbn in Hl; lia].
  - cbn [hex]. destruct ds as [|d ds _] using rev_ind.
    + change (of_digits 16 []) with 0%N. change (0 / 16)%N with (of_digits 16 []). rewrite IH by (constructor || (cbn; lia)).
      cbn [List.length map string_of_list]. rewrite !Nat.sub_0_r, <- (repeat_snoc k), !sapp_assoc. reflexivity.
    + apply Forall_app in Hd as [Hd Hx]. inversion Hx as [|? ? Hdb _]; subst. rewrite of_digits_snoc.
      assert ((of_digits 16 ds * 16 + d) / 16 = of_digits 16 ds)%N as -> by (rewrite N.div_add_l, (N.div_small d) by lia; lia).
      assert ((of_digits 16 ds * 16 + d) mod 16 = d)%N as -> by (rewrite N.add_comm, N.mod_add, N.mod_small by lia; reflexivity).
      rewrite app_length in *. cbn [List.length] in *. rewrite IH by (assumption || lia). rewrite map_app, hex_digit_char by exact Hdb. cbn [map]. rewrite string_snoc, sapp_assoc. replace (S k - (List.length ds + 1))%nat with (k - List.length ds)%nat by lia. reflexivity.
Qed.
Lemma of_digits_least d r : d <> 0%N -> (16 ^ N.of_nat (List.length r) <= of_digits 16 (d :: r))%N.
Proof.
  intros Hd. induction r as [|x r IH] using rev_ind; [cbn; lia|]. rewrite app_comm_cons, of_digits_snoc, app_length. cbn [List.length]. rewrite Nat.add_1_r, Nat2N.inj_succ, N.pow_succ_r'. lia.
Qed.
Lemma length_string l : String.length (string_of_list l) = List.length l.
Proof. induction l; cbn; auto. Qed.
Lemma hex_eight n : uint32 n -> pad0 8 (print_N 16 n) = hex 8 n.
Proof.
  intros Hn. destruct (digits_of_spec 16 n ltac:(lia)) as (H1 & H2 & H3). unfold pad0, print_N. rewrite length_string, map_length. rewrite <- H3 at 3. symmetry. apply hex_digits; [exact H1|].
  destruct H2 as [->|(d & r & E & Hd)]; [cbn; lia|]. rewrite E in *. cbn [List.length]. pose proof (of_digits_least d r Hd) as Hg. rewrite H3 in Hg. unfold uint32 in Hn.
  destruct (Nat.le_gt_cases (S (List.length r)) 8) as [?|Hlt]; [assumption|]. exfalso. assert (16 ^ 8 <= 16 ^ N.of_nat (List.length r))%N by (apply N.pow_le_mono_r; lia). change (16 ^ 8)%N with 4294967296%N in *. lia.
Qed.
Lemma dec_of_N n : dec (Z.of_N n) = dec_N n.
Proof. destruct n; reflexivity. Qed.
(** Ids are written as specified. *)
Theorem C110_ids : forall id, uint32 id -> P4IDToString id = id_text id.
Proof.
  intros id Hid. unfold P4IDToString, id_text. rewrite (hex_eight id Hid), !dec_of_N.
  assert (N.land id 16777215 = id mod 16777216)%N as -> by (change 16777215%N with (N.ones 24); rewrite N.land_ones; reflexivity).
  destruct (N.ltb_spec id 16777216) as [H|H]; destruct (N.eqb_spec (id mod 16777216) id) as [E|E].
  - reflexivity.
  - exfalso. apply E. apply N.mod_small. exact H.
  - exfalso. pose proof (N.mod_lt id 16777216). lia.
  - rewrite !sapp_assoc. reflexivity.
Qed.
Print Assumptions C110_ids.

(** * Match fields *)
Section Fields.
  Variables (t : table_info) (ks : list key_info).
  Hypothesis HK : table_keys t ks.
  Lemma value_fits ty f v : field_value ty f v -> fits ty f.
  Proof. intros []; constructor. Qed.
  (** A match field, by itself. *)
  Lemma key_cases f : uint32 (fm_id f) -> (exists k v, In k ks /\ k_id k = fm_id f /\ field_value (k_type k) (fm_value f) v /\ ParseKey f t = Ok (k_name k, v)) \/
    (exists c m, (forall pre, bad_field ks pre f c m) /\ ParseKey f t = Err c m) \/ ParseKey f t = Crash GmpAbort.
  Proof.
    intros Hu. destruct (ParseKey f t) as [[n v]|c m|w] eqn:E.
    - left. apply (ParseKey_ok t ks HK) in E as (k & Hk & Hid & Hn & Hv). cbn [fst snd] in *. subst n. exists k, v. auto.
    - right. left. exists c, m. split; [|reflexivity]. intros pre. unfold ParseKey in E. destruct (assoc_find N.eqb (fm_id f) (ti_keys_by_id t)) as [k|] eqn:Ek.
      + apply (by_id t ks HK) in Ek as [Hk Hid]. destruct (fm_value f) eqn:Ev.
        6: injection E as <- <-; exact (bf_other ks pre f k Hk Hid Ev).
        6: injection E as <- <-; exact (bf_unset ks pre f k Hk Hid Ev).
        5: destruct (k_type k) eqn:Et; try (injection E as <- <-; apply bf_kind; exists k; rewrite Et, Ev; (split; [exact Hk|]); (split; [exact Hid|]); (split; [exact I|]); intros Hx; inversion Hx).
        5: unfold MaxValueForBitwidth, shl1 in E; destruct (Z.ltb_spec w 0); discriminate E.
        all: destruct (k_type k) eqn:Et; try discriminate E; injection E as <- <-; apply bf_kind; exists k; rewrite Et, Ev; (split; [exact Hk|]); (split; [exact Hid|]); (split; [exact I|]); intros Hx; inversion Hx.
      + injection E as <- <-. rewrite (C110_ids _ Hu). apply bf_unknown. intros k Hk Hid. assert (assoc_find N.eqb (fm_id f) (ti_keys_by_id t) = Some k) as E' by (apply (by_id t ks HK); auto). congruence.
    - right. right. destruct (ParseKey_cases' t ks HK f) as [(k & v & _ & _ & _ & H)|[(_ & m & H)|[(_ & _ & m & H)|(_ & H)]]]; congruence.
  Qed.
  Lemma matched_step pre keys k f v : matched ks pre keys -> In k ks -> k_id k = fm_id f -> ~ In (k_name k) (map fst keys) -> matched ks (pre ++ [f]) (keys ++ [(k_name k, v)]).
  Proof.
    intros HM Hk Hid E. split; [rewrite map_app; cbn; apply nodup_snoc; [apply HM|exact E]|]. intros k' Hk'. rewrite !map_app, !in_app_iff, (proj2 HM k' Hk'). cbn. split; (intros [?|[E'|[]]]; [now left|right; left]).
    - assert (k = k') as <- by (apply (nodup_keys k_name ks); [apply HK|assumption..]). now symmetry.
    - assert (k' = k) as -> by (apply (nodup_keys k_id ks); [apply HK|assumption..|congruence]). reflexivity.
  Qed.
  (** The first field with which something is wrong. *)
  Lemma fields_cases l : (forall f, In f l -> uint32 (fm_id f)) -> forall pre keys, matched ks pre keys -> in_order ks pre ->
    (in_order ks (pre ++ l) /\ exists keys', parse_fields t l keys = Ok keys' /\ matched ks (pre ++ l) keys') \/
    (exists a f b c m, l = (a ++ f :: b)%list /\ in_order ks (pre ++ a) /\ bad_field ks (pre ++ a) f c m /\ parse_fields t l keys = Err c m) \/
    parse_fields t l keys = Crash GmpAbort.
  Proof.
    induction l as [|f l IH]; intros Hu pre keys HM Ho; cbn [parse_fields].
    - left. rewrite app_nil_r. split; [exact Ho|]. exists keys. auto.
    - destruct (key_cases f (Hu f (or_introl eq_refl))) as [(k & v & Hk & Hid & Hv & ->)|[(c & m & Hb & ->)| ->]]; cbn [bind].
      + unfold assoc_insert. destruct (assoc_find String.eqb (k_name k) keys) as [u|] eqn:E.
        * right. left. exists [], f, l, InvalidArgument. eexists. rewrite app_nil_r. split; [reflexivity|]. split; [exact Ho|]. split; [|reflexivity]. rewrite (C110_ids _ (Hu f (or_introl eq_refl))).
          refine (bf_twice ks pre f k v Hk Hid Hv _). apply (afind_in String.eqb String.eqb_eq) in E. rewrite <- Hid. apply (proj2 HM k Hk). apply in_map_iff. exists (k_name k, u). auto.
        * apply (afind_none String.eqb String.eqb_eq) in E. assert (~ In (fm_id f) (map fm_id pre)) as Hni by (intros Hin; apply E; apply (proj2 HM k Hk); now rewrite Hid).
          pose proof (matched_step pre keys k f v HM Hk Hid E) as HM'.
          assert (in_order ks (pre ++ [f])) as Ho'.
          { destruct Ho as [O1 O2]. split; [rewrite map_app; cbn; now apply nodup_snoc|]. intros g Hg. apply in_app_or in Hg as [Hg|[<-|[]]]; [auto|]. exists k, v. auto. }
          destruct (IH (fun g Hg => Hu g (or_intror Hg)) _ _ HM' Ho') as [(H1 & keys' & H2 & H3)|[(a & g & b & c & m & -> & H1 & H2 & H3)|H]]; [left|right; left|right; right; exact H].
          -- rewrite <- app_assoc in H1, H3. cbn [app] in H1, H3. split; [exact H1|]. exists keys'. auto.
          -- rewrite <- app_assoc in H1, H2. exists (f :: a), g, b, c, m. auto.
      + right. left. exists [], f, l, c, m. rewrite app_nil_r. auto.
      + right. right. reflexivity.
  Qed.
  (** A field with which something is wrong, after fields with which nothing is. *)
  Lemma bad_not_in_order c m a f b : in_order ks (a ++ f :: b) -> bad_field ks a f c m -> False.
  Proof.
    intros [H1 H2] Hb. destruct (H2 f ltac:(apply in_or_app; right; now left)) as (k & v & Hk & Hid & Hv).
    assert (forall k', In k' ks -> k_id k' = fm_id f -> k' = k) as Huq by (intros k' Hk' Hid'; apply (nodup_keys k_id ks); [apply HK|assumption..|congruence]).
    destruct Hb as [Hb|(k' & Hk' & Hid' & _ & Hb)|k' Hk' Hid' Ev|k' Hk' Hid' Ev|k' v' Hk' Hid' Hv' Hin].
    - exact (Hb k Hk Hid).
    - rewrite (Huq k' Hk' Hid') in Hb. exact (Hb (value_fits _ _ _ Hv)).
    - rewrite Ev in Hv. inversion Hv.
    - rewrite Ev in Hv. inversion Hv.
    - rewrite map_app in H1. cbn [map] in H1. apply NoDup_remove_2 in H1. apply H1. apply in_or_app. now left.
  Qed.
  Lemma bad_fun a f c m c' m' : bad_field ks a f c m -> bad_field ks a f c' m' -> c = c' /\ m = m'.
  Proof.
    assert (forall k k', In k ks -> In k' ks -> k_id k = fm_id f -> k_id k' = fm_id f -> k' = k) as Huq by (intros k k' Hk Hk' Hid Hid'; apply (nodup_keys k_id ks); [apply HK|assumption..|congruence]).
    assert (forall k v, In k ks -> k_id k = fm_id f -> field_value (k_type k) (fm_value f) v -> misfit ks f -> False) as Hm.
    { intros k v Hk Hid Hv (k' & Hk' & Hid' & _ & Hn). rewrite (Huq k k' Hk Hk' Hid Hid') in Hn. exact (Hn (value_fits _ _ _ Hv)). }
    assert (misfit ks f -> supported (fm_value f)) as Hs by (intros (k & _ & _ & Hs & _); exact Hs).
    intros H H'. destruct H as [Hb|Hb|k Hk Hid Ev|k Hk Hid Ev|k v Hk Hid Hv Hin], H' as [Hb'|Hb'|k' Hk' Hid' Ev'|k' Hk' Hid' Ev'|k' v' Hk' Hid' Hv' Hin'];
      try (split; reflexivity); try (exfalso; congruence);
      try (exfalso; destruct Hb' as (k' & Hk' & Hid' & _); exact (Hb k' Hk' Hid')); try (exfalso; destruct Hb as (k' & Hk' & Hid' & _); exact (Hb' k' Hk' Hid'));
      try (exfalso; exact (Hb _ Hk' Hid')); try (exfalso; exact (Hb' _ Hk Hid)); try (exfalso; exact (Hm _ _ Hk Hid Hv Hb')); try (exfalso; exact (Hm _ _ Hk' Hid' Hv' Hb));
      try (exfalso; apply Hs in Hb; rewrite Ev' in Hb; exact Hb); try (exfalso; apply Hs in Hb'; rewrite Ev in Hb'; exact Hb');
      try (exfalso; rewrite Ev in Hv'; inversion Hv'; fail); try (exfalso; rewrite Ev' in Hv; inversion Hv; fail).
    rewrite (Huq k k' Hk Hk' Hid Hid'). auto.
  Qed.
  Lemma no_mask_parts a f : in_order ks a -> (forall g, In g a -> ~ no_mask ks g) /\ forall c m, bad_field ks a f c m -> ~ no_mask ks f.
  Proof.
    intros [_ Ho]. split.
    - intros g Hg (k & w & s & Hk & Hid & Et & Ev & Hw). destruct (Ho g Hg) as (k' & v & Hk' & Hid' & Hv). assert (k' = k) as -> by (apply (nodup_keys k_id ks); [apply HK|assumption..|congruence]). rewrite Et, Ev in Hv. inversion Hv. lia.
    - intros c m Hb (k & w & s & Hk & Hid & Et & Ev & Hw). destruct Hb as [Hb|(k' & Hk' & Hid' & _ & Hb)|k' Hk' Hid' Ev'|k' Hk' Hid' Ev'|k' v' Hk' Hid' Hv' Hin]; try congruence.
      + exact (Hb k Hk Hid).
      + assert (k' = k) as -> by (apply (nodup_keys k_id ks); [apply HK|assumption..|congruence]). rewrite Et, Ev in Hb. apply Hb. constructor.
      + assert (k' = k) as -> by (apply (nodup_keys k_id ks); [apply HK|assumption..|congruence]). rewrite Et, Ev in Hv'. inversion Hv'. lia.
  Qed.
  Lemma cut (a a' : list field_match) : forall f f' b b', (a' ++ f' :: b' = a ++ f :: b)%list -> (a' = a /\ f' = f) \/ (exists c, a = (a' ++ f' :: c)%list) \/ (exists c, a' = (a ++ f :: c)%list).
  Proof.
    revert a'. induction a as [|x a IH]; intros [|x' a'] f f' b b' E; cbn in E; injection E as E1 E2.
    - auto.
    - subst. right. right. exists a'. reflexivity.
    - subst. right. left. exists a. reflexivity.
    - subst x'. destruct (IH a' f f' b b' E2) as [(-> & ->)|[(c & ->)|(c & ->)]]; [auto|right; left; exists c; reflexivity|right; right; exists c; reflexivity].
  Qed.
  Lemma prefix_in_order a b : in_order ks (a ++ b) -> in_order ks a.
  Proof. intros [H1 H2]. split; [rewrite map_app in H1; exact (EntryFacts.nodup_app_l _ _ H1)|]. intros f Hf. apply H2. apply in_or_app. now left. Qed.
  Lemma nothing_matched : matched ks [] [].
  Proof. split; [constructor|intros k _; reflexivity]. Qed.
  Lemma nothing_wrong : in_order ks [].
  Proof. split; [constructor|intros f []]. Qed.
  Lemma first_bad l a f b c m : (forall f, In f l -> uint32 (fm_id f)) -> l = (a ++ f :: b)%list -> in_order ks a -> bad_field ks a f c m -> parse_fields t l [] = Err c m.
  Proof.
    intros Hu El Ho Hb. destruct (fields_cases l Hu [] [] nothing_matched nothing_wrong) as [(H & _)|[(a' & f' & b' & c' & m' & El' & Ho' & Hb' & ->)|H]]; cbn [app] in *.
    - subst l. destruct (bad_not_in_order c m a f b H Hb).
    - rewrite El in El'. destruct (cut _ _ _ _ _ _ El') as [(-> & ->)|[(d & ->)|(d & ->)]].
      + destruct (bad_fun _ _ _ _ _ _ Hb Hb') as [-> ->]. reflexivity.
      + destruct (bad_not_in_order _ _ _ _ _ Ho' Hb).
      + destruct (bad_not_in_order _ _ _ _ _ Ho Hb').
    - exfalso. destruct (no_mask_parts a f Ho) as [N1 N2]. destruct (parse_fields_cases' t ks HK l [] [] nothing_matched) as [(_ & k' & E & _)|(a' & f' & b' & El' & Hall & [(_ & m' & E)|[(_ & _ & m' & E)|(Hn & _)]])]; try congruence. cbn [app] in *.
      rewrite El in El'. destruct (cut _ _ _ _ _ _ El') as [(-> & ->)|[(d & ->)|(d & ->)]].
      + exact (N2 _ _ Hb Hn).
      + destruct Hb as [Hb|(k' & Hk' & Hid' & _ & Hb)|k' Hk' Hid' Ev'|k' Hk' Hid' Ev'|k' v' Hk' Hid' Hv' Hin]; destruct (Hall a f d eq_refl) as (k & Hk & Hid & Hfit & Hni).
        * exact (Hb k Hk Hid).
        * assert (k' = k) as -> by (apply (nodup_keys k_id ks); [apply HK|assumption..|congruence]). exact (Hb Hfit).
        * rewrite Ev' in Hfit. inversion Hfit.
        * rewrite Ev' in Hfit. inversion Hfit.
        * exact (Hni Hin).
      + apply (N1 f'); [apply in_or_app; right; now left|exact Hn].
  Qed.
End Fields.

(** * Arguments *)
Section Arguments.
  Variables (i : action_info) (ps : list key_info).
  Hypothesis HP : action_params i ps.
  Definition passed (pre : list (N * string)) (params : list (string * Z)) : Prop := forall q, In q ps -> (In (k_name q) (map fst params) <-> In (k_id q) (map fst pre)).
  Lemma args_cases l : (forall id s, In (id, s) l -> uint32 id) -> forall pre params, passed pre params -> acceptable ps pre ->
    (acceptable ps (pre ++ l) /\ exists params', parse_params i l params = Ok params') \/
    (exists a id s b m, l = (a ++ (id, s) :: b)%list /\ acceptable ps (pre ++ a) /\ bad_argument ps (pre ++ a) id m /\ parse_params i l params = Err InvalidArgument m).
  Proof.
    induction l as [|[id s] l IH]; intros Hu pre params HM Ho; cbn [parse_params].
    - left. rewrite app_nil_r. eauto.
    - pose proof (Hu id s (or_introl eq_refl)) as Hui. destruct (assoc_find N.eqb id (ai_params_by_id i)) as [q|] eqn:Eq.
      + apply (param_by_id i ps HP) in Eq as [Hq Hid]. destruct (assoc_find String.eqb (k_name q) params) as [u|] eqn:E.
        * right. exists [], id, s, l. eexists. rewrite app_nil_r. split; [reflexivity|]. split; [exact Ho|]. split; [|reflexivity]. rewrite (C110_ids _ Hui). refine (ba_twice ps pre id q Hq Hid _).
          apply (afind_in String.eqb String.eqb_eq) in E. rewrite <- Hid. apply (HM q Hq). apply in_map_iff. exists (k_name q, u). auto.
        * apply (afind_none String.eqb String.eqb_eq) in E. assert (~ In id (map fst pre)) as Hni by (intros Hin; apply E; apply (HM q Hq); now rewrite Hid).
          assert (passed (pre ++ [(id, s)]) (params ++ [(k_name q, ParseP4RTInteger s)])) as HM'.
          { intros q' Hq'. rewrite !map_app, !in_app_iff, (HM q' Hq'). cbn. split; (intros [?|[E'|[]]]; [now left|right; left]).
            - assert (q = q') as <- by (apply (nodup_keys k_name ps); [apply HP|assumption..]). now symmetry.
            - assert (q' = q) as -> by (apply (nodup_keys k_id ps); [apply HP|assumption..|congruence]). reflexivity. }
          assert (acceptable ps (pre ++ [(id, s)])) as Ho'.
          { destruct Ho as [O1 O2]. split; [|rewrite map_app; cbn; now apply nodup_snoc]. intros id' s' Hg. apply in_app_or in Hg as [Hg|[Hg|[]]]; [eauto|]. injection Hg as <- <-. exists q. auto. }
          destruct (IH (fun id' s' Hg => Hu id' s' (or_intror Hg)) _ _ HM' Ho') as [(H1 & params' & H2)|(a & id' & s' & b & m & -> & H1 & H2 & H3)]; [left|right].
          -- rewrite <- app_assoc in H1. cbn [app] in H1. split; [exact H1|]. exists params'. auto.
          -- rewrite <- app_assoc in H1, H2. exists ((id, s) :: a), id', s', b, m. auto.
      + right. exists [], id, s, l. eexists. rewrite app_nil_r. split; [reflexivity|]. split; [exact Ho|]. split; [|reflexivity]. rewrite (C110_ids _ Hui). apply ba_unknown.
        intros q Hq Hid. assert (assoc_find N.eqb id (ai_params_by_id i) = Some q) as E' by (apply (param_by_id i ps HP); auto). congruence.
  Qed.
  Lemma bad_not_acceptable m a id s b : acceptable ps (a ++ (id, s) :: b) -> bad_argument ps a id m -> False.
  Proof.
    intros [H1 H2] [Hb|q Hq Hid Hin].
    - destruct (H1 id s ltac:(apply in_or_app; right; now left)) as (q & Hq & Hid). exact (Hb q Hq Hid).
    - rewrite map_app in H2. cbn [map fst] in H2. apply NoDup_remove_2 in H2. apply H2. apply in_or_app. now left.
  Qed.
  Lemma bad_argument_fun a id m m' : bad_argument ps a id m -> bad_argument ps a id m' -> m = m'.
  Proof. intros [Hb|q Hq Hid Hin] [Hb'|q' Hq' Hid' Hin']; try reflexivity; exfalso; [exact (Hb _ Hq' Hid')|exact (Hb' _ Hq Hid)]. Qed.
  Lemma first_bad_argument l a id s b m : (forall id s, In (id, s) l -> uint32 id) -> l = (a ++ (id, s) :: b)%list -> acceptable ps a -> bad_argument ps a id m -> parse_params i l [] = Err InvalidArgument m.
  Proof.
    intros Hu El Ho Hb. destruct (args_cases l Hu [] []) as [(H & _)|(a' & id' & s' & b' & m' & El' & Ho' & Hb' & ->)]; [intros q _; reflexivity|split; [intros ? ? []|constructor]|..]; cbn [app] in *.
    - subst l. destruct (bad_not_acceptable m a id s b H Hb).
    - rewrite El in El'. assert (forall (a a' : list (N * string)) f f' b b', (a ++ f :: b = a' ++ f' :: b')%list -> (a' = a /\ f' = f) \/ (exists c, a = (a' ++ f' :: c)%list) \/ (exists c, a' = (a ++ f :: c)%list)) as Hcut.
      { clear. induction a as [|x a IH]; intros [|x' a'] f f' b b' E; cbn in E; injection E as E1 E2.
        - auto.
        - subst. right. right. exists a'. reflexivity.
        - subst. right. left. exists a. reflexivity.
        - subst x'. destruct (IH a' f f' b b' E2) as [(-> & ->)|[(c & ->)|(c & ->)]]; [auto|right; left; exists c; reflexivity|right; right; exists c; reflexivity]. }
      destruct (Hcut _ _ _ _ _ _ El') as [(-> & Ef)|[(d & ->)|(d & ->)]].
      + injection Ef as -> ->. now rewrite (bad_argument_fun _ _ _ _ Hb Hb').
      + destruct (bad_not_acceptable _ _ _ _ _ Ho Hb').
      + destruct (bad_not_acceptable _ _ _ _ _ Ho' Hb).
  Qed.
End Arguments.

(** * Declarations *)
Lemma constrained_table pton p ci d ks e0 ty : pton_ok pton -> P4ToConstraintInfo pton p = Ok ci -> In d (p4_tables p) -> constrained pton d ks e0 ty ->
  exists t e, GetTableInfoOrNull ci (pr_id (pt_preamble d)) = Some t /\ table_keys t ks /\ ti_name t = pr_name (pt_preamble d) /\ ti_constraint t = Some e /\ e_type e = ty.
Proof.
  intros Hp Hci Hd (cs & Hf & Hr & Hra & Hty). destruct (declared_table _ _ _ _ _ _ _ Hp Hci Hd Hf Hr Hra) as (t & e & Ht & HK & Hn & Hs & Hl & Hi & He). exists t, e. repeat (split; [assumption|]).
  pose proof (table_in_scope t ks HK) as HG. pose proof (key_scope_same t ks HK) as HS. apply same_scope_sym in HS. apply (typed_ext _ _ _ _ HS) in Hty. pose proof (proj1 (infer_ok None (Some t) _ HG _ _ Hi)) as Hty'. eapply (typed_fun None (Some t) _ HG); eauto.
Qed.
Lemma constrained_by_action pton p ci d ps e0 ty : pton_ok pton -> P4ToConstraintInfo pton p = Ok ci -> In d (p4_actions p) -> constrained_action pton d ps e0 ty ->
  exists t e, GetActionInfoOrNull ci (pr_id (pad_preamble d)) = Some t /\ action_params t ps /\ ai_name t = pr_name (pad_preamble d) /\ ai_constraint t = Some e /\ e_type e = ty.
Proof.
  intros Hp Hci Hd (cs & Hf & Hr & Hra & Hty). destruct (declared_action _ _ _ _ _ _ _ Hp Hci Hd Hf Hr Hra) as (t & e & Ht & HK & Hn & Hs & Hl & Hi & He). exists t, e. repeat (split; [assumption|]).
  pose proof (action_in_scope t ps HK) as HG. pose proof (param_scope_same t ps HK) as HS. apply same_scope_sym in HS. apply (typed_ext _ _ _ _ HS) in Hty. pose proof (proj1 (infer_ok (Some t) None _ HG _ _ Hi)) as Hty'. eapply (typed_fun (Some t) None _ HG); eauto.
Qed.
Lemma table_declared pton p ci id t e : pton_ok pton -> P4ToConstraintInfo pton p = Ok ci -> GetTableInfoOrNull ci id = Some t -> ti_constraint t = Some e ->
  exists d ks e0, In d (p4_tables p) /\ pr_id (pt_preamble d) = id /\ ti_name t = pr_name (pt_preamble d) /\ table_keys t ks /\ constrained pton d ks e0 (e_type e).
Proof.
  intros Hp Hci Ht He. apply info_lookup in Hci as (Hl & _). apply Hl in Ht as (d & Hd & -> & Hpt). destruct (table_parsed _ _ _ Hpt) as [ks [_ Hn Hf HK Hc]]. destruct Hc as [(_ & Hc)|(e1 & e' & Hr & Hp1 & Hi & He')]; [congruence|].
  rewrite He in He'. injection He' as <-. exists d, ks, e1. split; [exact Hd|]. split; [reflexivity|]. split; [exact Hn|]. split; [exact HK|]. exists (ti_source t). split; [exact Hf|]. split; [exact Hr|]. split; [now apply (text_iff pton Hp)|].
  pose proof (table_in_scope t ks HK) as HG. apply (typed_ext _ _ _ _ (key_scope_same t ks HK)). exact (proj1 (infer_ok None (Some t) _ HG _ _ Hi)).
Qed.
Lemma action_declared pton p ci id t e : pton_ok pton -> P4ToConstraintInfo pton p = Ok ci -> GetActionInfoOrNull ci id = Some t -> ai_constraint t = Some e ->
  exists d ps e0, In d (p4_actions p) /\ pr_id (pad_preamble d) = id /\ ai_name t = pr_name (pad_preamble d) /\ action_params t ps /\ constrained_action pton d ps e0 (e_type e).
Proof.
  intros Hp Hci Ht He. apply info_lookup in Hci as (_ & Hl). apply Hl in Ht as (d & Hd & -> & Hpt). destruct (action_parsed _ _ _ Hpt) as [ks [_ Hn Hf HK Hc]]. destruct Hc as [(_ & Hc)|(e1 & e' & Hr & Hp1 & Hi & He')]; [congruence|].
  rewrite He in He'. injection He' as <-. exists d, ks, e1. split; [exact Hd|]. split; [reflexivity|]. split; [exact Hn|]. split; [exact HK|]. exists (ai_source t). split; [exact Hf|]. split; [exact Hr|]. split; [now apply (text_iff pton Hp)|].
  pose proof (action_in_scope t ks HK) as HG. apply (typed_ext _ _ _ _ (param_scope_same t ks HK)). exact (proj1 (infer_ok (Some t) None _ HG _ _ Hi)).
Qed.
Lemma bad_field_says ks a f c m : bad_field ks a f c m -> String.eqb m "" = false.
Proof. intros []; reflexivity. Qed.
Lemma bad_argument_says ps a id m : bad_argument ps a id m -> String.eqb m "" = false.
Proof. intros []; reflexivity. Qed.
Lemma not_bool t : t <> TBool -> is_bool_type t = false.
Proof. destruct t; try reflexivity. intros H. now destruct H. Qed.

(** * C110 *)
(** What is wrong with an entry is what is answered, whatever its actions are. *)
Theorem C110_table : forall pton p ci entry c m, pton_ok pton -> P4ToConstraintInfo pton p = Ok ci -> wire entry -> objection pton p entry c m ->
  ReasonEntryViolatesConstraint entry ci = Err c m.
Proof.
  intros pton p ci entry c m Hp Hci [Hw Hwf] [Hn|d ks e ty Hd Hid Hc Hty|d ks e a f b c' m' Hd Hid Hc El Ho Hb]; unfold ReasonEntryViolatesConstraint.
  - apply info_lookup in Hci as (Ht & _). destruct (GetTableInfoOrNull ci (pe_table_id entry)) as [t|] eqn:E; [|now rewrite (C110_ids _ Hw)]. apply Ht in E as (d & Hd & Hid & _). destruct (Hn d Hd). now symmetry.
  - destruct (constrained_table _ _ _ _ _ _ _ Hp Hci Hd Hc) as (t & e' & Ht & HK & Hnm & He & Et). rewrite Hid in Ht. rewrite Ht. unfold ReasonTableViolates. rewrite He, Et, (not_bool _ Hty), Hnm. reflexivity.
  - destruct (constrained_table _ _ _ _ _ _ _ Hp Hci Hd Hc) as (t & e' & Ht & HK & Hnm & He & Et). rewrite Hid in Ht. rewrite Ht. unfold ReasonTableViolates. rewrite He, Et. cbn [is_bool_type negb].
    unfold ParseTableEntry. rewrite (first_bad t ks HK _ _ _ _ _ _ Hwf El Ho Hb). cbn [bind annotate]. rewrite (bad_field_says _ _ _ _ _ Hb), Hnm. cbn [bind]. reflexivity.
Qed.
Print Assumptions C110_table.
(** If nothing else is wrong with the entry but keys are missing, the answer is about one of them. *)
Theorem C110_missing : forall pton p ci entry d ks e, pton_ok pton -> P4ToConstraintInfo pton p = Ok ci -> wire entry ->
  In d (p4_tables p) -> pr_id (pt_preamble d) = pe_table_id entry -> constrained pton d ks e TBool -> in_order ks (pe_match entry) ->
  (exists k, missing ks (pe_match entry) k) -> exists k, missing ks (pe_match entry) k /\ complaint (pr_name (pt_preamble d)) k (ReasonEntryViolatesConstraint entry ci).
Proof.
  intros pton p ci entry d ks e Hp Hci [_ Hwf] Hd Hid Hc Ho (k0 & Hk0).
  destruct (constrained_table _ _ _ _ _ _ _ Hp Hci Hd Hc) as (t & e' & Ht & HK & Hnm & He & Et). rewrite Hid in Ht.
  destruct (fields_cases t ks HK (pe_match entry) Hwf [] [] (nothing_matched ks) (nothing_wrong ks)) as [(_ & keys & Hk & HM)|[(a & f & b & c & m & El & Ho' & Hb & _)|H]]; cbn [app] in *.
  - destruct (fill_stops (ti_keys_by_name t) keys) as [(ks1 & E1)|(n & k & H1 & H2 & H3 & E1)].
    + exfalso. pose proof (tk_by_name_unique _ _ HK) as HU. destruct (fill_ok _ _ _ HU (proj1 HM) E1) as (_ & F & _). pose proof (proj1 (missing_iff t ks entry keys HK Hk k0) Hk0) as (G1 & G2 & G3). destruct (F _ _ G1) as [?|[v Hv]]; [contradiction|exact (G3 v Hv)].
    + pose proof (proj1 (by_name t ks HK n k) H1) as [Hkk <-]. exists k. split; [apply (missing_iff t ks entry keys HK Hk); auto|].
      unfold ReasonEntryViolatesConstraint. rewrite Ht. unfold ReasonTableViolates. rewrite He, Et. cbn [is_bool_type negb]. unfold ParseTableEntry. rewrite Hk. cbn [bind]. rewrite E1, Hnm. pose proof (shown_complaint (pr_name (pt_preamble d)) k H3) as Hs.
      unfold shown, stop in *. destruct (default_value k) as [v|c m|w]; cbn [bind annotate] in *; [destruct (H3 v eq_refl)|exact Hs..].
  - exfalso. rewrite El in Ho. exact (bad_not_in_order t ks HK _ _ _ _ _ Ho Hb).
  - exfalso. destruct (parse_fields_cases' t ks HK (pe_match entry) [] [] (nothing_matched ks)) as [(_ & k' & E & _)|(a' & f' & b' & El' & Hall & [(_ & m' & E)|[(_ & _ & m' & E)|(Hn & _)]])]; try congruence.
    apply (proj1 (no_mask_parts t ks HK (pe_match entry) f' Ho) f'); [rewrite El'; apply in_or_app; right; now left|exact Hn].
Qed.
Print Assumptions C110_missing.
(** Other errors occur only for entries that fit the program: then the constraint could not be evaluated. *)
Theorem C110_table_only : forall pton p ci entry c m, pton_ok pton -> P4ToConstraintInfo pton p = Ok ci -> wire entry ->
  ReasonEntryViolatesConstraint (with_action entry None) ci = Err c m ->
  objection pton p entry c m \/
  exists d ks e, In d (p4_tables p) /\ pr_id (pt_preamble d) = pe_table_id entry /\ constrained pton d ks e TBool /\
    (consistent ks (pe_match entry) \/ in_order ks (pe_match entry) /\ exists k, missing ks (pe_match entry) k /\ complaint (pr_name (pt_preamble d)) k (Err c m)).
Proof.
  intros pton p ci entry c m Hp Hci Hwire H. pose proof Hwire as [Hw Hwf]. unfold ReasonEntryViolatesConstraint in H. cbn [pe_table_id pe_match pe_action pe_priority with_action] in H.
  destruct (GetTableInfoOrNull ci (pe_table_id entry)) as [t|] eqn:Ht.
  2: { left. injection H as <- <-. rewrite (C110_ids _ Hw). apply ob_table. intros d Hd Hid. apply info_lookup in Hci as Hl. destruct Hl as (Hl & _). destruct (proj1 (info_iff pton p) (ex_intro _ ci Hci)) as (_ & _ & H3 & _).
       destruct (H3 d Hd) as [t Hpt]. assert (GetTableInfoOrNull ci (pe_table_id entry) = Some t) by (apply Hl; exists d; auto). congruence. }
  change (ReasonTableViolates t (with_action entry None)) with (ReasonTableViolates t entry) in H. unfold ReasonTableViolates in H. destruct (ti_constraint t) as [e|] eqn:He; [|discriminate].
  destruct (table_declared _ _ _ _ _ _ Hp Hci Ht He) as (d & ks & e0 & Hd & Hid & Hnm & HK & Hc). destruct (is_bool_type (e_type e)) eqn:Eb; cbn [negb] in H.
  2: { left. cbn [bind] in H. injection H as <- <-. rewrite Hnm. refine (ob_type pton p entry d ks e0 _ Hd Hid Hc _). intros E. rewrite E in Eb. discriminate. }
  assert (e_type e = TBool) as Et by (clear - Eb; destruct (e_type e); try discriminate Eb; reflexivity). rewrite Et in Hc.
  destruct (fields_cases t ks HK (pe_match entry) Hwf [] [] (nothing_matched ks) (nothing_wrong ks)) as [(Ho & keys & Hk & HM)|[(a & f & b & c' & m' & El & Ho' & Hb & Hk)|Hk]]; cbn [app] in *; unfold ParseTableEntry in H; rewrite Hk in H; cbn [bind] in H.
  - right. exists d, ks, e0. split; [exact Hd|]. split; [exact Hid|]. split; [exact Hc|]. destruct (fill_stops (ti_keys_by_name t) keys) as [(ks1 & E1)|(n & k & H1 & H2 & H3 & E1)].
    + left. apply (entry_iff t ks HK). unfold ParseTableEntry. rewrite Hk. cbn [bind]. rewrite E1. cbn [bind]. eauto.
    + right. split; [exact Ho|]. pose proof (proj1 (by_name t ks HK n k) H1) as [Hkk <-]. exists k. split; [apply (missing_iff t ks entry keys HK Hk); auto|]. rewrite E1, Hnm in H. pose proof (shown_complaint (pr_name (pt_preamble d)) k H3) as Hs.
      unfold shown, stop in *. destruct (default_value k) as [v|c1 m1|w]; cbn [bind annotate] in *; [destruct (H3 v eq_refl)| |discriminate H]. rewrite <- H. exact Hs.
  - left. cbn [annotate] in H. rewrite (bad_field_says _ _ _ _ _ Hb) in H. cbn [bind] in H. injection H as <- <-. rewrite Hnm. exact (ob_field pton p entry d ks e0 a f b c' m' Hd Hid Hc El Ho' Hb).
  - discriminate H.
Qed.
Print Assumptions C110_table_only.
(** Actions by reference, for entries that would be accepted without them. *)
Theorem C110_indirect : forall ci entry m, ReasonEntryViolatesConstraint (with_action entry None) ci = Ok "" -> no_action (pe_action entry) m ->
  ReasonEntryViolatesConstraint entry ci = Err InvalidArgument m.
Proof.
  intros ci entry m. unfold ReasonEntryViolatesConstraint. cbn [pe_table_id pe_match pe_action pe_priority with_action]. destruct (GetTableInfoOrNull ci (pe_table_id entry)) as [t|]; [|discriminate].
  change (ReasonTableViolates t (with_action entry None)) with (ReasonTableViolates t entry). destruct (ReasonTableViolates t entry) as [s| |]; cbn [bind]; try discriminate.
  destruct (String.eqb_spec s "") as [->|Hn]; cbn [negb]; [|intros H; apply Ok_inj in H; contradiction]. intros _ Hna. destruct (pe_action entry) as [[a|i|i|l|]|]; inversion Hna; reflexivity.
Qed.
Print Assumptions C110_indirect.
(** What is wrong with the first action that would not be accepted by itself is what is answered. *)
Lemma action_objected pton p ci x m : pton_ok pton -> P4ToConstraintInfo pton p = Ok ci -> wire_action x -> action_objection pton p x m -> ReasonActionViolates ci x = Err InvalidArgument m.
Proof.
  intros Hp Hci [Hw Hwf] [Hn|d ps e ty Hd Hid Hc Hty|d ps e a id s b m' Hd Hid Hc El Ho Hb]; unfold ReasonActionViolates.
  - apply info_lookup in Hci as (_ & Ht). destruct (GetActionInfoOrNull ci (pa_id x)) as [t|] eqn:E; [|now rewrite (C110_ids _ Hw)]. apply Ht in E as (d & Hd & Hid & _). destruct (Hn d Hd). now symmetry.
  - destruct (constrained_by_action _ _ _ _ _ _ _ Hp Hci Hd Hc) as (t & e' & Ht & HK & Hnm & He & Et). rewrite Hid in Ht. rewrite Ht, He, Et, (not_bool _ Hty), Hnm. reflexivity.
  - destruct (constrained_by_action _ _ _ _ _ _ _ Hp Hci Hd Hc) as (t & e' & Ht & HK & Hnm & He & Et). rewrite Hid in Ht. rewrite Ht, He, Et. cbn [is_bool_type negb].
    unfold ParseAction. rewrite (first_bad_argument t ps HK _ _ _ _ _ _ Hwf El Ho Hb). cbn [bind annotate]. rewrite (bad_argument_says _ _ _ _ Hb), Hnm. cbn [bind]. reflexivity.
Qed.
Theorem C110_action : forall pton p ci entry pre a post m, pton_ok pton -> P4ToConstraintInfo pton p = Ok ci ->
  ReasonEntryViolatesConstraint (with_action entry None) ci = Ok "" -> actions_of entry = (pre ++ a :: post)%list ->
  (forall b, In b pre -> ReasonEntryViolatesConstraint (with_action entry (Some (TAction b))) ci = Ok "") ->
  wire_action a -> action_objection pton p a m ->
  ReasonEntryViolatesConstraint entry ci = Err InvalidArgument m.
Proof.
  intros pton p ci entry pre a post m Hp Hci Ht Ha Hpre Hw Hob. assert (direct entry) as Hd by (unfold direct, actions_of in *; destruct (pe_action entry) as [[x|i|i|l|]|]; try exact I; destruct pre; discriminate Ha).
  assert (Err InvalidArgument m <> Ok "") as Hne by discriminate. apply (C34_first_rejected ci entry _ Hne Hd). right. split; [exact Ht|]. exists pre, a, post. split; [exact Ha|]. split; [exact Hpre|].
  rewrite (C34_action_alone ci entry a Ht). exact (action_objected _ _ _ _ _ Hp Hci Hw Hob).
Qed.
Print Assumptions C110_action.
Theorem C110_action_only : forall pton p ci entry a c m, pton_ok pton -> P4ToConstraintInfo pton p = Ok ci -> wire_action a ->
  ReasonEntryViolatesConstraint (with_action entry None) ci = Ok "" -> ReasonEntryViolatesConstraint (with_action entry (Some (TAction a))) ci = Err c m ->
  (c = InvalidArgument /\ action_objection pton p a m) \/
  exists d ps e, In d (p4_actions p) /\ pr_id (pad_preamble d) = pa_id a /\ constrained_action pton d ps e TBool /\ acceptable ps (pa_params a).
Proof.
  intros pton p ci entry a c m Hp Hci [Hw Hwf] Ht H. rewrite (C34_action_alone ci entry a Ht) in H. unfold ReasonActionViolates in H. destruct (GetActionInfoOrNull ci (pa_id a)) as [t|] eqn:Hi.
  2: { left. injection H as <- <-. split; [reflexivity|]. rewrite (C110_ids _ Hw). apply ao_action. intros d Hd Hid. apply info_lookup in Hci as Hl. destruct Hl as (_ & Hl). destruct (proj1 (info_iff pton p) (ex_intro _ ci Hci)) as (_ & _ & _ & H3).
       destruct (H3 d Hd) as [t Hpt]. assert (GetActionInfoOrNull ci (pa_id a) = Some t) by (apply Hl; exists d; auto). congruence. }
  destruct (ai_constraint t) as [e|] eqn:He; [|discriminate]. destruct (action_declared _ _ _ _ _ _ Hp Hci Hi He) as (d & ps & e0 & Hd & Hid & Hnm & HK & Hc). destruct (is_bool_type (e_type e)) eqn:Eb; cbn [negb] in H.
  2: { left. injection H as <- <-. split; [reflexivity|]. rewrite Hnm. refine (ao_type pton p a d ps e0 _ Hd Hid Hc _). intros E. rewrite E in Eb. discriminate. }
  assert (e_type e = TBool) as Et by (clear - Eb; destruct (e_type e); try discriminate Eb; reflexivity). rewrite Et in Hc.
  destruct (args_cases t ps HK (pa_params a) Hwf [] []) as [(Ho & _)|(b & id & s & b' & m' & El & Ho & Hb & Hk)]; [intros q _; reflexivity|split; [intros ? ? []|constructor]|..]; cbn [app] in *.
  - right. exists d, ps, e0. auto.
  - left. unfold ParseAction in H. rewrite Hk in H. cbn [bind annotate] in H. rewrite (bad_argument_says _ _ _ _ Hb) in H. cbn [bind] in H. injection H as <- <-. split; [reflexivity|]. rewrite Hnm. exact (ao_argument pton p a d ps e0 b id s b' m' Hd Hid Hc El Ho Hb).
Qed.
Print Assumptions C110_action_only.
(** Entries and actions of each kind. *)
Lemma demo_constrained : constrained pton1 demo_decl demo_keys demo_tree TBool.
Proof. destruct C26_case as (_ & _ & H1 & H2 & H3 & H4 & _). exists demo_csource. auto. Qed.
Example C110_case : P4ToConstraintInfo pton1 demo_info = Ok demo_ci /\
  wire (mkEntry 33554441 [] None 0) /\ objection pton1 demo_info (mkEntry 33554441 [] None 0) InvalidArgument "table entry with unknown table ID 9 (full ID: 33554441 (0x02000009))" /\
  wire (mkEntry 3 [mkFM 1 (FMExact "a"); mkFM 26 (FMExact "a"); mkFM 2 (FMExact "")] None 0) /\
  objection pton1 demo_info (mkEntry 3 [mkFM 1 (FMExact "a"); mkFM 26 (FMExact "a"); mkFM 2 (FMExact "")] None 0) InvalidArgument
    "unknown table key with ID 26 (0x0000001a);  while parsing P4RT table entry for table 'demo':" /\
  objection pton1 demo_info (mkEntry 3 [mkFM 1 (FMExact "a"); mkFM 1 (FMExact "b")] None 0) InvalidArgument
    "duplicate match on key e with ID 1 (0x00000001);  while parsing P4RT table entry for table 'demo':" /\
  constrained pton1 demo_decl demo_keys demo_tree TBool /\ in_order demo_keys [mkFM 2 (FMTernary "a" "b")] /\ missing demo_keys [mkFM 2 (FMTernary "a" "b")] (mkKey 1 "e" (TExact 8)) /\
  ReasonEntryViolatesConstraint (with_action (mkEntry 3 demo_match (Some (TMemberId 4)) 0) None) demo_ci = Ok "" /\
  no_action (pe_action (mkEntry 3 demo_match (Some (TMemberId 4)) 0)) "action restrictions not supported for entries with the given kind of action: " /\
  wire_action (mkP4Action 9 []) /\ action_objection pton1 demo_info (mkP4Action 9 []) "action entry with unknown action ID 9 (0x00000009)".
Proof.
  assert (forall l, (forall f, In f l -> (fm_id f < 100)%N) -> wire (mkEntry 3 l None 0)) as HW by (intros l H; split; [reflexivity|intros f Hf; cbn in Hf; apply H in Hf; unfold uint32; lia]).
  assert (in_order demo_keys [mkFM 1 (FMExact "a")]) as HO by (split; [repeat constructor; intros []|intros f [<-|[]]; exists (mkKey 1 "e" (TExact 8)); eexists; split; [now left|]; split; [reflexivity|apply fv_exact]]).
  split; [exact demo_parsed|]. split; [split; [reflexivity|intros f []]|]. split. { refine (ob_table pton1 demo_info (mkEntry 33554441 [] None 0) _). intros d [<-|[<-|[]]]; discriminate. }
  split. { apply HW. intros f [<-|[<-|[<-|[]]]]; reflexivity. }
  split. { refine (ob_field pton1 demo_info (mkEntry 3 [mkFM 1 (FMExact "a"); mkFM 26 (FMExact "a"); mkFM 2 (FMExact "")] None 0) demo_decl demo_keys demo_tree [mkFM 1 (FMExact "a")] (mkFM 26 (FMExact "a")) [mkFM 2 (FMExact "")] _ "unknown table key with ID 26 (0x0000001a)" (or_introl eq_refl) eq_refl demo_constrained eq_refl HO _).
    refine (bf_unknown demo_keys _ (mkFM 26 (FMExact "a")) _). intros k [<-|[<-|[<-|[]]]]; discriminate. }
  split. { refine (ob_field pton1 demo_info (mkEntry 3 [mkFM 1 (FMExact "a"); mkFM 1 (FMExact "b")] None 0) demo_decl demo_keys demo_tree [mkFM 1 (FMExact "a")] (mkFM 1 (FMExact "b")) [] _ "duplicate match on key e with ID 1 (0x00000001)" (or_introl eq_refl) eq_refl demo_constrained eq_refl HO _).
    refine (bf_twice demo_keys _ (mkFM 1 (FMExact "b")) (mkKey 1 "e" (TExact 8)) _ (or_introl eq_refl) eq_refl (fv_exact 8 "b") _). now left. }
  split; [exact demo_constrained|].
  split. { split; [repeat constructor; intros []|]. intros f [<-|[]]. exists (mkKey 2 "t" (TTernary 16)). eexists. split; [right; now left|]. split; [reflexivity|apply fv_ternary]. }
  split. { split; [now left|]. split; [intros f [<-|[]]; discriminate|]. intros v Hv. inversion Hv. }
  split; [vm_compute; reflexivity|]. split; [constructor|]. split; [split; [reflexivity|intros ? ? []]|]. refine (ao_action pton1 demo_info (mkP4Action 9 []) _). intros d [<-|[]]; discriminate.
Qed.
