(** Errors in entries. *)
From Coq Require Import String Ascii List ZArith NArith Bool Lia.
From Verif Require Import Base Num Token Ast Info TypeChecker Interpreter SpecLexer SpecGrammar SpecTyping SpecSemantics EvalFacts SemFacts EntryFacts.
Import ListNotations.
Open Scope string_scope.

Lemma fits_value ty v : fits ty v -> (forall w, width ty w -> (0 <= w)%Z) -> exists u, field_value ty v u.
Proof. intros H Hw. destruct H; eexists; constructor. apply Hw. constructor. Qed.
Section T.
  Variables (t : table_info) (ks : list key_info).
  Hypothesis HK : table_keys t ks.
  Hypothesis Hw : forall k w, In k ks -> width (k_type k) w -> (0 <= w)%Z.
  Lemma ParseKey_cases f : (exists k v, In k ks /\ k_id k = fm_id f /\ fits (k_type k) (fm_value f) /\ ParseKey f t = Ok (k_name k, v)) \/
    (misfit ks f /\ exists m, ParseKey f t = Err Internal m) \/ (~ misfit ks f /\ (forall pre, ~ fine ks pre f) /\ exists m, ParseKey f t = Err InvalidArgument m).
  Proof.
    destruct (assoc_find N.eqb (fm_id f) (ti_keys_by_id t)) as [k|] eqn:E.
    - pose proof E as E0. apply (by_id t ks HK) in E as [Hk Hid].
      assert (forall k', In k' ks -> k_id k' = fm_id f -> k' = k) as Hu by (intros k' Hk' Hid'; apply (nodup_keys k_id ks); [apply HK|assumption..|congruence]).
      assert (fits (k_type k) (fm_value f) -> exists v, ParseKey f t = Ok (k_name k, v)) as Hf.
      { intros Hfit. destruct (fits_value _ _ Hfit (fun w => Hw k w Hk)) as [v Hv]. exists v. apply (ParseKey_ok t ks HK). exists k. auto. }
      unfold ParseKey in *. rewrite E0 in *.
      destruct (fm_value f) eqn:Ev.
      1-5: destruct (k_type k) eqn:Et;
        try (left; destruct Hf as [v Hv]; [constructor|]; exists k, v; rewrite Et; repeat (split; [assumption || constructor|]); exact Hv);
        right; left; (split; [|eexists; reflexivity]); exists k; rewrite Et, Ev; (split; [exact Hk|]); (split; [exact Hid|]); (split; [exact I|]); intros Hx; inversion Hx.
      all: right; right; (split; [intros (k' & _ & _ & Hs & _); rewrite Ev in Hs; exact Hs|]); (split; [intros pre (k' & _ & _ & Hs & _); rewrite Ev in Hs; inversion Hs|]); eexists; reflexivity.
    - right. right. assert (forall k, In k ks -> k_id k <> fm_id f) as Hno by (intros k Hk Hid; assert (assoc_find N.eqb (fm_id f) (ti_keys_by_id t) = Some k) as E' by (apply (by_id t ks HK); auto); congruence).
      split; [intros (k & Hk & Hid & _); exact (Hno k Hk Hid)|]. split; [intros pre (k & Hk & Hid & _); exact (Hno k Hk Hid)|]. unfold ParseKey. rewrite E. eauto.
  Qed.
  (** The keys matched so far. *)
  Definition matched (pre : list field_match) (keys : list (string * value)) : Prop :=
    NoDup (map fst keys) /\ forall k, In k ks -> (In (k_name k) (map fst keys) <-> In (k_id k) (map fm_id pre)).
  Lemma parse_fields_cases l : forall pre keys, matched pre keys ->
    ((forall a f b, l = (a ++ f :: b)%list -> fine ks (pre ++ a) f) /\ exists keys', parse_fields t l keys = Ok keys' /\ matched (pre ++ l) keys') \/
    exists a f b, l = (a ++ f :: b)%list /\ (forall a1 f1 b1, a = (a1 ++ f1 :: b1)%list -> fine ks (pre ++ a1) f1) /\
      ((misfit ks f /\ exists m, parse_fields t l keys = Err Internal m) \/ (~ misfit ks f /\ ~ fine ks (pre ++ a) f /\ exists m, parse_fields t l keys = Err InvalidArgument m)).
  Proof.
    induction l as [|f l IH]; intros pre keys HM; cbn [parse_fields].
    - left. split; [intros [|? ?] ? ? E; discriminate|]. exists keys. rewrite app_nil_r. auto.
    - assert (forall a1 f1 (b1 : list field_match), [] = (a1 ++ f1 :: b1)%list -> fine ks (pre ++ a1) f1) as Hnil by (intros [|? ?] ? ? E; discriminate).
      destruct (ParseKey_cases f) as [(k & v & Hk & Hid & Hfit & Hp)|[(Hm & m & Hp)|(Hm & Hnf & m & Hp)]]; rewrite Hp; cbn [bind].
      + unfold assoc_insert. destruct (assoc_find String.eqb (k_name k) keys) as [u|] eqn:E.
        * right. exists [], f, l. split; [reflexivity|]. split; [exact Hnil|]. right. apply (afind_in String.eqb String.eqb_eq) in E. assert (In (k_name k) (map fst keys)) as Hin by (apply in_map_iff; exists (k_name k, u); auto).
          apply (proj2 HM k Hk) in Hin. assert (forall k', In k' ks -> k_id k' = fm_id f -> k' = k) as Hu by (intros k' Hk' Hid'; apply (nodup_keys k_id ks); [apply HK|assumption..|congruence]).
          split; [intros (k' & Hk' & Hid' & _ & Hnf); rewrite (Hu k' Hk' Hid') in Hnf; contradiction|]. split; [|eauto]. intros (k' & Hk' & Hid' & _ & Hni). rewrite app_nil_r in Hni. apply Hni. now rewrite <- Hid.
        * apply (afind_none String.eqb String.eqb_eq) in E. assert (~ In (fm_id f) (map fm_id pre)) as Hni by (intros Hin; apply E; apply (proj2 HM k Hk); now rewrite Hid).
          assert (matched (pre ++ [f]) (keys ++ [(k_name k, v)])) as HM'.
          { split; [rewrite map_app; cbn; apply nodup_snoc; [apply HM|exact E]|]. intros k' Hk'. rewrite !map_app, !in_app_iff, (proj2 HM k' Hk'). cbn. split; (intros [?|[E'|[]]]; [now left|right; left]).
            - assert (k = k') as <- by (apply (nodup_keys k_name ks); [apply HK|assumption..]). now symmetry.
            - assert (k' = k) as -> by (apply (nodup_keys k_id ks); [apply HK|assumption..|congruence]). reflexivity. }
          assert (fine ks pre f) as Hfine by (exists k; auto).
          destruct (IH (pre ++ [f])%list _ HM') as [(Hall & keys' & Hk' & HM'')|(a & g & b & El & Hall & Hc)].
          -- left. split; [|exists keys'; rewrite <- app_assoc in HM''; auto]. intros [|x a] g b El; cbn in El; injection El as -> ->; [now rewrite app_nil_r|].
             specialize (Hall a g b eq_refl). rewrite <- app_assoc in Hall. exact Hall.
          -- right. exists (f :: a), g, b. split; [now rewrite El|]. split.
             { intros [|x a1] f1 b1 Ea; cbn in Ea; injection Ea as -> Ea; [now rewrite app_nil_r|]. specialize (Hall a1 f1 b1 Ea). rewrite <- app_assoc in Hall. exact Hall. }
             rewrite <- app_assoc in Hc. exact Hc.
      + right. exists [], f, l. split; [reflexivity|]. split; [exact Hnil|]. left. eauto.
      + right. exists [], f, l. split; [reflexivity|]. split; [exact Hnil|]. right. rewrite app_nil_r. eauto.
  Qed.
  (** Omitted keys. *)
  Lemma fill_cases l : (forall n k w, In (n, k) l -> width (k_type k) w -> (0 <= w)%Z) ->
    forall keys, (exists keys', fill_defaults l keys = Ok keys') \/ (exists m, fill_defaults l keys = Err InvalidArgument m) \/
      exists n k m, In (n, k) l /\ ~ In n (map fst keys) /\ (forall w, ~ match_type w (k_type k)) /\ fill_defaults l keys = Err Internal m.
  Proof.
    induction l as [|[n k] l IH]; intros H keys; cbn [fill_defaults]; [eauto|].
    assert (forall keys, (exists keys', fill_defaults l keys = Ok keys') \/ (exists m, fill_defaults l keys = Err InvalidArgument m) \/
      exists n k m, In (n, k) l /\ ~ In n (map fst keys) /\ (forall w, ~ match_type w (k_type k)) /\ fill_defaults l keys = Err Internal m) as IH' by (apply IH; intros n' k' w' Hk; apply (H n'); now right).
    assert (forall keys keys0 : list (string * value), (forall x, In x (map fst keys0) -> In x (map fst keys)) -> (exists keys', fill_defaults l keys = Ok keys') \/ (exists m, fill_defaults l keys = Err InvalidArgument m) \/
      exists n' k' m, (((n, k) = (n', k') \/ In (n', k') l) /\ ~ In n' (map fst keys0) /\ (forall w, ~ match_type w (k_type k')) /\ fill_defaults l keys = Err Internal m)) as IH2.
    { intros keys1 keys0 Hs. destruct (IH' keys1) as [Hx|[Hx|(n' & k' & m & H1 & H2 & H3)]]; [now left|right; now left|right; right]. exists n', k', m. split; [now right|]. split; [auto|exact H3]. }
    destruct (assoc_find String.eqb n keys) as [v|] eqn:Ef; [now apply IH2|]. apply (afind_none String.eqb String.eqb_eq) in Ef.
    assert (forall v : value, forall x, In x (map fst keys) -> In x (map fst (keys ++ [(n, v)]))) as Hs by (intros v x Hx; rewrite map_app; apply in_or_app; now left).
    unfold default_value. destruct (k_type k) eqn:Et; cbn [bind];
      try (right; right; exists n, k; eexists; split; [now left|]; split; [exact Ef|]; split; [intros w0 Hm; rewrite Et in Hm; inversion Hm|reflexivity]); try (exact (IH2 _ keys (Hs _))); eauto.
    assert (0 <= w)%Z by (apply (H n k w (or_introl eq_refl)); rewrite Et; constructor). unfold MaxValueForBitwidth, shl1. destruct (Z.ltb_spec w 0); [lia|]. cbn [bind]. exact (IH2 _ keys (Hs _)).
  Qed.
End T.
