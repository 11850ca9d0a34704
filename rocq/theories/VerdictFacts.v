(** Verdicts of whole entries. *)
From Coq Require Import String Ascii List ZArith NArith Bool Lia.
From Verif Require Import Base Num Token Ast Quote Info TypeChecker Interpreter SpecLexer SpecGrammar SpecTyping TypeFacts NumFacts LiteralFacts SpecSemantics EvalFacts SemFacts SemFacts2 EntryFacts ExplainFacts.
Import ListNotations.
Open Scope string_scope.

(** * One constraint *)
Lemma text_nonempty ctx s b r : violation_text ctx s b r <> "".
Proof. unfold violation_text. destruct (ec_ctx ctx); cbn [append]; discriminate. Qed.
Lemma check_accepts ctx e : check ctx e = Ok "" <-> ev_bool ctx e = Ok true.
Proof.
  unfold check. rewrite bind_ok. split.
  - intros ([] & H & E); [exact H|]. exfalso. unfold explain in E. apply bind_ok in E as ([s q] & _ & E). apply bind_ok in E as (b & _ & E). apply bind_ok in E as (r & _ & E).
    apply Ok_inj in E. now apply text_nonempty in E.
  - intros H. exists true. auto.
Qed.
Lemma check_rejects ctx e text : text <> "" -> (check ctx e = Ok text <->
  ev_bool ctx e = Ok false /\ exists s q b r, minimal ctx e [] = Ok (s, q) /\ ev_bool ctx s = Ok b /\ QuoteSubConstraint (ec_src ctx) (e_start s) (e_end s) = Ok r /\ text = violation_text ctx s b r).
Proof.
  intros Hne. unfold check. rewrite bind_ok. split.
  - intros ([] & H & E); [apply Ok_inj in E; congruence|]. split; [exact H|]. unfold explain in E. apply bind_ok in E as ([s q] & Hm & E). apply bind_ok in E as (b & Hb & E). apply bind_ok in E as (r & Hr & E).
    apply Ok_inj in E. exists s, q, b, r. auto.
  - intros (H & s & q & b & r & Hm & Hb & Hr & ->). exists false. split; [exact H|]. unfold explain. rewrite Hm. cbn [bind]. rewrite Hb. cbn [bind]. rewrite Hr. reflexivity.
Qed.
Lemma check_explained ctx e text : text <> "" -> check ctx e = Ok text ->
  ev_bool ctx e = Ok false /\ exists s q b r, best ctx e q s /\ ev_bool ctx s = Ok b /\ QuoteSubConstraint (ec_src ctx) (e_start s) (e_end s) = Ok r /\ text = violation_text ctx s b r.
Proof.
  intros Hne H. apply check_rejects in H as (H & s & q & b & r & Hm & Hb & Hr & ->); [|exact Hne]. split; [exact H|]. apply minimal_best in Hm as (q' & _ & HB). exists s, q', b, r. auto.
Qed.

(** * Tables and actions *)
Lemma table_ok t entry r : ReasonTableViolates t entry = Ok r <->
  (ti_constraint t = None /\ r = "") \/
  exists e ctx, ti_constraint t = Some e /\ e_type e = TBool /\ ParseTableEntry entry t = Ok ctx /\ check ctx e = Ok r.
Proof.
  unfold ReasonTableViolates. destruct (ti_constraint t) as [e|].
  - destruct (is_bool_type (e_type e)) eqn:Eb; cbn [negb].
    + apply bool_iff in Eb. rewrite bind_ok. split.
      * intros (ctx & H & Hc). apply annotate_ok in H. rewrite check_agrees in Hc. right. exists e, ctx. auto.
      * intros [[H _]|(e' & ctx & [= <-] & _ & H & Hc)]; [discriminate|]. exists ctx. rewrite check_agrees. split; [|exact Hc]. now rewrite H.
    + split; [discriminate|]. intros [[H _]|(e' & ctx & [= <-] & H & _)]; [discriminate|]. apply bool_iff in H. congruence.
  - split; [intros H; apply Ok_inj in H as <-; auto|]. intros [[_ ->]|(e & ctx & H & _)]; [reflexivity|discriminate].
Qed.
Lemma action_verdict ci a r : ReasonActionViolates ci a = Ok r <->
  exists ai, GetActionInfoOrNull ci (pa_id a) = Some ai /\ ((ai_constraint ai = None /\ r = "") \/
    exists e ctx, ai_constraint ai = Some e /\ e_type e = TBool /\ ParseAction a ai = Ok ctx /\ check ctx e = Ok r).
Proof.
  unfold ReasonActionViolates. destruct (GetActionInfoOrNull ci (pa_id a)) as [ai|]; [|split; [discriminate|intros (? & H & _); discriminate]].
  destruct (ai_constraint ai) as [e|] eqn:Ee.
  - destruct (is_bool_type (e_type e)) eqn:Eb; cbn [negb].
    + apply bool_iff in Eb. rewrite bind_ok. split.
      * intros (ctx & H & Hc). apply annotate_ok in H. rewrite check_agrees in Hc. exists ai. split; [reflexivity|]. right. exists e, ctx. auto.
      * intros (ai' & [= <-] & [[H _]|(e' & ctx & E & _ & H & Hc)]); [congruence|]. rewrite Ee in E. injection E as <-. exists ctx. rewrite check_agrees. split; [|exact Hc]. now rewrite H.
    + split; [discriminate|]. intros (ai' & [= <-] & [[H _]|(e' & ctx & E & H & _)]); [congruence|]. rewrite Ee in E. injection E as <-. apply bool_iff in H. congruence.
  - split; [intros H; apply Ok_inj in H as <-; exists ai; auto|]. intros (ai' & [= <-] & [[_ ->]|(e & ctx & H & _)]); [reflexivity|congruence].
Qed.
Lemma action_set_accepts ci l : ReasonActionSetViolates ci l = Ok "" <-> Forall (fun a => ReasonActionViolates ci a = Ok "") l.
Proof.
  induction l as [|a l IH]; cbn [ReasonActionSetViolates]; [split; [constructor|reflexivity]|]. rewrite bind_ok. split.
  - intros (r & Hr & H). destruct (String.eqb_spec r "") as [->|Hne]; [constructor; [exact Hr|now apply IH]|apply Ok_inj in H; congruence].
  - intros H. inversion H as [|? ? H1 H2]; subst. exists "". split; [exact H1|now apply IH].
Qed.
Lemma action_set_rejects ci l r : r <> "" -> (ReasonActionSetViolates ci l = Ok r <->
  exists pre a post, l = (pre ++ a :: post)%list /\ Forall (fun a => ReasonActionViolates ci a = Ok "") pre /\ ReasonActionViolates ci a = Ok r).
Proof.
  intros Hne. induction l as [|a l IH]; cbn [ReasonActionSetViolates].
  - split; [intros H; apply Ok_inj in H; congruence|]. intros ([|? ?] & a & post & E & _); discriminate.
  - rewrite bind_ok. split.
    + intros (r' & Hr & H). destruct (String.eqb_spec r' "") as [->|Hn].
      * apply IH in H as (pre & a' & post & -> & Hp & Ha). exists (a :: pre), a', post. split; [reflexivity|]. split; [now constructor|exact Ha].
      * apply Ok_inj in H as <-. exists [], a, l. auto.
    + intros (pre & a' & post & E & Hp & Ha). destruct pre as [|a0 pre]; cbn in E; injection E as -> ->.
      * exists r. split; [exact Ha|]. destruct (String.eqb_spec r ""); [contradiction|reflexivity].
      * inversion Hp as [|? ? H1 H2]; subst. exists "". split; [exact H1|]. apply IH. exists pre, a', post. auto.
Qed.

(** * Explanations always exist *)
Lemma annotated_size keys e : Annotated (InTable keys) e -> exists n, size e = Ok n.
Proof.
  induction 1 as [m b Ht|m s Ht|keys' m n Hk Hd Hu|params m n Hk Hd Hu|m Ht|m e Ht H IH He|m e Ht H IH He|m e H IH Hs H1 H2|m o a b Ht Ho Ha IHa Hb IHb Hta Htb
    |m o a b Ht Ho Ha IHa Hb IHb Hta|m o a b Ht Ho Ha IHa Hb IHb Hta Hor|m f e H IH Hf]; cbn [size]; eauto; try discriminate Hk.
  - destruct IH as [n ->]. cbn. eauto.
  - destruct IHa as [n ->], IHb as [n' ->]. cbn. eauto.
  - destruct IHa as [n ->], IHb as [n' ->]. cbn. eauto.
  - destruct IHa as [n ->], IHb as [n' ->]. cbn. eauto.
Qed.
Lemma annotated_child G e d e' : Child e d e' -> Annotated G e -> Annotated G e'.
Proof. intros Hc Ha. destruct Hc; inversion Ha; assumption. Qed.
Lemma annotated_at G e q s : At e q s -> Annotated G e -> Annotated G s.
Proof. induction 1; auto. intros H1. apply IHAt. eapply annotated_child; eassumption. Qed.

Section S.
  Variables (ai : option action_info) (ti : option table_info) (G : scope).
  Hypothesis HG : in_scope ai ti G.
  Variable ctx : eval_context.
  Hypothesis HE : env_ok G (env_of ctx).
  (** What a well-typed constraint needs not to fail. *)
  Definition sound (e : expr) : Prop := literals e /\ ~ orders_exact G e /\ (has_attribute e -> exists keys, G = InTable keys).
  Lemma ev_total e e' : Infer ai ti e = Ok e' -> sound e -> exists v, ev ctx e' = Ok v /\ of_type (e_type e') v.
  Proof.
    intros Hi (Hl & Ho & Ha). destruct (infer_ok ai ti G HG e e' Hi) as (Ht & _). destruct (den_total ai ti G HG _ e _ HE Ht Hl Ha) as (v & Hd & Hv).
    exists v. split; [|exact Hv]. exact (ev_complete ai ti G HG ctx e v HE Hd Ho e' Hi).
  Qed.
  Lemma ev_bool_total e e' : Infer ai ti e = Ok e' -> e_type e' = TBool -> sound e -> exists b, ev_bool ctx e' = Ok b.
  Proof. intros Hi Ht Hs. destruct (ev_total e e' Hi Hs) as (v & Hv & Hty). rewrite Ht in Hty. inversion Hty; subst. exists b. now apply ev_bool_ok. Qed.
  Lemma sound_not m e : sound (ENot m e) -> sound e.
  Proof. intros (H1 & H2 & H3). split; [exact H1|]. split; [intros H; apply H2; now constructor|intros H; apply H3; now constructor]. Qed.
  Lemma sound_bin m o l r : sound (EBin m o l r) -> sound l /\ sound r.
  Proof.
    intros ([H1 H1'] & H2 & H3). split; (split; [assumption|split; [intros H; apply H2|intros H; apply H3]]); (now constructor) || (now apply oe_right) || (now apply ha_right).
  Qed.
  (** No name has type bool. *)
  Definition no_bool : Prop := match G with InTable l | InAction l => forall n, ~ declared l n TBool end.
  Lemma minimal_total keys : G = InTable keys -> no_bool -> forall e e', Infer ai ti e = Ok e' -> e_type e' = TBool -> sound e ->
    forall p, exists sq, minimal ctx e' p = Ok sq.
  Proof.
    intros Hk Hnb. unfold no_bool in Hnb. induction e as [m b|m s|m n|m n|m e IH|m e IH|m e IH|m o l IHl r IHr|m f e IH|m n|m]; intros e' Hi Ht Hs p;
      destruct (infer_ok ai ti G HG _ e' Hi) as (_ & Han & _); pose proof (inv_atom ai ti G HG _ _ Hi) as Ha; cbn beta iota in Ha.
    - subst e'. cbn. eauto.
    - subst e'. discriminate Ht.
    - destruct Ha as [t ->]. cbn in Ht. subst t. inversion Han as [| |keys' ? ? HGk Hd Hu| | | | | | | | |]; subst. exfalso. rewrite HGk in Hnb. exact (Hnb _ Hd).
    - destruct Ha as [t ->]. inversion Han; congruence.
    - apply (inv_not ai ti G HG) in Hi as (x & Hx & Hxt & ->). cbn [set_type minimal]. apply (IH x Hx Hxt). eapply sound_not. exact Hs.
    - apply (inv_neg ai ti G HG) in Hi as (x & Hx & Hxt & ->). discriminate Ht.
    - destruct Ha.
    - apply (inv_bin ai ti G HG) in Hi as (x & y & Hx & Hy & [(Hc & Htx & Hty & ->)|(t & Hco & Ho & ->)]).
      + cbn [set_type minimal]. cbn [set_type] in Han. destruct (sound_bin _ _ _ _ Hs) as [Hsl Hsr].
        destruct (ev_bool_total _ _ Hx Htx Hsl) as [bl Hbl]. destruct (ev_bool_total _ _ Hy Hty Hsr) as [br Hbr].
        destruct (IHl x Hx Htx Hsl (false :: p)) as [[s0 q0] H0]. destruct (IHr y Hy Hty Hsr (true :: p)) as [[s1 q1] H1].
        assert (forall m o, Annotated G (EBin m o x y) -> exists n0 n1, size s0 = Ok n0 /\ size s1 = Ok n1) as Hsz.
        { intros m0 o0 HA. pose proof (minimal_best ctx x _ _ _ H0) as (p0 & _ & HB0 & _). pose proof (minimal_best ctx y _ _ _ H1) as (p1 & _ & HB1 & _). apply Blamable_At in HB0, HB1. rewrite Hk in HA.
          destruct (annotated_size keys s0) as [n0 N0]; [eapply annotated_at; [exact HB0|inversion HA; assumption]|].
          destruct (annotated_size keys s1) as [n1 N1]; [eapply annotated_at; [exact HB1|inversion HA; assumption]|]. eauto. }
        destruct (Hsz _ _ Han) as (n0 & n1 & N0 & N1).
        destruct Hc; rewrite Hbl; cbn [bind]; rewrite Hbr; cbn [bind]; destruct bl, br; cbn [negb]; rewrite ?H0, ?H1; cbn [bind fst]; rewrite ?N0; cbn [bind]; rewrite ?N1; cbn [bind]; eauto.
      + cbn [set_type minimal]. destruct Ho as [Ho|[Ho _]]; destruct Ho; eauto.
    - apply (inv_field ai ti G HG) in Hi as (x & t & Hx & Hf & ->). rewrite type_set in Ht. subst t. inversion Hf.
    - destruct Ha as [-> ->]. discriminate Ht.
    - destruct Ha.
  Qed.
End S.
