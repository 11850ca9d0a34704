(** Facts for C77: exactly what is logged. *)
From Coq Require Import String Ascii List ZArith NArith Bool Lia.
From Verif Require Import Base Num Token Ast Quote Info TypeChecker Interpreter Traced SpecGrammar SpecTyping SpecSemantics SpecOutcome SpecWork SpecReach EvalFacts ExplainFacts WorkFacts WorkFacts2 WorkFacts3 OutcomeFacts2.
Import ListNotations.
Open Scope list_scope.

Local Notation find q m := (assoc_find path_eqb q m).

Lemma some_inj {A} (a b : A) : Some a = Some b -> a = b.
Proof. congruence. Qed.
Lemma cmp_con o : comparison o -> connective o -> False.
Proof. intros H1 H2. destruct H2; inversion H1 as [? H|? H]; inversion H. Qed.

Section Ctx.
  Variable ctx : eval_context.
  Notation truly := (holds ctx).
  Variable root : expr.
  Notation Evl := (Evaluates truly).

  Definition Cov (m : list (path * bool)) (L : list path) : Prop :=
    forall q b e, find q m = Some b -> at_path root q = Some e -> forall x, Evl e q x -> In x L.
  Lemma Cov_more m L L' : Cov m L -> incl L L' -> Cov m L'.
  Proof. intros H HI q b e Hf Ha x Hx. apply HI. exact (H q b e Hf Ha x Hx). Qed.
  Record done (e : expr) (p : path) (L : list path) (c : eval_cache) (t : list path) : Prop := mkDone {
    d_cache : exists m, c = Some m /\ cache_ok ctx root (Some m) /\ Cov m (L ++ t);
    d_only : forall x, In x t -> Evl e p x;
    d_all : forall x, Evl e p x -> In x (L ++ t) }.
  Definition does (e : expr) : Prop := forall p m L v c t, at_path root p = Some e -> cache_ok ctx root (Some m) -> Cov m L -> lEval ctx e p (Some m) = ((Ok v, c), t) -> done e p L c t.

  Lemma ok_bind {A B} (r : logged (res A)) (f : A -> eval_cache -> logged (res B)) b c t : lbind r f = ((Ok b, c), t) ->
    exists a c1 t1 t2, r = ((Ok a, c1), t1) /\ f a c1 = ((Ok b, c), t2) /\ t = t1 ++ t2.
  Proof. intros H. apply lbind_inv in H as [H|(o & _ & _ & H)]; [exact H|]. now destruct (H b). Qed.
  Lemma do_int e p m L v c t : does e -> at_path root p = Some e -> cache_ok ctx root (Some m) -> Cov m L -> leval_to_int ctx (lEval ctx) e p (Some m) = ((Ok v, c), t) -> done e p L c t.
  Proof.
    intros He Hp Hc HL H. unfold leval_to_int in H. apply ok_bind in H as (a & c1 & t1 & t2 & E1 & E2 & ->). destruct a; unfold silent in E2; try (injection E2 as E2 _ _; now apply not_ok in E2).
    injection E2 as _ <- <-. rewrite app_nil_r. exact (He _ _ _ _ _ _ Hp Hc HL E1).
  Qed.
  Lemma do_int_annotated e p m L v c t : does e -> at_path root p = Some e -> cache_ok ctx root (Some m) -> Cov m L -> leval_to_int_annotated ctx (lEval ctx) e p (Some m) = ((Ok v, c), t) -> done e p L c t.
  Proof.
    intros He Hp Hc HL H. unfold leval_to_int_annotated in H. destruct (leval_to_int ctx (lEval ctx) e p (Some m)) as [[o c1] t1] eqn:E. injection H as Eo <- <-. destruct o as [z| |]; [|discriminate Eo..]. exact (do_int _ _ _ _ _ _ _ He Hp Hc HL E).
  Qed.
  Lemma do_bool e p m L b c t : does e -> at_path root p = Some e -> cache_ok ctx root (Some m) -> Cov m L -> leval_to_bool ctx (lEval ctx) e p (Some m) = ((Ok b, c), t) -> done e p L c t /\ truly e b.
  Proof.
    intros He Hp Hc HL H. assert (truly e b /\ cache_ok ctx root c) as [Hb Hc'].
    { pose proof (EvalToBool_agrees ctx root e p (Some m) Hp Hc) as (E1 & E2 & _). rewrite <- lEvalToBool_fst in E1, E2. unfold lEvalToBool in E1, E2. rewrite H in E1, E2. cbn [fst snd] in E1, E2. split; [now symmetry|exact E2]. }
    split; [|exact Hb]. unfold leval_to_bool in H. destruct (find p m) as [b0|] eqn:Ef.
    - unfold silent in H. injection H as -> <- <-. split; [exists m; rewrite app_nil_r; auto|intros x []|]. intros x Hx. rewrite app_nil_r. exact (HL p b e Ef Hp x Hx).
    - apply ok_bind in H as (a & c1 & t1 & t2 & E1 & E2 & ->). destruct a; unfold silent in E2; try (injection E2 as E2 _ _; now apply not_ok in E2).
      injection E2 as <- <- <-. rewrite app_nil_r. destruct (He _ _ _ _ _ _ Hp Hc HL E1) as [(m1 & -> & H1 & H2) H3 H4]. cbn [option_map] in *. split; [|exact H3|exact H4].
      exists (cache_insert p b0 m1). split; [reflexivity|]. split; [exact Hc'|]. intros q b' e' Hf Ha x Hx. rewrite cache_insert_find in Hf. destruct (find q m1) as [b1|] eqn:E; [exact (H2 q b1 e' E Ha x Hx)|].
      destruct (path_eqb q p) eqn:Eq; [|discriminate]. apply path_eqb_eq in Eq. subst q. assert (e' = e) as -> by congruence. exact (H4 x Hx).
  Qed.
  (** One operand, whose log is [t]. *)
  Lemma done_one e a p L c t : operand_of e a -> done a (false :: p) L c t -> done e p L c (p :: t).
  Proof.
    intros Ho [(m & -> & H1 & H2) H3 H4]. split.
    - exists m. split; [reflexivity|]. split; [exact H1|]. apply (Cov_more _ _ _ H2). intros x Hx. apply in_app_iff in Hx as [Hx|Hx]; apply in_app_iff; [now left|right; now right].
    - intros x [<-|Hx]; [constructor|]. eapply el_one; eauto.
    - intros x Hx. inversion Hx as [? ?|? a' ? ? Ho' Ha'|? ? ? ? ? ? Ha'|? ? ? ? ? ? Hc Ha'|? ? ? ? ? ? ? Hc Hh Hd Ha']; subst; try solve [inversion Ho].
      + apply in_app_iff. right. now left.
      + assert (a' = a) as -> by (inversion Ho; subst; inversion Ho'; subst; reflexivity). apply H4 in Ha'. apply in_app_iff in Ha' as [Ha'|Ha']; apply in_app_iff; [now left|right; now right].
  Qed.
  Lemma done_leaf e p L m : cache_ok ctx root (Some m) -> Cov m L -> (forall a, ~ operand_of e a) -> (forall mt o a b, e <> EBin mt o a b) -> done e p L (Some m) [p].
  Proof.
    intros H1 H2 H3 H4. split.
    - exists m. split; [reflexivity|]. split; [exact H1|]. apply (Cov_more _ _ _ H2). intros x Hx. apply in_app_iff. now left.
    - intros x [<-|[]]. constructor.
    - intros x Hx. apply in_app_iff. right. inversion Hx; subst; try (now left); exfalso; [eapply H3; eassumption|eapply H4; reflexivity..].
  Qed.
  Lemma two_done mt o a b p L c1 t1 c2 t2 : (comparison o \/ exists x, connective o /\ truly a x /\ ~ left_decides o x) ->
    done a (false :: p) L c1 t1 -> done b (true :: p) (L ++ t1) c2 t2 -> done (EBin mt o a b) p L c2 (p :: t1 ++ t2).
  Proof.
    intros Ho [_ A2 A3] [(m2 & -> & B1 & B1') B2 B3]. split.
    - exists m2. split; [reflexivity|]. split; [exact B1|]. apply (Cov_more _ _ _ B1'). intros x Hx. rewrite !in_app_iff in Hx. rewrite in_app_iff. cbn. rewrite in_app_iff. tauto.
    - intros x Hx. cbn in Hx. rewrite in_app_iff in Hx. destruct Hx as [<-|[Hx|Hx]]; [constructor|apply el_first; auto|]. destruct Ho as [Ho|(y & Ho & Hy & Hd)]; [apply el_compared; auto|eapply el_needed; eauto].
    - intros x Hx. rewrite in_app_iff. cbn. rewrite in_app_iff.
      assert (Evl b (true :: p) x -> In x L \/ p = x \/ In x t1 \/ In x t2) as HB by (intros X; apply B3 in X; rewrite !in_app_iff in X; tauto).
      inversion Hx as [? ?|? a' ? ? Ho' Ha'|? ? ? ? ? ? Ha'|? ? ? ? ? ? Hc Ha'|? ? ? ? ? ? ? Hc Hh Hd Ha']; subst; auto.
      + inversion Ho'.
      + apply A3 in Ha'. rewrite in_app_iff in Ha'. tauto.
  Qed.
  Lemma first_done mt o a b p x L c t : connective o -> truly a x -> left_decides o x -> done a (false :: p) L c t -> done (EBin mt o a b) p L c (p :: t).
  Proof.
    intros Ho Ha Hd [(m & -> & A1 & A1') A2 A3]. split.
    - exists m. split; [reflexivity|]. split; [exact A1|]. apply (Cov_more _ _ _ A1'). intros y Hy. apply in_app_iff in Hy as [Hy|Hy]; apply in_app_iff; [now left|right; now right].
    - intros y [<-|Hy]; [constructor|apply el_first; auto].
    - intros y Hy. rewrite in_app_iff. cbn. inversion Hy as [? ?|? a' ? ? Ho' Ha'|? ? ? ? ? ? Ha'|? ? ? ? ? ? Hc Ha'|? ? ? ? ? ? y' Hc Hh Hd' Ha']; subst; auto.
      + inversion Ho'.
      + apply A3 in Ha'. rewrite in_app_iff in Ha'. tauto.
      + destruct (cmp_con _ Hc Ho).
      + exfalso. apply Hd'. assert (y' = x) as -> by (exact (holds_fun _ _ _ _ Hh Ha)). exact Hd.
  Qed.
  Lemma done_cache e p L c t : done e p L c t -> exists m, c = Some m /\ cache_ok ctx root (Some m) /\ Cov m (L ++ t).
  Proof. intros [H _ _]. exact H. Qed.
  Lemma child_at p e d a : at_path root p = Some e -> child e d = Some a -> at_path root (d :: p) = Some a.
  Proof. intros H1 H2. cbn [at_path]. now rewrite H1. Qed.

  Lemma lEval_does : forall e, does e.
  Proof.
    induction e as [m b|m s|m n|m n|m e IH|m e IH|m e IH|m o l IHl r IHr|m f e IH|m n|m]; intros p c L v c' t Hp Hc HL H.
    1-4,10-11: (match type of H with lEval _ ?e ?pp (Some ?cc) = _ =>
      assert (exists o, Eval ctx e pp (Some cc) = (o, Some cc)) as [o1 E1];
      [cbn [Eval]; apply rbind_keeps|change (lEval ctx e pp (Some cc)) with (Eval ctx e pp (Some cc), [pp]) in H; rewrite E1 in H; injection H as _ <- <-; apply done_leaf; [exact Hc|exact HL|intros a X; inversion X|intros; discriminate]] end).
    1-6: try reflexivity.
    1: destruct (mpz_set_str s 10); reflexivity.
    1: destruct (ec_ctx ctx) as [? ? ks|? ? ks]; [destruct (assoc_find String.eqb n ks)|]; reflexivity.
    1: destruct (ec_ctx ctx) as [? ? ks|? ? ks]; [|destruct (assoc_find String.eqb n ks)]; reflexivity.
    1: destruct (ec_ctx ctx) as [? ? ks|? ? ks]; [destruct (String.eqb n "priority")|]; reflexivity.
    all: cbn [lEval] in H; match type of H with context [lbind ?a ?b] => destruct (lbind a b) as [[o1 c1] t1] eqn:E1 end; injection H as -> <- <-; apply ok_bind in E1 as (v1 & c2 & t2 & t3 & E2 & E3 & ->); unfold silent in E3; injection E3 as _ <- <-; rewrite app_nil_r.
    - apply ok_bind in E2 as (b & c3 & t4 & t5 & E4 & E5 & ->). unfold silent in E5. injection E5 as _ <- <-. rewrite app_nil_r. apply (done_one _ e); [constructor|]. exact (proj1 (do_bool _ _ _ _ _ _ _ IH (child_at _ _ false e Hp eq_refl) Hc HL E4)).
    - apply ok_bind in E2 as (b & c3 & t4 & t5 & E4 & E5 & ->). unfold silent in E5. injection E5 as _ <- <-. rewrite app_nil_r. apply (done_one _ e); [constructor|]. exact (do_int _ _ _ _ _ _ _ IH (child_at _ _ false e Hp eq_refl) Hc HL E4).
    - apply ok_bind in E2 as (b & c3 & t4 & t5 & E4 & E5 & ->). unfold silent in E5. injection E5 as _ <- <-. rewrite app_nil_r. apply (done_one _ e); [constructor|]. exact (IH _ _ _ _ _ _ (child_at _ _ false e Hp eq_refl) Hc HL E4).
    - pose proof (child_at _ _ false l Hp eq_refl) as Hpl. pose proof (child_at _ _ true r Hp eq_refl) as Hpr. destruct o.
      1: { unfold silent in E2. discriminate E2. }
      7,8,9: apply ok_bind in E2 as (bl & c3 & t4 & t5 & E4 & E5 & ->); destruct (do_bool _ _ _ _ _ _ _ IHl Hpl Hc HL E4) as [D1 Hbl]; cbv zeta in E5.
      7: destruct bl; [|unfold silent in E5; injection E5 as _ <- <-; rewrite app_nil_r; apply (first_done _ _ _ _ _ false); [constructor|exact Hbl|now intros [] []|exact D1]].
      8: destruct bl; [unfold silent in E5; injection E5 as _ <- <-; rewrite app_nil_r; apply (first_done _ _ _ _ _ true); [constructor|exact Hbl|now intros [] []|exact D1]|].
      9: destruct bl; [|unfold silent in E5; injection E5 as _ <- <-; rewrite app_nil_r; apply (first_done _ _ _ _ _ false); [constructor|exact Hbl|now intros [] []|exact D1]].
      7,8,9: apply ok_bind in E5 as (br & c4 & t6 & t7 & E6 & E7 & ->); unfold silent in E7; injection E7 as _ <- <-; rewrite app_nil_r; destruct (done_cache _ _ _ _ _ D1) as (m1 & -> & K1 & K2);
        destruct (do_bool _ _ _ _ _ _ _ IHr Hpr K1 K2 E6) as [D2 _]; eapply two_done; [right|exact D1|exact D2]; eexists; (split; [constructor|]); (split; [exact Hbl|]); intros X; specialize (X true false); discriminate X.
      1,2: apply ok_bind in E2 as (bl & c3 & t4 & t5 & E4 & E5 & ->); pose proof (IHl _ _ _ _ _ _ Hpl Hc HL E4) as D1; apply ok_bind in E5 as (br & c4 & t6 & t7 & E6 & E7 & ->); unfold silent in E7; injection E7 as _ <- <-; rewrite app_nil_r;
        destruct (done_cache _ _ _ _ _ D1) as (m1 & -> & K1 & K2); pose proof (IHr _ _ _ _ _ _ Hpr K1 K2 E6) as D2; eapply two_done; [left|exact D1|exact D2]; constructor; constructor.
      all: apply ok_bind in E2 as (bl & c3 & t4 & t5 & E4 & E5 & ->); pose proof (do_int_annotated _ _ _ _ _ _ _ IHl Hpl Hc HL E4) as D1; apply ok_bind in E5 as (br & c4 & t6 & t7 & E6 & E7 & ->); unfold silent in E7; injection E7 as _ <- <-; rewrite app_nil_r;
        destruct (done_cache _ _ _ _ _ D1) as (m1 & -> & K1 & K2); pose proof (do_int_annotated _ _ _ _ _ _ _ IHr Hpr K1 K2 E6) as D2; eapply two_done; [left|exact D1|exact D2]; apply cm_ord; constructor.
    - apply ok_bind in E2 as (b & c3 & t4 & t5 & E4 & E5 & ->). assert (t5 = [] /\ c2 = c3) as [-> ->] by (destruct (EvalFieldAccess f b); unfold silent in E5; injection E5 as _ <- <-; auto). rewrite app_nil_r. apply (done_one _ e); [constructor|]. exact (IH _ _ _ _ _ _ (child_at _ _ false e Hp eq_refl) Hc HL E4).
  Qed.

  (** The reported part. *)
  Notation Rsn := (Reason truly).
  Lemma connective_cases o : connective o \/ comparison o \/ o = UNKNOWN_OPERATOR.
  Proof. destruct o; auto; first [left; constructor; fail|right; left; first [apply cm_eq; constructor|apply cm_ord; constructor]]. Qed.
  Definition lwins (o : binop) (x : bool) : bool := match o with OOR => x | _ => negb x end.
  Definition rwins (o : binop) (y : bool) : bool := match o with OAND => negb y | _ => y end.
  Lemma lwins_iff o x : connective o -> (lwins o x = true <-> left_decides o x).
  Proof. intros H. symmetry. exact (decides_l o x H). Qed.
  Lemma rwins_iff o x : connective o -> (rwins o x = true <-> right_decides o x).
  Proof. intros H. symmetry. exact (decides_r o x H). Qed.
  Lemma lwins_not o x : connective o -> (lwins o x = false <-> ~ left_decides o x).
  Proof. intros H. rewrite <- (lwins_iff o x H). destruct (lwins o x); intuition congruence. Qed.
  Lemma rwins_not o x : connective o -> (rwins o x = false <-> ~ right_decides o x).
  Proof. intros H. rewrite <- (rwins_iff o x H). destruct (rwins o x); intuition congruence. Qed.
  Definition minimal_of (e l r : expr) (p : path) (cl cr : bool) : outcome (expr * path) :=
    match cl, cr with
    | false, false => Ok (e, p)
    | true, false => minimal ctx l (false :: p)
    | false, true => minimal ctx r (true :: p)
    | true, true =>
        let* s0 := minimal ctx l (false :: p) in
        let* s1 := minimal ctx r (true :: p) in
        let* n0 := size (fst s0) in
        let* n1 := size (fst s1) in
        Ok (if Z.leb n0 n1 then s0 else s1)
    end.
  Lemma minimal_bin m o l r p : connective o -> minimal ctx (EBin m o l r) p =
    let* bl := ev_bool ctx l in let* br := ev_bool ctx r in minimal_of (EBin m o l r) l r p (lwins o bl) (rwins o br).
  Proof. intros []; reflexivity. Qed.
  Lemma minimal_Reason : forall e p s q, minimal ctx e p = Ok (s, q) -> Rsn e p s q.
  Proof.
    induction e as [m b|m x|m n|m n|m e IH|m e IH|m e IH|m o l IHl r IHr|m f e IH|m n|m]; intros p s q H; try discriminate H.
    - cbn in H. injection H as <- <-. constructor.
    - apply rs_not, IH, H.
    - destruct (connective_cases o) as [Ho|[Ho|Ho]].
      + rewrite (minimal_bin _ _ _ _ _ Ho) in H. apply SemFacts.bind_ok in H as (bl & Hl & H). apply SemFacts.bind_ok in H as (br & Hr & H).
        destruct (lwins o bl) eqn:El, (rwins o br) eqn:Er; cbn [minimal_of] in H.
        * apply SemFacts.bind_ok in H as ([s0 p0] & E0 & H). apply SemFacts.bind_ok in H as ([s1 p1] & E1 & H). apply SemFacts.bind_ok in H as (n0 & F0 & H). apply SemFacts.bind_ok in H as (n1 & F1 & H).
          cbn [fst] in F0, F1. apply size_Nodes in F0, F1. apply lwins_iff in El; [|exact Ho]. apply rwins_iff in Er; [|exact Ho]. destruct (Z.leb_spec n0 n1); injection H as <- <-.
          -- eapply rs_both_left; eauto.
          -- eapply rs_both_right; eauto.
        * eapply rs_left; eauto; [now apply lwins_iff|now apply rwins_not].
        * eapply rs_right; eauto; [now apply lwins_not|now apply rwins_iff].
        * injection H as <- <-. eapply rs_none; eauto; [now apply lwins_not|now apply rwins_not].
      + assert (s = EBin m o l r /\ q = p) as [-> ->] by (destruct Ho as [o Ho|o Ho]; destruct Ho; cbn in H; injection H as <- <-; auto). now apply rs_compare.
      + subst o. discriminate H.
  Qed.
  Lemma Reason_minimal : forall e p s q, Rsn e p s q -> minimal ctx e p = Ok (s, q).
  Proof.
    induction 1 as [m b p|m o a b p Ho|m e p s q H IH|m o a b x y p Ho Hx Hy Hl Hr|m o a b x y p s q Ho Hx Hy Hl Hr H IH|m o a b x y p s q Ho Hx Hy Hl Hr H IH
      |m o a b x y p s q t r i j Ho Hx Hy Hl Hr H1 IH1 H2 IH2 Hi Hj Hij|m o a b x y p s q t r i j Ho Hx Hy Hl Hr H1 IH1 H2 IH2 Hi Hj Hij].
    - reflexivity.
    - destruct Ho as [o Ho|o Ho]; destruct Ho; reflexivity.
    - exact IH.
    - rewrite (minimal_bin _ _ _ _ _ Ho), Hx, Hy. cbn [bind]. apply lwins_not in Hl; [|exact Ho]. apply rwins_not in Hr; [|exact Ho]. now rewrite Hl, Hr.
    - rewrite (minimal_bin _ _ _ _ _ Ho), Hx, Hy. cbn [bind]. apply lwins_iff in Hl; [|exact Ho]. apply rwins_not in Hr; [|exact Ho]. now rewrite Hl, Hr.
    - rewrite (minimal_bin _ _ _ _ _ Ho), Hx, Hy. cbn [bind]. apply lwins_not in Hl; [|exact Ho]. apply rwins_iff in Hr; [|exact Ho]. now rewrite Hl, Hr.
    - rewrite (minimal_bin _ _ _ _ _ Ho), Hx, Hy. cbn [bind]. apply lwins_iff in Hl; [|exact Ho]. apply rwins_iff in Hr; [|exact Ho]. rewrite Hl, Hr. cbn [minimal_of]. rewrite IH1. cbn [bind]. rewrite IH2. cbn [bind fst]. apply size_Nodes in Hi, Hj. rewrite Hi, Hj. cbn [bind]. now rewrite (proj2 (Z.leb_le i j) Hij).
    - rewrite (minimal_bin _ _ _ _ _ Ho), Hx, Hy. cbn [bind]. apply lwins_iff in Hl; [|exact Ho]. apply rwins_iff in Hr; [|exact Ho]. rewrite Hl, Hr. cbn [minimal_of]. rewrite IH1. cbn [bind]. rewrite IH2. cbn [bind fst]. apply size_Nodes in Hi, Hj. rewrite Hi, Hj. cbn [bind]. now rewrite (proj2 (Z.leb_gt i j) Hij).
  Qed.
  Lemma Reason_fun e p s q s' q' : Rsn e p s q -> Rsn e p s' q' -> s = s' /\ q = q'.
  Proof. intros H H'. apply Reason_minimal in H, H'. rewrite H in H'. now injection H'. Qed.
  Lemma Reason_Searched e p s q : Rsn e p s q -> Searched truly e p s q.
  Proof.
    induction 1 as [m b p|m o a b p Ho|m e p s q H IH|m o a b x y p Ho Hx Hy Hl Hr|m o a b x y p s q Ho Hx Hy Hl Hr H IH|m o a b x y p s q Ho Hx Hy Hl Hr H IH
      |m o a b x y p s q t r i j Ho Hx Hy Hl Hr H1 IH1 H2 IH2 Hi Hj Hij|m o a b x y p s q t r i j Ho Hx Hy Hl Hr H1 IH1 H2 IH2 Hi Hj Hij]; try apply sr_self.
    - now apply sr_not.
    - eapply sr_left; eassumption.
    - eapply sr_right; eassumption.
    - eapply sr_left; eassumption.
    - eapply sr_right; eassumption.
  Qed.
  (** What the search evaluates, step by step. *)
  Lemma SE_not m e p q : SearchEvaluates truly (ENot m e) p q <-> SearchEvaluates truly e (false :: p) q.
  Proof.
    split; intros (m1 & o & a & b & p' & Ho & Hs & H).
    - inversion Hs; subst. exists m1, o, a, b, p'. auto.
    - exists m1, o, a, b, p'. split; [exact Ho|]. split; [now apply sr_not|exact H].
  Qed.
  Lemma SM_not m e p q : SearchMeasures truly (ENot m e) p q <-> SearchMeasures truly e (false :: p) q.
  Proof.
    split; intros (m1 & o & a & b & p' & x & y & s & ps & t & pt & Ho & Hs & H).
    - inversion Hs; subst. exists m1, o, a, b, p', x, y, s, ps, t, pt. auto.
    - exists m1, o, a, b, p', x, y, s, ps, t, pt. split; [exact Ho|]. split; [now apply sr_not|exact H].
  Qed.
  Lemma SR_not m e p q : (exists s, Searched truly (ENot m e) p s q) <-> q = p \/ exists s, Searched truly e (false :: p) s q.
  Proof.
    split.
    - intros [s H]. inversion H; subst; eauto.
    - intros [->|[s H]]; eexists; [apply sr_self|apply sr_not; exact H].
  Qed.
  Lemma SE_bin m o l r p q x y : connective o -> truly l x -> truly r y -> SearchEvaluates truly (EBin m o l r) p q <->
    Evl l (false :: p) q \/ Evl r (true :: p) q \/ (left_decides o x /\ SearchEvaluates truly l (false :: p) q) \/ (right_decides o y /\ SearchEvaluates truly r (true :: p) q).
  Proof.
    intros Ho Hx Hy. split.
    - intros (m1 & o1 & a & b & p' & Ho1 & Hs & H). inversion Hs as [? ?|? ? ? ? ? Hs'|? ? ? ? x' ? ? ? Hc Hh Hd Hs'|? ? ? ? x' ? ? ? Hc Hh Hd Hs']; subst.
      + tauto.
      + rewrite (holds_fun _ _ _ _ Hx Hh). right. right. left. split; [exact Hd|]. exists m1, o1, a, b, p'. auto.
      + rewrite (holds_fun _ _ _ _ Hy Hh). right. right. right. split; [exact Hd|]. exists m1, o1, a, b, p'. auto.
    - intros [H|[H|[[Hd (m1 & o1 & a & b & p' & Ho1 & Hs & H)]|[Hd (m1 & o1 & a & b & p' & Ho1 & Hs & H)]]]].
      + exists m, o, l, r, p. split; [exact Ho|]. split; [apply sr_self|now left].
      + exists m, o, l, r, p. split; [exact Ho|]. split; [apply sr_self|now right].
      + exists m1, o1, a, b, p'. split; [exact Ho1|]. split; [eapply sr_left; eassumption|exact H].
      + exists m1, o1, a, b, p'. split; [exact Ho1|]. split; [eapply sr_right; eassumption|exact H].
  Qed.
  Lemma SR_bin m o l r p q x y : connective o -> truly l x -> truly r y -> (exists s, Searched truly (EBin m o l r) p s q) <->
    q = p \/ (left_decides o x /\ exists s, Searched truly l (false :: p) s q) \/ (right_decides o y /\ exists s, Searched truly r (true :: p) s q).
  Proof.
    intros Ho Hx Hy. split.
    - intros (s & Hs). inversion Hs as [? ?|? ? ? ? ? Hs'|? ? ? ? x' ? ? ? Hc Hh Hd Hs'|? ? ? ? x' ? ? ? Hc Hh Hd Hs']; subst.
      + now left.
      + rewrite (holds_fun _ _ _ _ Hx Hh). right. left. eauto.
      + rewrite (holds_fun _ _ _ _ Hy Hh). right. right. eauto.
    - intros [->|[[Hd [s H]]|[Hd [s H]]]]; eexists; [apply sr_self|eapply sr_left; eassumption|eapply sr_right; eassumption].
  Qed.
  Lemma SM_bin m o l r p q x y : connective o -> truly l x -> truly r y -> SearchMeasures truly (EBin m o l r) p q <->
    (left_decides o x /\ right_decides o y /\ exists s ps t pt, Rsn l (false :: p) s ps /\ Rsn r (true :: p) t pt /\ (Measured s ps q \/ Measured t pt q)) \/
    (left_decides o x /\ SearchMeasures truly l (false :: p) q) \/ (right_decides o y /\ SearchMeasures truly r (true :: p) q).
  Proof.
    intros Ho Hx Hy. split.
    - intros (m1 & o1 & a & b & p' & x1 & y1 & s & ps & t & pt & Ho1 & Hs & H). inversion Hs as [? ?|? ? ? ? ? Hs'|? ? ? ? x' ? ? ? Hc Hh Hd Hs'|? ? ? ? x' ? ? ? Hc Hh Hd Hs']; subst.
      + destruct H as (A1 & A2 & A3 & A4 & A5 & A6 & A7). rewrite (holds_fun _ _ _ _ Hx A1), (holds_fun _ _ _ _ Hy A3). left. split; [exact A2|]. split; [exact A4|]. exists s, ps, t, pt. auto.
      + rewrite (holds_fun _ _ _ _ Hx Hh). right. left. split; [exact Hd|]. exists m1, o1, a, b, p', x1, y1, s, ps, t, pt. auto.
      + rewrite (holds_fun _ _ _ _ Hy Hh). right. right. split; [exact Hd|]. exists m1, o1, a, b, p', x1, y1, s, ps, t, pt. auto.
    - intros [(D1 & D2 & s & ps & t & pt & H)|[[Hd (m1 & o1 & a & b & p' & x1 & y1 & s & ps & t & pt & Ho1 & Hs & H)]|[Hd (m1 & o1 & a & b & p' & x1 & y1 & s & ps & t & pt & Ho1 & Hs & H)]]].
      + exists m, o, l, r, p, x, y, s, ps, t, pt. split; [exact Ho|]. split; [apply sr_self|]. repeat (split; [assumption|]). exact H.
      + exists m1, o1, a, b, p', x1, y1, s, ps, t, pt. split; [exact Ho1|]. split; [eapply sr_left; eassumption|exact H].
      + exists m1, o1, a, b, p', x1, y1, s, ps, t, pt. split; [exact Ho1|]. split; [eapply sr_right; eassumption|exact H].
  Qed.

  (** Sizes. *)
  Definition SCov (m : size_cache) (K : list path) : Prop :=
    forall q n e, find q m = Some n -> at_path root q = Some e -> forall x, Measured e q x -> In x K.
  Record weighed (e : expr) (p : path) (K : list path) (c : option size_cache) (t : list path) : Prop := mkWeighed {
    w_cache : exists s, c = Some s /\ SCov s (K ++ t);
    w_only : forall x, In x t -> Measured e p x;
    w_all : forall x, Measured e p x -> In x (K ++ t) }.
  Lemma SCov_more m L L' : SCov m L -> incl L L' -> SCov m L'.
  Proof. intros H HI q b e Hf Ha x Hx. apply HI. exact (H q b e Hf Ha x Hx). Qed.
  Lemma weighed_root e p K s t n : at_path root p = Some e -> SCov s (K ++ t) -> (forall x, In x t -> Measured e p x) -> Measured e p p -> (forall x, Measured e p x -> x = p \/ In x (K ++ t)) ->
    weighed e p K (Some (cache_insert p n s)) (p :: t).
  Proof.
    intros Hp Hs H1 H0 H2. assert (forall x, Measured e p x -> In x (K ++ p :: t)) as Hall.
    { intros x Hx. apply in_app_iff. destruct (H2 x Hx) as [->|X]; [right; now left|]. apply in_app_iff in X as [X|X]; [now left|right; now right]. }
    split; [|intros x [<-|Hx]; auto|exact Hall]. eexists. split; [reflexivity|]. intros q k e' Hf Ha x Hx. rewrite cache_insert_find in Hf. destruct (find q s) as [k1|] eqn:E.
    - specialize (Hs q k1 e' E Ha x Hx). apply in_app_iff. apply in_app_iff in Hs as [X|X]; [now left|right; now right].
    - destruct (path_eqb q p) eqn:Eq; [|discriminate]. apply path_eqb_eq in Eq. subst q. assert (e' = e) as -> by congruence. auto.
  Qed.
  Lemma lSize_weighs : forall e p s K n c t, at_path root p = Some e -> SCov s K -> lSize e p (Some s) = ((Ok n, c), t) -> weighed e p K c t.
  Proof.
    induction e as [m b|m x|m n|m n|m e IH|m e IH|m e IH|m op l IHl r IHr|m f e IH|m n|m]; intros p s K n1 c t Hp HK H; cbn [lSize] in H; destruct (find p s) as [z|] eqn:Ep;
      try (injection H as _ <- <-; split; [exists s; rewrite app_nil_r; auto|intros x0 []|intros x0 Hx; rewrite app_nil_r; exact (HK _ _ _ Ep Hp _ Hx)]; fail);
      try (cbn in H; rewrite ?Ep in H; first [discriminate H|injection H as _ <- <-]; split; [exists s; rewrite app_nil_r; auto|intros x0 []|intros x0 Hx; inversion Hx]; fail).
    1: { cbn in H. rewrite Ep in H. unfold silent in H. inversion H. }
    3: { cbn in H. rewrite Ep in H. unfold silent in H. inversion H. }
    - destruct (lSize e (false :: p) (Some s)) as [[[z|k x|w] c1] t1] eqn:E; try discriminate H. injection H as _ <- <-. destruct (IH _ _ _ _ _ _ (child_at _ _ false e Hp eq_refl) HK E) as [(s1 & -> & S1) S2 S3]. cbn [option_map].
      apply weighed_root; [exact Hp|exact S1|intros x Hx; apply ms_under_not; auto|constructor|]. intros x Hx. inversion Hx; subst; auto.
    - destruct (lSize l (false :: p) (Some s)) as [[[z|k x|w] c1] t1] eqn:E; try discriminate H. destruct (IHl _ _ _ _ _ _ (child_at _ _ false l Hp eq_refl) HK E) as [(s1 & -> & S1) S2 S3].
      destruct (lSize r (true :: p) (Some s1)) as [[[z2|k x|w] c2] t2] eqn:E2; try discriminate H. destruct (IHr _ _ _ _ _ _ (child_at _ _ true r Hp eq_refl) S1 E2) as [(s2 & -> & S4) S5 S6]. injection H as _ <- <-. cbn [option_map].
      apply weighed_root; [exact Hp|rewrite app_assoc; exact S4|intros x Hx; apply in_app_iff in Hx as [Hx|Hx]; [apply ms_first|apply ms_second]; auto|constructor|]. intros x Hx. rewrite app_assoc. inversion Hx; subst; auto.
      right. apply in_app_iff. left. auto.
  Qed.

  (** The search. *)
  Record finds (e : expr) (p : path) (L K : list path) (c : eval_cache) (s : option size_cache) (w : work) : Prop := mkFinds {
    f_eval : exists m, c = Some m /\ Cov m (L ++ evaluated w);
    f_size : exists m, s = Some m /\ SCov m (K ++ sized w);
    f_eval_only : forall q, In q (evaluated w) -> SearchEvaluates truly e p q;
    f_eval_all : forall q, SearchEvaluates truly e p q -> In q (L ++ evaluated w);
    f_size_only : forall q, In q (sized w) -> SearchMeasures truly e p q;
    f_size_all : forall q, SearchMeasures truly e p q -> In q (K ++ sized w);
    f_search : forall q, In q (searched w) <-> exists s, Searched truly e p s q }.
  Definition searches_all (e : expr) : Prop := forall p L K m s x px c s' w, at_path root p = Some e -> cache_ok ctx root (Some m) -> size_ok root (Some s) -> Cov m L -> SCov s K ->
    lMinimal ctx e p (Some m) (Some s) = ((Ok (x, px), c, s'), w) -> finds e p L K c s' w.
  Lemma search_good e p m s x px c s' w : at_path root p = Some e -> cache_ok ctx root (Some m) -> size_ok root (Some s) -> lMinimal ctx e p (Some m) (Some s) = ((Ok (x, px), c, s'), w) ->
    cache_ok ctx root c /\ size_ok root s' /\ Rsn e p x px /\ at_path root px = Some x.
  Proof.
    intros Hp Hm Hs H. pose proof (minimal_agrees ctx root e p (Some m) (Some s) Hp Hm Hs) as A. rewrite <- lMinimal_fst, H in A. cbn [fst] in A. destruct A as (A1 & A2 & A3 & _). symmetry in A1. split; [exact A2|]. split; [exact A3|]. split; [now apply minimal_Reason|]. exact (minimal_at ctx root e p x px Hp A1).
  Qed.

  Lemma wok {A B} (r : eres A * work) (f : A -> eval_cache -> option size_cache -> eres B * work) b c s w : wbind r f = ((Ok b, c, s), w) ->
    exists a c1 s1 w1 w2, r = ((Ok a, c1, s1), w1) /\ f a c1 s1 = ((Ok b, c, s), w2) /\ w = plus w1 w2.
  Proof. intros H. apply wbind_inv in H as [H|(o & _ & _ & N)]; [exact H|]. destruct N. apply fine_ok. Qed.
  Lemma sized_ok e p s n c t : at_path root p = Some e -> size_ok root (Some s) -> lSize e p (Some s) = ((Ok n, c), t) -> size_ok root c.
  Proof. intros Hp Hs H. pose proof (Size_spec root e p (Some s) Hp Hs) as (_ & A & _). rewrite <- lSize_fst, H in A. exact A. Qed.
  (** The part of the search after both operands were evaluated. *)
  Record tail_finds (o : binop) (l r : expr) (p : path) (x y : bool) (L K : list path) (c : eval_cache) (s : option size_cache) (w : work) : Prop := mkTailFinds {
    tf_eval : exists m, c = Some m /\ Cov m (L ++ evaluated w);
    tf_size : exists m, s = Some m /\ SCov m (K ++ sized w);
    tf_eval_only : forall q, In q (evaluated w) -> left_decides o x /\ SearchEvaluates truly l (false :: p) q \/ right_decides o y /\ SearchEvaluates truly r (true :: p) q;
    tf_eval_all : forall q, left_decides o x /\ SearchEvaluates truly l (false :: p) q \/ right_decides o y /\ SearchEvaluates truly r (true :: p) q -> In q (L ++ evaluated w);
    tf_size_only : forall mt q, In q (sized w) -> SearchMeasures truly (EBin mt o l r) p q;
    tf_size_all : forall mt q, SearchMeasures truly (EBin mt o l r) p q -> In q (K ++ sized w);
    tf_search : forall q, In q (searched w) <-> left_decides o x /\ (exists s, Searched truly l (false :: p) s q) \/ right_decides o y /\ exists s, Searched truly r (true :: p) s q }.
  Lemma tail_all mt o l r p x y L K m s z pz c s' w : connective o -> truly l x -> truly r y -> searches_all l -> searches_all r ->
    at_path root (false :: p) = Some l -> at_path root (true :: p) = Some r -> cache_ok ctx root (Some m) -> size_ok root (Some s) -> Cov m L -> SCov s K ->
    tail ctx (EBin mt o l r) l r p (lwins o x) (rwins o y) (Some m) (Some s) = ((Ok (z, pz), c, s'), w) -> tail_finds o l r p x y L K c s' w.
  Proof.
    intros Ho Hx Hy IHl IHr Hpl Hpr Hm Hs HL HK H.
    destruct (lwins o x) eqn:El, (rwins o y) eqn:Er; cbn [tail] in H;
      (first [apply lwins_iff in El; [|exact Ho]|apply lwins_not in El; [|exact Ho]]); (first [apply rwins_iff in Er; [|exact Ho]|apply rwins_not in Er; [|exact Ho]]).
    - apply wok in H as ([x0 p0] & c1 & s1' & w1 & w2 & E1 & H & ->). destruct (IHl _ _ _ _ _ _ _ _ _ _ Hpl Hm Hs HL HK E1) as [(m1 & -> & A1) (s1 & -> & A2) A3 A4 A5 A6 A7]. destruct (search_good _ _ _ _ _ _ _ _ _ Hpl Hm Hs E1) as (Hm1 & Hs1 & R1 & P1).
      apply wok in H as ([x1 p1] & c2 & s2' & w3 & w4 & E2 & H & ->). destruct (IHr _ _ _ _ _ _ _ _ _ _ Hpr Hm1 Hs1 A1 A2 E2) as [(m2 & -> & B1) (s2 & -> & B2) B3 B4 B5 B6 B7]. destruct (search_good _ _ _ _ _ _ _ _ _ Hpr Hm1 Hs1 E2) as (Hm2 & Hs2 & R2 & P2).
      cbn [fst snd] in H. apply wok in H as (n0 & c3 & s3' & w5 & w6 & E3 & H & ->). destruct (lSize x0 p0 (Some s2)) as [[oz cz] tz] eqn:Ez. cbn [llift_size] in E3. injection E3 as -> <- <- <-.
      destruct (lSize_weighs _ _ _ _ _ _ _ P1 B2 Ez) as [(s3 & -> & C1) C2 C3].
      apply wok in H as (n1 & c4 & s4' & w7 & w8 & E4 & H & ->). destruct (lSize x1 p1 (Some s3)) as [[oy cy] ty] eqn:Ey. cbn [llift_size] in E4. injection E4 as -> <- <- <-.
      destruct (lSize_weighs _ _ _ _ _ _ _ P2 C1 Ey) as [(s4 & -> & D1) D2 D3]. injection H as _ <- <- <-.
      constructor; cbn [plus no_work evaluated sized searched]; rewrite ?app_nil_r.
      + exists m2. split; [reflexivity|]. now rewrite app_assoc.
      + exists s4. split; [reflexivity|]. now rewrite !app_assoc.
      + intros q Hq. apply in_app_iff in Hq as [Hq|Hq]; auto.
      + intros q [[_ Hq]|[_ Hq]]; rewrite app_assoc; apply in_app_iff; [left; auto|]. apply B4 in Hq. now apply in_app_iff in Hq.
      + intros mt' q Hq. apply (SM_bin _ _ _ _ _ _ x y Ho Hx Hy). rewrite !in_app_iff in Hq. destruct Hq as [Hq|[Hq|Hq]]; [auto|auto|]. left. split; [exact El|]. split; [exact Er|]. exists x0, p0, x1, p1. split; [exact R1|]. split; [exact R2|]. destruct Hq as [Hq|Hq]; auto.
      + intros mt' q Hq. apply (SM_bin _ _ _ _ _ _ x y Ho Hx Hy) in Hq. rewrite !app_assoc. destruct Hq as [(_ & _ & t0 & pt0 & t1 & pt1 & T0 & T1 & Hq)|[[_ Hq]|[_ Hq]]].
        * destruct (Reason_fun _ _ _ _ _ _ R1 T0) as [<- <-]. destruct (Reason_fun _ _ _ _ _ _ R2 T1) as [<- <-]. destruct Hq as [Hq|Hq]; [apply C3 in Hq; apply in_app_iff; left; exact Hq|apply D3 in Hq; exact Hq].
        * apply A6 in Hq. do 3 (apply in_app_iff; left). exact Hq.
        * apply B6 in Hq. do 2 (apply in_app_iff; left). exact Hq.
      + intros q. rewrite in_app_iff, A7, B7. tauto.
    - destruct (IHl _ _ _ _ _ _ _ _ _ _ Hpl Hm Hs HL HK H) as [A1 A2 A3 A4 A5 A6 A7]. constructor; auto.
      + intros q [[_ Hq]|[Hq _]]; [auto|tauto].
      + intros mt' q Hq. apply (SM_bin _ _ _ _ _ _ x y Ho Hx Hy). auto.
      + intros mt' q Hq. apply (SM_bin _ _ _ _ _ _ x y Ho Hx Hy) in Hq. apply A6. tauto.
      + intros q. rewrite A7. tauto.
    - destruct (IHr _ _ _ _ _ _ _ _ _ _ Hpr Hm Hs HL HK H) as [A1 A2 A3 A4 A5 A6 A7]. constructor; auto.
      + intros q [[Hq _]|[_ Hq]]; [tauto|auto].
      + intros mt' q Hq. apply (SM_bin _ _ _ _ _ _ x y Ho Hx Hy). auto.
      + intros mt' q Hq. apply (SM_bin _ _ _ _ _ _ x y Ho Hx Hy) in Hq. apply A6. tauto.
      + intros q. rewrite A7. tauto.
    - injection H as _ _ <- <- <-. constructor; cbn [no_work evaluated sized searched]; rewrite ?app_nil_r; eauto; try (intros q []; fail); try (intros mt' q []; fail).
      + tauto.
      + intros mt' q Hq. apply (SM_bin _ _ _ _ _ _ x y Ho Hx Hy) in Hq. tauto.
      + intros q. split; [intros []|tauto].
  Qed.
  Lemma lMinimal_all : forall e, searches_all e.
  Proof.
    assert (forall e, (forall p c s, exists o, lMinimal ctx e p c s = ((o, c, s), mkWork [] [] [p])) -> (forall p s q, Searched truly e p s q -> s = e /\ q = p) -> (forall m o a b, e = EBin m o a b -> ~ connective o) -> searches_all e) as Leaf.
    { intros e He Hs Ho p L K m s x px c s' w _ _ _ HL HK H. destruct (He p (Some m) (Some s)) as (o0 & Eo). rewrite Eo in H. injection H as _ <- <- <-. constructor; cbn [evaluated sized searched]; rewrite ?app_nil_r; eauto; try (intros q []; fail).
      - intros q (m1 & o & a & b & p' & Hc & S & _). apply Hs in S as [S _]. now destruct (Ho _ _ _ _ (eq_sym S)).
      - intros q (m1 & o & a & b & p' & x1 & y1 & s1 & ps1 & t1 & pt1 & Hc & S & _). apply Hs in S as [S _]. now destruct (Ho _ _ _ _ (eq_sym S)).
      - intros q. split; [intros [<-|[]]; exists e; constructor|intros [s1 S]; apply Hs in S as [_ ->]; now left]. }
    induction e as [m b|m x|m n|m n|m e IH|m e IH|m e IH|m op l IHl r IHr|m f e IH|m n|m];
      try (apply Leaf; [intros; eexists; reflexivity|intros p s q S; inversion S; auto|intros; discriminate]; fail).
    - intros p L K c s x px c' s' w Hp Hm Hs HL HK H. cbn [lMinimal] in H. destruct (lMinimal ctx e (false :: p) (Some c) (Some s)) as [[[o1 c1] s1] w1] eqn:E. injection H as -> <- <- <-.
      destruct (IH _ _ _ _ _ _ _ _ _ _ (child_at _ _ false e Hp eq_refl) Hm Hs HL HK E) as [A1 A2 A3 A4 A5 A6 A7]. constructor; cbn [plus evaluated sized searched app]; auto.
      + intros q Hq. apply SE_not. auto.
      + intros q Hq. apply SE_not in Hq. auto.
      + intros q Hq. apply SM_not. auto.
      + intros q Hq. apply SM_not in Hq. auto.
      + intros q. rewrite SR_not, <- A7. split; [intros [<-|X]; auto|intros [->|X]; [now left|now right]].
    - destruct (connective_cases op) as [Ho|Ho'].
      2: { assert (~ connective op) as Hn by (intros X; destruct Ho' as [Y| ->]; [exact (cmp_con _ Y X)|inversion X]). apply Leaf; [|intros p s q S; inversion S; subst; auto; tauto|intros m0 o0 a0 b0 [= <- <- <- <-]; exact Hn].
           intros p c s. destruct op; try (eexists; reflexivity); destruct Hn; constructor. }
      intros p L K c s x px c' s' w Hp Hm Hs HL HK H. pose proof (child_at _ _ false l Hp eq_refl) as Hpl. pose proof (child_at _ _ true r Hp eq_refl) as Hpr.
      assert (lMinimal ctx (EBin m op l r) p (Some c) (Some s) = let '(r0, w0) := wbind (llift_eval (lEvalToBool ctx l (false :: p) (Some c)) (Some s)) (fun bl c s => wbind (llift_eval (lEvalToBool ctx r (true :: p) c) s) (fun br c s =>
        tail ctx (EBin m op l r) l r p (lwins op bl) (rwins op br) c s)) in (r0, plus (mkWork [] [] [p]) w0)) as Eq by (destruct Ho; reflexivity).
      rewrite Eq in H. clear Eq. match type of H with (let '(_, _) := ?a in _) = _ => destruct a as [[[o1 c1] s1] w1] eqn:E end. injection H as -> <- <- <-.
      apply wok in E as (bl & c2 & s2 & w2 & w3 & E1 & E & ->). destruct (lEvalToBool ctx l (false :: p) (Some c)) as [[o3 c3] t3] eqn:E3. cbn [llift_eval] in E1. injection E1 as -> <- <- <-.
      destruct (do_bool _ _ _ _ _ _ _ (lEval_does l) Hpl Hm HL E3) as [[(m1 & -> & Hm1 & A1) A2 A3] Tl].
      apply wok in E as (br & c4 & s4 & w4 & w5 & E4 & E & ->). destruct (lEvalToBool ctx r (true :: p) (Some m1)) as [[o5 c5] t5] eqn:E5. cbn [llift_eval] in E4. injection E4 as -> <- <- <-.
      destruct (do_bool _ _ _ _ _ _ _ (lEval_does r) Hpr Hm1 A1 E5) as [[(m2 & -> & Hm2 & B1) B2 B3] Tr].
      destruct (tail_all _ _ _ _ _ _ _ _ _ _ _ _ _ _ _ _ Ho Tl Tr IHl IHr Hpl Hpr Hm2 Hs B1 HK E) as [(m3 & -> & C1) C2 C3 C4 C5 C6 C7]. constructor; cbn [plus evaluated sized searched app].
      + exists m3. split; [reflexivity|]. now rewrite !app_assoc.
      + exact C2.
      + intros q Hq. apply (SE_bin _ _ _ _ _ _ bl br Ho Tl Tr). rewrite !in_app_iff in Hq. destruct Hq as [Hq|[Hq|Hq]]; auto.
      + intros q Hq. apply (SE_bin _ _ _ _ _ _ bl br Ho Tl Tr) in Hq. rewrite !app_assoc. destruct Hq as [Hq|[Hq|Hq]]; [do 2 (apply in_app_iff; left); auto|apply in_app_iff; left; auto|auto].
      + exact (C5 m).
      + exact (C6 m).
      + intros q. rewrite (SR_bin _ _ _ _ _ _ bl br Ho Tl Tr), <- C7. split; [intros [<-|X]; auto|intros [->|X]; [now left|now right]].
  Qed.
  (** What is evaluated of a part the search comes to was evaluated anyway. *)
  Lemma Searched_evaluates e p s q x : Searched truly e p s q -> Evl s q x -> Evl e p x \/ SearchEvaluates truly e p x.
  Proof.
    induction 1 as [e p|m e p s q H IH|m o a b v p s q Ho Hv Hd H IH|m o a b v p s q Ho Hv Hd H IH]; intros Hx; [now left|..].
    - destruct (IH Hx) as [Y|Y]; [left; eapply el_one; [constructor|exact Y]|right; now apply SE_not].
    - right. destruct (IH Hx) as [Y|(m1 & o1 & a1 & b1 & p1 & Y1 & Y2 & Y3)].
      + exists m, o, a, b, p. split; [exact Ho|]. split; [apply sr_self|now left].
      + exists m1, o1, a1, b1, p1. split; [exact Y1|]. split; [eapply sr_left; eassumption|exact Y3].
    - right. destruct (IH Hx) as [Y|(m1 & o1 & a1 & b1 & p1 & Y1 & Y2 & Y3)].
      + exists m, o, a, b, p. split; [exact Ho|]. split; [apply sr_self|now right].
      + exists m1, o1, a1, b1, p1. split; [exact Y1|]. split; [eapply sr_right; eassumption|exact Y3].
  Qed.
End Ctx.

Lemma lcheck_work ctx e text : fst (lcheck_constraint ctx e) = Ok text -> let w := snd (lcheck_constraint ctx e) in work_on (holds ctx) e (evaluated w) (sized w) (searched w).
Proof.
  unfold lcheck_constraint. assert (at_path e [] = Some e) as Hp by reflexivity. assert (cache_ok ctx e (Some [])) as H0 by (intros p b; discriminate). assert (Cov ctx e [] []) as H1 by (intros q b e' X; discriminate X). assert (SCov e [] []) as H2 by (intros q b e' X; discriminate X).
  destruct (lEvalToBool ctx e [] (Some [])) as [[[b|k x|x] c] t] eqn:E; [|discriminate..].
  destruct (do_bool ctx e _ _ _ _ _ _ _ (lEval_does ctx e e) Hp H0 H1 E) as [[(m1 & -> & Hm1 & A1) A2 A3] Tb]. cbn [app] in *. destruct b.
  - intros _. apply wo_true; [exact Tb|split; auto|reflexivity|reflexivity].
  - unfold lExplain. destruct (lMinimal ctx e [] (Some m1) (Some [])) as [[[[[x px]|k y|y] c2] s2] w2] eqn:E2; [|discriminate..].
    assert (size_ok e (Some [])) as H3 by (intros p b; discriminate).
    destruct (lMinimal_all ctx e e _ _ _ _ _ _ _ _ _ _ Hp Hm1 H3 A1 H2 E2) as [(m2 & -> & B1) _ B3 B4 B5 B6 B7]. destruct (search_good ctx e e _ _ _ _ _ _ _ _ Hp Hm1 H3 E2) as (Hm2 & _ & R & P).
    destruct (lEvalToBool ctx x px (Some m2)) as [[o3 c3] t3] eqn:E3. cbn [fst snd]. intros Hok. apply SemFacts.bind_ok in Hok as (b3 & -> & _).
    destruct (do_bool ctx e _ _ _ _ _ _ _ (lEval_does ctx e x) P Hm2 B1 E3) as [[_ C2 _] _]. apply wo_false; cbn [plus evaluated sized searched app]; rewrite ?app_nil_r; auto.
    + intros q. rewrite !in_app_iff. split.
      * intros [Hq|[Hq|Hq]]; auto. exact (Searched_evaluates _ _ _ _ _ _ (Reason_Searched _ _ _ _ _ R) (C2 _ Hq)).
      * intros [Hq|Hq]; [auto|]. apply B4 in Hq. rewrite in_app_iff in Hq. tauto.
    + intros q. split; [auto|]. apply B6.
Qed.
