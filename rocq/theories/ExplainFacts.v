(** Explanations, and what evaluation depends on. *)
From Coq Require Import String Ascii List ZArith NArith Bool Lia Permutation Sorted.
From Verif Require Import Base Num Token Ast Quote Info TypeChecker Interpreter SpecLexer SpecGrammar SpecTyping TypeFacts NumFacts LiteralFacts SpecSemantics EvalFacts SemFacts SemFacts2 EntryFacts.
Import ListNotations.
Open Scope string_scope.

(** * Sizes *)
Lemma size_Nodes e n : size e = Ok n <-> Nodes e n.
Proof.
  revert n. induction e as [m b|m s|m k|m k|m e IH|m e IH|m e IH|m o l IHl r IHr|m f e IH|m k|m]; intros n; cbn [size].
  all: try (split; [intros H; apply Ok_inj in H as <-; constructor|inversion 1; reflexivity]).
  - split; [discriminate|inversion 1].
  - rewrite bind_ok. split; [intros (a & Ha & H); apply Ok_inj in H as <-; constructor; now apply IH|inversion 1; subst; eexists; split; [apply IH; eassumption|reflexivity]].
  - rewrite bind_ok. split.
    + intros (a & Ha & H). apply bind_ok in H as (b & Hb & H). apply Ok_inj in H as <-. constructor; [now apply IHl|now apply IHr].
    + inversion 1; subst. eexists. split; [apply IHl; eassumption|]. apply bind_ok. eexists. split; [apply IHr; eassumption|reflexivity].
  - split; [discriminate|inversion 1].
Qed.
Lemma Nodes_fun e n n' : Nodes e n -> Nodes e n' -> n = n'.
Proof. intros H H'. apply size_Nodes in H, H'. congruence. Qed.
Lemma at_path_At e q s : At e q s -> forall root p, at_path root p = Some e -> at_path root (rev q ++ p)%list = Some s.
Proof.
  induction 1 as [e|e d e' q s Hc H IH]; intros root p Hp; [exact Hp|]. cbn [rev]. rewrite <- app_assoc. apply IH. cbn. rewrite Hp. destruct Hc; reflexivity.
Qed.

Definition holds (ctx : eval_context) (e : expr) (b : bool) : Prop := ev_bool ctx e = Ok b.
Lemma holds_fun ctx e b b' : holds ctx e b -> holds ctx e b' -> b = b'.
Proof. unfold holds. intros H H'. rewrite H in H'. now apply Ok_inj in H'. Qed.
Lemma Blamable_At h e q s : Blamable h e q s -> At e q s.
Proof. induction 1; try constructor; econstructor; try eassumption; constructor. Qed.

Definition best (ctx : eval_context) (e : expr) (q : list bool) (s : expr) : Prop :=
  Blamable (holds ctx) e q s /\
  forall q2 s2 n n2, Blamable (holds ctx) e q2 s2 -> Nodes s n -> Nodes s2 n2 -> (n <= n2)%Z /\ (n = n2 -> q2 = q \/ left_of q q2).
(** Whether an operand decides. *)
Lemma decides_l o x : connective o -> ((forall y y', truth o x y = truth o x y') <-> match o with OOR => x | _ => negb x end = true).
Proof.
  intros Ho. split.
  - intros H. specialize (H true false). destruct Ho, x; cbn in *; congruence.
  - intros H y y'. destruct Ho, x; cbn in *; congruence.
Qed.
Lemma decides_r o y : connective o -> ((forall x x', truth o x y = truth o x' y) <-> match o with OAND => negb y | _ => y end = true).
Proof.
  intros Ho. split.
  - intros H. specialize (H true false). destruct Ho, y; cbn in *; congruence.
  - intros H x x'. destruct Ho, x, x', y; cbn in *; congruence.
Qed.
Lemma best_only_left ctx m o a b x y q s : connective o -> holds ctx a x -> holds ctx b y -> (forall y y', truth o x y = truth o x y') -> ~ (forall x x', truth o x y = truth o x' y) ->
  best ctx a q s -> best ctx (EBin m o a b) (false :: q) s.
Proof.
  intros Ho Ha Hb Hx Hy [B1 B2]. split; [eapply bl_left; eauto|]. intros q2 s2 n n2 HB N1 N2.
  inversion HB as [|? ? ? ? Hc| |? ? ? ? ? ? ? ? H1 H2 H3|? ? ? ? y' ? ? ? H1 H2 H3|? ? ? ? x' y' ? H1 H2 H3 H4]; subst.
  - destruct Hc as [? Hc|? Hc]; destruct Ho; inversion Hc.
  - destruct (B2 _ _ _ _ H3 N1 N2) as [L E]. split; [exact L|]. intros En. destruct (E En) as [->|]; [auto|right; now constructor].
  - rewrite (holds_fun _ _ _ _ H1 Hb) in H2. contradiction.
  - rewrite (holds_fun _ _ _ _ H1 Ha) in H3. contradiction.
Qed.
Lemma best_only_right ctx m o a b x y q s : connective o -> holds ctx a x -> holds ctx b y -> ~ (forall y y', truth o x y = truth o x y') -> (forall x x', truth o x y = truth o x' y) ->
  best ctx b q s -> best ctx (EBin m o a b) (true :: q) s.
Proof.
  intros Ho Ha Hb Hx Hy [B1 B2]. split; [eapply bl_right; eauto|]. intros q2 s2 n n2 HB N1 N2.
  inversion HB as [|? ? ? ? Hc| |? ? ? ? x' ? ? ? H1 H2 H3|? ? ? ? y' ? ? ? H1 H2 H3|? ? ? ? x' y' ? H1 H2 H3 H4]; subst.
  - destruct Hc as [? Hc|? Hc]; destruct Ho; inversion Hc.
  - rewrite (holds_fun _ _ _ _ H1 Ha) in H2. contradiction.
  - destruct (B2 _ _ _ _ H3 N1 N2) as [L E]. split; [exact L|]. intros En. destruct (E En) as [->|]; [auto|right; now constructor].
  - rewrite (holds_fun _ _ _ _ H2 Hb) in H4. contradiction.
Qed.
Lemma best_none ctx m o a b x y : connective o -> holds ctx a x -> holds ctx b y -> ~ (forall y y', truth o x y = truth o x y') -> ~ (forall x x', truth o x y = truth o x' y) ->
  best ctx (EBin m o a b) [] (EBin m o a b).
Proof.
  intros Ho Ha Hb Hx Hy. split; [eapply bl_none; eauto|]. intros q2 s2 n n2 HB N1 N2.
  inversion HB as [|? ? ? ? Hc| |? ? ? ? x' ? ? ? H1 H2 H3|? ? ? ? y' ? ? ? H1 H2 H3|? ? ? ? x' y' ? H1 H2 H3 H4]; subst.
  - destruct Hc as [? Hc|? Hc]; destruct Ho; inversion Hc.
  - rewrite (holds_fun _ _ _ _ H1 Ha) in H2. contradiction.
  - rewrite (holds_fun _ _ _ _ H1 Hb) in H2. contradiction.
  - rewrite (Nodes_fun _ _ _ N1 N2). split; [lia|auto].
Qed.
Lemma best_both ctx m o a b x y q0 s0 q1 s1 n0 n1 : connective o -> holds ctx a x -> holds ctx b y -> (forall y y', truth o x y = truth o x y') -> (forall x x', truth o x y = truth o x' y) ->
  best ctx a q0 s0 -> best ctx b q1 s1 -> Nodes s0 n0 -> Nodes s1 n1 ->
  if Z.leb n0 n1 then best ctx (EBin m o a b) (false :: q0) s0 else best ctx (EBin m o a b) (true :: q1) s1.
Proof.
  intros Ho Ha Hb Hx Hy [A1 A2] [B1 B2] N0 N1.
  destruct (Z.leb_spec n0 n1) as [Hle|Hlt].
  - split; [eapply bl_left; eauto|]. intros q2 s2 n n2 HB M M2. rewrite (Nodes_fun _ _ _ M N0) in *.
    inversion HB as [|? ? ? ? Hc| |? ? ? ? x' ? ? ? H1 H2 H3|? ? ? ? y' ? ? ? H1 H2 H3|? ? ? ? x' y' ? H1 H2 H3 H4]; subst.
    + destruct Hc as [? Hc|? Hc]; destruct Ho; inversion Hc.
    + destruct (A2 _ _ _ _ H3 N0 M2) as [L E]. split; [exact L|]. intros En. destruct (E En) as [->|]; [auto|right; now constructor].
    + destruct (B2 _ _ _ _ H3 N1 M2) as [L E]. split; [lia|]. intros _. right. constructor.
    + rewrite (holds_fun _ _ _ _ H1 Ha) in H3. contradiction.
  - split; [eapply bl_right; eauto|]. intros q2 s2 n n2 HB M M2. rewrite (Nodes_fun _ _ _ M N1) in *.
    inversion HB as [|? ? ? ? Hc| |? ? ? ? x' ? ? ? H1 H2 H3|? ? ? ? y' ? ? ? H1 H2 H3|? ? ? ? x' y' ? H1 H2 H3 H4]; subst.
    + destruct Hc as [? Hc|? Hc]; destruct Ho; inversion Hc.
    + destruct (A2 _ _ _ _ H3 N0 M2) as [L E]. split; lia.
    + destruct (B2 _ _ _ _ H3 N1 M2) as [L E]. split; [exact L|]. intros En. destruct (E En) as [->|]; [auto|right; now constructor].
    + rewrite (holds_fun _ _ _ _ H1 Ha) in H3. contradiction.
Qed.
Lemma minimal_best ctx e : forall p s q, minimal ctx e p = Ok (s, q) -> exists q', q = (rev q' ++ p)%list /\ best ctx e q' s.
Proof.
  induction e as [m b|m x|m n|m n|m e IH|m e IH|m e IH|m o l IHl r IHr|m f e IH|m n|m]; intros p s q H; cbn [minimal] in H; try discriminate H.
  - injection H as <- <-. exists []. split; [reflexivity|]. split; [constructor|]. intros q2 s2 n n2 HB N1 N2. inversion HB; subst. rewrite (Nodes_fun _ _ _ N1 N2). split; [lia|auto].
  - apply IH in H as (q' & -> & B1 & B2). exists (false :: q'). cbn [rev]. rewrite <- app_assoc. split; [reflexivity|]. split; [now constructor|].
    intros q2 s2 n n2 HB N1 N2. inversion HB; subst. destruct (B2 _ _ _ _ ltac:(eassumption) N1 N2) as [L E]. split; [exact L|]. intros En. destruct (E En) as [->|]; [auto|right; now constructor].
  - assert (forall t, Ok (EBin m o l r, p) = Ok (s, q) -> comparison t -> t = o -> exists q', q = (rev q' ++ p)%list /\ best ctx (EBin m o l r) q' s) as Hcmp.
    { intros t [= <- <-] Ht ->. exists []. split; [reflexivity|]. split; [now constructor|]. intros q2 s2 n n2 HB N1 N2.
      inversion HB as [|? ? ? ? Hc| |? ? ? ? x' ? ? Hc H1 H2 H3|? ? ? ? y' ? ? Hc H1 H2 H3|? ? ? ? x' y' Hc H1 H2 H3 H4]; subst; try (exfalso; solve [destruct Ht as [? Ht|? Ht]; destruct Hc; inversion Ht]).
      rewrite (Nodes_fun _ _ _ N1 N2). split; [lia|auto]. }
    assert (connective o -> (let* bl := ev_bool ctx l in
            let* br := ev_bool ctx r in
            match match o with OOR => bl | _ => negb bl end, match o with OAND => negb br | _ => br end with
            | false, false => Ok (EBin m o l r, p)
            | true, false => minimal ctx l (false :: p)
            | false, true => minimal ctx r (true :: p)
            | true, true =>
                let* s0 := minimal ctx l (false :: p) in
                let* s1 := minimal ctx r (true :: p) in
                let* n0 := size (fst s0) in
                let* n1 := size (fst s1) in
                Ok (if Z.leb n0 n1 then s0 else s1)
            end) = Ok (s, q) -> exists q', q = (rev q' ++ p)%list /\ best ctx (EBin m o l r) q' s) as Hconn.
    { clear H Hcmp. intros Ho H. apply bind_ok in H as (bl & Hbl & H). apply bind_ok in H as (br & Hbr & H). pose proof (decides_l o bl Ho) as Dl. pose proof (decides_r o br Ho) as Dr.
      destruct (match o with OOR => bl | _ => negb bl end), (match o with OAND => negb br | _ => br end).
      - apply bind_ok in H as ([s0 p0] & H0 & H). apply bind_ok in H as ([s1 p1] & H1 & H). cbn [fst] in H. apply bind_ok in H as (n0 & N0 & H). apply bind_ok in H as (n1 & N1 & H). apply Ok_inj in H.
        apply IHl in H0 as (q0 & -> & B0). apply IHr in H1 as (q1 & -> & B1). apply size_Nodes in N0, N1.
        pose proof (best_both ctx m o l r bl br q0 s0 q1 s1 n0 n1 Ho Hbl Hbr (proj2 Dl eq_refl) (proj2 Dr eq_refl) B0 B1 N0 N1) as HB.
        destruct (Z.leb n0 n1); injection H as <- <-; [exists (false :: q0)|exists (true :: q1)]; (split; [cbn [rev]; rewrite <- app_assoc; reflexivity|exact HB]).
      - apply IHl in H as (q0 & -> & B0). exists (false :: q0). split; [cbn [rev]; rewrite <- app_assoc; reflexivity|]. eapply best_only_left; eauto; [now apply Dl|]. rewrite Dr. discriminate.
      - apply IHr in H as (q1 & -> & B1). exists (true :: q1). split; [cbn [rev]; rewrite <- app_assoc; reflexivity|]. eapply best_only_right; eauto; [|now apply Dr]. rewrite Dl. discriminate.
      - injection H as <- <-. exists []. split; [reflexivity|]. eapply best_none; eauto; [rewrite Dl; discriminate|rewrite Dr; discriminate]. }
    destruct o; try discriminate H; try (apply Hconn; [constructor|exact H]); eapply Hcmp; try exact H; try reflexivity; solve [apply cm_eq; constructor|apply cm_ord; constructor].
Qed.

(** * Sufficiency *)
Lemma ev_bool_not ctx m e b : ev_bool ctx (ENot m e) = Ok b -> ev_bool ctx e = Ok (negb b).
Proof.
  intros H. apply ev_bool_ok in H. cbn [ev] in H. apply bind_ok in H as (v & Hv & H). apply dyn_ok in H as [_ ->]. apply bind_ok in Hv as (u & Hu & Hv). apply bind_ok in Hv as (x & Hx & Hv).
  apply as_bool_ok in Hx as ->. apply Ok_inj in Hv. injection Hv as <-. rewrite negb_involutive. now apply ev_bool_ok.
Qed.
Lemma ev_bool_conn ctx m o l r b : connective o -> ev_bool ctx (EBin m o l r) = Ok b ->
  exists bl, holds ctx l bl /\ ((forall y, truth o bl y = b) \/ exists br, holds ctx r br /\ truth o bl br = b).
Proof.
  intros Ho H. apply ev_bool_ok in H. cbn [ev] in H. apply bind_ok in H as (v & Hv & H). apply dyn_ok in H as [_ ->].
  destruct Ho; apply bind_ok in Hv as (bl & Hl & Hv); change (ev_bool ctx l = Ok bl) in Hl; exists bl; (split; [exact Hl|]); destruct bl;
    try (apply Ok_inj in Hv; injection Hv as <-; left; reflexivity);
    (apply bind_ok in Hv as (br & Hr & Hv); change (ev_bool ctx r = Ok br) in Hr; apply Ok_inj in Hv; injection Hv as <-; right; exists br; split; [exact Hr|reflexivity]).
Qed.
Lemma sufficient ctx e q s : Blamable (holds ctx) e q s -> forall b, holds ctx e b -> exists bs, holds ctx s bs /\
  forall ctx' b', holds ctx' s bs -> holds ctx' e b' -> b' = b.
Proof.
  induction 1 as [m b|m o a b Hc|m e q s H IH|m o a b x q s Ho Ha Hx H IH|m o a b y q s Ho Hb Hy H IH|m o a b x y Ho Ha Hb Hx Hy]; intros v Hv.
  - exists v. split; [exact Hv|]. intros. eapply holds_fun; eassumption.
  - exists v. split; [exact Hv|]. intros. eapply holds_fun; eassumption.
  - apply ev_bool_not in Hv. destruct (IH _ Hv) as (bs & Hs & Hf). exists bs. split; [exact Hs|]. intros ctx' b' Hs' Hb'. apply ev_bool_not in Hb'.
    pose proof (Hf _ _ Hs' Hb') as E. destruct b', v; cbn in E; congruence.
  - destruct (IH _ Ha) as (bs & Hs & Hf). exists bs. split; [exact Hs|]. intros ctx' b' Hs' Hb'.
    apply (ev_bool_conn _ _ _ _ _ _ Ho) in Hv as (bl & Hl & Hv). rewrite (holds_fun _ _ _ _ Hl Ha) in Hv.
    apply (ev_bool_conn _ _ _ _ _ _ Ho) in Hb' as (bl' & Hl' & Hb'). rewrite (Hf _ _ Hs' Hl') in Hb'.
    destruct Hv as [Hv|(? & _ & <-)], Hb' as [Hb'|(? & _ & <-)]; [now rewrite <- (Hv true), <- (Hb' true)|now rewrite Hv|rewrite <- (Hb' true); apply Hx|apply Hx].
  - destruct (IH _ Hb) as (bs & Hs & Hf). exists bs. split; [exact Hs|]. intros ctx' b' Hs' Hb'.
    assert (v = truth o true y) as ->.
    { apply (ev_bool_conn _ _ _ _ _ _ Ho) in Hv as (bl & Hl & [Hv|(br & Hr & <-)]); [rewrite <- (Hv y); apply Hy|rewrite (holds_fun _ _ _ _ Hr Hb); apply Hy]. }
    apply (ev_bool_conn _ _ _ _ _ _ Ho) in Hb' as (bl & Hl & [Hb'|(br & Hr & <-)]); [rewrite <- (Hb' y); apply Hy|rewrite (Hf _ _ Hs' Hr); apply Hy].
  - exists v. split; [exact Hv|]. intros. eapply holds_fun; eassumption.
Qed.

(** * What evaluation depends on *)
Definition agree_on (c1 c2 : eval_context) (e : expr) : Prop :=
  ec_src c1 = ec_src c2 /\
  match ec_ctx c1, ec_ctx c2 with
  | CtxTable n1 p1 k1, CtxTable n2 p2 k2 =>
      n1 = n2 /\ (uses_attribute e -> p1 = p2) /\ (forall n, mentions e n -> assoc_find String.eqb n k1 = assoc_find String.eqb n k2)
  | CtxAction _ n1 k1, CtxAction _ n2 k2 =>
      n1 = n2 /\ (forall n, mentions e n -> assoc_find String.eqb n k1 = assoc_find String.eqb n k2)
  | _, _ => False
  end.
Lemma agree_child c1 c2 e d e' : Child e d e' -> agree_on c1 c2 e -> agree_on c1 c2 e'.
Proof.
  intros Hc [H1 H2]. split; [exact H1|]. destruct (ec_ctx c1), (ec_ctx c2); try contradiction.
  - destruct H2 as (E & Hp & Hk). split; [exact E|]. split; [intros Hu; apply Hp; destruct Hc; (now constructor) || (now apply ua_right)|]. intros n Hn. apply Hk. destruct Hc; (now constructor) || (now apply me_right).
  - destruct H2 as (E & Hk). split; [exact E|]. intros n Hn. apply Hk. destruct Hc; (now constructor) || (now apply me_right).
Qed.
Lemma ev_frame c1 c2 e : agree_on c1 c2 e -> ev c1 e = ev c2 e.
Proof.
  induction e as [m b|m s|m n|m n|m e IH|m e IH|m e IH|m o l IHl r IHr|m f e IH|m n|m]; intros H; pose proof H as [Es Hc]; cbn [ev].
  - now rewrite Es.
  - now rewrite Es.
  - rewrite Es. destruct (ec_ctx c1), (ec_ctx c2); try contradiction; [|reflexivity]. destruct Hc as (<- & _ & Hk). now rewrite (Hk n (me_key m n)).
  - rewrite Es. destruct (ec_ctx c1), (ec_ctx c2); try contradiction; [reflexivity|]. destruct Hc as (<- & Hk). now rewrite (Hk n (me_param m n)).
  - rewrite (IH (agree_child _ _ _ _ _ (ch_not m e) H)). unfold as_bool. now rewrite Es.
  - rewrite (IH (agree_child _ _ _ _ _ (ch_neg m e) H)). unfold as_int. now rewrite Es.
  - rewrite (IH (agree_child _ _ _ _ _ (ch_cast m e) H)). now rewrite Es.
  - rewrite (IHl (agree_child _ _ _ _ _ (ch_left m o l r) H)), (IHr (agree_child _ _ _ _ _ (ch_right m o l r) H)). unfold as_int, as_bool. now rewrite Es.
  - rewrite (IH (agree_child _ _ _ _ _ (ch_field m f e) H)). now rewrite Es.
  - rewrite Es. destruct (ec_ctx c1), (ec_ctx c2); try contradiction; [|reflexivity]. destruct Hc as (<- & Hp & _). now rewrite (Hp (ua_here m n)).
  - now rewrite Es.
Qed.
Lemma ev_bool_frame c1 c2 e : agree_on c1 c2 e -> ev_bool c1 e = ev_bool c2 e.
Proof. intros H. unfold ev_bool, as_bool. rewrite (ev_frame _ _ _ H). now rewrite (proj1 H). Qed.
Lemma minimal_frame c1 c2 e : agree_on c1 c2 e -> forall p, minimal c1 e p = minimal c2 e p.
Proof.
  induction e as [m b|m s|m n|m n|m e IH|m e IH|m e IH|m o l IHl r IHr|m f e IH|m n|m]; intros H p; cbn [minimal]; try reflexivity; [apply IH; eapply agree_child; [|exact H]; constructor|].
  assert (agree_on c1 c2 l) as Hl by (eapply agree_child; [|exact H]; constructor). assert (agree_on c1 c2 r) as Hr by (eapply agree_child; [|exact H]; constructor).
  rewrite (ev_bool_frame c1 c2 _ Hl), (ev_bool_frame c1 c2 _ Hr), !(IHl Hl), !(IHr Hr). reflexivity.
Qed.

(** * Sorted output *)
Definition slt (a b : string) : Prop := string_ltb a b = true.
Lemma slt_irrefl a : ~ slt a a.
Proof. unfold slt. induction a as [|c a IH]; cbn; [discriminate|]. now rewrite N.ltb_irrefl. Qed.
Lemma byte_inj a b : byte a = byte b -> a = b.
Proof. intros H. rewrite <- (ascii_N_embedding a), <- (ascii_N_embedding b). unfold byte in H. now rewrite H. Qed.
Lemma slt_trans a b c : slt a b -> slt b c -> slt a c.
Proof.
  unfold slt. revert b c. induction a as [|x a IH]; intros [|y b] [|z c]; cbn; try discriminate; auto.
  destruct (N.ltb_spec (byte x) (byte y)), (N.ltb_spec (byte y) (byte x)), (N.ltb_spec (byte y) (byte z)), (N.ltb_spec (byte z) (byte y)), (N.ltb_spec (byte x) (byte z)), (N.ltb_spec (byte z) (byte x)); try lia; try discriminate; auto. apply IH.
Qed.
Lemma slt_total a b : slt a b \/ a = b \/ slt b a.
Proof.
  unfold slt. revert b. induction a as [|x a IH]; intros [|y b]; cbn; auto.
  destruct (N.ltb_spec (byte x) (byte y)), (N.ltb_spec (byte y) (byte x)); try lia; auto. assert (x = y) as -> by (apply byte_inj; lia).
  destruct (IH b) as [?|[->|?]]; auto.
Qed.
Section Sorted.
  Context {V : Type}.
  Definition klt (a b : string * V) : Prop := slt (fst a) (fst b).
  Lemma insert_in (x : string * V) l y : In y (insert_sorted x l) <-> y = x \/ In y l.
  Proof.
    induction l as [|z l IH]; cbn; [firstorder|]. destruct (string_ltb (fst x) (fst z)); cbn; [firstorder|]. rewrite IH. firstorder.
  Qed.
  Lemma ordered_in (l : list (string * V)) y : In y (Ordered l) <-> In y l.
  Proof. unfold Ordered. induction l as [|x l IH]; cbn; [reflexivity|]. rewrite insert_in, IH. firstorder. Qed.
  Lemma insert_strong (x : string * V) l : ~ In (fst x) (map fst l) -> StronglySorted klt l -> StronglySorted klt (insert_sorted x l).
  Proof.
    induction l as [|z l IH]; cbn; intros Hn H; [repeat constructor|]. inversion H as [|? ? Hs Hf]; subst. destruct (string_ltb (fst x) (fst z)) eqn:E.
    - constructor; [exact H|]. constructor; [exact E|]. eapply Forall_impl; [|exact Hf]. intros y. unfold klt. now apply slt_trans.
    - constructor; [apply IH; tauto|]. apply Forall_forall. intros y Hy. apply insert_in in Hy as [->|Hy]; [|rewrite Forall_forall in Hf; auto].
      destruct (slt_total (fst x) (fst z)) as [Hx|[Hx|Hx]]; [unfold slt in Hx; congruence|symmetry in Hx; tauto|exact Hx].
  Qed.
  Lemma ordered_strong (l : list (string * V)) : NoDup (map fst l) -> StronglySorted klt (Ordered l).
  Proof.
    unfold Ordered. induction l as [|x l IH]; cbn; intros HN; [constructor|]. inversion HN as [|? ? Hx HN']; subst. apply insert_strong; [|auto].
    intros Hi. apply in_map_iff in Hi as (y & E & Hy). apply Hx. apply in_map_iff. exists y. split; [exact E|]. now apply ordered_in.
  Qed.
  Lemma strong_unique (l m : list (string * V)) : StronglySorted klt l -> StronglySorted klt m -> same_entries l m -> l = m.
  Proof.
    revert m. induction l as [|x l IH]; intros [|y m] Hl Hm Hs.
    - reflexivity.
    - destruct (proj2 (Hs y) (or_introl eq_refl)).
    - destruct (proj1 (Hs x) (or_introl eq_refl)).
    - inversion Hl as [|? ? Hl' Fl]; subst. inversion Hm as [|? ? Hm' Fm]; subst. rewrite Forall_forall in Fl, Fm.
      assert (x = y) as <-.
      { destruct (proj1 (Hs x) (or_introl eq_refl)) as [|Hx]; [auto|]. destruct (proj2 (Hs y) (or_introl eq_refl)) as [|Hy]; [auto|].
        exfalso. apply (slt_irrefl (fst x)). eapply slt_trans; [exact (Fl y Hy)|exact (Fm x Hx)]. }
      f_equal. apply IH; auto. intros z. split; intros Hz.
      + destruct (proj1 (Hs z) (or_intror Hz)) as [<-|]; [|assumption]. exfalso. exact (slt_irrefl _ (Fl _ Hz)).
      + destruct (proj2 (Hs z) (or_intror Hz)) as [<-|]; [|assumption]. exfalso. exact (slt_irrefl _ (Fm _ Hz)).
  Qed.
  Lemma ordered_same (l m : list (string * V)) : NoDup (map fst l) -> NoDup (map fst m) -> same_entries l m -> Ordered l = Ordered m.
  Proof.
    intros Hl Hm Hs. apply strong_unique; try now apply ordered_strong. intros x. rewrite !ordered_in. apply Hs.
  Qed.
End Sorted.
Lemma check_same name prio src k1 k2 e : NoDup (map fst k1) -> NoDup (map fst k2) -> same_entries k1 k2 ->
  check (mkCtx (CtxTable name prio k1) src) e = check (mkCtx (CtxTable name prio k2) src) e.
Proof.
  intros H1 H2 Hs. set (c1 := mkCtx (CtxTable name prio k1) src). set (c2 := mkCtx (CtxTable name prio k2) src).
  assert (forall e, agree_on c1 c2 e) as Ha.
  { intros x. split; [reflexivity|]. cbn. split; [reflexivity|]. split; [reflexivity|]. intros n _. now apply (afind_same String.eqb String.eqb_eq). }
  unfold check, explain. rewrite (ev_bool_frame c1 c2 e (Ha e)), (minimal_frame c1 c2 e (Ha e)). destruct (ev_bool c2 e) as [[]| |]; cbn [bind]; try reflexivity.
  destruct (minimal c2 e []) as [[s q]| |]; cbn [bind]; try reflexivity. rewrite (ev_bool_frame c1 c2 s (Ha s)). destruct (ev_bool c2 s) as [b| |]; cbn [bind]; try reflexivity.
  cbn [ec_src c1 c2]. destruct (QuoteSubConstraint src (e_start s) (e_end s)); cbn [bind]; try reflexivity. unfold violation_text. cbn [ec_ctx c1 c2]. now rewrite (ordered_same k1 k2 H1 H2 Hs).
Qed.

(** * Variables *)
Lemma set_insert_in x l y : In y (set_insert x l) <-> y = x \/ In y l.
Proof.
  unfold set_insert, mem_string. destruct (existsb (String.eqb x) l) eqn:E.
  - apply existsb_exists in E as (z & Hz & Ez). apply String.eqb_eq in Ez as <-. split; [auto|intros [->|]; auto].
  - rewrite in_app_iff. cbn. intuition.
Qed.
Lemma AddVariables_in e : forall s n, In n (AddVariables e s) <-> In n s \/ mentions e n.
Proof.
  induction e as [m b|m s|m k|m k|m e IH|m e IH|m e IH|m o l IHl r IHr|m f e IH|m k|m]; intros st n; cbn [AddVariables].
  all: try (split; [auto|intros [?|H]; [assumption|inversion H]]).
  - rewrite set_insert_in. split; [intros [->|]; [right; constructor|auto]|intros [?|H]; [auto|inversion H; auto]].
  - rewrite set_insert_in. split; [intros [->|]; [right; constructor|auto]|intros [?|H]; [auto|inversion H; auto]].
  - rewrite IH. split; (intros [?|H]; [auto|]); [right; now constructor|inversion H; auto].
  - rewrite IH. split; (intros [?|H]; [auto|]); [right; now constructor|inversion H; auto].
  - rewrite IH. split; (intros [?|H]; [auto|]); [right; now constructor|inversion H; auto].
  - rewrite IHr, IHl. split.
    + intros [[?|H]|H]; [auto|right; now constructor|right; now apply me_right].
    + intros [?|H]; [auto|inversion H; auto].
  - rewrite IH. split; (intros [?|H]; [auto|]); [right; now constructor|inversion H; auto].
Qed.
Lemma GetVariables_in e n : In n (GetVariables e) <-> mentions e n.
Proof. unfold GetVariables. rewrite AddVariables_in. cbn. tauto. Qed.
Lemma mem_string_in x l : mem_string x l = true <-> In x l.
Proof.
  unfold mem_string. rewrite existsb_exists. split; [intros (y & Hy & E); apply String.eqb_eq in E as ->; exact Hy|intros H; exists x; split; [exact H|apply String.eqb_refl]].
Qed.
