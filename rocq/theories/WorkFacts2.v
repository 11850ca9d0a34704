(** Facts for C77: no expression is evaluated, sized or searched twice. *)
From Coq Require Import String Ascii List ZArith NArith Bool Lia.
From Verif Require Import Base Num Token Ast Quote Info TypeChecker Interpreter Traced SpecWork EvalFacts WorkFacts.
Import ListNotations.
Open Scope nat_scope.
Open Scope list_scope.

Lemma nd_app {A} (a b : list A) : NoDup a -> NoDup b -> (forall x, In x a -> ~ In x b) -> NoDup (a ++ b).
Proof.
  induction a as [|x a IH]; intros Ha Hb H; [exact Hb|]. inversion Ha; subst. cbn. constructor.
  - rewrite in_app_iff. intros [Hx|Hx]; [contradiction|]. apply (H x); [now left|exact Hx].
  - apply IH; auto. intros y Hy. apply H. now right.
Qed.

Definition under (p q : path) : Prop := exists s, q = s ++ p.
Definition below (p q : path) : Prop := under (false :: p) q \/ under (true :: p) q.
Lemma under_refl p : under p p.
Proof. now exists []. Qed.
Lemma under_cons b p q : under (b :: p) q -> under p q.
Proof. intros [s ->]. exists (s ++ [b]). now rewrite <- app_assoc. Qed.
Lemma below_under p q : below p q -> under p q.
Proof. intros [H|H]; now apply under_cons in H. Qed.
Lemma under_len p q : under p q -> length p <= length q.
Proof. intros [s ->]. rewrite app_length. lia. Qed.
Lemma not_below p : ~ below p p.
Proof. intros [H|H]; apply under_len in H; cbn in H; lia. Qed.
Lemma under_tail p q : forall s x y, under (x :: p) q -> under (y :: p) q -> s = s :> list bool -> x = y.
Proof.
  intros _ x y [s Hs] [s' Hs'] _. assert (s ++ [x] = s' ++ [y]) as H.
  { apply (app_inv_tail p). rewrite <- !app_assoc. cbn. congruence. }
  now apply app_inj_tail in H as [_ ->].
Qed.
Lemma split_under p q : under (false :: p) q -> under (true :: p) q -> False.
Proof. intros H1 H2. pose proof (under_tail p q [] _ _ H1 H2 eq_refl). discriminate. Qed.
Lemma cons_below b p q : under (b :: p) q -> below p q.
Proof. destruct b; unfold below; auto. Qed.
Lemma under_below p q : under p q -> q = p \/ below p q.
Proof.
  intros [s ->]. destruct s as [|b s] using rev_ind; [now left|]. right. apply (cons_below b). exists s. now rewrite <- app_assoc.
Qed.

Lemma positions_under : forall e p q, In q (positions e p) -> under p q.
Proof.
  induction e; intros p q H; cbn [positions In] in H; (destruct H as [<-|H]; [apply under_refl|]); try contradiction; rewrite ?in_app_iff in H;
    repeat match goal with X : _ \/ _ |- _ => destruct X end; match goal with X : In _ (positions ?a _), IH : forall p q, In q (positions ?a p) -> _ |- _ => apply IH in X; now apply under_cons in X end.
Qed.
Lemma positions_root e p : In p (positions e p).
Proof. destruct e; now left. Qed.
Lemma positions_nodup : forall e p, NoDup (positions e p).
Proof.
  assert (forall b p a, ~ In p (positions a (b :: p))) as Hn by (intros b p a H; apply positions_under, under_len in H; cbn in H; lia).
  induction e; intros p; cbn [positions]; constructor; auto; try (now constructor).
  - rewrite in_app_iff. intros [H|H]; now apply Hn in H.
  - apply nd_app; auto. intros x H1 H2. apply positions_under in H1, H2. exact (split_under _ _ H1 H2).
Qed.

Local Notation find q m := (assoc_find path_eqb q m).

(** [t] was evaluated: positions of [P], and the cache grew only at [Q]. *)
Record ran (P : list path) (Q : path -> Prop) (m : list (path * bool)) (t : list path) (m' : list (path * bool)) : Prop := mkRan {
  r_once : NoDup t; r_in : incl t P; r_frame : forall q, ~ Q q -> find q m' = find q m; r_grow : forall q, find q m <> None -> find q m' <> None }.

Lemma ran_nil P Q m : ran P Q m [] m.
Proof. constructor; auto using NoDup_nil. intros x []. Qed.
Lemma ran_seq P (Q : path -> Prop) P1 (Q1 : path -> Prop) P2 (Q2 : path -> Prop) m t1 m1 t2 m2 : ran P1 Q1 m t1 m1 -> ran P2 Q2 m1 t2 m2 -> incl P1 P -> incl P2 P -> (forall q, Q1 q -> Q q) -> (forall q, Q2 q -> Q q) ->
  (forall q, In q t1 -> ~ In q t2) -> ran P Q m (t1 ++ t2) m2.
Proof.
  intros [a1 b1 c1 d1] [a2 b2 c2 d2] i1 i2 q1 q2 Hd. constructor.
  - now apply nd_app.
  - apply incl_app; eapply incl_tran; eauto.
  - intros q Hq. rewrite c2, c1; auto.
  - auto.
Qed.
Lemma ran_more P (Q : path -> Prop) P1 (Q1 : path -> Prop) m t m1 : ran P1 Q1 m t m1 -> incl P1 P -> (forall q, Q1 q -> Q q) -> ran P Q m t m1.
Proof. intros [a b c d] i q. constructor; auto. eapply incl_tran; eauto. Qed.

(** What the caches and the log say about a subexpression whose evaluation ended. *)
Fixpoint settled (e : expr) (p : path) (t : list path) (m : list (path * bool)) : Prop :=
  match e with
  | ENot _ a => find (false :: p) m <> None /\ settled a (false :: p) t m
  | EBin _ (OAND | OOR | OIMPLIES) l r =>
      (find (false :: p) m <> None /\ settled l (false :: p) t m) /\
      ((find (true :: p) m <> None /\ settled r (true :: p) t m) \/ (forall q, under (true :: p) q -> find q m = None /\ ~ In q t))
  | _ => True
  end.
Lemma settled_frame : forall e p t m t' m', settled e p t m -> (forall q, below p q -> find q m' = find q m /\ (In q t' <-> In q t)) -> settled e p t' m'.
Proof.
  induction e as [m b|m s|m n|m n|m e IH|m e IH|m e IH|m o l IHl r IHr|m f e IH|m n|m]; intros p t c t' c' H Hq; cbn [settled] in *; try exact I.
  - destruct H as [H1 H2]. split; [now rewrite (proj1 (Hq (false :: p) (or_introl (under_refl _))))|]. apply (IH _ _ _ _ _ H2). intros q Hb. apply Hq. left. now apply below_under.
  - destruct o; try exact I.
    all: destruct H as [[H1 H2] H3]; split.
    all: try (split; [now rewrite (proj1 (Hq (false :: p) (or_introl (under_refl _))))|]; apply (IHl _ _ _ _ _ H2); intros q Hb; apply Hq; left; now apply below_under).
    all: destruct H3 as [[H3 H4]|H3]; [left; split; [now rewrite (proj1 (Hq (true :: p) (or_intror (under_refl _))))|]; apply (IHr _ _ _ _ _ H4); intros q Hb; apply Hq; right; now apply below_under|].
    all: right; intros q Hu; destruct (Hq q (or_intror Hu)) as [E1 E2]; destruct (H3 q Hu) as [A B]; rewrite E1, E2; auto.
Qed.

Lemma lbind_inv {A B} (r : logged (res A)) (f : A -> eval_cache -> logged (res B)) o c t : lbind r f = ((o, c), t) ->
  (exists a c1 t1 t2, r = ((Ok a, c1), t1) /\ f a c1 = ((o, c), t2) /\ t = t1 ++ t2) \/ (exists o1, r = ((o1, c), t) /\ (forall a, o1 <> Ok a) /\ (forall b, o <> Ok b)).
Proof.
  destruct r as [[[a|k m|w] c1] t1]; cbn.
  - destruct (f a c1) as [r' t'] eqn:E. intros [= -> <-]. left. exists a, c1, t1, t'. auto.
  - intros [= <- <- <-]. right. exists (Err k m). split; [reflexivity|split; congruence].
  - intros [= <- <- <-]. right. exists (Crash w). split; [reflexivity|split; congruence].
Qed.
Lemma lbind_silent {A B} (r : logged (res A)) (f : A -> eval_cache -> logged (res B)) o c t : (forall a c, exists x, f a c = silent (x, c)) -> lbind r f = ((o, c), t) ->
  exists o1, r = ((o1, c), t) /\ (forall b, o = Ok b -> exists a, o1 = Ok a).
Proof.
  intros Hf H. destruct (lbind_inv _ _ _ _ _ H) as [(a & c1 & t1 & t2 & E1 & E2 & ->)|(o1 & E & N1 & N2)].
  - destruct (Hf a c1) as [x Hx]. rewrite Hx in E2. injection E2 as <- <- <-. rewrite app_nil_r. exists (Ok a). split; [exact E1|eauto].
  - exists o1. split; [exact E|]. intros b Hb. now apply N2 in Hb.
Qed.

Lemma not_ok {A} src e t (a : A) : RuntimeTypeError src e t = Ok a -> False.
Proof. unfold RuntimeTypeError, QuotedError. destruct (QuoteSubConstraint src (e_start e) (e_end e)); discriminate. Qed.

Lemma rbind_keeps {A B} (r : res A) (f : A -> outcome B) c : snd r = c -> exists o, rbind r (fun a c => (f a, c)) = (o, c).
Proof. destruct r as [[a|k m|w] c']; cbn; intros <-; eauto. Qed.

Section Ctx.
  Variable ctx : eval_context.

  (** An operand was evaluated. *)
  Definition operand {A} (e : expr) (q : path) (m : list (path * bool)) (o : outcome A) (c : eval_cache) (t : list path) : Prop :=
    exists m', c = Some m' /\ ran (positions e q) (under q) m t m'.
  Definition truth {A} (e : expr) (q : path) (m : list (path * bool)) (o : outcome A) (c : eval_cache) (t : list path) : Prop :=
    exists m', c = Some m' /\ ran (positions e q) (under q) m t m' /\ forall b, o = Ok b -> find q m' <> None /\ settled e q t m'.
  Definition evals (e : expr) : Prop := forall p m o c t, (forall q, under p q -> find q m = None) -> lEval ctx e p (Some m) = ((o, c), t) ->
    exists m', c = Some m' /\ ran (positions e p) (below p) m t m' /\ forall v, o = Ok v -> settled e p t m'.

  Lemma op_eval e q m o c t : evals e -> (forall x, under q x -> find x m = None) -> lEval ctx e q (Some m) = ((o, c), t) -> operand e q m o c t.
  Proof. intros He Hm H. destruct (He _ _ _ _ _ Hm H) as (m' & -> & H1 & _). exists m'. split; [reflexivity|]. eapply ran_more; [exact H1|intros ? ?; assumption|apply below_under]. Qed.
  Lemma op_int e q m o c t : evals e -> (forall x, under q x -> find x m = None) -> leval_to_int ctx (lEval ctx) e q (Some m) = ((o, c), t) -> operand e q m o c t.
  Proof.
    intros He Hm H. unfold leval_to_int in H. apply lbind_silent in H as (o1 & E & _); [|intros v c0; destruct v; eauto]. exact (op_eval _ _ _ _ _ _ He Hm E).
  Qed.
  Lemma op_int_annotated e q m o c t : evals e -> (forall x, under q x -> find x m = None) -> leval_to_int_annotated ctx (lEval ctx) e q (Some m) = ((o, c), t) -> operand e q m o c t.
  Proof.
    intros He Hm H. unfold leval_to_int_annotated in H. destruct (leval_to_int ctx (lEval ctx) e q (Some m)) as [[o1 c1] t1] eqn:E. injection H as <- <- <-. exact (op_int _ _ _ _ _ _ He Hm E).
  Qed.
  Lemma op_bool e q m o c t : evals e -> (forall x, under q x -> find x m = None) -> leval_to_bool ctx (lEval ctx) e q (Some m) = ((o, c), t) -> truth e q m o c t.
  Proof.
    intros He Hm H. unfold leval_to_bool in H. rewrite (Hm q (under_refl q)) in H. apply lbind_inv in H as [(v & c1 & t1 & t2 & E1 & E2 & ->)|(o1 & E & _ & N)].
    - destruct (He _ _ _ _ _ Hm E1) as (m1 & -> & H1 & H2). destruct v; cbn [silent] in E2; injection E2 as <- <- <-; rewrite app_nil_r.
      1: { cbn [option_map]. exists (cache_insert q b m1). split; [reflexivity|]. split; [|].
           - destruct H1 as [a1 b1 c2 d1]. constructor; auto.
             + intros x Hx. rewrite cache_insert_find, c2 by (intros Hb; apply Hx; now apply below_under). destruct (find x m); [reflexivity|]. destruct (path_eqb x q) eqn:Ex; [|reflexivity]. apply path_eqb_eq in Ex. subst. destruct (Hx (under_refl q)).
             + intros x Hx. rewrite cache_insert_find. specialize (d1 x Hx). destruct (find x m1); [discriminate|congruence].
           - intros b' _. split; [rewrite cache_insert_find, path_eqb_refl; destruct (find q m1); discriminate|]. apply (settled_frame _ _ _ _ _ _ (H2 _ eq_refl)). intros x Hx. split; [|reflexivity]. rewrite cache_insert_find. destruct (find x m1); [reflexivity|].
             destruct (path_eqb x q) eqn:Ex; [|reflexivity]. apply path_eqb_eq in Ex. subst. destruct (not_below _ Hx). }
      all: exists m1; (split; [reflexivity|]); (split; [eapply ran_more; [exact H1|intros ? ?; assumption|apply below_under]|intros x Hx; now apply not_ok in Hx]).
    - destruct (He _ _ _ _ _ Hm E) as (m1 & -> & H1 & _). exists m1. split; [reflexivity|]. split; [eapply ran_more; [exact H1|intros ? ?; assumption|apply below_under]|]. intros b Hb. now apply N in Hb.
  Qed.

  Lemma ran_root e p Q m t m' : ran (positions e p) Q m t m' -> (forall q, In q t -> below p q) -> ran (positions e p) Q m (p :: t) m'.
  Proof. intros [a b c d] H. constructor; auto; [constructor; auto; intros Hp; exact (not_below _ (H _ Hp))|]. intros q [<-|Hq]; [apply positions_root|auto]. Qed.
  Lemma one_operand e a p (Q : path -> Prop) m t m' : (forall x, In x (positions a (false :: p)) -> In x (positions e p)) -> ran (positions a (false :: p)) Q m t m' -> (forall q, Q q -> under (false :: p) q) ->
    ran (positions e p) (below p) m (p :: t) m'.
  Proof.
    intros Hs H HQ. apply ran_root.
    - eapply ran_more; [exact H|exact Hs|]. intros q Hq. left. auto.
    - intros q Hq. left. apply (r_in _ _ _ _ _ H) in Hq. now apply positions_under in Hq.
  Qed.
  Lemma two_operands mt o l r p m t1 m1 t2 m2 : ran (positions l (false :: p)) (under (false :: p)) m t1 m1 -> ran (positions r (true :: p)) (under (true :: p)) m1 t2 m2 ->
    ran (positions (EBin mt o l r) p) (below p) m (p :: t1 ++ t2) m2.
  Proof.
    intros H1 H2. pose proof (r_in _ _ _ _ _ H1) as I1. pose proof (r_in _ _ _ _ _ H2) as I2. apply ran_root.
    - eapply ran_seq; [exact H1|exact H2|..]; unfold below; auto.
      + intros x Hx. cbn [positions]. right. apply in_app_iff. auto.
      + intros x Hx. cbn [positions]. right. apply in_app_iff. auto.
      + intros x X1 X2. apply I1, positions_under in X1. apply I2, positions_under in X2. exact (split_under _ _ X1 X2).
    - intros q Hq. apply in_app_iff in Hq as [Hq|Hq]; [left; apply I1, positions_under in Hq|right; apply I2, positions_under in Hq]; exact Hq.
  Qed.
  Lemma still_fresh P p m t m1 : (forall q, under p q -> find q m = None) -> ran P (under (false :: p)) m t m1 -> forall q, under (true :: p) q -> find q m1 = None.
  Proof. intros H Hr q Hq. rewrite (r_frame _ _ _ _ _ Hr); [apply H; now apply under_cons in Hq|]. intros Hf. exact (split_under _ _ Hf Hq). Qed.

  Lemma lEval_once : forall e, evals e.
  Proof.
    assert (forall e, (forall p m, fst (silent (Eval ctx e p (Some m))) = Eval ctx e p (Some m) -> exists o, Eval ctx e p (Some m) = (o, Some m)) -> (forall p c, lEval ctx e p c = (Eval ctx e p c, [p])) -> (forall p t m, settled e p t m) -> evals e) as Leaf.
    { intros e H1 H2 H3 p m o c t Hm H. rewrite H2 in H. destruct (H1 p m eq_refl) as [o1 E1]. rewrite E1 in H. injection H as <- <- <-. exists m. split; [reflexivity|]. split; [|auto].
      apply ran_root; [apply ran_nil|intros q []]. }
    induction e as [m b|m s|m n|m n|m e IH|m e IH|m e IH|m o l IHl r IHr|m f e IH|m n|m].
    1-4,10-11: apply Leaf; [|reflexivity|intros; exact I]; intros p c _; cbn [Eval].
    1-6: apply rbind_keeps; try reflexivity.
    1: destruct (mpz_set_str s 10); reflexivity.
    1: destruct (ec_ctx ctx) as [? ? ks|? ? ks]; [destruct (assoc_find String.eqb n ks)|]; reflexivity.
    1: destruct (ec_ctx ctx) as [? ? ks|? ? ks]; [|destruct (assoc_find String.eqb n ks)]; reflexivity.
    1: destruct (ec_ctx ctx) as [? ? ks|? ? ks]; [destruct (String.eqb n "priority")|]; reflexivity.
    all: intros p c o' c' t' Hm H; cbn [lEval] in H; match type of H with context [lbind ?a ?b] => destruct (lbind a b) as [[o1 c1] t1] eqn:E1 end; injection H as <- <- <-;
      apply lbind_silent in E1 as (o2 & E2 & Hok); [|eauto].
    - apply lbind_silent in E2 as (o3 & E3 & Hok2); [|eauto]. destruct (op_bool _ _ _ _ _ _ IH (fun x Hx => Hm x (under_cons _ _ _ Hx)) E3) as (m1 & -> & H1 & H2). exists m1. split; [reflexivity|]. split.
      + eapply one_operand; [|exact H1|auto]. intros x Hx. cbn [positions]. now right.
      + intros v ->. destruct (Hok _ eq_refl) as [? ->]. destruct (Hok2 _ eq_refl) as [b ->]. destruct (H2 _ eq_refl) as [H3 H4]. cbn [settled]. split; [exact H3|]. apply (settled_frame _ _ _ _ _ _ H4). intros q Hq. split; [reflexivity|]. cbn.
        split; [|auto]. intros [<-|X]; [|exact X]. apply below_under, under_len in Hq. cbn in Hq. lia.
    - apply lbind_silent in E2 as (o3 & E3 & Hok2); [|eauto]. destruct (op_int _ _ _ _ _ _ IH (fun x Hx => Hm x (under_cons _ _ _ Hx)) E3) as (m1 & -> & H1). exists m1. split; [reflexivity|]. split; [|intros; exact I].
      eapply one_operand; [|exact H1|auto]. intros x Hx. cbn [positions]. now right.
    - apply lbind_silent in E2 as (o3 & E3 & Hok2); [|eauto]. destruct (op_eval _ _ _ _ _ _ IH (fun x Hx => Hm x (under_cons _ _ _ Hx)) E3) as (m1 & -> & H1). exists m1. split; [reflexivity|]. split; [|intros; exact I].
      eapply one_operand; [|exact H1|auto]. intros x Hx. cbn [positions]. now right.
    - assert (forall q, under (false :: p) q -> find q c = None) as Hml by (intros q Hq; apply Hm; now apply under_cons in Hq).
      assert (forall t m1, ran (positions l (false :: p)) (under (false :: p)) c t m1 -> ran (positions (EBin m o l r) p) (below p) c (p :: t) m1) as Hone.
      { intros t m1 H1. eapply one_operand; [|exact H1|auto]. intros x Hx. cbn [positions]. right. apply in_app_iff. now left. }
      destruct o.
      1: { cbn [silent] in E2. injection E2 as <- <- <-. exists c. split; [reflexivity|]. split; [apply ran_root; [apply ran_nil|intros q []]|intros; exact I]. }
      (* the three boolean operators *)
      7,8,9: apply lbind_inv in E2 as [(bl & c2 & t2 & t3 & E3 & E4 & ->)|(o3 & E3 & N1 & N2)];
        (destruct (op_bool _ _ _ _ _ _ IHl Hml E3) as (m1 & -> & H1 & H2));
        [|exists m1; split; [reflexivity|]; split; [exact (Hone _ _ H1)|]; intros v ->; destruct (Hok _ eq_refl) as [? ->]; now destruct (N2 x)].
      7,8,9: destruct (H2 _ eq_refl) as [D1 D2]; pose proof (still_fresh _ _ _ _ _ Hm H1) as Hmr.
      7,8,9: assert (forall t m2, (forall q, under (false :: p) q -> find q m2 = find q m1) -> (forall q, In q t -> under (true :: p) q) -> find (false :: p) m2 <> None /\ settled l (false :: p) (p :: t2 ++ t) m2) as Left by
        (intros t m2 Hf Ht; split; [now rewrite (Hf _ (under_refl _))|]; apply (settled_frame _ _ _ _ _ _ D2); intros q Hq; apply below_under in Hq; split; [now apply Hf|]; cbn; rewrite in_app_iff; split; [|auto];
         intros [<-|[X|X]]; [apply under_len in Hq; cbn in Hq; lia|exact X|apply Ht in X; destruct (split_under _ _ Hq X)]).
      7,8,9: assert (exists m2, c1 = Some m2 /\ ran (positions (EBin m OAND l r) p) (below p) c (p :: t2 ++ t3) m2 /\ (forall v, o2 = Ok v -> settled (EBin m OAND l r) p (p :: t2 ++ t3) m2)) as Hgoal;
        [|destruct Hgoal as (m2 & -> & G1 & G2); exists m2; split; [reflexivity|]; split; [exact G1|]; intros v ->; destruct (Hok _ eq_refl) as [x ->]; exact (G2 _ eq_refl)].
      7,8,9: assert (t3 = [] /\ c1 = Some m1 \/ exists o3, leval_to_bool ctx (lEval ctx) r (true :: p) (Some m1) = ((o3, c1), t3) /\ (forall v, o2 = Ok v -> exists b, o3 = Ok b)) as Hright
        by (cbv zeta in E4; destruct bl; first [injection E4 as <- <- <-; now left|right; apply lbind_silent in E4 as (o3 & E4 & Hx); [|eauto]; exists o3; split; [exact E4|exact Hx]]).
      7,8,9: destruct Hright as [[-> ->]|(o3 & E5 & Hok5)];
        [exists m1; split; [reflexivity|]; split; [rewrite app_nil_r; exact (Hone _ _ H1)|]; intros v _; cbn [settled]; split; [apply Left; [reflexivity|intros q []]|]; right; intros q Hq; split; [now apply Hmr|];
         rewrite app_nil_r; intros [<-|X]; [apply under_len in Hq; cbn in Hq; lia|]; apply (r_in _ _ _ _ _ H1), positions_under in X; exact (split_under _ _ X Hq)|].
      7,8,9: destruct (op_bool _ _ _ _ _ _ IHr Hmr E5) as (m2 & -> & H3 & H4); exists m2; split; [reflexivity|]; split; [exact (two_operands _ _ _ _ _ _ _ _ _ _ H1 H3)|];
        intros v Hv; destruct (Hok5 _ Hv) as [b Hb]; destruct (H4 _ Hb) as [D3 D4]; cbn [settled]; split;
        [apply Left; [intros q Hq; apply (r_frame _ _ _ _ _ H3); intros X; exact (split_under _ _ Hq X)|intros q Hq; apply (r_in _ _ _ _ _ H3) in Hq; now apply positions_under in Hq]|];
        left; split; [exact D3|]; apply (settled_frame _ _ _ _ _ _ D4); intros q Hq; apply below_under in Hq; split; [reflexivity|]; cbn; rewrite in_app_iff; split; [|auto];
        intros [<-|[X|X]]; [apply under_len in Hq; cbn in Hq; lia| |exact X]; apply (r_in _ _ _ _ _ H1), positions_under in X; destruct (split_under _ _ X Hq).
      (* comparisons *)
      all: apply lbind_inv in E2 as [(vl & c2 & t2 & t3 & E3 & E4 & ->)|(o3 & E3 & N1 & N2)];
        (first [destruct (op_eval _ _ _ _ _ _ IHl Hml E3) as (m1 & -> & H1)|destruct (op_int_annotated _ _ _ _ _ _ IHl Hml E3) as (m1 & -> & H1)]);
        [|exists m1; split; [reflexivity|]; split; [exact (Hone _ _ H1)|intros; exact I]].
      all: apply lbind_silent in E4 as (o3 & E5 & _); [|eauto]; pose proof (still_fresh _ _ _ _ _ Hm H1) as Hmr;
        first [destruct (op_eval _ _ _ _ _ _ IHr Hmr E5) as (m2 & -> & H3)|destruct (op_int_annotated _ _ _ _ _ _ IHr Hmr E5) as (m2 & -> & H3)];
        exists m2; split; [reflexivity|]; split; [exact (two_operands _ _ _ _ _ _ _ _ _ _ H1 H3)|intros; exact I].
    - apply lbind_silent in E2 as (o3 & E3 & Hok2); [|intros v c0; destruct (EvalFieldAccess f v); eauto]. destruct (op_eval _ _ _ _ _ _ IH (fun x Hx => Hm x (under_cons _ _ _ Hx)) E3) as (m1 & -> & H1). exists m1. split; [reflexivity|]. split; [|intros; exact I].
      eapply one_operand; [|exact H1|auto]. intros x Hx. cbn [positions]. now right.
  Qed.
End Ctx.
