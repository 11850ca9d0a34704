(** Facts for C77, continued: sizes and the search for an explanation. *)
From Coq Require Import String Ascii List ZArith NArith Bool Lia.
From Verif Require Import Base Num Token Ast Quote Info TypeChecker Interpreter Traced SpecWork EvalFacts WorkFacts WorkFacts2.
Import ListNotations.
Open Scope nat_scope.
Open Scope list_scope.

Local Notation find q m := (assoc_find path_eqb q m).

(** The sizes [t] were computed: positions of [P], not known before, known afterwards if [ok]. *)
Record sizing (P : list path) (s : size_cache) (t : list path) (s' : size_cache) (ok : Prop) : Prop := mkSizing {
  z_once : NoDup t; z_in : incl t P; z_new : forall q, In q t -> find q s = None;
  z_known : ok -> forall q, In q t -> find q s' <> None; z_grow : ok -> forall q, find q s <> None -> find q s' <> None }.
Lemma sizing_nil P s ok : sizing P s [] s ok.
Proof. constructor; auto using NoDup_nil; try (intros q []); intros _ q []. Qed.
Lemma sizing_seq P P1 P2 s t1 s1 t2 s2 (ok1 ok2 : Prop) : sizing P1 s t1 s1 ok1 -> ok1 -> sizing P2 s1 t2 s2 ok2 -> incl P1 P -> incl P2 P -> sizing P s (t1 ++ t2) s2 ok2.
Proof.
  intros [a1 b1 c1 d1 e1] H1 [a2 b2 c2 d2 e2] i1 i2. specialize (d1 H1). specialize (e1 H1).
  assert (forall q, In q t2 -> find q s = None) as Hn.
  { intros q Hq. destruct (find q s) eqn:E; [|reflexivity]. destruct (e1 q); [congruence|]. now apply c2. }
  constructor.
  - apply nd_app; auto. intros q Q1 Q2. apply (d1 q Q1). now apply c2.
  - apply incl_app; eapply incl_tran; eauto.
  - intros q Hq. apply in_app_iff in Hq as [Hq|Hq]; auto.
  - intros H2 q Hq. apply in_app_iff in Hq as [Hq|Hq]; [apply (e2 H2), d1; exact Hq|now apply d2].
  - auto.
Qed.
Lemma sizing_fail P P1 s t s' (ok ok' : Prop) : sizing P1 s t s' ok -> ~ ok' -> incl P1 P -> sizing P s t s' ok'.
Proof. intros [a b c d e] H i. constructor; auto; [eapply incl_tran; eauto|tauto..]. Qed.
Lemma sizing_more P P1 s t s' (ok ok' : Prop) : sizing P1 s t s' ok -> (ok' -> ok) -> incl P1 P -> sizing P s t s' ok'.
Proof. intros [a b c d e] H i. constructor; auto. eapply incl_tran; eauto. Qed.

Definition fine {A} (o : outcome A) : Prop := exists a, o = Ok a.
Lemma fine_ok {A} (a : A) : fine (Ok a).
Proof. now exists a. Qed.
Lemma not_fine_err {A} k m : ~ fine (@Err A k m).
Proof. intros [a H]. discriminate. Qed.
Lemma not_fine_crash {A} w : ~ fine (@Crash A w).
Proof. intros [a H]. discriminate. Qed.

Lemma sizing_root e p s t s' n (ok : Prop) : find p s = None -> sizing (positions e p) s t s' ok -> ok -> (forall q, In q t -> below p q) -> sizing (positions e p) s (p :: t) (cache_insert p n s') (fine (Ok n)).
Proof.
  intros Hp [a b c d g] H Hb. specialize (d H). specialize (g H). assert (forall q, find q s' <> None -> find q (cache_insert p n s') <> None) as Hg by (intros q Hq; rewrite cache_insert_find; destruct (find q s'); [discriminate|congruence]). constructor.
  - constructor; auto. intros X. exact (not_below _ (Hb _ X)).
  - intros q [<-|Hq]; [apply positions_root|auto].
  - intros q [<-|Hq]; auto.
  - intros _ q [<-|Hq]; [|auto]. rewrite cache_insert_find, path_eqb_refl. destruct (find p s'); discriminate.
  - auto.
Qed.
Lemma sizing_root_fail e p s t s' (ok ok' : Prop) : find p s = None -> sizing (positions e p) s t s' ok -> ~ ok' -> (forall q, In q t -> below p q) -> sizing (positions e p) s (p :: t) s' ok'.
Proof.
  intros Hp [a b c d g] H Hb. constructor; try tauto.
  - constructor; auto. intros X. exact (not_below _ (Hb _ X)).
  - intros q [<-|Hq]; [apply positions_root|auto].
  - intros q [<-|Hq]; auto.
Qed.
Lemma lSize_once : forall e p s o c t, lSize e p (Some s) = ((o, c), t) -> exists s', c = Some s' /\ sizing (positions e p) s t s' (fine o).
Proof.
  induction e as [m b|m x|m n|m n|m e IH|m e IH|m e IH|m op l IHl r IHr|m f e IH|m n|m]; intros p s o c t H; cbn [lSize] in H; destruct (find p s) as [z|] eqn:Ep;
    try (cbn in H; rewrite ?Ep in H; injection H as <- <- <-; exists s; split; [reflexivity|apply sizing_nil]).
  - assert (incl (positions e (false :: p)) (positions (ENot m e) p)) as Hi by (intros q Hq; cbn [positions]; now right).
    destruct (lSize e (false :: p) (Some s)) as [[o1 c1] t1] eqn:E. destruct (IH _ _ _ _ _ E) as (s1 & -> & Z).
    assert (forall q, In q t1 -> below p q) as Hb by (intros q Hq; apply (z_in _ _ _ _ _ Z), positions_under in Hq; now left).
    assert (sizing (positions (ENot m e) p) s t1 s1 (fine o1)) as Z' by (exact (sizing_more _ _ _ _ _ _ _ Z (fun x => x) Hi)).
    destruct o1 as [n1|k x|w]; injection H as <- <- <-; (eexists; split; [reflexivity|]).
    + exact (sizing_root _ _ _ _ _ _ _ Ep Z' (fine_ok _) Hb).
    + exact (sizing_root_fail _ _ _ _ _ _ _ Ep Z' (not_fine_err _ _) Hb).
    + exact (sizing_root_fail _ _ _ _ _ _ _ Ep Z' (not_fine_crash _) Hb).
  - assert (incl (positions l (false :: p)) (positions (EBin m op l r) p)) as Hi by (intros q Hq; cbn [positions]; right; apply in_app_iff; now left).
    assert (incl (positions r (true :: p)) (positions (EBin m op l r) p)) as Hj by (intros q Hq; cbn [positions]; right; apply in_app_iff; now right).
    destruct (lSize l (false :: p) (Some s)) as [[o1 c1] t1] eqn:E. destruct (IHl _ _ _ _ _ E) as (s1 & -> & Z).
    assert (forall q, In q t1 -> below p q) as Hb by (intros q Hq; apply (z_in _ _ _ _ _ Z), positions_under in Hq; now left).
    assert (sizing (positions (EBin m op l r) p) s t1 s1 (fine o1)) as Z' by (exact (sizing_more _ _ _ _ _ _ _ Z (fun x => x) Hi)).
    destruct o1 as [n1|k x|w].
    + destruct (lSize r (true :: p) (Some s1)) as [[o2 c2] t2] eqn:E2. destruct (IHr _ _ _ _ _ E2) as (s2 & -> & Z2).
      assert (forall q, In q (t1 ++ t2) -> below p q) as Hb2 by (intros q Hq; apply in_app_iff in Hq as [Hq|Hq]; [auto|]; apply (z_in _ _ _ _ _ Z2), positions_under in Hq; now right).
      pose proof (sizing_seq _ _ _ _ _ _ _ _ _ _ Z (fine_ok _) Z2 Hi Hj) as Z3.
      destruct o2 as [n2|k x|w]; injection H as <- <- <-; (eexists; split; [reflexivity|]).
      * exact (sizing_root _ _ _ _ _ _ _ Ep Z3 (fine_ok _) Hb2).
      * exact (sizing_root_fail _ _ _ _ _ _ _ Ep Z3 (not_fine_err _ _) Hb2).
      * exact (sizing_root_fail _ _ _ _ _ _ _ Ep Z3 (not_fine_crash _) Hb2).
    + injection H as <- <- <-. eexists; split; [reflexivity|]. exact (sizing_root_fail _ _ _ _ _ _ _ Ep Z' (not_fine_err _ _) Hb).
    + injection H as <- <- <-. eexists; split; [reflexivity|]. exact (sizing_root_fail _ _ _ _ _ _ _ Ep Z' (not_fine_crash _) Hb).
Qed.

Lemma wbind_inv {A B} (r : eres A * work) (f : A -> eval_cache -> option size_cache -> eres B * work) o c s w : wbind r f = ((o, c, s), w) ->
  (exists a c1 s1 w1 w2, r = ((Ok a, c1, s1), w1) /\ f a c1 s1 = ((o, c, s), w2) /\ w = plus w1 w2) \/ (exists o1, r = ((o1, c, s), w) /\ ~ fine o1 /\ ~ fine o).
Proof.
  destruct r as [[[[a|k m|x] c1] s1] w1]; cbn.
  - destruct (f a c1 s1) as [r' w'] eqn:E. intros [= -> <-]. left. exists a, c1, s1, w1, w'. auto.
  - intros [= <- <- <- <-]. right. exists (Err k m). split; [reflexivity|split; apply not_fine_err].
  - intros [= <- <- <- <-]. right. exists (Crash x). split; [reflexivity|split; apply not_fine_crash].
Qed.

Section Ctx.
  Variable ctx : eval_context.

  (** What one search does, given that [t] was evaluated before. *)
  Record search (e : expr) (p : path) (t : list path) (m : list (path * bool)) (s : size_cache) (o : outcome (expr * path)) (m' : list (path * bool)) (s' : size_cache) (w : work) : Prop := mkSearch {
    h_ran : ran (positions e p) (below p) m (evaluated w) m';
    h_new : forall q, In q (evaluated w) -> below p q /\ ~ In q t;
    h_size : sizing (positions e p) s (sized w) s' (fine o);
    h_once : NoDup (searched w); h_in : incl (searched w) (positions e p);
    h_res : forall x px, o = Ok (x, px) -> incl (positions x px) (positions e p) /\ (find p m <> None -> find px m' <> None) }.
  Definition searches (e : expr) : Prop := forall p t m s o c s' w, settled e p t m -> lMinimal ctx e p (Some m) (Some s) = ((o, c, s'), w) ->
    exists m1 s1, c = Some m1 /\ s' = Some s1 /\ search e p t m s o m1 s1 w.

  (** The part of the search after both operands were evaluated. *)
  Definition tail (e l r : expr) (p : path) (cl cr : bool) (c : eval_cache) (s : option size_cache) : eres (expr * path) * work :=
    match cl, cr with
    | false, false => ((Ok (e, p), c, s), no_work)
    | true, false => lMinimal ctx l (false :: p) c s
    | false, true => lMinimal ctx r (true :: p) c s
    | true, true =>
        wbind (lMinimal ctx l (false :: p) c s) (fun s0 c s =>
        wbind (lMinimal ctx r (true :: p) c s) (fun s1 c s =>
        wbind (llift_size (lSize (fst s0) (snd s0) s) c) (fun n0 c s =>
        wbind (llift_size (lSize (fst s1) (snd s1) s) c) (fun n1 c s =>
          ((Ok (if Z.leb n0 n1 then s0 else s1), c, s), no_work)))))
    end.
  Record tailed (e l r : expr) (p : path) (t : list path) (m : list (path * bool)) (s : size_cache) (o : outcome (expr * path)) (m' : list (path * bool)) (s' : size_cache) (w : work) : Prop := mkTailed {
    t_ran : ran (positions e p) (below p) m (evaluated w) m';
    t_new : forall q, In q (evaluated w) -> below p q /\ ~ In q t;
    t_size : sizing (positions e p) s (sized w) s' (fine o);
    t_once : NoDup (searched w); t_in : incl (searched w) (positions e p) /\ ~ In p (searched w);
    t_res : forall x px, o = Ok (x, px) -> incl (positions x px) (positions e p) /\ (find p m <> None -> find px m' <> None) }.

  Lemma below_not b p q : below (b :: p) q -> ~ under (negb b :: p) q.
  Proof. intros H X. apply below_under in H. destruct b; cbn in X; [exact (split_under _ _ X H)|exact (split_under _ _ H X)]. Qed.
  Lemma operand_search (b : bool) mt o l r p t m s x m' s' w : let a := if b then r else l in
    search a (b :: p) t m s x m' s' w -> find (b :: p) m <> None -> tailed (EBin mt o l r) l r p t m s x m' s' w.
  Proof.
    intros a [h1 h2 h3 h4 h5 h6] Hf. assert (incl (positions a (b :: p)) (positions (EBin mt o l r) p)) as Hi by (intros q Hq; cbn [positions]; right; apply in_app_iff; unfold a in Hq; destruct b; auto). constructor.
    - eapply ran_more; [exact h1|exact Hi|]. intros q Hq. apply (cons_below b). now apply below_under.
    - intros q Hq. destruct (h2 q Hq). split; [apply (cons_below b); now apply below_under|assumption].
    - exact (sizing_more _ _ _ _ _ _ _ h3 (fun x => x) Hi).
    - exact h4.
    - split; [eapply incl_tran; eauto|]. intros X. apply h5, positions_under, under_len in X. cbn in X. lia.
    - intros y py Hy. destruct (h6 _ _ Hy) as [H1 H2]. split; [eapply incl_tran; eauto|auto].
  Qed.
  Lemma tail_once mt op l r p cl cr m s t o c s' w : searches l -> searches r ->
    find (false :: p) m <> None -> settled l (false :: p) t m -> find (true :: p) m <> None -> settled r (true :: p) t m ->
    tail (EBin mt op l r) l r p cl cr (Some m) (Some s) = ((o, c, s'), w) -> exists m1 s1, c = Some m1 /\ s' = Some s1 /\ tailed (EBin mt op l r) l r p t m s o m1 s1 w.
  Proof.
    intros IHl IHr F1 S1 F2 S2 H. set (e := EBin mt op l r) in *.
    assert (incl (positions l (false :: p)) (positions e p)) as Hi by (intros q Hq; cbn [e positions]; right; apply in_app_iff; now left).
    assert (incl (positions r (true :: p)) (positions e p)) as Hj by (intros q Hq; cbn [e positions]; right; apply in_app_iff; now right).
    destruct cl, cr; cbn [tail] in H.
    - apply wbind_inv in H as [([x0 p0] & c1 & s1' & w1 & w2 & E1 & H & ->)|(o1 & E1 & N1 & N2)].
      2: { destruct (IHl _ _ _ _ _ _ _ _ S1 E1) as (m1 & s1 & -> & -> & K). exists m1, s1. split; [reflexivity|]. split; [reflexivity|]. destruct (operand_search false mt op l r _ _ _ _ _ _ _ _ K F1) as [h1 h2 h3 h4 h5 h6]. constructor; auto.
           - exact (sizing_fail _ _ _ _ _ _ _ h3 N2 (fun q x => x)).
           - intros x px ->. destruct N2. apply fine_ok. }
      destruct (IHl _ _ _ _ _ _ _ _ S1 E1) as (m1 & s1 & -> & -> & K).
      assert (forall q, under (true :: p) q -> find q m1 = find q m) as Hfr by (intros q Hq; apply (r_frame _ _ _ _ _ (h_ran _ _ _ _ _ _ _ _ _ K)); intros X; exact (below_not false _ _ X Hq)).
      assert (settled r (true :: p) (t ++ evaluated w1) m1) as S2'.
      { apply (settled_frame _ _ _ _ _ _ S2). intros q Hq. apply below_under in Hq. split; [now apply Hfr|]. rewrite in_app_iff. split; [|auto]. intros [X|X]; [exact X|]. apply (h_new _ _ _ _ _ _ _ _ _ K) in X as [X _]. destruct (below_not false _ _ X Hq). }
      assert (find (true :: p) m1 <> None) as F2' by (now rewrite (Hfr _ (under_refl _))).
      pose proof (operand_search false mt op l r _ _ _ _ _ _ _ _ K F1) as T1. destruct (h_res _ _ _ _ _ _ _ _ _ K _ _ eq_refl) as [R1 R2]. specialize (R2 F1).
      (* combining the searches of both operands *)
      assert (forall o2 m2 s2 w2', search r (true :: p) (t ++ evaluated w1) m1 s1 o2 m2 s2 w2' ->
        ran (positions e p) (below p) m (evaluated w1 ++ evaluated w2') m2 /\ (forall q, In q (evaluated w1 ++ evaluated w2') -> below p q /\ ~ In q t) /\
        sizing (positions e p) s (sized w1 ++ sized w2') s2 (fine o2) /\ NoDup (searched w1 ++ searched w2') /\ (incl (searched w1 ++ searched w2') (positions e p) /\ ~ In p (searched w1 ++ searched w2'))) as Both.
      { intros o2 m2 s2 w2' K2. pose proof (operand_search true mt op l r _ _ _ _ _ _ _ _ K2 F2') as T2. destruct T1 as [a1 b1 c1 d1 [e1 e1'] f1], T2 as [a2 b2 c2 d2 [e2 e2'] f2]. repeat split.
        - apply nd_app; [apply a1|apply a2|]. intros q Q1 Q2. apply b2 in Q2 as [_ Q2]. apply Q2, in_app_iff. now right.
        - apply incl_app; [apply a1|apply a2].
        - intros q Hq. rewrite (r_frame _ _ _ _ _ a2 _ Hq). now apply a1.
        - intros q Hq. apply a2, a1, Hq.
        - apply in_app_iff in H0 as [X|X]; [now apply b1|now apply b2].
        - intros Y. apply in_app_iff in H0 as [X|X]; [now apply b1 in X|]. apply b2 in X as [_ X]. apply X, in_app_iff. now left.
        - pose proof (sizing_seq _ _ _ _ _ _ _ _ _ _ c1 (fine_ok _) c2 (incl_refl _) (incl_refl _)) as Z. apply Z.
        - pose proof (sizing_seq _ _ _ _ _ _ _ _ _ _ c1 (fine_ok _) c2 (incl_refl _) (incl_refl _)) as Z. apply Z.
        - pose proof (sizing_seq _ _ _ _ _ _ _ _ _ _ c1 (fine_ok _) c2 (incl_refl _) (incl_refl _)) as Z. apply Z.
        - pose proof (sizing_seq _ _ _ _ _ _ _ _ _ _ c1 (fine_ok _) c2 (incl_refl _) (incl_refl _)) as Z. apply Z.
        - pose proof (sizing_seq _ _ _ _ _ _ _ _ _ _ c1 (fine_ok _) c2 (incl_refl _) (incl_refl _)) as Z. apply Z.
        - apply nd_app; auto. intros q Q1 Q2. apply (h_in _ _ _ _ _ _ _ _ _ K), positions_under in Q1. apply (h_in _ _ _ _ _ _ _ _ _ K2), positions_under in Q2. exact (split_under _ _ Q1 Q2).
        - apply incl_app; auto.
        - intros X. apply in_app_iff in X as [X|X]; auto. }
      apply wbind_inv in H as [([x1 p1] & c2 & s2' & w3 & w4 & E2 & H & ->)|(o1 & E2 & N1 & N2)].
      2: { destruct (IHr _ _ _ _ _ _ _ _ S2' E2) as (m2 & s2 & -> & -> & K2). exists m2, s2. split; [reflexivity|]. split; [reflexivity|]. destruct (Both _ _ _ _ K2) as (h1 & h2 & h3 & h4 & h5). constructor; cbn [plus no_work evaluated sized searched]; auto.
           - exact (sizing_fail _ _ _ _ _ _ _ h3 N2 (fun q x => x)).
           - intros x px ->. destruct N2. apply fine_ok. }
      destruct (IHr _ _ _ _ _ _ _ _ S2' E2) as (m2 & s2 & -> & -> & K2). destruct (Both _ _ _ _ K2) as (h1 & h2 & h3 & h4 & h5). destruct (h_res _ _ _ _ _ _ _ _ _ K2 _ _ eq_refl) as [R3 R4]. specialize (R4 F2').
      pose proof (r_grow _ _ _ _ _ (h_ran _ _ _ _ _ _ _ _ _ K2) _ R2) as R5. cbn [fst snd] in H.
      apply wbind_inv in H as [(n0 & c3 & s3' & w5 & w6 & E3 & H & ->)|(o1 & E3 & N1 & N2)].
      2: { destruct (lSize x0 p0 (Some s2)) as [[oz cz] tz] eqn:Ez. destruct (lSize_once _ _ _ _ _ _ Ez) as (s3 & -> & Z). cbn [llift_size] in E3. injection E3 as -> <- <- <-. exists m2, s3. split; [reflexivity|]. split; [reflexivity|].
           constructor; cbn [plus no_work evaluated sized searched]; rewrite ?app_nil_r; auto.
           - rewrite app_assoc. pose proof (sizing_seq _ _ _ _ _ _ _ _ _ _ h3 (fine_ok _) Z (incl_refl _) (incl_tran R1 Hi)) as Z2. exact (sizing_fail _ _ _ _ _ _ _ Z2 N2 (fun q x => x)).
           - intros x px ->. destruct N2. apply fine_ok. }
      destruct (lSize x0 p0 (Some s2)) as [[oz cz] tz] eqn:Ez. destruct (lSize_once _ _ _ _ _ _ Ez) as (s3 & -> & Z). cbn [llift_size] in E3. injection E3 as -> <- <- <-.
      apply wbind_inv in H as [(n1 & c4 & s4' & w7 & w8 & E4 & H & ->)|(o1 & E4 & N1 & N2)].
      2: { destruct (lSize x1 p1 (Some s3)) as [[oy cy] ty] eqn:Ey. destruct (lSize_once _ _ _ _ _ _ Ey) as (s4 & -> & Y). cbn [llift_size] in E4. injection E4 as -> <- <- <-. exists m2, s4. split; [reflexivity|]. split; [reflexivity|].
           constructor; cbn [plus no_work evaluated sized searched]; rewrite ?app_nil_r; auto.
           - rewrite app_assoc. pose proof (sizing_seq _ _ _ _ _ _ _ _ _ _ h3 (fine_ok _) Z (incl_refl _) (incl_tran R1 Hi)) as Z2.
             pose proof (sizing_seq _ _ _ _ _ _ _ _ _ _ Z2 (fine_ok _) Y (incl_refl _) (incl_tran R3 Hj)) as Z3. rewrite <- app_assoc in Z3. exact (sizing_fail _ _ _ _ _ _ _ Z3 N2 (fun q x => x)).
           - intros x px ->. destruct N2. apply fine_ok. }
      destruct (lSize x1 p1 (Some s3)) as [[oy cy] ty] eqn:Ey. destruct (lSize_once _ _ _ _ _ _ Ey) as (s4 & -> & Y). cbn [llift_size] in E4. injection E4 as -> <- <- <-. injection H as <- <- <- <-.
      exists m2, s4. split; [reflexivity|]. split; [reflexivity|]. constructor; cbn [plus no_work evaluated sized searched]; rewrite ?app_nil_r; auto.
      + rewrite app_assoc. pose proof (sizing_seq _ _ _ _ _ _ _ _ _ _ h3 (fine_ok _) Z (incl_refl _) (incl_tran R1 Hi)) as Z2.
        pose proof (sizing_seq _ _ _ _ _ _ _ _ _ _ Z2 (fine_ok _) Y (incl_refl _) (incl_tran R3 Hj)) as Z3. rewrite <- app_assoc in Z3. exact (sizing_more _ _ _ _ _ _ _ Z3 (fun _ => fine_ok _) (incl_refl _)).
      + intros x px. destruct (Z.leb n0 n1); intros [= <- <-]; (split; [eapply incl_tran; eauto|intros _; assumption]).
    - destruct (IHl _ _ _ _ _ _ _ _ S1 H) as (m1 & s1 & -> & -> & K). exists m1, s1. split; [reflexivity|]. split; [reflexivity|]. exact (operand_search false mt op l r _ _ _ _ _ _ _ _ K F1).
    - destruct (IHr _ _ _ _ _ _ _ _ S2 H) as (m1 & s1 & -> & -> & K). exists m1, s1. split; [reflexivity|]. split; [reflexivity|]. exact (operand_search true mt op l r _ _ _ _ _ _ _ _ K F2).
    - injection H as <- <- <- <-. exists m, s. split; [reflexivity|]. split; [reflexivity|]. constructor; cbn [no_work evaluated sized searched].
      + apply ran_nil.
      + intros q [].
      + apply sizing_nil.
      + constructor.
      + split; [intros q []|intros []].
      + intros x px [= <- <-]. split; [apply incl_refl|auto].
  Qed.

  Lemma hit e p m b : find p m = Some b -> lEvalToBool ctx e p (Some m) = ((Ok b, Some m), []).
  Proof. intros H. unfold lEvalToBool, leval_to_bool. now rewrite H. Qed.
  Lemma right_once r p t m o c tr : (find (true :: p) m <> None /\ settled r (true :: p) t m) \/ (forall q, under (true :: p) q -> find q m = None /\ ~ In q t) ->
    lEvalToBool ctx r (true :: p) (Some m) = ((o, c), tr) ->
    exists m1, c = Some m1 /\ ran (positions r (true :: p)) (under (true :: p)) m tr m1 /\ (forall q, In q tr -> under (true :: p) q /\ ~ In q t) /\
      (fine o -> find (true :: p) m1 <> None /\ settled r (true :: p) (t ++ tr) m1).
  Proof.
    intros [[H1 H2]|H0] H.
    - destruct (find (true :: p) m) as [b|] eqn:E; [|congruence]. rewrite (hit _ _ _ _ E) in H. injection H as <- <- <-. exists m. split; [reflexivity|]. split; [apply ran_nil|]. split; [intros q []|]. intros _. rewrite app_nil_r. split; [congruence|exact H2].
    - destruct (op_bool ctx _ _ _ _ _ _ (lEval_once ctx r) (fun x Hx => proj1 (H0 x Hx)) H) as (m1 & -> & R & D). exists m1. split; [reflexivity|]. split; [exact R|].
      assert (forall q, In q tr -> under (true :: p) q) as Hu by (intros q Hq; apply (r_in _ _ _ _ _ R) in Hq; now apply positions_under in Hq).
      split; [intros q Hq; split; [auto|now apply H0, Hu]|]. intros [b Hb]. destruct (D _ Hb) as [D1 D2]. split; [exact D1|]. apply (settled_frame _ _ _ _ _ _ D2). intros q Hq. split; [reflexivity|]. apply below_under in Hq. rewrite in_app_iff. split; [|auto].
      intros [X|X]; [|exact X]. now apply H0 in X.
  Qed.
  Lemma lMinimal_once : forall e, searches e.
  Proof.
    assert (forall e, (forall p c s, exists o, lMinimal ctx e p c s = ((o, c, s), mkWork [] [] [p]) /\ (forall r, o = Ok r -> r = (e, p))) -> searches e) as Leaf.
    { intros e He p t m s o c s' w _ H. destruct (He p (Some m) (Some s)) as (o0 & Eo & Ho). rewrite Eo in H. injection H as <- <- <- <-. exists m, s. split; [reflexivity|]. split; [reflexivity|]. constructor; cbn [evaluated sized searched].
      - apply ran_nil.
      - intros q [].
      - apply sizing_nil.
      - constructor; [intros []|constructor].
      - intros q [<-|[]]. apply positions_root.
      - intros x px Hx. specialize (Ho _ Hx). injection Ho as <- <-. split; [apply incl_refl|auto]. }
    induction e as [m b|m x|m n|m n|m e IH|m e IH|m e IH|m op l IHl r IHr|m f e IH|m n|m]; try (apply Leaf; intros; eexists; split; [reflexivity|]; intros y Hy; first [discriminate Hy|now injection Hy as <-]).
    - intros p t c s o c' s' w [F S] H. cbn [lMinimal] in H. destruct (lMinimal ctx e (false :: p) (Some c) (Some s)) as [[[o1 c1] s1] w1] eqn:E. injection H as <- <- <- <-.
      destruct (IH _ _ _ _ _ _ _ _ S E) as (m1 & s2 & -> & -> & [h1 h2 h3 h4 h5 h6]). exists m1, s2. split; [reflexivity|]. split; [reflexivity|].
      assert (incl (positions e (false :: p)) (positions (ENot m e) p)) as Hi by (intros q Hq; cbn [positions]; now right). constructor; cbn [plus evaluated sized searched app].
      + eapply ran_more; [exact h1|exact Hi|]. intros q Hq. left. now apply below_under.
      + intros q Hq. destruct (h2 q Hq) as [A B]. split; [left; now apply below_under|exact B].
      + exact (sizing_more _ _ _ _ _ _ _ h3 (fun x => x) Hi).
      + constructor; [|exact h4]. intros X. apply h5, positions_under, under_len in X. cbn in X. lia.
      + intros q [<-|Hq]; [apply positions_root|auto].
      + intros x px Hx. destruct (h6 _ _ Hx) as [A B]. split; [eapply incl_tran; eauto|auto].
    - destruct op; try (apply Leaf; intros; eexists; split; [reflexivity|]; intros y Hy; first [discriminate Hy|now injection Hy as <-]).
      all: intros p t c s o c' s' w [[F S] HR] H; cbn [lMinimal] in H; match type of H with (let '(_, _) := ?a in _) = _ => destruct a as [[[o1 c1] s1] w1] eqn:E end; injection H as <- <- <- <-.
      all: destruct (find (false :: p) c) as [bl|] eqn:Ef; [|congruence]; rewrite (hit _ _ _ _ Ef) in E; cbn [llift_eval] in E.
      all: apply wbind_inv in E as [(b0 & c2 & s2 & w2 & w3 & E1 & E & ->)|(o2 & E1 & N1 & N2)]; [|injection E1 as <- <- <- <-; destruct N1; apply fine_ok]; injection E1 as <- <- <- <-.
      all: match type of E with wbind (llift_eval ?a _) _ = _ => destruct a as [[o3 c3] t3] eqn:E3 end.
      all: destruct (right_once _ _ _ _ _ _ _ HR E3) as (m1 & -> & R & Hn & D); cbn [llift_eval] in E.
      all: assert (incl (positions r (true :: p)) (positions (EBin m OAND l r) p)) as Hj by (intros q Hq; cbn [positions]; right; apply in_app_iff; now right).
      all: apply wbind_inv in E as [(b1 & c4 & s4 & w4 & w5 & E4 & E & ->)|(o2 & E4 & N1 & N2)];
        [|injection E4 as <- <- <- <-; exists m1, s; split; [reflexivity|]; split; [reflexivity|]; constructor; cbn [plus evaluated sized searched app];
          [eapply ran_more; [exact R|exact Hj|intros q Hq; now right]|intros q Hq; destruct (Hn _ Hq); split; [now right|assumption]|apply sizing_nil|constructor; [intros []|constructor]|intros q [<-|[]]; apply positions_root|intros x px ->; destruct N2; apply fine_ok]].
      all: injection E4 as -> <- <- <-; destruct (D (fine_ok _)) as [D1 D2].
      all: assert (find (false :: p) m1 <> None) as F1 by (rewrite (r_frame _ _ _ _ _ R); [congruence|]; intros X; exact (split_under _ _ (under_refl _) X)).
      all: assert (settled l (false :: p) (t ++ t3) m1) as D3 by (apply (settled_frame _ _ _ _ _ _ S); intros q Hq; apply below_under in Hq; split;
        [apply (r_frame _ _ _ _ _ R); intros X; exact (split_under _ _ Hq X)|rewrite in_app_iff; split; [|auto]; intros [X|X]; [exact X|apply Hn in X as [X _]; destruct (split_under _ _ Hq X)]]).
      1: change (tail (EBin m OAND l r) l r p (negb bl) (negb b1) (Some m1) (Some s) = (o1, c1, s1, w5)) in E.
      2: change (tail (EBin m OOR l r) l r p bl b1 (Some m1) (Some s) = (o1, c1, s1, w5)) in E.
      3: change (tail (EBin m OIMPLIES l r) l r p (negb bl) b1 (Some m1) (Some s) = (o1, c1, s1, w5)) in E.
      all: destruct (tail_once _ _ _ _ _ _ _ _ _ _ _ _ _ _ IHl IHr F1 D3 D1 D2 E) as (m2 & s3 & -> & -> & [h1 h2 h3 h4 [h5 h5'] h6]).
      all: exists m2, s3; split; [reflexivity|]; split; [reflexivity|]; constructor; cbn [plus evaluated sized searched app].
      all: try exact h3.
      all: try (constructor; [exact h5'|exact h4]).
      all: try (intros q [<-|Hq]; [apply positions_root|auto]; fail).
      all: try (intros q [<-|Hq]; [apply positions_root|exact (h5 _ Hq)]).
      all: try (intros x px Hx; destruct (h6 _ _ Hx) as [A B]; split; [exact A|intros X; apply B; exact (r_grow _ _ _ _ _ R _ X)]).
      all: try (intros q Hq; apply in_app_iff in Hq as [Hq|Hq]; [destruct (Hn _ Hq); split; [now right|assumption]|]; destruct (h2 _ Hq) as [A B]; split; [exact A|]; intros X; apply B, in_app_iff; now left).
      all: eapply ran_seq; [exact R|exact h1|exact Hj|apply incl_refl|intros q Hq; now right|auto|]; intros q Q1 Q2; apply h2 in Q2 as [_ Q2]; apply Q2, in_app_iff; now right.
  Qed.

  Lemma lcheck_once e : let w := snd (lcheck_constraint ctx e) in each_once e (evaluated w) /\ each_once e (sized w) /\ each_once e (searched w).
  Proof.
    assert (forall l, each_once e l <-> NoDup l /\ incl l (positions e [])) as Hd by reflexivity. assert (each_once e []) as He by (split; [constructor|intros q []]).
    unfold lcheck_constraint. destruct (lEvalToBool ctx e [] (Some [])) as [[o c] t] eqn:E. assert (forall q, under [] q -> find q (@nil (path * bool)) = None) as H0 by reflexivity.
    destruct (op_bool ctx _ _ _ _ _ _ (lEval_once ctx e) H0 E) as (m1 & -> & R & D). assert (each_once e t) as Ht by (split; apply R).
    destruct o as [[|]|k x|x]; cbn [snd evaluated sized searched]; auto. destruct (D _ eq_refl) as [D1 D2]. unfold lExplain.
    destruct (lMinimal ctx e [] (Some m1) (Some [])) as [[[o2 c2] s2] w2] eqn:E2. destruct (lMinimal_once e _ _ _ _ _ _ _ _ D2 E2) as (m2 & s3 & -> & -> & [h1 h2 h3 h4 h5 h6]).
    assert (each_once e (t ++ evaluated w2)) as H1.
    { split; [|apply incl_app; [apply R|apply h1]]. apply nd_app; [apply R|apply h1|]. intros q Q1 Q2. now apply h2 in Q2. }
    assert (each_once e (sized w2)) as H2 by (split; apply h3). assert (each_once e (searched w2)) as H3 by (split; assumption).
    destruct o2 as [[x px]|k y|y]; cbn [snd plus evaluated sized searched app]; auto.
    destruct (h6 _ _ eq_refl) as [_ B]. specialize (B D1). destruct (find px m2) as [b|] eqn:Eb; [|congruence]. rewrite (hit _ _ _ _ Eb). cbn [snd plus evaluated sized searched app]. rewrite !app_nil_r. auto.
  Qed.
End Ctx.
