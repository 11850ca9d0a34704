(** C93: what a type check does to the expression it is given. *)
From Coq Require Import String List ZArith Bool.
From Verif Require Import Base Num Token Ast Quote Info TypeChecker InPlace SpecTyping TypeFacts SpecInPlace.
Import ListNotations.
Open Scope string_scope.

(** The same statuses, and on success the same expression, as the pure model. *)
Definition as_update (o : outcome expr) (r : outcome unit * expr) : Prop :=
  match o with
  | Ok e' => r = (Ok tt, e')
  | Err c m => fst r = Err c m
  | Crash w => fst r = Crash w
  end.
Lemma quoted_cases : forall (A B : Type) c label src s e text,
  (exists k m, @QuotedError A c label src s e text = Err k m /\ @QuotedError B c label src s e text = Err k m) \/
  (exists w, @QuotedError A c label src s e text = Crash w /\ @QuotedError B c label src s e text = Crash w).
Proof. intros. unfold QuotedError. destruct (QuoteSubConstraint src s e); [left|left|right]; eauto. Qed.
Lemma quoted_update : forall c label src s e text (x : expr),
  as_update (QuotedError c label src s e text) (QuotedError c label src s e text, x).
Proof. intros. destruct (quoted_cases expr unit c label src s e text) as [(k & m & -> & ->)|(w & -> & ->)]; reflexivity. Qed.
Lemma static_update : forall src s e text (x : expr),
  as_update (StaticTypeError src s e text) (StaticTypeError src s e text, x).
Proof. intros. apply quoted_update. Qed.
Lemma stepped_update : forall o r f k parent, as_update o r ->
  (forall e', as_update (f e') (k e')) -> as_update (bind o f) (stepped r k parent).
Proof.
  intros o [s x] f k parent H Hk. unfold stepped. destruct o as [e'|c m|w]; cbn in *.
  - injection H as -> ->. apply Hk.
  - rewrite H. reflexivity.
  - rewrite H. reflexivity.
Qed.
Lemma same_update : forall ai ti e, as_update (Infer ai ti e) (InferInPlace ai ti e).
Proof.
  intros ai ti. induction e; cbn [Infer InferInPlace]; destruct ai as [a|], ti as [t|]; cbn [GetConstraintSource bind]; try reflexivity;
    try apply static_update.
  1: destruct (assoc_find _ _ _) as [ki|]; [|apply static_update]; destruct (illegal_type _); [apply static_update|reflexivity].
  1: destruct (assoc_find _ _ _) as [ki|]; [|apply static_update]; destruct (illegal_type _); [apply static_update|reflexivity].
  1,2,3,4: apply stepped_update; [assumption|]; intros x; destruct (_ (e_type x)); [reflexivity|apply static_update].
  1,2: apply stepped_update; [assumption|]; intros x; apply stepped_update; [assumption|]; intros y.
  1,2: assert (Hu : forall b g src s1 s2 t1 t2 t3, as_update
         (let* (t, l', r') := Unify x y src in
          if (b t : bool) then StaticTypeError src s1 s2 (t1 ++ TypeName t ++ t2) else Ok (set_type TBool (EBin t3 g l' r')))
         (let '(t, (l', r')) := UnifyInPlace x y src in
          match t with
          | Ok t => if b t then (StaticTypeError src s1 s2 (t1 ++ TypeName t ++ t2), EBin t3 g l' r')
                    else (Ok tt, set_type TBool (EBin t3 g l' r'))
          | Err c w => (Err c w, EBin t3 g l' r')
          | Crash w => (Crash w, EBin t3 g l' r')
          end)).
  1,3: intros; unfold Unify, UnifyInPlace; destruct (LeastUpperBound _ _) as [t0|]; cbn [bind];
       [destruct (b t0); [apply static_update|reflexivity]|];
       unfold StaticTypeError; edestruct (quoted_cases (ty * expr * expr) ty) as [(k & w & E1 & E2)|(w & E1 & E2)];
       rewrite E1, E2; reflexivity.
  1,2: destruct op; try reflexivity;
       try (exact (Hu (fun _ => false) _ _ default_loc default_loc "" "" _)); try (apply (Hu (fun t => negb (TypeHasOrdering t))));
       (destruct (negb (is_bool_type (e_type x))); [apply static_update|]);
       (destruct (negb (is_bool_type (e_type y))); [apply static_update|]); reflexivity.
  1,2: apply stepped_update; [assumption|]; intros x; destruct (FieldTypeOfCompositeType _ _); [reflexivity|apply static_update].
  1,2: destruct (GetAttributeInfo _); [|apply static_update]; destruct (illegal_type _); [apply quoted_update|reflexivity].
Qed.

Theorem C93_status : forall ai ti e,
  (forall e', Infer ai ti e = Ok e' <-> InferInPlace ai ti e = (Ok tt, e')) /\
  (forall c m, Infer ai ti e = Err c m <-> fst (InferInPlace ai ti e) = Err c m) /\
  (forall w, Infer ai ti e = Crash w <-> fst (InferInPlace ai ti e) = Crash w).
Proof.
  intros ai ti e. pose proof (same_update ai ti e) as H. unfold as_update in H.
  destruct (InferInPlace ai ti e) as [s x], (Infer ai ti e) as [e0|c0 m0|w0]; cbn [fst] in *;
    [injection H as -> ->|subst s|subst s]; repeat split; intros; congruence.
Qed.
Print Assumptions C93_status.

(** The status of a call decides what it did. *)
Lemma accepted_iff : forall ai ti e, accepted ai ti e <-> Infer ai ti e = Ok (left_with ai ti e).
Proof.
  intros ai ti e. unfold accepted, left_with. pose proof (proj1 (C93_status ai ti e)) as H.
  destruct (InferInPlace ai ti e) as [s x]. cbn [fst snd]. rewrite (H x). split; [now intros ->|now intros [= ->]].
Qed.

(** * Only types and casts *)
Lemma bare_cast : forall e t, bare (CastTransitivelyTo e t) = bare e.
Proof. intros e t. unfold CastTransitivelyTo, WrapWithCast. repeat destruct (_ && _); reflexivity. Qed.
Lemma bare_set : forall t e, bare (set_type t e) = bare e.
Proof. intros t e. destruct e; reflexivity. Qed.
Lemma snd_stepped : forall (P : expr -> Prop) r k parent, P (parent (snd r)) -> P (snd (k (snd r))) -> P (snd (stepped r k parent)).
Proof. intros P [s x] k parent H1 H2. unfold stepped. cbn in *. destruct s; assumption. Qed.

Theorem C93_only_types_and_casts : forall ai ti e, bare (left_with ai ti e) = bare e.
Proof.
  intros ai ti e. unfold left_with. induction e; cbn [InferInPlace]; destruct ai as [a|], ti as [t|]; cbn [GetConstraintSource]; try reflexivity;
    try (destruct (assoc_find _ _ _); reflexivity); try (destruct (GetAttributeInfo _); reflexivity).
  1,2,3,4: apply (snd_stepped (fun x => bare x = _)); [cbn; congruence|]; destruct (_ (e_type _)); cbn; congruence.
  1,2: apply (snd_stepped (fun x => bare x = _)); [cbn; congruence|]; apply (snd_stepped (fun x => bare x = _)); [cbn; congruence|].
  1,2: destruct op; unfold UnifyInPlace; repeat destruct (negb _); try destruct (LeastUpperBound _ _);
       try destruct (@StaticTypeError ty _ _ _ _); repeat destruct (negb _); cbn; rewrite ?bare_cast; congruence.
  1,2: apply (snd_stepped (fun x => bare x = _)); [cbn; congruence|]; destruct (FieldTypeOfCompositeType _ _); cbn; congruence.
Qed.
Print Assumptions C93_only_types_and_casts.

(** * The types on the argument are not read *)
Lemma infer_retyped : forall ai ti e e', retyped e e' -> Infer ai ti e = Infer ai ti e'.
Proof.
  intros ai ti e e' H.
  assert (Hm : forall m m' t, same_place m m' -> mkMeta (m_start m) (m_end m) t = mkMeta (m_start m') (m_end m') t) by (intros m m' t [-> ->]; reflexivity).
  induction H; try (destruct H as [Hs He]); cbn [Infer]; unfold e_start, e_end; cbn [emeta]; rewrite ?Hs, ?He; cbn [set_type]; rewrite ?Hs, ?He;
    try reflexivity; try (rewrite IHretyped; reflexivity); try (rewrite IHretyped1, IHretyped2; reflexivity).
Qed.

Theorem C93_types_not_read : forall ai ti e e', retyped e e' ->
  fst (InferInPlace ai ti e) = fst (InferInPlace ai ti e') /\
  (accepted ai ti e -> left_with ai ti e = left_with ai ti e').
Proof.
  intros ai ti e e' H. apply (infer_retyped ai ti) in H. pose proof (same_update ai ti e) as H1. pose proof (same_update ai ti e') as H2.
  unfold accepted, left_with. rewrite <- H in H2. destruct (Infer ai ti e) as [x|c m|w]; cbn in H1, H2.
  - rewrite H1, H2. auto.
  - split; congruence.
  - split; congruence.
Qed.
Print Assumptions C93_types_not_read.

(** * An expression with a cast is never accepted *)
Theorem C93_casts_rejected : forall ai ti e, has_cast e -> ~ accepted ai ti e.
Proof.
  intros ai ti e H Ha. apply accepted_iff in Ha. revert Ha. generalize (left_with ai ti e) as e'. revert H.
  assert (Hq : forall (x : expr) src s z text, StaticTypeError src s z text <> Ok x)
    by (intros x src s z text; unfold StaticTypeError, QuotedError; destruct (QuoteSubConstraint _ _ _); discriminate).
  assert (Hf : forall z e', Infer ai ti z = Ok e' -> has_cast z -> False).
  { clear e. induction z; intros e' H Hc; inversion Hc; subst; cbn [Infer] in H; destruct ai as [a|], ti as [t|]; cbn [GetConstraintSource bind] in H;
      try discriminate H; try (exact (Hq _ _ _ _ _ H)).
    all: match type of H with context [Infer ?a ?b ?o] =>
           destruct (Infer a b o) as [x|c w|w] eqn:E1; [|discriminate H|discriminate H]; cbn [bind] in H end;
         try (match type of H with context [Infer ?a ?b ?o] =>
           destruct (Infer a b o) as [y|c w|w] eqn:E2; [|discriminate H|discriminate H] end);
         eauto. }
  intros Hc e' H. exact (Hf e e' H Hc).
Qed.
Print Assumptions C93_casts_rejected.

(** * What is left *)
Lemma same_refl : forall m, same_place m m.
Proof. intros m. split; reflexivity. Qed.
Lemma same_typed : forall m t, same_place m (mkMeta (m_start m) (m_end m) t).
Proof. intros m t. split; reflexivity. Qed.
Lemma retyped_refl : forall e, retyped e e.
Proof. induction e; constructor; auto using same_refl. Qed.
Lemma retyped_set : forall t e e', (forall m, e <> ENotSet m) -> retyped e e' -> retyped e (set_type t e').
Proof. intros t e e' Hn H. destruct H; cbn [set_type]; try (constructor; auto; fail). now destruct (Hn m). Qed.
Lemma retyped_cast : forall e e', retyped e e' -> has_cast e <-> has_cast e'.
Proof. intros e e' H. induction H; split; intros Hc; inversion Hc; subst; try (constructor; tauto); fail. Qed.
Lemma cast_set : forall t e, has_cast (set_type t e) <-> has_cast e.
Proof. intros t e. split; intros H; destruct e; inversion H; subst; solve [constructor; assumption]. Qed.
Lemma cast_cases : forall e t, CastTransitivelyTo e t = e \/ has_cast (CastTransitivelyTo e t).
Proof. intros e t. unfold CastTransitivelyTo, WrapWithCast. repeat destruct (_ && _); auto using hc_here. Qed.
Definition kept (e e' : expr) : Prop := has_cast e' \/ retyped e e'.
Lemma kept_set : forall t e e', (forall m, e <> ENotSet m) -> kept e e' -> kept e (set_type t e').
Proof. intros t e e' Hn [H|H]; [left; now apply cast_set|right; now apply retyped_set]. Qed.
Lemma kept_bin : forall m o a a' b b', kept a a' -> kept b b' -> kept (EBin m o a b) (EBin m o a' b').
Proof.
  intros m o a a' b b' [Ha|Ha] [Hb|Hb]; try (left; now apply hc_left); try (left; now apply hc_right).
  right. now apply rt_bin; [apply same_refl| |].
Qed.
Lemma kept_cast : forall e e' t, kept e e' -> kept e (CastTransitivelyTo e' t).
Proof. intros e e' t H. destruct (cast_cases e' t) as [->|Hc]; [exact H|left; exact Hc]. Qed.

Lemma left_kept : forall ai ti e, kept e (left_with ai ti e).
Proof.
  intros ai ti e. unfold left_with.
  assert (Hr : forall e, kept e e) by (intros x; right; apply retyped_refl).
  assert (Hn : forall m a a', kept a a' -> kept (ENot m a) (ENot m a'))
    by (intros m a a' [H|H]; [left; now constructor|right; constructor; [apply same_refl|exact H]]).
  assert (Hg : forall m a a', kept a a' -> kept (ENeg m a) (ENeg m a'))
    by (intros m a a' [H|H]; [left; now constructor|right; constructor; [apply same_refl|exact H]]).
  assert (Hf : forall m f a a', kept a a' -> kept (EField m f a) (EField m f a'))
    by (intros m f a a' [H|H]; [left; now constructor|right; constructor; [apply same_refl|exact H]]).
  induction e; cbn [InferInPlace]; destruct ai as [a|], ti as [t|]; cbn [GetConstraintSource]; try apply Hr;
    try (cbn [snd]; apply kept_set; [discriminate|apply Hr]);
    try (destruct (assoc_find _ _ _); cbn [snd]; [apply kept_set; [discriminate|apply Hr]|apply Hr]);
    try (destruct (GetAttributeInfo _); cbn [snd]; [apply kept_set; [discriminate|apply Hr]|apply Hr]).
  1,2,3,4: apply (snd_stepped (kept _)); [auto|]; destruct (_ (e_type _)); cbn [snd]; [apply kept_set; [discriminate|auto]|auto].
  1,2: apply (snd_stepped (kept _)); [apply kept_bin; auto|]; apply (snd_stepped (kept _)); [apply kept_bin; auto|].
  1,2: destruct op; unfold UnifyInPlace; repeat destruct (negb _); try destruct (LeastUpperBound _ _);
       try destruct (@StaticTypeError ty _ _ _ _); repeat destruct (negb _); cbn [snd];
       try (apply kept_set; [discriminate|]); apply kept_bin; try apply kept_cast; auto.
  1,2: apply (snd_stepped (kept _)); [auto|]; destruct (FieldTypeOfCompositeType _ _); cbn [snd]; [apply kept_set; [discriminate|auto]|auto].
Qed.

(** The caller holds either the same tree with other types, or a tree with a cast. *)
Theorem C93_left_over : forall ai ti e,
  (has_cast e -> has_cast (left_with ai ti e)) /\
  (~ has_cast (left_with ai ti e) -> retyped e (left_with ai ti e)).
Proof.
  intros ai ti e. destruct (left_kept ai ti e) as [H|H]; [tauto|]. split; [now apply (retyped_cast _ _ H)|auto].
Qed.
Print Assumptions C93_left_over.

(** A later call, with the same or another declaration, accepts what is left exactly if
    no cast is left and it accepts the expression as it was; it then yields the same tree. *)
Theorem C93_later_call : forall ai ti ai' ti' e,
  (accepted ai' ti' (left_with ai ti e) <-> ~ has_cast (left_with ai ti e) /\ accepted ai' ti' e) /\
  (accepted ai' ti' (left_with ai ti e) -> left_with ai' ti' (left_with ai ti e) = left_with ai' ti' e).
Proof.
  intros ai ti ai' ti' e. set (x := left_with ai ti e).
  assert (Hx : accepted ai' ti' x -> retyped e x).
  { intros Ha. apply (C93_left_over ai ti e). intros Hc. exact (C93_casts_rejected ai' ti' x Hc Ha). }
  split; [split|].
  - intros Ha. split; [intros Hc; exact (C93_casts_rejected ai' ti' x Hc Ha)|].
    unfold accepted. rewrite (proj1 (C93_types_not_read ai' ti' e x (Hx Ha))). exact Ha.
  - intros [Hn Ha]. pose proof (proj2 (C93_left_over ai ti e) Hn) as H. unfold accepted.
    rewrite <- (proj1 (C93_types_not_read ai' ti' e x H)). exact Ha.
  - intros Ha. symmetry. apply (C93_types_not_read ai' ti' e x (Hx Ha)). unfold accepted.
    rewrite (proj1 (C93_types_not_read ai' ti' e x (Hx Ha))). exact Ha.
Qed.
Print Assumptions C93_later_call.
(** In particular: a failed check stays failed, and a successful one may be repeated
    exactly if it inserted no cast. *)
Theorem C93_same_call : forall ai ti e,
  (~ accepted ai ti e -> ~ accepted ai ti (left_with ai ti e)) /\
  (accepted ai ti e -> (accepted ai ti (left_with ai ti e) <-> ~ has_cast (left_with ai ti e))) /\
  (accepted ai ti (left_with ai ti e) -> left_with ai ti (left_with ai ti e) = left_with ai ti e).
Proof.
  intros ai ti e. pose proof (C93_later_call ai ti ai ti e) as [H1 H2]. tauto.
Qed.
Print Assumptions C93_same_call.


(** * Where a failed check stops *)
Lemma finished_iff : forall ai ti G e, in_scope ai ti G -> fst (InferInPlace ai ti e) = Ok tt -> finished G e (snd (InferInPlace ai ti e)).
Proof.
  intros ai ti G e HG H. apply accepted_iff in H. destruct (infer_ok ai ti G HG e _ H) as (_ & H1 & H2 & _). split; assumption.
Qed.
Lemma step_stops : forall G a e r k parent, (fst r = Ok tt -> finished G a (snd r)) -> (fst r <> Ok tt -> stopped G a (snd r)) ->
  (forall x, finished G a x -> fst (k x) <> Ok tt -> stopped G e (snd (k x))) ->
  (forall x, stopped G a x -> stopped G e (parent x)) ->
  fst (stepped r k parent) <> Ok tt -> stopped G e (snd (stepped r k parent)).
Proof.
  intros G a e [s x] k parent H1 H2 H3 H4. unfold stepped. cbn [fst snd] in *. destruct s as [[]|c m|w]; [auto| |]; intros _; apply H4, H2; discriminate.
Qed.
Lemma finished_cast : forall G a x t, finished G a x -> convertible (e_type x) t ->
  finished G a (CastTransitivelyTo x t) /\ e_type (CastTransitivelyTo x t) = t.
Proof.
  intros G a x t [Hb Ha] Hc. destruct (cast_spec G x t Ha Hc) as (H1 & H2 & H3 & _). split; [split; [congruence|exact H1]|exact H2].
Qed.
Lemma key_found : forall l n, NoDup (map fst l) ->
  match assoc_find String.eqb n l with
  | Some k => declared l n (k_type k)
  | None => forall t, ~ declared l n t
  end.
Proof.
  intros l n HN. destruct (assoc_find String.eqb n l) as [k|] eqn:E.
  - exists k. split; [now apply (find_declared _ _ _ HN)|reflexivity].
  - intros t (k & Hk & _). apply (find_declared _ _ _ HN) in Hk. congruence.
Qed.
Theorem C93_where_it_stops : forall ai ti G e, in_scope ai ti G ->
  (accepted ai ti e -> finished G e (left_with ai ti e)) /\
  (~ accepted ai ti e -> stopped G e (left_with ai ti e)).
Proof.
  intros ai ti G e HG. split; [apply finished_iff; exact HG|]. unfold accepted, left_with.
  assert (Hfin := fun e => finished_iff ai ti G e HG).
  induction e; intros H.
  - exfalso. apply H. destruct HG; reflexivity.
  - exfalso. apply H. destruct HG; reflexivity.
  - cbn [InferInPlace] in *. destruct HG as [t HN|a HN]; cbn [GetConstraintSource] in *.
    + pose proof (key_found _ name HN) as Hk. destruct (assoc_find _ _ _) as [ki|]; cbn [fst snd set_type] in *.
      * apply st_key_type; [exists (ti_keys_by_name t); auto|]. intros Hu. apply illegal_usable in Hu. rewrite Hu in H. now apply H.
      * apply st_key. intros t0 (keys & [= <-] & Hd). exact (Hk _ Hd).
    + apply st_key. intros t0 (keys & E & _). discriminate E.
  - cbn [InferInPlace] in *. destruct HG as [t HN|a HN]; cbn [GetConstraintSource] in *.
    + apply st_param. intros t0 (keys & E & _). discriminate E.
    + pose proof (key_found _ name HN) as Hk. unfold param_info in *. destruct (assoc_find _ _ _) as [ki|]; cbn [fst snd set_type] in *.
      * apply st_param_type; [exists (ai_params_by_name a); auto|]. intros Hu. apply illegal_usable in Hu. rewrite Hu in H. now apply H.
      * apply st_param. intros t0 (keys & [= <-] & Hd). exact (Hk _ Hd).
  - revert H. cbn [InferInPlace]. destruct HG; cbn [GetConstraintSource];
      (apply (step_stops _ e); [apply Hfin|exact IHe| |intros x Hx; now apply st_not_in]);
      intros x Hx; destruct (is_bool_type (e_type x)) eqn:E; cbn [fst snd]; try congruence; intros _; apply st_not; auto;
      intros E'; apply bool_iff in E'; congruence.
  - revert H. cbn [InferInPlace]. destruct HG; cbn [GetConstraintSource];
      (apply (step_stops _ e); [apply Hfin|exact IHe| |intros x Hx; now apply st_neg_in]);
      intros x Hx; destruct (is_int_type (e_type x)) eqn:E; cbn [fst snd]; try congruence; intros _; apply st_neg; auto;
      intros E'; apply int_iff in E'; congruence.
  - destruct HG; apply st_cast.
  - revert H. cbn [InferInPlace].
    destruct HG as [t HN|a HN]; cbn [GetConstraintSource].
    1: set (G := InTable _) in *. 2: set (G := InAction _) in *.
    all: apply (step_stops G e1); [apply Hfin|exact IHe1| |intros x Hx; now apply st_left].
    all: intros x Hx; apply (step_stops G e2); [apply Hfin|exact IHe2| |intros y Hy; now apply st_right].
    all: intros y Hy.
    all: assert (Hc : forall src, connective op -> fst (if negb (is_bool_type (e_type x)) then
                (StaticTypeError src (e_start x) (e_end x) ("expected type bool, got " ++ TypeName (e_type x)), EBin m op x y)
              else if negb (is_bool_type (e_type y)) then
                (StaticTypeError src (e_start y) (e_end y) ("expected type bool, got " ++ TypeName (e_type y)), EBin m op x y)
              else (Ok tt, set_type TBool (EBin m op x y))) <> Ok tt -> stopped G (EBin m op e1 e2)
              (snd (if negb (is_bool_type (e_type x)) then
                (StaticTypeError src (e_start x) (e_end x) ("expected type bool, got " ++ TypeName (e_type x)), EBin m op x y)
              else if negb (is_bool_type (e_type y)) then
                (StaticTypeError src (e_start y) (e_end y) ("expected type bool, got " ++ TypeName (e_type y)), EBin m op x y)
              else (Ok tt, set_type TBool (EBin m op x y)))))
      by (intros src Hop; destruct (is_bool_type (e_type x)) eqn:E1; cbn [negb];
          [destruct (is_bool_type (e_type y)) eqn:E2; cbn [negb fst]; [congruence|]|]; intros _; cbn [snd]; apply st_conn; auto;
          intros [T1 T2]; apply bool_iff in T1, T2; congruence).
    all: assert (Hn : forall src b, (b = (fun _ => false) /\ equality op) \/ (b = (fun t => negb (TypeHasOrdering t)) /\ ordering op) ->
              let r := (let '(t, (l', r')) := UnifyInPlace x y src in
              match t with
              | Ok t => if (b t : bool) then
                    (StaticTypeError src (e_start (EBin m op e1 e2)) (e_end (EBin m op e1 e2))
                      ("operand type " ++ TypeName t ++ " does not support ordered comparison"), EBin m op l' r')
                  else (Ok tt, set_type TBool (EBin m op l' r'))
              | Err c w => (Err c w, EBin m op l' r')
              | Crash w => (Crash w, EBin m op l' r')
              end) in fst r <> Ok tt -> stopped G (EBin m op e1 e2) (snd r)).
    1,3: intros src b Hb; cbv zeta; unfold UnifyInPlace; destruct (LeastUpperBound (e_type x) (e_type y)) as [t0|] eqn:El;
      [apply lub_iff in El; pose proof El as (C1 & C2 & _);
       destruct (finished_cast G _ _ _ Hx C1) as [X1 X2], (finished_cast G _ _ _ Hy C2) as [Y1 Y2];
       destruct Hb as [[-> Hop]|[-> Hop]]; cbn [fst]; [congruence|];
       destruct (TypeHasOrdering t0) eqn:Eo; cbn [negb fst]; [congruence|]; intros _; cbn [snd];
       apply st_order; auto; [congruence|rewrite X2; intros Ho; apply ordering_iff in Ho; congruence]
      |assert (Hs : stopped G (EBin m op e1 e2) (EBin m op x y));
       [apply st_unify; [tauto|assumption|assumption|]; intros t0 Ht; apply lub_iff in Ht; congruence
       |unfold StaticTypeError; edestruct (quoted_cases ty ty) as [(k & w & E1 & _)|(w & E1 & _)]; rewrite E1; intros _; exact Hs] ].
    all: destruct op; try (apply Hc; constructor);
      try (apply (Hn _ (fun _ => false)); left; split; [reflexivity|constructor]);
      try (apply (Hn _ (fun t => negb (TypeHasOrdering t))); right; split; [reflexivity|constructor]);
      intros _; cbn [snd]; now apply st_operator.
  - revert H. cbn [InferInPlace]. destruct HG; cbn [GetConstraintSource];
      (apply (step_stops _ e); [apply Hfin|exact IHe| |intros x Hx; now apply st_field_in]);
      intros x Hx; destruct (FieldTypeOfCompositeType (e_type x) field) eqn:E; cbn [fst snd]; try congruence; intros _; apply st_field; auto;
      intros t0 E'; apply field_iff in E'; congruence.
  - cbn [InferInPlace] in *. unfold GetAttributeInfo in *.
    destruct HG; cbn [GetConstraintSource] in *; (destruct (String.eqb_spec name "priority") as [->|Hn]; [exfalso; now apply H|apply st_attr; exact Hn]).
  - destruct HG; apply st_unset.
Qed.
Print Assumptions C93_where_it_stops.

(** * Cases *)
Definition ip_table (keys : list (string * ty)) : table_info :=
  mkTable 1 "t" None default_csource [] (map (fun p => (fst p, mkKey 1 (fst p) (snd p))) keys).
Definition ip_one := ip_table [("k", TExact 8)].
Definition ip_two := ip_table [("k", TExact 8); ("q", TExact 8)].
(** k == 1 && q == 2 *)
Definition ip_expr : expr :=
  EBin default_meta OAND (EBin default_meta OEQ (EKey default_meta "k") (EInt default_meta "1"))
    (EBin default_meta OEQ (EKey default_meta "q") (EInt default_meta "2")).
(** The failed attempt is felt: the table with both keys accepts the expression, but not
    any more after the table without q has been tried on it; and trying that one again
    gives another message. *)
Theorem C93_must_copy : exists t1 t2 e,
  ~ accepted None (Some t1) e /\ accepted None (Some t2) e /\
  ~ accepted None (Some t2) (left_with None (Some t1) e) /\
  fst (InferInPlace None (Some t1) (left_with None (Some t1) e)) <> fst (InferInPlace None (Some t1) e).
Proof.
  exists ip_one, ip_two, ip_expr. unfold accepted. repeat split; try (vm_compute; discriminate).
Qed.
Print Assumptions C93_must_copy.
(** Without casts a failed attempt is not felt: k == q with other widths. *)
Example C93_case : exists e,
  ~ accepted None (Some (ip_table [("k", TExact 8); ("q", TExact 9)])) e /\
  left_with None (Some (ip_table [("k", TExact 8); ("q", TExact 9)])) e <> e /\
  ~ has_cast (left_with None (Some (ip_table [("k", TExact 8); ("q", TExact 9)])) e) /\
  accepted None (Some ip_two) (left_with None (Some (ip_table [("k", TExact 8); ("q", TExact 9)])) e) /\
  has_cast (left_with None (Some ip_two) ip_expr) /\ accepted None (Some ip_two) ip_expr.
Proof.
  exists (EBin default_meta OEQ (EKey default_meta "k") (EKey default_meta "q")). unfold accepted.
  split; [vm_compute; discriminate|]. split; [vm_compute; discriminate|].
  split; [vm_compute; intros H; inversion H as [| | | ? ? ? ? H1 | ? ? ? ? H1 |]; inversion H1|].
  split; [vm_compute; reflexivity|]. split; [|vm_compute; reflexivity].
  vm_compute. apply hc_left, hc_right, hc_here.
Qed.
(** The left comparison is finished, the right one as it was, the conjunction untyped. *)
Example C93_stops_case : in_scope None (Some ip_one) (InTable (ti_keys_by_name ip_one)) /\ ~ accepted None (Some ip_one) ip_expr /\
  exists a b c, left_with None (Some ip_one) ip_expr = EBin default_meta OAND a b /\
    finished (InTable (ti_keys_by_name ip_one)) (EBin default_meta OEQ (EKey default_meta "k") (EInt default_meta "1")) a /\
    ip_expr = EBin default_meta OAND c b.
Proof.
  assert (HG : in_scope None (Some ip_one) (InTable (ti_keys_by_name ip_one))) by (constructor; repeat constructor; intros []).
  split; [exact HG|]. split; [unfold accepted; vm_compute; discriminate|].
  exists (left_with None (Some ip_one) (EBin default_meta OEQ (EKey default_meta "k") (EInt default_meta "1"))).
  do 2 eexists. split; [vm_compute; reflexivity|]. split; [|reflexivity].
  apply (C93_where_it_stops _ _ _ _ HG). vm_compute. reflexivity.
Qed.
