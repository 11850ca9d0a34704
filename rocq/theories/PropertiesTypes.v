(** C17-C20: the type checker. *)
From Coq Require Import String Ascii List ZArith NArith Bool Lia.
From Verif Require Import Base Num Token Ast Quote Info TypeChecker SpecTyping TypeFacts.
Import ListNotations.
Open Scope string_scope.

(** * C17 *)
Theorem C17_castability_order :
  (forall a b, StrictlyAbove b a = true <-> below a b) /\
  (forall a, ~ below a a) /\
  (forall a b c, below a b -> below b c -> below a c) /\
  (forall a b, below a b -> ~ below b a).
Proof.
  split; [intros a b; apply above_iff|]. split; [exact below_irrefl|]. split; [exact below_tr|].
  intros a b H1 H2. exact (below_irrefl a (below_tr _ _ _ H1 H2)).
Qed.
Print Assumptions C17_castability_order.
Theorem C17_least_upper_bound : forall a b,
  (forall c, LeastUpperBound a b = Some c <-> common a b c) /\
  (LeastUpperBound a b = None <-> forall d, ~ (convertible a d /\ convertible b d)) /\
  (forall c c', common a b c -> common a b c' -> c = c').
Proof.
  intros a b. split; [intros c; apply lub_iff|]. split; [|intros c c'; apply common_fun]. split.
  - intros H d [H1 H2]. exact (lub_none _ _ _ H H1 H2).
  - intros H. destruct (LeastUpperBound a b) as [c|] eqn:E; [|reflexivity]. apply lub_iff in E as (H1 & H2 & _). destruct (H c). auto.
Qed.
Print Assumptions C17_least_upper_bound.
Example C17_case : common TInt (TLpm 32) (TLpm 32) /\ LeastUpperBound (TBit 8) (TExact 16) = None /\ below TInt (TRange 5).
Proof. split; [apply lub_iff; reflexivity|]. split; [reflexivity|]. now apply above_iff. Qed.
(** The debug assertions of the cast insertion (type_checker.cc:149, 159) hold. *)
Theorem C17_cast_assertions : forall G e t, Annotated G e -> convertible (e_type e) t ->
  e_type (CastTransitivelyTo e t) = t /\ (StrictlyAbove t (e_type e) = true -> e_type e = TInt -> exists w, TypeBitwidth t = Some w).
Proof.
  intros G e t He Hc. split; [exact (proj1 (proj2 (cast_spec G e t He Hc)))|]. intros Ha Et. rewrite Et in Ha. destruct t; try discriminate; eexists; reflexivity.
Qed.
Print Assumptions C17_cast_assertions.

(** * C18 *)
Theorem C18_typechecker_iff : forall ai ti G e t, in_scope ai ti G ->
  ((exists e', Infer ai ti e = Ok e' /\ e_type e' = t) <-> Typed G e t).
Proof.
  intros ai ti G e t HG. split; [|apply infer_complete; exact HG]. intros (e' & H & <-). exact (proj1 (infer_ok ai ti G HG e e' H)).
Qed.
Print Assumptions C18_typechecker_iff.
Theorem C18_types_unique : forall ai ti G e t t', in_scope ai ti G -> Typed G e t -> Typed G e t' -> t = t'.
Proof. intros ai ti G e t t' HG. exact (typed_fun ai ti G HG e t t'). Qed.
Print Assumptions C18_types_unique.
(** The public overloads. *)
Theorem C18_public : forall e t,
  (forall ti, NoDup (map fst (ti_keys_by_name ti)) ->
     ((exists e', InferTable e ti = Ok e' /\ e_type e' = t) <-> Typed (InTable (ti_keys_by_name ti)) e t)) /\
  (forall ai, NoDup (map fst (ai_params_by_name ai)) ->
     ((exists e', InferAction e ai = Ok e' /\ e_type e' = t) <-> Typed (InAction (ai_params_by_name ai)) e t)).
Proof. intros e t. split; intros x Hx; apply C18_typechecker_iff; now constructor. Qed.
Print Assumptions C18_public.
(** A table with a ternary key and a typed constraint: k == 5 -> ! (k::mask < 3). *)
Definition ex_table : table_info :=
  mkTable 1 "t" None default_csource [(1%N, mkKey 1 "k" (TTernary 8))] [("k", mkKey 1 "k" (TTernary 8))].
Definition ex_expr : expr :=
  EBin default_meta OIMPLIES (EBin default_meta OEQ (EKey default_meta "k") (EInt default_meta "5"))
    (ENot default_meta (EBin default_meta OLT (EField default_meta "mask" (EKey default_meta "k")) (EInt default_meta "3"))).
Example C18_case : in_scope None (Some ex_table) (InTable (ti_keys_by_name ex_table)) /\ Typed (InTable (ti_keys_by_name ex_table)) ex_expr TBool.
Proof.
  assert (in_scope None (Some ex_table) (InTable (ti_keys_by_name ex_table))) as H.
  { constructor. repeat constructor. intros []. }
  split; [exact H|]. apply (C18_typechecker_iff _ _ _ _ _ H). eexists. split; vm_compute; reflexivity.
Qed.
Example C18_rejects : forall t, ~ Typed (InTable (ti_keys_by_name ex_table)) (EBin default_meta OLT (EKey default_meta "k") (EInt default_meta "5")) t.
Proof.
  intros t H. apply (C18_typechecker_iff None (Some ex_table)) in H as (e' & H & _); [|constructor; repeat constructor; intros []]. vm_compute in H. discriminate H.
Qed.

(** * C19 *)
Theorem C19_only_types_and_casts : forall ai ti G e e', in_scope ai ti G -> Infer ai ti e = Ok e' ->
  bare e' = bare e /\ Annotated G e'.
Proof. intros ai ti G e e' HG H. destruct (infer_ok ai ti G HG e e' H) as (_ & H1 & H2 & _). auto. Qed.
Print Assumptions C19_only_types_and_casts.
Example C19_case : exists e', Infer None (Some ex_table) ex_expr = Ok e' /\ has_cast e'.
Proof. eexists. split; [vm_compute; reflexivity|]. apply hc_left, hc_right, hc_here. Qed.

(** * C20 *)
Theorem C20_casts_rejected : forall ai ti G e e', in_scope ai ti G -> has_cast e -> Infer ai ti e <> Ok e'.
Proof.
  intros ai ti G e e' HG Hc H. destruct (infer_ok ai ti G HG e e' H) as (HT & _). exact (typed_no_cast G e _ HT Hc).
Qed.
Print Assumptions C20_casts_rejected.
Example C20_case : has_cast (ENot default_meta (ECast default_meta (EBool default_meta true))).
Proof. constructor. constructor. Qed.
