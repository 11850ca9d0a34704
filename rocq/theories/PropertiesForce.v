(** C85: the reported part of a constraint is the smallest that forces the verdict. *)
From Coq Require Import String Ascii List ZArith NArith Bool Lia.
From Verif Require Import Base Num Token Ast Quote AstConstructors Parser Info TypeChecker ConstraintInfo Interpreter SpecTyping TypeFacts LiteralFacts SpecSemantics SpecInfo SpecForce EvalFacts SemFacts EntryFacts ExplainFacts InterpFacts VerdictFacts ForceFacts PropertiesParser PropertiesInfo PropertiesInterpreter PropertiesVerdict PropertiesExplain.
Import ListNotations.
Open Scope string_scope.

(** A rejection quotes a part [s] that, with the truth value [b] it states, forces the constraint to be false whatever
    all parts beside it are. Every other part that forces it is larger, or of the same size and further right. *)
Theorem C85_smallest_forcing : forall ci entry text, ReasonEntryViolatesConstraint entry ci = Ok text -> text <> "" ->
  exists ctx e q s b, Checked ci entry ctx e /\ At e q s /\ value_of ctx s = Ok (VBool b) /\ text_start ctx s b text /\ Forces e q b false /\
    forall q' s' b' n n', At e q' s' -> value_of ctx s' = Ok (VBool b') -> Forces e q' b' false -> Nodes s n -> Nodes s' n' ->
      (n < n')%Z \/ (n = n' /\ (q' = q \/ left_of q q')).
Proof.
  intros ci entry text H Hne. destruct (violation_checked _ _ _ H Hne) as (ctx & e & Hck & Hc). apply check_rejects in Hc as (Hf & s & p & b & r & Hm & Hs & Hq & ->); [|exact Hne].
  pose proof Hm as Hm'. apply minimal_best in Hm' as (q & _ & [Hb Hmin]).
  exists ctx, e, q, s, b. split; [exact Hck|]. split; [exact (Blamable_At _ _ _ _ Hb)|]. split; [rewrite value_ev; now apply ev_bool_ok|]. split; [now apply text_starts|].
  split; [exact (blamable_forces ctx e q s Hb false b Hf Hs)|].
  intros q' s' b' n n' Ha Hv HF Hn Hn'. rewrite value_ev in Hv. apply ev_bool_ok in Hv.
  destruct (forced_blamable ctx b' s' Hv e _ _ false q' Hm Hf Ha HF) as (q2 & s2 & H1 & H2). destruct (blamable_size _ _ _ _ H2 _ Hn') as (k & K1 & K2 & K3).
  destruct (Hmin _ _ _ _ H1 Hn K1) as [L E]. destruct (Z.eq_dec n n') as [->|]; [|left; clear - L K2 n0; lia].
  right. split; [reflexivity|]. assert (k = n') as -> by (clear - L K2; lia). rewrite (K3 eq_refl), app_nil_r in E. apply E. reflexivity.
Qed.
Print Assumptions C85_smallest_forcing.
(** A part forces the truth value of the whole only if it is sufficient for it, for every entry (C31). *)
Theorem C85_forcing_sufficient : forall e q s b v, At e q s -> Forces e q b v -> forall ctx x, value_of ctx s = Ok (VBool b) -> value_of ctx e = Ok (VBool x) -> x = v.
Proof.
  intros e q s b v Ha HF ctx x H1 H2. rewrite value_ev in *. apply ev_bool_ok in H1, H2. apply HF. exact (could_actual ctx b q s H1 e x Ha H2).
Qed.
Print Assumptions C85_forcing_sufficient.
(** Two parts force the verdict here; the smaller one is quoted. In [false || k == 1] (C32) neither operand forces it. *)
Definition fc_decl : p4_table := mkP4Table (mkPre 1 "t" [restriction "entry" ["(k == 1 || k == 2) && k == 3"]]) [mkMF 1 "k" 8 (MMatchType MTExact)].
Definition fc_ci : constraint_info := Eval vm_compute in the (mkInfo [] []) (P4ToConstraintInfo pton1 (mkP4Info [fc_decl] [])).
Definition fc_entry : p4_entry := mkEntry 1 [mkFM 1 (FMExact "a")] None 0.
Definition fc_tree : expr := Eval vm_compute in match GetTableInfoOrNull fc_ci 1 with Some t => match ti_constraint t with Some e => e | None => ENotSet (mkMeta default_loc default_loc TUnknown) end | None => ENotSet (mkMeta default_loc default_loc TUnknown) end.
Lemma fc_loaded : P4ToConstraintInfo pton1 (mkP4Info [fc_decl] []) = Ok fc_ci.
Proof. vm_compute. reflexivity. Qed.
Example C85_case : (exists text, ReasonEntryViolatesConstraint fc_entry fc_ci = Ok text /\ text <> "") /\ Forces fc_tree [false] false false /\ Forces fc_tree [true] false false /\ ~ Forces fc_tree [false; false] false false.
Proof.
  split; [eexists; split; [vm_compute; reflexivity|discriminate]|]. unfold fc_tree. split; [|split].
  - intros x Hx. inversion Hx as [| |? ? ? ? ? x' y' _ H| |? ? ? ? N1 N2]; subst; [inversion H; subst; reflexivity|]. exfalso. exact (N2 _ _ _ _ c_and eq_refl).
  - intros x Hx. inversion Hx as [| | |? ? ? ? ? x' y' _ H|? ? ? ? N1 N2]; subst; [inversion H; subst; now destruct x'|]. exfalso. exact (N2 _ _ _ _ c_and eq_refl).
  - intros H. specialize (H (truth OAND (truth OOR false true) true)). discriminate H. apply cd_left; [constructor|]. apply cd_left; constructor.
Qed.
