(** Constraint trees that no type checker has seen, evaluated on entries (C87). *)
From Coq Require Import String List ZArith Bool.
From Verif Require Import Base Num Token Ast Quote Info TypeChecker Interpreter SpecParser SpecTyping SpecSemantics SpecYields EvalFacts SemFacts SemFacts2 CrashFacts VerdictFacts YieldsFacts ConstraintInfo TypeFacts InterpFacts2 PropertiesParser PropertiesVerdict.
Import ListNotations.
Open Scope string_scope.

(** Eval gives a value exactly when the parts it reaches have fitting values, with or without a cache. *)
Theorem C87_evaluates : forall ctx r e v, provides (ec_ctx ctx) r ->
  (fst (Eval ctx e [] None) = Ok v <-> Yields r e v) /\ (fst (Eval ctx e [] (Some [])) = Ok v <-> Yields r e v).
Proof.
  intros ctx r e v Hr. rewrite (provides_iff ctx r Hr). assert (ev ctx e = Ok v <-> Yields (env_of ctx) e v) as H by (split; [apply ev_yields|apply yields_ev]).
  split; [rewrite Eval_none; exact H|]. assert (cache_ok ctx e (Some [])) as H0 by (intros p b; discriminate). destruct (Eval_agrees ctx e e [] (Some []) eq_refl H0) as (-> & _). exact H.
Qed.
Print Assumptions C87_evaluates.
(** A tree has at most one value. *)
Theorem C87_single : forall ctx r e u v, provides (ec_ctx ctx) r -> Yields r e u -> Yields r e v -> u = v.
Proof.
  intros ctx r e u v Hr Hu Hv. apply (C87_evaluates ctx r e u Hr) in Hu. apply (C87_evaluates ctx r e v Hr) in Hv. congruence.
Qed.
Print Assumptions C87_single.
(** Otherwise there is an Internal error, or an InvalidArgument error for trees with an unset part; or a crash of the listed kinds. *)
Theorem C87_failures : forall ctx e,
  (forall c m, fst (Eval ctx e [] None) = Err c m -> c = Internal \/ c = InvalidArgument /\ exists m', sub (ENotSet m') e) /\
  (forall w, fst (Eval ctx e [] None) = Crash w -> exists s, sub s e /\ hazard (fun a b => QuoteSubConstraint (ec_src ctx) a b = Crash w) s).
Proof.
  intros ctx e. rewrite Eval_none. cbn [fst]. split; [exact (ev_err ctx e)|]. intros w H. apply ev_crash in H as [(s & Hs & Hq)|(m & a & z & Hs & Hz & Hlt)].
  - exists s. split; [exact Hs|]. now apply hz_quote.
  - exists (ECast m a). split; [exact Hs|]. now apply hz_cast with z.
Qed.
Print Assumptions C87_failures.
(** Entries checked against a table whose constraint was put there by hand. *)
Theorem C87_entry : forall t entry e ctx r, ti_constraint t = Some e -> ParseTableEntry entry t = Ok ctx -> provides (ec_ctx ctx) r ->
  (ReasonTableViolates t entry = Ok "" <-> e_type e = TBool /\ Yields r e (VBool true)) /\
  (forall text, ReasonTableViolates t entry = Ok text -> text <> "" -> Yields r e (VBool false)) /\
  (forall c m, ReasonTableViolates t entry = Err c m -> c = Internal \/ c = InvalidArgument /\ (e_type e <> TBool \/ exists s, sub s e /\ ((exists m n, s = EParam m n) \/ exists m, s = ENotSet m)) \/
     exists s m, sub s e /\ QuoteSubConstraint (ec_src ctx) (e_start s) (e_end s) = Err c m).
Proof.
  intros t entry e ctx r He Hp Hr. rewrite (provides_iff ctx r Hr). unfold ReasonTableViolates. rewrite He, Hp. cbn [annotate bind].
  assert (is_bool_type (e_type e) = true <-> e_type e = TBool) as Hb by (destruct (e_type e); cbn; split; congruence).
  destruct (is_bool_type (e_type e)) eqn:E; cbn [negb].
  - pose proof (proj1 Hb eq_refl) as Ht. split; [|split].
    + rewrite check_agrees, check_accepts, ev_bool_ok. split; [intros H; split; [exact Ht|now apply ev_yields]|intros [_ H]; now apply yields_ev].
    + intros text H Hn. rewrite check_agrees in H. apply (check_rejects ctx e text Hn) in H as [H _]. apply ev_bool_ok in H. now apply ev_yields.
    + intros c m H. apply check_err in H as [[->|(-> & s & Hs & H)]|(s & m' & Hs & H)]; [now left|right; left|right; right; eauto].
      split; [reflexivity|]. right. exists s. auto.
  - assert (e_type e <> TBool) as Ht by (intros H; apply Hb in H; discriminate). split; [|split].
    + split; [discriminate|]. intros [H _]. contradiction.
    + discriminate.
    + intros c m H. injection H as <- _. right. left. auto.
Qed.
Print Assumptions C87_entry.

(** Trees made by hand, for the declaration of PropertiesVerdict.v: keys e (exact), t (ternary) and r (range). *)
Definition yd_at (t : ty) : meta := mkMeta (mkLoc 0 0 (SrcTable "demo")) (mkLoc 0 0 (SrcTable "demo")) t.
Definition yd_bool (b : bool) : expr := EBool (yd_at TBool) b.
Definition yd_is (o : binop) (a b : expr) : expr := EBin (yd_at TBool) o a b.
Definition yd_unset : expr := yd_is OAND (yd_bool false) (ENotSet (yd_at TBool)).
Definition yd_param : expr := yd_is OOR (yd_bool true) (EParam (yd_at TBool) "p").
Definition yd_mixed : expr := yd_is ONE (EInt (yd_at TInt) "1") (yd_bool true).
Definition yd_table : table_info := Eval vm_compute in match GetTableInfoOrNull demo_ci 3 with Some t => t | None => mkTable 0 "" None (mkCSource "" (mkLoc 0 0 SrcNone)) [] [] end.
Definition yd_set (e : expr) : table_info := mkTable (ti_id yd_table) (ti_name yd_table) (Some e) (ti_source yd_table) (ti_keys_by_id yd_table) (ti_keys_by_name yd_table).
Definition yd_entry : p4_entry := mkEntry 3 demo_match None 7.
Definition yd_ctx : eval_context := mkCtx (CtxTable "demo" 7 [("e", VExact 97); ("t", VTernary 0 0); ("r", VRange 0 15)]) (ti_source yd_table).
Lemma yd_parsed e : ParseTableEntry yd_entry (yd_set e) = Ok yd_ctx.
Proof. vm_compute. reflexivity. Qed.
(** The documented claim, that malformed trees and names without values yield errors, fails: what is not reached is not looked at, and values of different types can be compared. *)
Theorem C87_documented_refuted : exists e1 e2 e3 ctx, (forall G e, In e [e1; e2; e3] -> ~ Annotated (InTable G) e) /\
  ec_ctx ctx = CtxTable "demo" 7 [("e", VExact 97); ("t", VTernary 0 0); ("r", VRange 0 15)] /\
  fst (Eval ctx e1 [] None) = Ok (VBool false) /\ fst (Eval ctx e2 [] None) = Ok (VBool true) /\ fst (Eval ctx e3 [] None) = Ok (VBool true).
Proof.
  exists yd_unset, yd_param, yd_mixed, yd_ctx. split; [|vm_compute; auto].
  intros G e He HA. destruct He as [<-|[<-|[<-|[]]]]; inversion HA; subst; try match goal with H : connective _ |- _ => now inversion H | H : equality _ |- _ => now inversion H | H : ordering _ |- _ => now inversion H end;
    try match goal with H : e_type _ = e_type _ |- _ => discriminate H end;
    match goal with H : Annotated _ (ENotSet _) |- _ => inversion H | H : Annotated _ (EParam _ _) |- _ => inversion H; discriminate end.
Qed.
Print Assumptions C87_documented_refuted.
(** An accepted entry, an entry rejected, a label that does not fit, and a cast to a negative width. *)
Definition yd_value : expr := EField (yd_at (TBit 8)) "value" (EKey (yd_at (TExact 8)) "e").
Definition yd_compare (n : string) : expr := yd_is OAND yd_mixed (yd_is OEQ yd_value (EInt (yd_at (TBit 8)) n)).
Example C87_case : provides (ec_ctx yd_ctx) (TableEnv (fun n => assoc_find String.eqb n [("e", VExact 97); ("t", VTernary 0 0); ("r", VRange 0 15)]) 7) /\
  (forall e, ti_constraint (yd_set e) = Some e /\ ParseTableEntry yd_entry (yd_set e) = Ok yd_ctx) /\
  Yields (TableEnv (fun n => assoc_find String.eqb n [("e", VExact 97); ("t", VTernary 0 0); ("r", VRange 0 15)]) 7) (yd_compare "97") (VBool true) /\
  ReasonTableViolates (yd_set (yd_compare "97")) yd_entry = Ok "" /\
  (exists text, ReasonTableViolates (yd_set (yd_compare "98")) yd_entry = Ok text /\ text <> "") /\
  (exists m, ReasonTableViolates (yd_set (ENot (yd_at TBool) (EKey (yd_at TBool) "e"))) yd_entry = Err Internal m) /\
  (exists m, ReasonTableViolates (yd_set (yd_is OEQ yd_value (ENotSet (yd_at TBool)))) yd_entry = Err InvalidArgument m) /\
  ReasonTableViolates (yd_set (yd_is OEQ yd_value (ECast (yd_at (TBit (-1))) yd_value))) yd_entry = Crash GmpAbort.
Proof.
  assert (provides (ec_ctx yd_ctx) (TableEnv (fun n => assoc_find String.eqb n [("e", VExact 97); ("t", VTernary 0 0); ("r", VRange 0 15)]) 7)) as HP by constructor.
  split; [exact HP|]. split; [intros e; split; [reflexivity|apply yd_parsed]|]. split.
  { apply (C87_evaluates yd_ctx _ (yd_compare "97") (VBool true) HP). vm_compute. reflexivity. }
  split; [vm_compute; reflexivity|]. split; [eexists; split; [vm_compute; reflexivity|discriminate]|]. split; [eexists; vm_compute; reflexivity|]. split; [eexists; vm_compute; reflexivity|vm_compute; reflexivity].
Qed.
