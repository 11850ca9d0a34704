(** Entries give assignments to the solver's symbols. *)
From Coq Require Import String Ascii List ZArith NArith Bool Lia.
From Verif Require Import Base Num Token Ast Info Interpreter Z3 Symbolic SpecLexer SpecTyping TypeFacts SpecSemantics SpecSymbolic SpecSolver EntryFacts SymFacts SymFacts2 SymBytes SymKeys SymState.
Import ListNotations.
Open Scope string_scope.

Definition symbol_eqb (a b : string * sort) : bool := String.eqb (fst a) (fst b) && sort_eqb (snd a) (snd b).
Lemma symbol_eqb_eq a b : symbol_eqb a b = true <-> a = b.
Proof. destruct a, b. unfold symbol_eqb. cbn. rewrite andb_true_iff, String.eqb_eq, sort_eqb_eq. split; [intros [-> ->]; reflexivity|intros [= -> ->]; auto]. Qed.
Definition bindings (k : key_info) (v : value) : list ((string * sort) * zval) :=
  match k_type k, v with
  | TExact w, VExact z => [((c_str (k_name k), SBV w), VV w z)]
  | TTernary w, VTernary z x | TOptional w, VTernary z x => [((c_str (k_name k), SBV w), VV w z); ((c_str (k_name k ++ "_mask"), SBV w), VV w x)]
  | TLpm w, VLpm z p => [((c_str (k_name k), SBV w), VV w z); ((c_str (k_name k ++ "_prefix_length"), SInt), VI p)]
  | _, _ => []
  end.
Section Build.
  Variables (lk : list key_info) (val : key_info -> value) (p : Z).
  Definition all_bindings : list ((string * sort) * zval) := (("priority", SInt), VI p) :: concat (map (fun k => bindings k (val k)) lk).
  Definition assign : assignment := fun n s => match assoc_find symbol_eqb (n, s) all_bindings with Some v => v | None => default_zval s end.
  Hypothesis Hv : forall k, In k lk -> canonical_value (k_type k) (val k) /\ (forall w, width (k_type k) w -> (0 < w)%Z).
  Hypothesis Ha : apart lk.
  Lemma bindings_symbols k : In k lk -> map fst (bindings k (val k)) = symbols k.
  Proof. intros Hk. destruct (Hv k Hk) as [H _]. unfold bindings, symbols. inversion H; reflexivity. Qed.
  Lemma all_symbols : map fst all_bindings = ("priority", SInt) :: concat (map symbols lk).
  Proof.
    unfold all_bindings. cbn. f_equal. rewrite concat_map, map_map. f_equal. apply map_ext_in. intros k. apply bindings_symbols.
  Qed.
  Lemma assign_in n s v : In ((n, s), v) all_bindings -> assign n s = v.
  Proof.
    intros Hi. unfold assign. apply (afind_iff symbol_eqb symbol_eqb_eq) in Hi; [now rewrite Hi|]. rewrite all_symbols. exact Ha.
  Qed.
  Lemma in_bindings k x : In k lk -> In x (bindings k (val k)) -> In x all_bindings.
  Proof. intros Hk Hx. right. apply in_concat. exists (bindings k (val k)). split; [|exact Hx]. apply in_map_iff. eauto. Qed.
  Lemma assign_priority : pictures_priority assign p.
  Proof. apply assign_in. now left. Qed.
  Lemma assign_pictures k : In k lk -> pictures assign k (val k).
  Proof.
    intros Hk. destruct (Hv k Hk) as [H _]. pose proof (in_bindings k) as HI. unfold bindings in HI.
    inversion H as [w z Hz Et Ev|w z x Hz Hx Hm Et Ev|w z x Hz Hx Et Ev|w z q Hz Hq Hm Et Ev]; rewrite <- Et, <- Ev in HI; cbn [In] in HI.
    - apply (pi_exact _ _ w); [now symmetry|]. apply assign_in. apply HI; auto.
    - apply (pi_ternary _ _ w); [left; now symmetry| |]; apply assign_in; apply HI; auto.
    - apply (pi_ternary _ _ w); [right; now symmetry| |]; apply assign_in; apply HI; auto.
    - apply (pi_lpm _ _ w); [now symmetry| |]; apply assign_in; apply HI; auto.
  Qed.
  Definition fits_sort (s : sort) (v : zval) : Prop :=
    match s with SBV w => (0 < w)%Z -> exists x, v = VV w x /\ (0 <= x < 2 ^ w)%Z | SInt => exists z, v = VI z | SBool => exists b, v = VB b end.
  Lemma bindings_fit n s v : In ((n, s), v) all_bindings -> fits_sort s v.
  Proof.
    intros [E|Hi]; [injection E as <- <- <-; cbn; eauto|]. apply in_concat in Hi as (l & Hl & Hi). apply in_map_iff in Hl as (k & <- & Hk). destruct (Hv k Hk) as [H Hw].
    unfold bindings in Hi. inversion H as [w z Hz Et Ev|w z x Hz Hx Hm Et Ev|w z x Hz Hx Et Ev|w z q Hz Hq Hm Et Ev]; rewrite <- Et, <- Ev in Hi; cbn [In] in Hi.
    - destruct Hi as [E|[]]. injection E as <- <- <-. cbn. eauto.
    - destruct Hi as [E|[E|[]]]; injection E as <- <- <-; cbn; eauto.
    - assert (0 <= x < 2 ^ w)%Z. { assert (0 < 2 ^ w)%Z by (apply Z.pow_pos_nonneg; [lia|]; specialize (Hw w ltac:(rewrite <- Et; constructor)); lia). destruct Hx as [[-> _]| ->]; lia. }
      destruct Hi as [E|[E|[]]]; injection E as <- <- <-; cbn; eauto.
    - destruct Hi as [E|[E|[]]]; injection E as <- <- <-; cbn; eauto.
  Qed.
  Lemma assign_sorted : well_sorted assign.
  Proof.
    assert (forall n s, fits_sort s (assign n s)) as H.
    { intros n s. unfold assign. destruct (assoc_find symbol_eqb (n, s) all_bindings) as [v|] eqn:E; [exact (bindings_fit n s v (afind_in symbol_eqb symbol_eqb_eq _ _ _ E))|].
      destruct s; cbn; eauto. intros Hw. exists 0%Z. split; [reflexivity|]. split; [lia|]. apply Z.pow_pos_nonneg; lia. }
    intros n. split; [|split]; [intros w Hw; exact (H n (SBV w) Hw)|exact (H n SInt)|exact (H n SBool)].
  Qed.
End Build.
