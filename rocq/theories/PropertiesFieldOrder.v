(** C43: the order of the fields of produced entries. *)
From Coq Require Import String Ascii List ZArith NArith Bool Sorted Lia.
From Verif Require Import Base Num Token Ast Info TypeChecker ConstraintInfo Interpreter Z3 Symbolic SpecSemantics SpecInfo SpecSymbolic StrFacts LiteralFacts SemFacts EntryFacts EntryFacts2 ExplainFacts PropertiesInfo SymState PropertiesSymbolic SymDemo.
Import ListNotations.
Open Scope string_scope.

(** * Specification: byte order *)
Inductive Before : string -> string -> Prop :=
| bf_shorter c s : Before "" (String c s)
| bf_smaller c d s t : (N_of_ascii c < N_of_ascii d)%N -> Before (String c s) (String d t)
| bf_later c s t : Before s t -> Before (String c s) (String c t).
(** [f] is the field of the key called [n]. *)
Definition field_of (ks : list key_info) (n : string) (f : field_match) : Prop := exists k, In k ks /\ k_name k = n /\ k_id k = fm_id f.

Lemma before_iff a b : string_ltb a b = true -> Before a b.
Proof.
  revert b. induction a as [|c a IH]; intros [|d b]; cbn [string_ltb]; try discriminate; [constructor|].
  unfold byte. destruct (N.ltb_spec (N_of_ascii c) (N_of_ascii d)) as [E|E]; [intros _; now apply bf_smaller|]. destruct (N.ltb_spec (N_of_ascii d) (N_of_ascii c)) as [E'|E']; [discriminate|].
  intros H. assert (c = d) as <- by (rewrite <- (ascii_N_embedding c), <- (ascii_N_embedding d); f_equal; clear - E E'; lia). apply bf_later, IH, H.
Qed.
(** The order in which the names of keys are kept (gutils/ordered_map.h) is the order of their bytes. *)
Theorem C43_bytes : forall a b, string_ltb a b = true <-> Before a b.
Proof.
  intros a b. split; [apply before_iff|]. induction 1 as [c s|c d s t H|c s t _ IH]; cbn [string_ltb]; unfold byte; [reflexivity| |].
  - apply N.ltb_lt in H. now rewrite H.
  - now rewrite N.ltb_irrefl.
Qed.
Print Assumptions C43_bytes.
Lemma key_field sk k m f : ConcretizeKey sk k m = Ok (Some f) -> fm_id f = k_id k.
Proof.
  unfold ConcretizeKey. intros H. apply bind_ok in H as (w & _ & H). destruct (k_type k); try discriminate H.
  - apply bind_ok in H as (v & _ & H). apply bind_ok in H as (b & _ & H). apply Ok_inj in H. injection H as <-. reflexivity.
  - apply bind_ok in H as (mask & _ & H). apply bind_ok in H as (z & _ & H). destruct (as_bool _); [discriminate H|]. apply bind_ok in H as (v & _ & H). apply bind_ok in H as (b & _ & H). apply bind_ok in H as (bm & _ & H). apply Ok_inj in H. injection H as <-. reflexivity.
  - apply bind_ok in H as (plen & _ & H). apply bind_ok in H as (p & _ & H). destruct (Z.eqb p 0); [discriminate H|]. apply bind_ok in H as (v & _ & H). apply bind_ok in H as (b & _ & H). apply Ok_inj in H. injection H as <-. reflexivity.
  - apply bind_ok in H as (mask & _ & H). apply bind_ok in H as (z & _ & H). destruct (as_bool _); [discriminate H|]. apply bind_ok in H as (v & _ & H). apply bind_ok in H as (b & _ & H). apply Ok_inj in H. injection H as <-. reflexivity.
Qed.
Lemma fields_sorted cs m l : StronglySorted klt l -> forall acc fs, concretize_keys cs m l acc = Ok fs ->
  exists nk new, fs = (acc ++ new)%list /\ incl nk l /\ StronglySorted klt nk /\ Forall2 (fun x f => k_id (snd x) = fm_id f) nk new.
Proof.
  induction l as [|[n k] l IH]; intros Hs acc fs H; cbn [concretize_keys] in H.
  - apply Ok_inj in H as <-. exists [], []. rewrite app_nil_r. split; [reflexivity|]. split; [intros x []|]. split; constructor.
  - inversion Hs as [|? ? Hs' Hf]; subst. apply bind_ok in H as (b & _ & H). destruct b.
    + destruct (IH Hs' _ _ H) as (nk & new & H1 & H2 & H3 & H4). exists nk, new. split; [exact H1|]. split; [intros x Hx; right; auto|auto].
    + apply bind_ok in H as (sk & _ & H). apply bind_ok in H as (fm & Hk & H). destruct (IH Hs' _ _ H) as (nk & new & H1 & H2 & H3 & H4). destruct fm as [f|].
      * exists ((n, k) :: nk), (f :: new). split; [rewrite H1, <- app_assoc; reflexivity|]. split; [intros x [<-|Hx]; [now left|right; auto]|]. split.
        -- constructor; [exact H3|]. apply Forall_forall. intros x Hx. rewrite Forall_forall in Hf. auto.
        -- constructor; [symmetry; exact (key_field _ _ _ _ Hk)|exact H4].
      * exists nk, new. split; [exact H1|]. split; [intros x Hx; right; auto|auto].
Qed.
(** The fields of a produced entry stand in the byte order of the names of their keys, whatever order the
    P4Info or a hash map has. *)
Theorem C43_order : forall check cs ks entry, table_keys (cs_table cs) ks -> ConcretizeEntry check cs = Ok entry ->
  exists names, StronglySorted Before names /\ Forall2 (field_of ks) names (pe_match entry).
Proof.
  intros check cs ks entry HK H. unfold ConcretizeEntry in H. destruct (check (assertions (cs_stack cs))) as [m|]; [|discriminate H]. apply bind_ok in H as (fs & Hf & H). apply bind_ok in H as (p & _ & H). apply Ok_inj in H as <-. cbn [pe_match].
  pose proof (ordered_strong (ti_keys_by_name (cs_table cs)) ltac:(apply HK)) as Hs. destruct (fields_sorted _ _ _ Hs _ _ Hf) as (nk & new & -> & Hin & Hso & HF). cbn [app]. exists (map fst nk). split.
  - clear - Hso. induction Hso as [|x l _ IH Hx]; cbn [map]; constructor; [exact IH|]. apply Forall_forall. intros n Hn. apply in_map_iff in Hn as (y & <- & Hy). rewrite Forall_forall in Hx. apply before_iff. exact (Hx y Hy).
  - clear - HF Hin HK. induction HF as [|[n k] f nk new E _ IH]; cbn [map]; constructor; [|apply IH; intros x Hx; apply Hin; now right].
    exists k. destruct (proj1 (SymState.in_ordered (cs_table cs) ks HK n k) (Hin _ (or_introl eq_refl))) as (H1 & H2). auto.
Qed.
Print Assumptions C43_order.
(** Four fields; the P4Info declares the keys in another order. *)
Example C43_order_case : table_keys (cs_table sy_cs2) sy_keys /\ ConcretizeEntry sy_check sy_cs2 = Ok sy_entry /\ List.length (pe_match sy_entry) = 4%nat /\
  (exists names, StronglySorted Before names /\ Forall2 (field_of sy_keys) names (pe_match sy_entry)) /\ Before "optional" "ternary" /\ Before "k" "key" /\ ~ Before "key" "k".
Proof.
  assert (table_keys (cs_table sy_cs2) sy_keys) as HK by exact sy_table_keys. split; [exact HK|]. split; [exact sy_concretized|]. split; [reflexivity|]. split; [exact (C43_order sy_check sy_cs2 sy_keys sy_entry HK sy_concretized)|].
  split; [apply bf_smaller; reflexivity|]. split; [apply bf_later, bf_shorter|]. intros H. inversion H as [|? ? ? ? L|? ? ? H']; subst; [discriminate L|inversion H'].
Qed.
