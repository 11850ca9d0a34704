(** Facts about strings and lists used in several proofs. *)
From Coq Require Import String Ascii List ZArith NArith Bool Lia.
From Verif Require Import Base.
Import ListNotations.
Open Scope string_scope.

Lemma sapp_assoc (a b c : string) : (a ++ b) ++ c = a ++ (b ++ c).
Proof. induction a as [|x a IH]; cbn; [reflexivity|now rewrite IH]. Qed.
Lemma sapp_nil_r (a : string) : a ++ "" = a.
Proof. induction a as [|x a IH]; cbn; [reflexivity|now rewrite IH]. Qed.
Lemma slength_app (a b : string) : String.length (a ++ b) = (String.length a + String.length b)%nat.
Proof. induction a as [|x a IH]; cbn; [reflexivity|now rewrite IH]. Qed.
Lemma slength_0 (s : string) : String.length s = 0%nat -> s = "".
Proof. destruct s; cbn; [reflexivity|discriminate]. Qed.
Lemma sapp_inv_head (a b c : string) : a ++ b = a ++ c -> b = c.
Proof. induction a as [|x a IH]; cbn; [auto|intros H; injection H; auto]. Qed.
Lemma sapp_inv_tail (a b c : string) : b ++ a = c ++ a -> b = c.
Proof.
  revert c. induction b as [|x b IH]; destruct c as [|y c]; cbn; intros H; auto.
  - apply (f_equal String.length) in H. cbn in H. rewrite slength_app in H. lia.
  - apply (f_equal String.length) in H. cbn in H. rewrite slength_app in H. lia.
  - injection H as -> H. f_equal. auto.
Qed.
Lemma sapp_eq_nil (a b : string) : a ++ b = "" -> a = "" /\ b = "".
Proof. destruct a; cbn; [auto|discriminate]. Qed.
(** Two prefixes of the same string are comparable. *)
Lemma prefix_cases (a b c d : string) :
  a ++ b = c ++ d -> (String.length a <= String.length c)%nat -> exists e, c = a ++ e /\ b = e ++ d.
Proof.
  revert c. induction a as [|x a IH]; cbn; intros c H Hl.
  - exists c. auto.
  - destruct c as [|y c]; cbn in *; [lia|].
    injection H as -> H. destruct (IH c H) as (e & -> & ->); [lia|]. exists e. auto.
Qed.
Lemma prefix_eq (a b c d : string) :
  a ++ b = c ++ d -> String.length a = String.length c -> a = c /\ b = d.
Proof.
  intros H Hl. destruct (prefix_cases a b c d H) as (e & -> & ->); [lia|].
  rewrite slength_app in Hl. assert (e = "") as -> by (apply slength_0; lia).
  now rewrite sapp_nil_r.
Qed.

Lemma hd_error_app {A} (a b : list A) :
  hd_error (a ++ b) = match hd_error a with Some x => Some x | None => hd_error b end.
Proof. destruct a; reflexivity. Qed.
Lemma hd_error_map {A B} (f : A -> B) l : hd_error (map f l) = option_map f (hd_error l).
Proof. destruct l; reflexivity. Qed.

Lemma chars_app a b :
  list_ascii_of_string (a ++ b) = (list_ascii_of_string a ++ list_ascii_of_string b)%list.
Proof. induction a as [|x a IH]; cbn; [reflexivity|now rewrite IH]. Qed.
Lemma string_of_chars s : string_of_list_ascii (list_ascii_of_string s) = s.
Proof. apply string_of_list_ascii_of_string. Qed.

Lemma byte_lt_256 c : (N_of_ascii c < 256)%N.
Proof. apply N_ascii_bounded. Qed.
Lemma byte_inj c d : N_of_ascii c = N_of_ascii d -> c = d.
Proof. intros H. rewrite <- (ascii_N_embedding c), <- (ascii_N_embedding d). now rewrite H. Qed.

Lemma strip_prefix_spec p s r : strip_prefix p s = Some r <-> s = p ++ r.
Proof.
  revert s. induction p as [|c p IH]; cbn; intros s.
  - split; [now injection 1|now intros ->].
  - destruct s as [|d s]; [split; discriminate|].
    destruct (Ascii.eqb_spec c d) as [->|Hn].
    + rewrite IH. split; [now intros ->|now injection 1].
    + split; [discriminate|]. injection 1 as ->. congruence.
Qed.
Lemma strip_prefix_None p s : strip_prefix p s = None <-> forall r, s <> p ++ r.
Proof.
  destruct (strip_prefix p s) as [r|] eqn:E.
  - split; [discriminate|]. intros H. apply strip_prefix_spec in E. now elim (H r).
  - split; [|auto]. intros _ r Hr. apply strip_prefix_spec in Hr. congruence.
Qed.
