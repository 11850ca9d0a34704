(** C74: building, extending and propagating statuses. *)
From Coq Require Import String Ascii List ZArith NArith Bool Lia.
From Verif Require Import Base Num StatusBuilder SpecStatus StrFacts.
Import ListNotations.
Open Scope nat_scope.
Open Scope string_scope.

(** * Streams *)
Fixpoint drop (n : nat) (s : string) : string := match n, s with O, _ => s | S n, String _ s => drop n s | S _, EmptyString => "" end.
Lemma slen_app a b : String.length (a ++ b) = String.length a + String.length b.
Proof. induction a; cbn; auto. Qed.
Lemma substring_none n s : substring n 0 s = "".
Proof. revert n. induction s as [|c s IH]; intros [|n]; cbn; auto. Qed.
Lemma substring_head a b : substring 0 (String.length a) (a ++ b) = a.
Proof. induction a as [|c a IH]; cbn; [now destruct b|now rewrite IH]. Qed.
Lemma substring_all s : substring 0 (String.length s) s = s.
Proof. rewrite <- (sapp_nil_r s) at 2. apply substring_head. Qed.
Lemma substring_drop n s : substring n (String.length s - n) s = drop n s.
Proof.
  revert n. induction s as [|c s IH]; intros n; [now destruct n|]. destruct n as [|n]; cbn [String.length drop].
  - rewrite Nat.sub_0_r. cbn. now rewrite substring_all.
  - cbn. apply IH.
Qed.
Lemma drop_app a b n : drop (String.length a + n) (a ++ b) = drop n b.
Proof. induction a as [|c a IH]; cbn; auto. Qed.
Lemma drop_none n : drop n "" = "".
Proof. now destruct n. Qed.
Lemma drop_drop n k s : drop k (drop n s) = drop (n + k) s.
Proof. revert n. induction s as [|c s IH]; intros [|n]; cbn; auto. now rewrite drop_none. Qed.
Lemma put_split a b x : ss_put (mkSS (a ++ b) (String.length a)) x = mkSS ((a ++ x) ++ drop (String.length x) b) (String.length (a ++ x)).
Proof. unfold ss_put. cbn [ss_text ss_pos]. rewrite substring_head, substring_drop, drop_app, slen_app, sapp_assoc. reflexivity. Qed.
Lemma puts_split a b l : fold_left ss_put l (mkSS (a ++ b) (String.length a)) = mkSS ((a ++ String.concat "" l) ++ drop (String.length (String.concat "" l)) b) (String.length (a ++ String.concat "" l)).
Proof.
  assert (forall x l, String.concat "" (x :: l) = x ++ String.concat "" l) as Hc. { intros x [|y l']; cbn [String.concat]; [now rewrite sapp_nil_r|reflexivity]. }
  revert a b. induction l as [|x l IH]; intros a b; [cbn [fold_left String.concat]; rewrite sapp_nil_r; reflexivity|]. cbn [fold_left]. rewrite put_split, IH, Hc, drop_drop, !slen_app, !sapp_assoc, Nat.add_assoc. reflexivity.
Qed.
Lemma drop_overlay old new : Overlay old new (new ++ drop (String.length new) old).
Proof.
  destruct (Nat.le_gt_cases (String.length old) (String.length new)) as [H|H].
  - assert (drop (String.length new) old = "") as ->. { revert H. generalize (String.length new) as n. induction old as [|c old IH]; intros [|n] H; cbn in *; auto; [lia|]. apply IH. lia. }
    rewrite sapp_nil_r. now constructor 2.
  - rewrite <- (substring_all old) at 1. assert (exists x y, old = x ++ y /\ String.length x = String.length new) as (x & y & -> & E).
    { clear - H. revert H. generalize (String.length new) as n. intros n. revert n. induction old as [|c old IH]; intros n H; [cbn in H; lia|]. destruct n as [|n]; [exists "", (String c old); auto|]. destruct (IH n) as (x & y & -> & E); [cbn in H; lia|]. exists (String c x), y. cbn. auto. }
    rewrite substring_all. rewrite <- E at 1. rewrite <- (Nat.add_0_r (String.length x)), drop_app. cbn [drop]. now constructor.
Qed.

(** * Builders *)
Lemma puts_status l b : sb_status (fold_left sb_put l b) = sb_status b.
Proof. revert b. induction l as [|x l IH]; intros b; [reflexivity|]. cbn [fold_left]. rewrite IH. unfold sb_put. now destruct (st_ok (sb_status b)). Qed.
Lemma puts_stream l b : st_ok (sb_status b) = false -> sb_stream (fold_left sb_put l b) = fold_left ss_put l (sb_stream b).
Proof. revert b. induction l as [|x l IH]; intros b H; [reflexivity|]. cbn [fold_left]. unfold sb_put. rewrite H. now rewrite IH. Qed.
Lemma puts_ok l b : st_ok (sb_status b) = true -> fold_left sb_put l b = b.
Proof. intros H. induction l as [|x l IH]; [reflexivity|]. cbn [fold_left]. unfold sb_put at 2. now rewrite H. Qed.
Lemma ok_iff s : st_ok s = true <-> st_code s = kOk.
Proof. unfold st_ok. destruct (st_code s); split; congruence. Qed.
Lemma not_ok_iff s : st_ok s = false <-> st_code s <> kOk.
Proof. rewrite <- ok_iff. destruct (st_ok s); split; congruence. Qed.
Lemma join_extended s x : Extended s x (JoinMessageToStatus s x).
Proof.
  unfold JoinMessageToStatus, Annotate. destruct (String.eqb_spec x "") as [->|Hx]; [exact (ex_nothing s)|]. destruct (st_ok s) eqn:E; cbn [orb]; [exact (ex_ok _ _ (proj1 (ok_iff s) E))|]. apply not_ok_iff in E.
  assert (forall m, Status (st_code s) m = mkStatus (st_code s) m []) as Es by (intros m; unfold Status; now destruct (st_code s)). rewrite Es. destruct (String.eqb_spec (st_message s) "") as [Em|Em]; [now apply ex_first|now apply ex_more].
Qed.
Lemma extended_fun s x r r' : proper s -> Extended s x r -> Extended s x r' -> r = r'.
Proof. intros _ H H'. destruct H; inversion H'; subst; try congruence; reflexivity. Qed.
Lemma chain_text s l : st_code s <> kOk -> ss_text (sb_stream (fold_left sb_put l (sb_of_status s))) = String.concat "" l.
Proof.
  intros H. apply not_ok_iff in H. rewrite puts_stream by exact H. cbn [sb_stream sb_of_status]. unfold ss_empty. pose proof (puts_split "" "" l) as E. cbn [append String.length] in E. rewrite E. cbn [ss_text]. now rewrite drop_none, sapp_nil_r.
Qed.

(** A builder made from a status, extended by texts and converted, gives the status with the texts added; both conversions agree, and so do
    ASSIGN_OR_RETURN and RETURN_IF_ERROR, which return iff the status is not OK. *)
Theorem C74_chain : forall s texts, let b := fold_left sb_put texts (sb_of_status s) in
  Extended s (String.concat "" texts) (fst (to_status_move b)) /\ to_status_const b = fst (to_status_move b) /\
  (RETURN_IF_ERROR (AStatus s) texts = None <-> st_code s = kOk) /\ (forall r, RETURN_IF_ERROR (AStatus s) texts = Some r -> Extended s (String.concat "" texts) r) /\
  (forall A (a : A), ASSIGN_OR_RETURN (inl a) texts = inl a) /\ (forall A, exists r, @ASSIGN_OR_RETURN A (inr s) texts = inr r /\ Extended s (String.concat "" texts) r).
Proof.
  intros s texts b. assert (Extended s (String.concat "" texts) (fst (to_status_move b))) as H1.
  { unfold to_status_move, CreateStatus. cbn [fst]. unfold b. rewrite puts_status. cbn [sb_status sb_of_status]. destruct (st_ok s) eqn:E.
    - rewrite puts_ok by exact E. exact (ex_ok _ _ (proj1 (ok_iff s) E)).
    - rewrite chain_text by now apply not_ok_iff. apply join_extended. }
  assert (to_status_const b = fst (to_status_move b)) as H2 by reflexivity.
  split; [exact H1|]. split; [exact H2|]. unfold RETURN_IF_ERROR. cbn [adaptor]. unfold sb_ok. cbn [sb_status sb_of_status]. split.
  - rewrite <- ok_iff. destruct (st_ok s); split; congruence.
  - split; [intros r Hr; destruct (st_ok s); [discriminate Hr|]; injection Hr as <-; exact H1|]. split; [reflexivity|]. intros A. destruct texts as [|x texts]; eexists; (split; [reflexivity|]); [exact H1|]. rewrite <- H2 in H1. exact H1.
Qed.
Print Assumptions C74_chain.
(** The code never changes, whatever is streamed, copied or moved; and converting a const builder leaves it as it is, converting an rvalue resets it. *)
Theorem C74_code : forall b texts, sb_code (fold_left sb_put texts b) = sb_code b /\ sb_code (sb_copy b) = sb_code b /\ st_code (to_status_const b) = sb_code b /\ st_code (fst (to_status_move b)) = sb_code b /\
  to_status_move (snd (to_status_move b)) = (mkStatus kUnknown "" [], snd (to_status_move b)).
Proof.
  intros b texts. assert (forall s x, st_code (JoinMessageToStatus s x) = st_code s) as H. { intros s x. destruct (join_extended s x); reflexivity. }
  split; [unfold sb_code; now rewrite puts_status|]. split; [reflexivity|]. split; [apply H|]. split; [apply H|reflexivity].
Qed.
Print Assumptions C74_code.
(** After copying, what is streamed overwrites the beginning of the text so far. *)
Theorem C74_copied : forall s texts more, st_code s <> kOk -> exists x, Overlay (String.concat "" texts) (String.concat "" more) x /\
  Extended s x (fst (to_status_move (fold_left sb_put more (sb_copy (fold_left sb_put texts (sb_of_status s)))))) /\
  (let b := fold_left sb_put texts (sb_of_status s) in exists r, RETURN_IF_ERROR (ALvalue b) more = Some r /\ Extended s x r).
Proof.
  intros s texts more H. set (b := fold_left sb_put texts (sb_of_status s)). assert (sb_status b = s) as Eb by apply puts_status. assert (ss_text (sb_stream b) = String.concat "" texts) as Et by now apply chain_text.
  exists (String.concat "" more ++ drop (String.length (String.concat "" more)) (String.concat "" texts)). split; [apply drop_overlay|].
  assert (Extended s (String.concat "" more ++ drop (String.length (String.concat "" more)) (String.concat "" texts)) (fst (to_status_move (fold_left sb_put more (sb_copy b))))) as HE.
  { unfold to_status_move, CreateStatus. cbn [fst]. rewrite puts_status. rewrite puts_stream by (cbn [sb_copy sb_status]; rewrite Eb; now apply not_ok_iff). cbn [sb_copy sb_status sb_stream]. rewrite Eb, Et.
    unfold ss_of. pose proof (puts_split "" (String.concat "" texts) more) as E. cbn [append String.length] in E. rewrite E. cbn [ss_text]. apply join_extended. }
  split; [exact HE|]. eexists. split; [|exact HE]. unfold RETURN_IF_ERROR. cbn [adaptor]. unfold sb_ok. cbn [sb_copy sb_status]. rewrite Eb. apply not_ok_iff in H. now rewrite H.
Qed.
Print Assumptions C74_copied.
(** So copying a builder and streaming on does not append. *)
Theorem C74_copy_refuted : exists s texts more, proper s /\ st_code s <> kOk /\
  fst (to_status_move (fold_left sb_put more (sb_copy (fold_left sb_put texts (sb_of_status s))))) = mkStatus kInternal "no, lost" [] /\
  fst (to_status_move (fold_left sb_put more (fold_left sb_put texts (sb_of_status s)))) = mkStatus kInternal "key lostno," [] /\
  ~ Extended s (String.concat "" (texts ++ more)) (fst (to_status_move (fold_left sb_put more (sb_copy (fold_left sb_put texts (sb_of_status s)))))).
Proof.
  exists (Status kInternal ""), ["key lost"], ["no,"]. split; [discriminate|]. split; [discriminate|]. split; [reflexivity|]. split; [reflexivity|]. vm_compute. intros H. inversion H; subst; congruence.
Qed.
Print Assumptions C74_copy_refuted.
(** Annotate is documented to give a status identical to the given one except for the message, but it drops the payloads. *)
Theorem C74_payloads_refuted : exists s x, proper s /\ st_code s <> kOk /\ st_payloads (fst (to_status_move (sb_put (sb_of_status s) x))) <> st_payloads s.
Proof. exists (mkStatus kNotFound "gone" [("url", "detail")]), "in table". split; [discriminate|]. split; [discriminate|]. vm_compute. discriminate. Qed.
Print Assumptions C74_payloads_refuted.
(** A failed RET_CHECK is an Internal error with the place, the condition and the texts; a passed one returns nothing. *)
Theorem C74_ret_check : forall cond file line condition texts,
  RET_CHECK cond file line condition texts = if cond then None else Some (mkStatus kInternal ("RET_CHECK failure (" ++ file ++ ":" ++ dec_N line ++ ") " ++ condition ++ String.concat "" texts) []).
Proof.
  intros cond file line condition texts. destruct cond; [reflexivity|]. unfold RET_CHECK, RetCheckFailSlowPath. f_equal. rewrite <- fold_left_app.
  pose proof (proj1 (C74_chain (Status kInternal "") (["RET_CHECK failure ("; file; ":"; dec_N line; ") "; condition] ++ texts))) as H.
  change (sb_of_code kInternal) with (sb_of_status (Status kInternal "")). apply (extended_fun (Status kInternal "") _ _ _ (fun _ => conj eq_refl eq_refl) H).
  assert (String.concat "" (["RET_CHECK failure ("; file; ":"; dec_N line; ") "; condition] ++ texts) = "RET_CHECK failure (" ++ file ++ ":" ++ dec_N line ++ ") " ++ condition ++ String.concat "" texts) as ->.
  { assert (forall x l, String.concat "" (x :: l) = x ++ String.concat "" l) as Hc. { intros x [|y l']; cbn [String.concat]; [now rewrite sapp_nil_r|reflexivity]. } cbn [app]. now rewrite !Hc. }
  apply ex_first; [discriminate|discriminate|reflexivity].
Qed.
Print Assumptions C74_ret_check.
(** The model's [annotate] (ASSIGN_OR_RETURN with a message) and [bind] agree with this on outcomes that are not crashes. *)
Theorem C74_annotate : forall A (o : outcome A) x, x <> "" ->
  match annotate o x, o with
  | Ok a, Ok a' => ASSIGN_OR_RETURN (@inl A status a') [x] = inl a
  | Err c m, Err c' m' => @ASSIGN_OR_RETURN A (inr (Status (code_of c') m')) [x] = inr (Status (code_of c) m)
  | Crash w, Crash w' => w = w'
  | _, _ => False
  end.
Proof.
  intros A [a|c m|w] x Hx; cbn [annotate]; [reflexivity| |reflexivity]. cbn [ASSIGN_OR_RETURN]. f_equal.
  pose proof (proj1 (C74_chain (Status (code_of c) m) [x])) as H. rewrite <- (proj1 (proj2 (C74_chain (Status (code_of c) m) [x]))) in H. cbn [String.concat] in H.
  assert (proper (Status (code_of c) m)) as HP by (intros; destruct c; discriminate). apply (extended_fun _ x _ _ HP H). destruct (String.eqb_spec m "") as [->|Hm].
  - assert (Status (code_of c) x = mkStatus (st_code (Status (code_of c) "")) x []) as -> by now destruct c. apply ex_first; [destruct c; discriminate|exact Hx|destruct c; reflexivity].
  - assert (Status (code_of c) (m ++ "; " ++ x) = mkStatus (st_code (Status (code_of c) m)) (st_message (Status (code_of c) m) ++ "; " ++ x) []) as -> by now destruct c. apply ex_more; [destruct c; discriminate|exact Hx|destruct c; exact Hm].
Qed.
Print Assumptions C74_annotate.
(** An OK status never has a message, however it is made and whatever is added to it. *)
Theorem C74_ok_is_empty : forall c m texts, proper (Status c m) /\ let b := fold_left sb_put texts (sb_of_status (Status c m)) in proper (to_status_const b) /\ proper (fst (to_status_move b)).
Proof.
  intros c m texts. assert (proper (Status c m)) as H by (destruct c; intros E; try discriminate E; auto). split; [exact H|]. intros b. unfold b. rewrite (proj1 (proj2 (C74_chain (Status c m) texts))).
  assert (proper (fst (to_status_move (fold_left sb_put texts (sb_of_status (Status c m)))))) as H'; [|auto]. destruct (proj1 (C74_chain (Status c m) texts)); try exact H; intros E; contradiction.
Qed.
Print Assumptions C74_ok_is_empty.
Example C74_case : RETURN_IF_ERROR (AStatus (Status kNotFound "key k")) ["while "; "parsing"] = Some (Status kNotFound "key k; while parsing") /\
  RETURN_IF_ERROR (AStatus (Status kOk "ignored")) ["while "; "parsing"] = None /\ ASSIGN_OR_RETURN (@inr nat status (Status kInternal "")) ["lost"] = inr (Status kInternal "lost") /\
  RET_CHECK false "a.cc" 12 "x > 0" [" oops"] = Some (Status kInternal "RET_CHECK failure (a.cc:12) x > 0 oops") /\ Overlay "key lost" "no," "no, lost" /\
  StableStatusToString (Status kInternal "lost") = "INTERNAL: lost" ++ String LF "".
Proof. repeat split; try reflexivity. exact (ov_inside "key" " lost" "no," eq_refl). Qed.
