(** C102: converting names to camel case. *)
From Coq Require Import String Ascii List NArith ZArith Bool Lia.
From Verif Require Import CamelCase SpecCamelCase.
Import ListNotations.
Open Scope string_scope.

Lemma code_of n : (n < 256)%N -> N_of_ascii (ascii_of_N n) = n.
Proof. exact (N_ascii_embedding n). Qed.
Lemma cases_iff c d : cases c d <-> (97 <= N_of_ascii c <= 122)%N /\ N_of_ascii d = (N_of_ascii c - 32)%N.
Proof.
  split.
  - intros [n Hn]. rewrite !code_of by lia. lia.
  - intros [H1 H2]. rewrite <- (ascii_N_embedding c), <- (ascii_N_embedding d), H2. replace (N_of_ascii c) with (97 + (N_of_ascii c - 97))%N at 1 by lia. replace (N_of_ascii c - 32)%N with (65 + (N_of_ascii c - 97))%N by lia. constructor. lia.
Qed.
Lemma small_iff c : small c <-> (97 <= N_of_ascii c <= 122)%N.
Proof.
  split; [intros (d & H); now apply cases_iff in H|]. intros H. exists (ascii_of_N (N_of_ascii c - 32)). apply cases_iff. split; [exact H|]. apply code_of. lia.
Qed.
Lemma capital_iff c : capital c <-> (65 <= N_of_ascii c <= 90)%N.
Proof.
  split; [intros (d & H); apply cases_iff in H; lia|]. intros H. exists (ascii_of_N (N_of_ascii c + 32)). apply cases_iff. rewrite code_of by lia. lia.
Qed.
Lemma code_inj c d : N_of_ascii c = N_of_ascii d -> c = d.
Proof. intros H. rewrite <- (ascii_N_embedding c), <- (ascii_N_embedding d). now rewrite H. Qed.
Lemma toupper_iff c d : ascii_toupper c = d <-> Capitalized c d.
Proof.
  unfold ascii_toupper, Capitalized. rewrite small_iff, cases_iff. destruct (N.leb_spec 97 (N_of_ascii c)); cbn [andb]; [destruct (N.leb_spec (N_of_ascii c) 122)|]; (split; [intros <-|]).
  - left. rewrite code_of by lia. lia.
  - intros [[_ E]|[Hn _]]; [|lia]. apply code_inj. rewrite code_of by lia. now symmetry.
  - right. split; [lia|reflexivity].
  - intros [[? _]|[_ ->]]; [lia|reflexivity].
  - right. split; [lia|reflexivity].
  - intros [[? _]|[_ ->]]; [lia|reflexivity].
Qed.
Lemma tolower_iff c d : ascii_tolower c = d <-> Lowered c d.
Proof.
  unfold ascii_tolower, Lowered. rewrite capital_iff, cases_iff. destruct (N.leb_spec 65 (N_of_ascii c)); cbn [andb]; [destruct (N.leb_spec (N_of_ascii c) 90)|]; (split; [intros <-|]).
  - left. rewrite code_of by lia. lia.
  - intros [[? E]|[Hn _]]; [|lia]. apply code_inj. rewrite code_of by lia. lia.
  - right. split; [lia|reflexivity].
  - intros [[? ?]|[_ ->]]; [lia|reflexivity].
  - right. split; [lia|reflexivity].
  - intros [[? ?]|[_ ->]]; [lia|reflexivity].
Qed.

Lemma free_cons c s : free (String c s) <-> c <> "_"%char /\ free s.
Proof. unfold free. cbn. intuition congruence. Qed.
Lemma loop_free b w s : free w -> camel_loop false (w ++ s) = (w ++ camel_loop false s)%string /\ (w <> "" -> b = true -> forall v, Title w v -> camel_loop b (w ++ s) = (v ++ camel_loop false s)%string).
Proof.
  intros Hf. assert (forall w, free w -> camel_loop false (w ++ s) = (w ++ camel_loop false s)%string) as H.
  { clear. induction w as [|c w IH]; intros Hf; [reflexivity|]. apply free_cons in Hf as [Hc Hf]. cbn. destruct (Ascii.eqb_spec c "_"); [contradiction|]. now rewrite (IH Hf). }
  split; [exact (H w Hf)|]. intros _ -> v Hv. destruct Hv as [c d w Hcd]. apply free_cons in Hf as [Hc Hf]. cbn. destruct (Ascii.eqb_spec c "_"); [contradiction|]. apply toupper_iff in Hcd as ->. now rewrite (H w Hf).
Qed.
Lemma app_nil_s s : (s ++ "")%string = s.
Proof. induction s as [|c s IH]; cbn; [reflexivity|now rewrite IH]. Qed.
Lemma concat_cons_s w l : String.concat "" (w :: l) = (w ++ String.concat "" l)%string.
Proof. destruct l; cbn; [now rewrite app_nil_s|reflexivity]. Qed.
Lemma loop_words s l : Words s l -> forall ts, Forall2 Title l ts -> camel_loop true s = String.concat "" ts.
Proof.
  induction 1 as [|s l H IH|w Hw Hf|w s l Hw Hf H IH]; intros ts Ht.
  - inversion Ht. reflexivity.
  - cbn. auto.
  - inversion Ht as [|? v ? ? Hv Hn]; subst. inversion Hn; subst. destruct (loop_free true w "" Hf) as [_ HL]. specialize (HL Hw eq_refl v Hv). rewrite app_nil_s in HL. rewrite HL, concat_cons_s. reflexivity.
  - inversion Ht as [|? v ? ts' Hv Hn]; subst. destruct (loop_free true w (String "_" s) Hf) as [_ HL]. rewrite (HL Hw eq_refl v Hv), concat_cons_s. cbn. now rewrite (IH _ Hn).
Qed.
Lemma words_total s : exists l, Words s l.
Proof.
  enough (exists w r, s = (w ++ r)%string /\ free w /\ (r = "" \/ exists r', r = String "_" r' /\ exists l, Words r' l)) as (w & r & -> & Hf & H).
  { destruct (string_dec w "") as [->|Hw].
    - destruct H as [->|(r' & -> & l & H)]; [exists []; constructor|exists l; cbn; now constructor].
    - destruct H as [->|(r' & -> & l & H)]; [exists [w]; rewrite app_nil_s; now constructor|exists (w :: l); now constructor]. }
  induction s as [|c s (w & r & -> & Hf & H)]; [exists "", ""; repeat split; [intros []|now left]|].
  destruct (Ascii.eqb_spec c "_") as [->|Hc].
  - exists "", (String "_" (w ++ r)). split; [reflexivity|]. split; [intros []|]. right. exists (w ++ r)%string. split; [reflexivity|].
    destruct (string_dec w "") as [->|Hw].
    + destruct H as [->|(r' & -> & l & H)]; [exists []; constructor|exists l; cbn; now constructor].
    + destruct H as [->|(r' & -> & l & H)]; [exists [w]; rewrite app_nil_s; now constructor|exists (w :: l); now constructor].
  - exists (String c w), r. split; [reflexivity|]. split; [apply free_cons; auto|exact H].
Qed.
Lemma words_nonempty s l : Words s l -> forall w, In w l -> w <> "" /\ free w.
Proof. induction 1; cbn; intros x Hx; [destruct Hx|auto|destruct Hx as [<-|[]]; auto|destruct Hx as [<-|Hx]; auto]. Qed.
Lemma titles_total l : (forall w, In w l -> w <> "" /\ free w) -> exists ts, Forall2 Title l ts.
Proof.
  induction l as [|w l IH]; intros H; [exists []; constructor|]. destruct IH as [ts Ht]; [intros x Hx; apply H; now right|]. destruct (H w (or_introl eq_refl)) as [Hw _]. destruct w as [|c w]; [contradiction|].
  exists (String (ascii_toupper c) w :: ts). constructor; [|exact Ht]. constructor. now apply toupper_iff.
Qed.
(** The words of the name, each with its first letter capitalized, without the underscores; the very first character in lower case if asked for. *)
Theorem C102_camel_case : forall s lower_first out, SnakeCaseToCamelCase s lower_first = out <->
  exists l ts, Words s l /\ Forall2 Title l ts /\ (if lower_first then Lower (String.concat "" ts) out else out = String.concat "" ts).
Proof.
  assert (forall s (b : bool) l ts out, Words s l -> Forall2 Title l ts -> (if b then Lower (String.concat "" ts) out else out = String.concat "" ts) -> SnakeCaseToCamelCase s b = out) as H.
  { intros s b l ts out HW HT Ho. unfold SnakeCaseToCamelCase. rewrite (loop_words s l HW ts HT). destruct b.
    - destruct Ho as [|c d s' Hcd]; [reflexivity|]. apply tolower_iff in Hcd as ->. reflexivity.
    - subst. destruct (String.concat "" ts); reflexivity. }
  intros s b out. split; [intros <-|intros (l & ts & H1 & H2 & H3); exact (H s b l ts out H1 H2 H3)].
  destruct (words_total s) as [l HW]. destruct (titles_total l (words_nonempty s l HW)) as [ts HT]. exists l, ts. split; [exact HW|]. split; [exact HT|].
  destruct b; [|exact (H s false l ts _ HW HT eq_refl)]. destruct (String.concat "" ts) as [|c r] eqn:E.
  - assert (SnakeCaseToCamelCase s true = "") as ->; [|constructor]. apply (H s true l ts "" HW HT). rewrite E. constructor.
  - assert (Lower (String c r) (String (ascii_tolower c) r)) as HL by (constructor; now apply tolower_iff). rewrite (H s true l ts (String (ascii_tolower c) r) HW HT); [exact HL|]. rewrite E. exact HL.
Qed.
Print Assumptions C102_camel_case.
(** Every name has its words. *)
Theorem C102_words : forall s, exists l, Words s l.
Proof. exact words_total. Qed.
Print Assumptions C102_words.
Lemma toupper_no_underscore c : c <> "_"%char -> ascii_toupper c <> "_"%char.
Proof. intros Hc E. apply toupper_iff in E as [H|[_ E]]; [|congruence]. apply cases_iff in H as [? H]. cbn in H. lia. Qed.
Lemma loop_no_underscore s : forall b, free (camel_loop b s).
Proof.
  induction s as [|c s IH]; intros b; [intros []|]. cbn [camel_loop]. destruct (Ascii.eqb_spec c "_") as [->|Hc]; [apply IH|]. destruct b; apply free_cons; (split; [|apply IH]); [now apply toupper_no_underscore|exact Hc].
Qed.
(** No underscores are left; converting twice is converting once. *)
Theorem C102_stable : forall s b, free (SnakeCaseToCamelCase s b) /\ SnakeCaseToCamelCase (SnakeCaseToCamelCase s b) b = SnakeCaseToCamelCase s b.
Proof.
  intros s b. assert (free (SnakeCaseToCamelCase s b)) as Hf.
  { unfold SnakeCaseToCamelCase. pose proof (loop_no_underscore s true) as H. destruct (camel_loop true s) as [|c r]; [exact H|]. destruct b; [|exact H]. apply free_cons in H as [Hc H]. apply free_cons. split; [|exact H].
    intros E. apply tolower_iff in E as [E|[_ E]]; [|congruence]. apply cases_iff in E as [E _]. cbn in E. lia. }
  split; [exact Hf|]. assert (forall x, ascii_toupper (ascii_toupper x) = ascii_toupper x) as Huu.
  { intros x. apply toupper_iff. right. split; [|reflexivity]. rewrite small_iff. destruct (proj1 (toupper_iff x _) eq_refl) as [H|[H1 H2]]; [apply cases_iff in H; lia|]. rewrite H2, <- small_iff. exact H1. }
  assert (forall x, ascii_tolower (ascii_toupper (ascii_tolower (ascii_toupper x))) = ascii_tolower (ascii_toupper x)) as Hlu.
  { intros x. destruct (proj1 (toupper_iff x _) eq_refl) as [H|[H1 H2]].
    - assert (cases x (ascii_toupper x)) as H' by exact H. set (u := ascii_toupper x) in *. assert (ascii_tolower u = x) as -> by (apply tolower_iff; now left). fold u. apply tolower_iff. now left.
    - rewrite H2. destruct (proj1 (tolower_iff x _) eq_refl) as [H|[H3 H4]]; [|rewrite H4, H2, H4; reflexivity]. assert (ascii_toupper (ascii_tolower x) = x) as -> by (apply toupper_iff; now left). reflexivity. }
  unfold SnakeCaseToCamelCase in *. destruct (camel_loop true s) as [|c r] eqn:E; [reflexivity|].
  assert (exists x, c = ascii_toupper x) as [x ->].
  { clear - E. induction s as [|y s IH]; [discriminate E|]. cbn in E. destruct (Ascii.eqb y "_"); [auto|]. injection E as <- _. eauto. }
  assert (free r) as Hr. { destruct b; apply free_cons in Hf as [_ Hf]; exact Hf. }
  assert (camel_loop false r = r) as HL. { destruct (loop_free false r "" Hr) as [H _]. cbn in H. now rewrite !app_nil_s in H. }
  destruct b; apply free_cons in Hf as [Hc _]; cbn [camel_loop]; match goal with |- context [Ascii.eqb ?a ?b] => destruct (Ascii.eqb_spec a b) as [|_]; [contradiction|] end; rewrite HL; [now rewrite Hlu|now rewrite Huu].
Qed.
Print Assumptions C102_stable.
(** The inputs of gutils/testing_test.cc. *)
Definition newline : string := String (ascii_of_nat 10) "".
Example C102_case : map (fun s => SnakeCaseToCamelCase s false) ["my_camel_case"; "word"; "two_words"; "3_words"; "_my_camel_case_"; "_with__extra_underlines_"; "alreadyCamelCase"; "wEiRd_cASiNg"; "?weird_first_character"; "many_" ++ newline ++ "non-letter..._char:acters"]
    = ["MyCamelCase"; "Word"; "TwoWords"; "3Words"; "MyCamelCase"; "WithExtraUnderlines"; "AlreadyCamelCase"; "WEiRdCASiNg"; "?weirdFirstCharacter"; "Many" ++ newline ++ "non-letter...Char:acters"] /\
  map (fun s => SnakeCaseToCamelCase s true) ["my_camel_case"; "word"; "3_words"; "_with__extra_underlines_"; "wEiRd_cASiNg"; "?weird_first_character"] = ["myCamelCase"; "word"; "3Words"; "withExtraUnderlines"; "wEiRdCASiNg"; "?weirdFirstCharacter"] /\
  Words "_two__words" ["two"; "words"] /\ Title "two" "Two".
Proof.
  split; [vm_compute; reflexivity|]. split; [vm_compute; reflexivity|]. split.
  - apply wo_skip. apply (wo_word "two" "_words"); [discriminate|intros H; cbn in H; repeat (destruct H as [H|H]; [discriminate H|]); exact H|]. apply wo_skip, wo_last; [discriminate|intros H; cbn in H; repeat (destruct H as [H|H]; [discriminate H|]); exact H].
  - constructor. left. exact (ca_letter 19 eq_refl).
Qed.
