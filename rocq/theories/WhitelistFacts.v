(** Facts about constraints that list the entries that are allowed. *)
From Coq Require Import String Ascii List ZArith NArith Bool Lia.
From Verif Require Import Base Num Token Ast AstConstructors Parser Info TypeChecker ConstraintInfo Interpreter SpecLexer SpecGrammar SpecParser SpecTyping SpecSemantics SpecInfo SpecSymbolic SpecSolver SpecReading SpecIdioms SpecSingle
  LiteralFacts ParserFacts4 TypeFacts SemFacts2 EvalFacts EntryFacts InfoFacts InfoFacts2 InterpFacts2 ReadingFacts ReadingFacts2 ReadingFacts3 RenameFacts SingleFacts SingleFacts2.
Import ListNotations.
Open Scope string_scope.

(** Values of entries that fit. *)
Lemma fitting_bounded ks fields k v : NoDup (map k_id ks) -> int32_widths ks -> fitting ks fields -> In k ks -> NoDup (map k_name ks) -> Assigned ks fields (k_name k) v -> bounded (k_type k) v.
Proof.
  intros HI Hw Hf Hk HN Ha. remember (k_name k) as n eqn:En. destruct Ha as [k' f v Hk' Hin Hid Hv|k' v Hk' _ Hv]; (assert (k' = k) as -> by (eapply nodup_keys; eauto)); pose proof (Hw k) as Hwk.
  - pose proof (fun w => Hf f k w Hin Hk (eq_sym Hid)) as Hfk. assert (forall s, (0 <= unsigned s)%Z) as Hu by (intros s; apply N2Z.is_nonneg). inversion Hv as [w s Et Es|w s m Et Es|w s p Et Es|w l h Et Es|w s Hw0 Et Es]; subst;
      rewrite <- Et in Hwk, Hfk; (assert (0 <= w <= 2147483647)%Z as Hww by (apply Hwk; [exact Hk|constructor])); (assert (fits_key w (fm_value f)) as HF by (apply Hfk; constructor)); rewrite <- Es in HF; inversion HF; subst; constructor; try lia; repeat split; auto; try lia.
    all: assert (0 < 2 ^ w)%Z by (apply Z.pow_pos_nonneg; lia); lia.
  - inversion Hv as [w Et|w Et|w Et|w Hw0 Et]; subst; rewrite <- Et in Hwk; (assert (0 <= w <= 2147483647)%Z as Hww by (apply Hwk; [exact Hk|constructor])); (assert (0 < 2 ^ w)%Z by (apply Z.pow_pos_nonneg; lia)); constructor; lia.
Qed.

(** Printed constraints have no quotes and no NUL characters. *)
Definition tame (c : ascii) : Prop := c <> DQUOTE /\ c <> NUL.
Lemma only_app p s t : only p (s ++ t) <-> only p s /\ only p t.
Proof. unfold only. setoid_rewrite chars_in_app. split; [intros H; split; intros c Hc; apply H; auto|intros [H1 H2] c [Hc|Hc]; auto]. Qed.
Lemma between_tame lo hi c : (35 <= lo)%N -> between lo hi c -> tame c.
Proof. intros Hlo [H _]. split; intros ->; cbn in H; lia. Qed.
Lemma letter_tame c : letter c -> tame c.
Proof. intros [->|[H|H]]; [split; discriminate|apply (between_tame 97 122); [lia|exact H]|apply (between_tame 65 90); [lia|exact H]]. Qed.
Lemma ident_tame w : ident w -> only tame w.
Proof.
  intros ((c & t & -> & Hc & Ht) & _) d Hd. cbn in Hd. destruct Hd as [<-|Hd]; [now apply letter_tame|]. destruct (Ht d Hd) as [H|H]; [now apply letter_tame|]. apply (between_tame 48 57); [lia|exact H].
Qed.
Lemma digit_tame c d : dchar c d -> (d < 10)%N -> tame c.
Proof. intros Hc Hd. apply dchar_10 in Hc as [Hc _]; [|exact Hd]. split; intros ->; vm_compute in Hc; discriminate Hc. Qed.
Lemma decimal_tame s n : Decimal s n -> only tame s.
Proof.
  intros [H _]. induction H as [c d Hc Hd|s n c d H IH Hc Hd].
  - intros x [<-|[]]. exact (digit_tame _ _ Hc Hd).
  - apply only_app. split; [exact IH|]. intros x [<-|[]]. exact (digit_tame _ _ Hc Hd).
Qed.
Lemma tokens_tame l : Forall (fun x => only tame (snd x)) l -> only tame (text_of l).
Proof.
  induction 1 as [|[k s] l Hs HF IH]; [intros c []|]. unfold text_of. cbn [map render]. apply only_app. split; [exact Hs|]. apply only_app. split; [|exact IH]. intros c [<-|[]]. split; discriminate.
Qed.
Lemma print_tame num s : (forall n, Decimal (num n) n) -> printable s -> Forall (fun x => only tame (snd x)) (print num s).
Proof.
  intros Hnum. assert (forall w, In w ["true"; "false"; "."; "::"; "("; ")"; "!"; "-"; ";"; "->"; "||"; "&&"; "=="; "!="; ">"; ">="; "<"; "<="; ""] -> only tame w) as HT.
  { intros w Hw c Hc. repeat destruct Hw as [<-|Hw]; try contradiction; cbn in Hc; repeat destruct Hc as [<-|Hc]; try contradiction; split; discriminate. }
  induction s as [b|n|id ids|n|e IH|e IH|op l IHl r IHr|e IH f]; intros HP; cbn [print printable] in *.
  - destruct b; (constructor; [apply HT; cbn; tauto|constructor]).
  - constructor; [exact (decimal_tame _ _ (Hnum n))|constructor].
  - inversion HP as [|? ? H1 H2]; subst. constructor; [now apply ident_tame|]. clear HP. induction H2 as [|i ids Hi H2 IH]; cbn [flat_map app]; [constructor|]. constructor; [apply HT; cbn; tauto|]. constructor; [now apply ident_tame|exact IH].
  - constructor; [apply HT; cbn; tauto|]. constructor; [now apply ident_tame|constructor].
  - constructor; [apply HT; cbn; tauto|]. constructor; [apply HT; cbn; tauto|]. apply Forall_app. split; [auto|]. constructor; [apply HT; cbn; tauto|constructor].
  - constructor; [apply HT; cbn; tauto|]. constructor; [apply HT; cbn; tauto|]. apply Forall_app. split; [auto|]. constructor; [apply HT; cbn; tauto|constructor].
  - destruct HP as (_ & H1 & H2). constructor; [apply HT; cbn; tauto|]. apply Forall_app. split; [auto|]. constructor; [apply HT; destruct op; cbn; tauto|]. apply Forall_app. split; [auto|]. constructor; [apply HT; cbn; tauto|constructor].
  - destruct HP as (H1 & H2). constructor; [apply HT; cbn; tauto|]. apply Forall_app. split; [auto|]. constructor; [apply HT; cbn; tauto|]. constructor; [now apply ident_tame|]. constructor; [apply HT; cbn; tauto|constructor].
Qed.
(** So they can be written into an annotation. *)
Lemma annotated text id name : only tame text -> restricted kTableConstraint (mkPre id name ["@entry_restriction" ++ parts_text [text]]) (mkCSource text (mkLoc 0 0 (SrcTable name))).
Proof.
  intros HT. exists (parts_text [text]), "", 0%Z, [text]. split; [now apply nt_here|]. split; [|split; [discriminate|split; [|reflexivity]]].
  - split; [|now left]. unfold parts_text. cbn [String.concat]. intros Hin. assert (only (fun c => c <> NUL) ("(" ++ dq ++ text ++ dq ++ ")")) as H; [|exact (H _ Hin eq_refl)].
    repeat (apply only_app; split); try (intros c [<-|[]]; discriminate). intros c Hc. apply (HT c Hc).
  - constructor; [|constructor]. intros Hin. exact (proj1 (HT _ Hin) eq_refl).
Qed.
