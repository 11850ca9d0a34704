(** Facts about constraints that single out entries. *)
From Coq Require Import String Ascii List ZArith NArith Bool Lia Permutation.
From Verif Require Import Base Num Token Ast AstConstructors Info TypeChecker Interpreter Z3 Symbolic SpecLexer SpecGrammar SpecParser SpecTyping SpecSemantics SpecInfo SpecSymbolic SpecSolver SpecReading SpecIdioms SpecSingle
  TypeFacts SemFacts2 EvalFacts EntryFacts ReadingFacts SymKeys SymMeaning.
Import ListNotations.
Open Scope string_scope.

Lemma common_bit0 w : common (TBit w) TInt (TBit w).
Proof. apply lub_iff. reflexivity. Qed.
Lemma common_int0 : common TInt TInt TInt.
Proof. apply lub_iff. reflexivity. Qed.

(** Values whose numbers fit their type. *)
Inductive bounded : ty -> value -> Prop :=
| bd_exact w z : (0 <= w)%Z -> (0 <= z < 2 ^ w)%Z -> bounded (TExact w) (VExact z)
| bd_ternary w z m : (0 <= w)%Z -> (0 <= z < 2 ^ w)%Z -> (0 <= m < 2 ^ w)%Z -> bounded (TTernary w) (VTernary z m)
| bd_optional w z m : (0 <= w)%Z -> (0 <= z < 2 ^ w)%Z -> (0 <= m < 2 ^ w)%Z -> bounded (TOptional w) (VTernary z m)
| bd_lpm w z p : (0 <= w)%Z -> (0 <= z < 2 ^ w)%Z -> (0 <= p)%Z -> bounded (TLpm w) (VLpm z p)
| bd_range w l h : (0 <= w)%Z -> (0 <= l < 2 ^ w)%Z -> (0 <= h < 2 ^ w)%Z -> bounded (TRange w) (VRange l h).
Lemma bounded_type t v : bounded t v -> of_type t v /\ usable t.
Proof. intros H. destruct H; (split; [constructor|split; [discriminate|intros n; discriminate]]). Qed.
Lemma bounded_pins s t v : bounded t v -> exists q, Pins s v q.
Proof.
  assert (forall z, (0 <= z)%Z -> exists n, z = Z.of_N n) as HN by (intros z Hz; exists (Z.to_N z); now rewrite Z2N.id).
  intros H. destruct H as [w z Hw Hz|w z m Hw Hz Hm|w z m Hw Hz Hm|w z p Hw Hz Hm|w z m Hw Hz Hm].
  1: destruct (HN z) as [n ->]; [lia|]; eexists; constructor.
  all: destruct (HN z) as [n ->]; [lia|]; match goal with |- exists q, Pins _ (_ _ ?y) q => destruct (HN y) as [n' ->]; [lia|] end; eexists; constructor.
Qed.

Section Says.
  Variable cmp : ty -> binop -> value -> value -> bool -> Prop.
  Hypothesis Hcmp : forall t u v x, documented t OEQ u v x -> cmp t OEQ u v x.
  Variables (keys : list (string * key_info)) (key : string -> option value) (p : Z).
  Let G := InTable keys.
  Let r := TableEnv key p.
  Notation Mean := (Means kTableConstraint).
  (** The constraint uses only the names of [only], and attributes only if [attr], and says [P]. *)
  Definition says (only : string -> Prop) (attr : Prop) (e : expr) (P : Prop) : Prop :=
    Typed G e TBool /\ literals e /\ (forall n, mentions e n -> only n) /\ (has_attribute e -> attr) /\ exists b, Meant cmp G r e (VBool b) /\ (b = true <-> P).
  Lemma says_iff only attr e P Q : (P <-> Q) -> says only attr e P -> says only attr e Q.
  Proof. intros H (H1 & H2 & H3 & H4 & b & H5 & H6). repeat (split; [assumption|]). exists b. split; [exact H5|]. now rewrite H6. Qed.
  Lemma says_weaken (only only' : string -> Prop) (attr attr' : Prop) e P : (forall n, only n -> only' n) -> (attr -> attr') -> says only attr e P -> says only' attr' e P.
  Proof. intros Ho Ha (H1 & H2 & H3 & H4 & H5). repeat (split; [auto|]). exact H5. Qed.
  Lemma says_bool only attr m (c : bool) : says only attr (EBool m c) (c = true).
  Proof.
    split; [constructor|]. split; [exact I|]. split; [intros n Hn; inversion Hn|]. split; [intros Hn; inversion Hn|]. exists c. split; [constructor|tauto].
  Qed.
  Lemma says_bin only attr m o a b P Q (R : Prop) : connective o -> says only attr a P -> says only attr b Q -> (forall x y : bool, (x = true <-> P) -> (y = true <-> Q) -> (truth o x y = true <-> R)) ->
    says only attr (EBin m o a b) R.
  Proof.
    intros Ho (A1 & A2 & A3 & A4 & x & A5 & A6) (B1 & B2 & B3 & B4 & y & B5 & B6) HR.
    split; [now apply T_conn|]. split; [now split|]. split; [intros n Hn; inversion Hn; subst; auto|]. split; [intros Hn; inversion Hn; subst; auto|].
    exists (truth o x y). split; [now apply mn_both|auto].
  Qed.
  Lemma says_and only attr m a b P Q : says only attr a P -> says only attr b Q -> says only attr (EBin m OAND a b) (P /\ Q).
  Proof. intros HP HQ. eapply says_bin; [constructor|exact HP|exact HQ|]. intros x y <- <-. cbn. apply andb_true_iff. Qed.
  Lemma says_or only attr m a b P Q : says only attr a P -> says only attr b Q -> says only attr (EBin m OOR a b) (P \/ Q).
  Proof. intros HP HQ. eapply says_bin; [constructor|exact HP|exact HQ|]. intros x y <- <-. cbn. apply orb_true_iff. Qed.
  Lemma says_not only attr m a P : says only attr a P -> says only attr (ENot m a) (~ P).
  Proof.
    intros (A1 & A2 & A3 & A4 & x & A5 & A6). split; [now apply T_not|]. split; [exact A2|]. split; [intros n Hn; inversion Hn; subst; auto|]. split; [intros Hn; inversion Hn; subst; auto|].
    exists (negb x). split; [now apply mn_not|]. rewrite <- A6. destruct x; cbn; split; congruence.
  Qed.
  Lemma says_equal (only : string -> Prop) (attr : Prop) m a ta d n z mi : Typed G a ta -> literals a -> (forall n, mentions a n -> only n) -> (has_attribute a -> attr) -> Meant cmp G r a (VInt z) -> Decimal d n ->
    (ta = TInt \/ exists w, ta = TBit w /\ (0 <= w)%Z /\ (Z.of_N n < 2 ^ w)%Z) -> says only attr (EBin m OEQ a (EInt mi d)) (z = Z.of_N n).
  Proof.
    intros Ta La Ma Aa Da Hd Ht. assert (common ta TInt ta) as Hco by (destruct Ht as [->|(w & -> & _)]; [exact common_int0|apply common_bit0]).
    split; [eapply T_eq; [constructor|exact Ta|constructor|exact Hco]|]. split; [split; [exact La|now exists n]|].
    split; [intros x Hx; inversion Hx as [| | | | |? ? ? ? ? H|? ? ? ? ? H|]; subst; [auto|inversion H]|]. split; [intros Hx; inversion Hx as [| | |? ? ? ? H|? ? ? ? H|]; subst; [auto|inversion H]|].
    exists (value_eqb (VInt z) (VInt (Z.of_N n))). pose proof (eq_iff OEQ (VInt z) (VInt (Z.of_N n)) c_eq) as E. cbn iota in E. split.
    - apply (mn_compare cmp G r m OEQ a (EInt mi d) ta TInt ta (VInt z) (VInt (Z.of_N n)) (VInt z) (VInt (Z.of_N n))); auto; try now constructor.
      + left; constructor.
      + destruct Ht as [->|(w & -> & Hw & Hn)]; [constructor|]. assert (Converts TInt (TBit w) (VInt (Z.of_N n)) (VInt (Z.of_N n mod 2 ^ w))) as Hcv by now constructor. rewrite Z.mod_small in Hcv by lia. exact Hcv.
      + apply Hcmp. split; [left; constructor|exact E].
    - rewrite E. split; [intros H; now inversion H|intros ->; constructor].
  Qed.
  Lemma says_field ks s k f t' u z n e (attr : Prop) : names ks s k -> declared keys (k_name k) (k_type k) -> usable (k_type k) -> key (k_name k) = Some u -> has_field (k_type k) f t' -> Field f u z ->
    (t' = TInt \/ exists w, t' = TBit w /\ (0 <= w)%Z /\ (Z.of_N n < 2 ^ w)%Z) -> Mean (field_is s f n) e -> says (eq (k_name k)) attr e (z = Z.of_N n).
  Proof.
    intros (_ & id & ids & -> & En) Hd Hu Hk Hf Hz Ht HM. unfold field_is in HM. inversion HM as [| | | | | |m ? p0 ch o ? ? a b Hb Ma Mb|]; subst. inversion Hb; subst.
    inversion Ma as [| | | | | | |mf ? a' ? Ma']; subst. inversion Ma' as [| |mk ? ?| | | | |]; subst. inversion Mb as [|mi ? d Hdec| | | | | |]; subst. unfold variable in *. rewrite <- En in *.
    eapply says_equal; [| | | | |exact Hdec|exact Ht].
    - eapply T_field; [|exact Hf]. eapply T_key; [reflexivity|exact Hd|exact Hu].
    - exact I.
    - intros x Hx. inversion Hx as [| | | | | | |? ? ? ? H]; subst. now inversion H.
    - intros Hx. inversion Hx as [| | | | |? ? ? H]; subst. inversion H.
    - eapply mn_field; [|exact Hz]. eapply mn_key; [reflexivity|exact Hk].
  Qed.
  Lemma says_pins ks s k u v q e (attr : Prop) : names ks s k -> declared keys (k_name k) (k_type k) -> bounded (k_type k) v -> key (k_name k) = Some u -> of_type (k_type k) u -> Pins s v q -> Mean q e ->
    says (eq (k_name k)) attr e (u = v).
  Proof.
    intros HN Hd Hb Hk Hu HP HM. pose proof (proj2 (bounded_type _ _ Hb)) as Hus.
    destruct HP as [z|z m|z l|l h].
    - inversion Hb as [w z' Hw Hz Et| | | |]; subst. rewrite <- Et in Hu. inversion Hu; subst. eapply says_iff; [|eapply (says_field ks s k "value" (TBit w)); eauto].
      + split; [intros ->; reflexivity|now intros [= ->]].
      + rewrite <- Et. constructor.
      + constructor.
      + right. exists w. split; [reflexivity|]. split; [exact Hw|apply Hz].
    - inversion HM as [| | | | | |m' ? p0 ch o ? ? a b Hbi Ma Mb|]; subst. inversion Hbi; subst.
      assert (exists w, (0 <= w)%Z /\ (Z.of_N z < 2 ^ w)%Z /\ (Z.of_N m < 2 ^ w)%Z /\ has_field (k_type k) "value" (TBit w) /\ has_field (k_type k) "mask" (TBit w)) as (w & Hw & Hz & Hm & F1 & F2)
        by (inversion Hb as [|w z' m1 Hw Hz Hm Et|w z' m1 Hw Hz Hm Et| |]; subst; exists w; repeat split; try lia; constructor).
      assert (exists z' m1, u = VTernary z' m1) as (z' & m1 & ->) by (inversion Hb as [|? ? ? ? ? ? Et|? ? ? ? ? ? Et| |]; subst; rewrite <- Et in Hu; inversion Hu; subst; eauto).
      eapply says_iff; [|apply says_and; [eapply (says_field ks s k "value" (TBit w) (VTernary z' m1) z' z a attr)|eapply (says_field ks s k "mask" (TBit w) (VTernary z' m1) m1 m b attr)]; eauto]; try now constructor.
      all: try (split; [intros [-> ->]; reflexivity|now intros [= -> ->]]).
      all: right; exists w; split; [reflexivity|now split].
    - inversion HM as [| | | | | |m' ? p0 ch o ? ? a b Hbi Ma Mb|]; subst. inversion Hbi; subst. inversion Hb as [| | |w z' l' Hw Hz Hl Et|]; subst. rewrite <- Et in Hu. inversion Hu as [| | | | | |? z' l'|]; subst.
      eapply says_iff; [|apply says_and; [eapply (says_field ks s k "value" (TBit w) (VLpm z' l') z' z a attr)|eapply (says_field ks s k "prefix_length" TInt (VLpm z' l') l' l b attr)]; eauto]; try (rewrite <- Et); try now constructor.
      all: try (split; [intros [-> ->]; reflexivity|now intros [= -> ->]]).
      all: right; exists w; split; [reflexivity|now split].
    - inversion HM as [| | | | | |m' ? p0 ch o ? ? a b Hbi Ma Mb|]; subst. inversion Hbi; subst. inversion Hb as [| | | |w l' h' Hw Hl Hh Et]; subst. rewrite <- Et in Hu. inversion Hu as [| | | | | | |? l' h']; subst.
      eapply says_iff; [|apply says_and; [eapply (says_field ks s k "low" (TBit w) (VRange l' h') l' l a attr)|eapply (says_field ks s k "high" (TBit w) (VRange l' h') h' h b attr)]; eauto]; try (rewrite <- Et); try now constructor.
      all: try (split; [intros [-> ->]; reflexivity|now intros [= -> ->]]).
      all: right; exists w; split; [reflexivity|now split].
  Qed.
  (** All keys. *)
  Variable ks : list key_info.
  Hypothesis Hdecl : forall k, In k ks -> declared keys (k_name k) (k_type k).
  Hypothesis Hval : forall k, In k ks -> exists u, key (k_name k) = Some u /\ of_type (k_type k) u.
  Lemma says_describes fields l q e (attr : Prop) : (forall k v, In k ks -> Assigned ks fields (k_name k) v -> bounded (k_type k) v) -> (forall k v v', In k ks -> Assigned ks fields (k_name k) v -> Assigned ks fields (k_name k) v' -> v = v') ->
    Describes ks fields l q -> Mean q e -> says (fun n => exists k, In k ks /\ k_name k = n) attr e (forall k v, In k l -> Assigned ks fields (k_name k) v -> key (k_name k) = Some v).
  Proof.
    intros Hb Hfun HD. revert e. induction HD as [|k l s v q rest HN HA HP HD IH]; intros e HM.
    - inversion HM; subst. eapply says_iff; [|apply says_bool]. split; [intros _ k v []|reflexivity].
    - inversion HM as [| | | | | |m' ? p0 ch o ? ? a b Hbi Ma Mb|]; subst. inversion Hbi; subst. pose proof (proj1 HN) as Hk. destruct (Hval k Hk) as (u & Hu & Ht).
      eapply says_iff; [|apply says_and; [eapply says_weaken; [| |eapply (says_pins ks s k u v q a attr); eauto]; [intros n <-; eauto|auto]|apply IH; exact Mb]].
      split.
      + intros [-> H] k' v' [<-|Hk'] HA'; [rewrite (Hfun k v' v Hk HA' HA); exact Hu|now apply H].
      + intros H. split; [pose proof (H k v (or_introl eq_refl) HA) as E; congruence|]. intros k' v' Hk'. apply H. now right.
  Qed.
  Lemma says_description fields p' q e : (forall k v, In k ks -> Assigned ks fields (k_name k) v -> bounded (k_type k) v) -> (forall k v v', In k ks -> Assigned ks fields (k_name k) v -> Assigned ks fields (k_name k) v' -> v = v') ->
    describes ks fields p' q -> Mean q e -> says (fun n => exists k, In k ks /\ k_name k = n) True e (p = p' /\ forall k v, In k ks -> Assigned ks fields (k_name k) v -> key (k_name k) = Some v).
  Proof.
    intros Hb Hfun [q' n HD] HM. inversion HM as [| | | | | |m' ? p0 ch o ? ? a b Hbi Ma Mb|]; subst. inversion Hbi; subst. apply says_and; [|eapply says_describes; eauto].
    inversion Ma as [| | | | | |m1 ? p1 ch1 o1 ? ? a1 b1 Hb1 Ma1 Mb1|]; subst. inversion Hb1; subst. inversion Ma1; subst. inversion Mb1 as [|mi ? d Hdec| | | | | |]; subst.
    eapply says_equal; [constructor|exact I|intros x Hx; inversion Hx|auto|eapply mn_priority; reflexivity|exact Hdec|now left].
  Qed.
  Lemma says_lists l q e : (forall fields p', In (fields, p') l -> (forall k v, In k ks -> Assigned ks fields (k_name k) v -> bounded (k_type k) v) /\ (forall k v v', In k ks -> Assigned ks fields (k_name k) v -> Assigned ks fields (k_name k) v' -> v = v')) ->
    Lists ks l q -> Mean q e -> says (fun n => exists k, In k ks /\ k_name k = n) True e (exists fields, In (fields, p) l /\ forall k v, In k ks -> Assigned ks fields (k_name k) v -> key (k_name k) = Some v).
  Proof.
    intros Hl HL. revert e. induction HL as [|fields p' l q rest Hd HL IH]; intros e HM.
    - inversion HM; subst. eapply says_iff; [|apply says_bool]. split; [discriminate|intros (f & [] & _)].
    - inversion HM as [| | | | | |m' ? p0 ch o ? ? a b Hbi Ma Mb|]; subst. inversion Hbi; subst. destruct (Hl fields p' (or_introl eq_refl)) as [Hb Hf].
      eapply says_iff; [|apply says_or; [apply (says_description fields p' q a Hb Hf Hd Ma)|apply (IH (fun f x H => Hl f x (or_intror H)) b Mb)]]. split.
      + intros [[E H]|(f & Hin & H)]; [exists fields; split; [left; congruence|exact H]|exists f; split; [now right|exact H]].
      + intros (f & [E|Hin] & H); [injection E as E1 E2; left; split; [congruence|rewrite E1; exact H]|right; eauto].
  Qed.
End Says.

(** Descriptions exist and can be printed. *)
Lemma ident_word w : In w ["value"; "mask"; "prefix_length"; "low"; "high"; "priority"] -> ident w.
Proof.
  intros H. assert (forall c, In c (list_ascii_of_string "abcdefghijklmnopqrstuvwxyz_") -> letter c) as HL.
  { intros c Hc. unfold letter, between. cbn in Hc. repeat destruct Hc as [<-|Hc]; try contradiction; first [left; reflexivity|right; left; split; discriminate]. }
  repeat destruct H as [<-|H]; try contradiction; (split; [|split; intros u; discriminate]); eexists _, _; (split; [reflexivity|]); (split; [apply HL; cbn; tauto|]); intros c Hc; left; apply HL; cbn in Hc |- *; tauto.
Qed.
Lemma printable_field id ids f n : Forall ident (id :: ids) -> In f ["value"; "mask"; "prefix_length"; "low"; "high"] -> printable (field_is (SVar id ids) f n).
Proof. intros Hi Hf. cbn [field_is printable]. split; [do 3 eexists; constructor|]. split; [split; [exact Hi|apply ident_word; cbn in *; tauto]|exact I]. Qed.
Lemma printable_pins id ids v q : Forall ident (id :: ids) -> Pins (SVar id ids) v q -> printable q.
Proof.
  intros Hi H. destruct H; [apply printable_field; [exact Hi|cbn; tauto]|..]; (split; [do 3 eexists; constructor|split]); apply printable_field; first [exact Hi|cbn; tauto].
Qed.
Lemma describes_exists ks fields l : identifiers ks -> (forall k, In k l -> In k ks) -> (forall k, In k ks -> exists v, Assigned ks fields (k_name k) v /\ bounded (k_type k) v) ->
  exists q, Describes ks fields l q /\ printable q.
Proof.
  intros Hid Hl Hv. induction l as [|k l IH]; [exists (SBool true); split; [constructor|exact I]|]. destruct IH as (rest & HD & HP); [intros k' Hk'; apply Hl; now right|].
  assert (In k ks) as Hk by (apply Hl; now left). destruct (Hid k Hk) as (id & ids & En & Hi). destruct (Hv k Hk) as (v & HA & Hb). destruct (bounded_pins (SVar id ids) _ _ Hb) as [q Hq].
  exists (SBin AND q rest). split; [apply (ds_key ks fields k l (SVar id ids) v); auto; split; eauto|]. split; [do 3 eexists; constructor|]. split; [eapply printable_pins; eauto|exact HP].
Qed.
Lemma description_exists ks fields p : identifiers ks -> (0 <= p)%Z -> (forall k, In k ks -> exists v, Assigned ks fields (k_name k) v /\ bounded (k_type k) v) ->
  exists q, describes ks fields p q /\ printable q.
Proof.
  intros Hid Hp Hv. destruct (describes_exists ks fields ks Hid (fun _ H => H) Hv) as (q & HD & HP). rewrite <- (Z2N.id p Hp). eexists. split; [constructor; exact HD|].
  split; [do 3 eexists; constructor|]. split; [|exact HP]. split; [do 3 eexists; constructor|]. split; [apply ident_word; cbn; tauto|exact I].
Qed.
Lemma lists_exists ks l : identifiers ks -> (forall fields p, In (fields, p) l -> (0 <= p)%Z /\ forall k, In k ks -> exists v, Assigned ks fields (k_name k) v /\ bounded (k_type k) v) ->
  exists q, Lists ks l q /\ printable q.
Proof.
  intros Hid. induction l as [|[fields p] l IH]; intros Hl; [exists (SBool false); split; [constructor|exact I]|]. destruct IH as (rest & HL & HP); [intros f x Hx; apply Hl; now right|].
  destruct (Hl fields p (or_introl eq_refl)) as [Hp Hv]. destruct (description_exists ks fields p Hid Hp Hv) as (q & Hq & Hpr). exists (SBin OR q rest). split; [now constructor|].
  split; [do 3 eexists; constructor|]. now split.
Qed.
