(** Which entries a model gives, and which names are shared. *)
From Coq Require Import String Ascii List ZArith NArith Bool Lia Permutation.
From Verif Require Import Base Num Token Ast Quote AstConstructors Info TypeChecker Parser ConstraintInfo Interpreter Z3 Symbolic SpecLexer SpecGrammar SpecTyping TypeFacts SpecSemantics SpecInfo SpecSymbolic SpecSolver SpecReading SpecShared
  StrFacts NumFacts LiteralFacts ParserFacts4 EntryFacts EvalFacts SemFacts SemFacts2 ExplainFacts VerdictFacts InfoFacts InfoFacts2 InterpFacts InterpFacts2 SymFacts SymFacts2 SymBytes SymKeys SymState SymMeaning SymComplete ReadingFacts ReadingFacts2 PropertiesSymbolic ReadingFacts3 SharedFacts.
Import ListNotations.
Open Scope string_scope.

(** * Entries *)
Lemma canonical_match_inj t f f' v : (forall w, width t w -> (0 < w)%Z) -> canonical_match t f v -> canonical_match t f' v -> f = f'.
Proof.
  intros Hw H H'.
  assert (forall w, width t w -> 1 < 2 ^ w)%Z as Hp. { intros w Hx. apply Z.pow_gt_1; [lia|]. exact (Hw w Hx). }
  inversion H as [w s B|w s m B B' Hn Hm|w|w s B|w|w s p B Hr Hm|w]; subst; inversion H' as [w' s' C|w' s' m' C C' Hn' Hm'|w'|w' s' C|w'|w' s' p' C Hr' Hm'|w']; subst;
    try match goal with E : unsigned ?a = unsigned ?b, A : canonical_bytes _ ?a, A' : canonical_bytes _ ?b |- _ => pose proof (canonical_unique _ _ _ _ A A' E); subst; clear E end;
    try match goal with E : unsigned ?a = unsigned ?b, A : canonical_bytes _ ?a, A' : canonical_bytes _ ?b |- _ => pose proof (canonical_unique _ _ _ _ A A' E); subst; clear E end;
    try reflexivity; exfalso; try (specialize (Hp _ (wi_optional _)); lia); try lia; congruence.
Qed.
Lemma pictures_same m k v v' : pictures m k v -> pictures m k v' -> v = v'.
Proof. intros H H'. inversion H; inversion H'; subst; try congruence; repeat match goal with X : _ \/ _ |- _ => destruct X end; congruence. Qed.
Section Same.
  Variables (t : table_info) (ks : list key_info) (skip : string -> outcome bool).
  Hypothesis HK : table_keys t ks.
  Hypothesis Hrep : forall k, In k ks -> live skip k -> representable k.
  Let lk := live_keys skip ks.
  Lemma rep_width k w : representable k -> width (k_type k) w -> (0 < w)%Z.
  Proof. intros (w0 & Hw & H) Hi. destruct H as [E|[E|[E|E]]]; rewrite E in Hi; inversion Hi; subst; exact Hw. Qed.
  Lemma lk_pos k w : In k lk -> width (k_type k) w -> (0 < w)%Z.
  Proof. intros Hk. apply live_in in Hk as [Hk Hl]. exact (rep_width k w (Hrep k Hk Hl)). Qed.
  (** The value of a key in a well-formed entry. *)
  Lemma formed_value2 l k : well_formed lk l -> In k lk -> exists f v, canonical_match (k_type k) f v /\ match f with Some x => In (mkFM (k_id k) x) l | None => omitted k l end /\ Assigned lk l (k_name k) v.
  Proof.
    intros HW Hk. pose proof (proj1 (live_in skip ks k) Hk) as [Hk' Hl]. destruct (formed_value t ks HK skip l k HW Hk' Hl) as (f & v & Hc & Hf). exists f, v. split; [exact Hc|]. split; [exact Hf|].
    destruct f as [x|]; [apply (as_present _ _ k (mkFM (k_id k) x)); auto|apply as_omitted; auto]; [apply canonical_field; [exact Hc|intros w Hw'; apply Z.lt_le_incl; exact (lk_pos k w Hk Hw')]|now apply canonical_wild].
  Qed.
  Lemma same_fields l l' : well_formed lk l -> well_formed lk l' -> (forall k v v', In k lk -> Assigned lk l (k_name k) v -> Assigned lk l' (k_name k) v' -> v = v') -> forall f, In f l -> In f l'.
  Proof.
    intros HW HW' HA f Hf. destruct (wf_known _ _ HW f Hf) as (k & v & Hk & Eid & Hc). destruct (formed_value2 l' k HW' Hk) as (g & v' & Hc' & Hg & Ha').
    assert (Assigned lk l (k_name k) v) as Ha. { apply (as_present _ _ k f); auto. apply canonical_field; [exact Hc|intros w Hw'; apply Z.lt_le_incl; exact (lk_pos k w Hk Hw')]. }
    pose proof (HA k v v' Hk Ha Ha'). subst v'. pose proof (canonical_match_inj _ _ _ _ (fun w => lk_pos k w Hk) Hc Hc'). subst g. destruct f as [i x]. cbn in *. subst i. exact Hg.
  Qed.
  Lemma same_entry l l' : well_formed lk l -> well_formed lk l' -> (forall k v v', In k lk -> Assigned lk l (k_name k) v -> Assigned lk l' (k_name k) v' -> v = v') -> Permutation l l'.
  Proof.
    intros HW HW' HA. apply NoDup_Permutation; [exact (NoDup_map_inv _ _ (wf_once _ _ HW))|exact (NoDup_map_inv _ _ (wf_once _ _ HW'))|]. intros f. split.
    - exact (same_fields l l' HW HW' HA f).
    - apply (same_fields l' l HW' HW). intros k v v' Hk H1 H2. symmetry. exact (HA k v' v Hk H2 H1).
  Qed.
End Same.

(** * Names *)
Lemma nodup_concat {A B} (f : A -> list B) l : NoDup l -> (forall a, In a l -> NoDup (f a)) -> (forall a b x, In a l -> In b l -> In x (f a) -> In x (f b) -> a = b) -> NoDup (concat (map f l)).
Proof.
  induction l as [|a l IH]; cbn; intros HN H1 H2; [constructor|]. inversion HN as [|? ? Hn HN']; subst.
  assert (NoDup (concat (map f l))) as HC by (apply IH; [exact HN'|auto|intros x y z Hx Hy; apply H2; auto]).
  assert (forall x, In x (f a) -> ~ In x (concat (map f l))) as HD.
  { intros x Hx Hi. apply in_concat in Hi as (y & Hy & Hi). apply in_map_iff in Hy as (b & <- & Hb). pose proof (H2 a b x (or_introl eq_refl) (or_intror Hb) Hx Hi). congruence. }
  pose proof (H1 a (or_introl eq_refl)) as Ha. clear - HC HD Ha. induction (f a) as [|x fa IHf]; cbn; [exact HC|]. inversion Ha as [|? ? Hx Ha']; subst. constructor.
  - rewrite in_app_iff. intros [H|H]; [exact (Hx H)|exact (HD x (or_introl eq_refl) H)].
  - apply IHf; [intros y Hy; apply HD; now right|exact Ha'].
Qed.
Lemma concat_once {A B} (f : A -> list B) l : NoDup (concat (map f l)) -> forall a b x, In a l -> In b l -> In x (f a) -> In x (f b) -> a = b.
Proof.
  assert (forall u v : list B, NoDup (u ++ v) -> NoDup v /\ forall x, In x u -> ~ In x v) as HA.
  { induction u as [|x u IH]; cbn; intros v H; [auto|]. inversion H as [|? ? Hn H']; subst. destruct (IH v H') as [H1 H2]. split; [exact H1|]. intros y [<-|Hy]; [intros Hi; apply Hn, in_or_app; auto|auto]. }
  induction l as [|c l IH]; cbn; [tauto|]. intros HN a b x. destruct (HA _ _ HN) as [HN' HD].
  assert (forall d, In d l -> In x (f d) -> In x (concat (map f l))) as HI. { intros d Hd Hx. apply in_concat. exists (f d). split; [apply in_map_iff; eauto|exact Hx]. }
  intros [<-|Ha] [<-|Hb] Hx Hx'; [reflexivity|destruct (HD x Hx); eauto|destruct (HD x Hx'); eauto|exact (IH HN' a b x Ha Hb Hx Hx')].
Qed.
Lemma c_str_plain0 s : ~ In NUL (list_ascii_of_string s) -> c_str s = s.
Proof.
  induction s as [|c s IH]; intros Hs; [reflexivity|]. cbn [list_ascii_of_string In] in Hs. cbn [c_str]. destruct (Ascii.eqb_spec c NUL) as [->|_]; [destruct Hs; now left|]. f_equal. apply IH. intros H. apply Hs. now right.
Qed.
Lemma c_str_plain s u : ~ In NUL (list_ascii_of_string s) -> ~ In NUL (list_ascii_of_string u) -> c_str (s ++ u) = s ++ u.
Proof.
  intros Hs Hu. apply c_str_plain0. induction s as [|c s IH]; [exact Hu|]. cbn [append list_ascii_of_string In] in *. intros [E|H]; [apply Hs; now left|]. apply IH; [|exact H]. intros H'. apply Hs. now right.
Qed.
Lemma suffix_inj a b s : a ++ s = b ++ s -> a = b.
Proof.
  intros E. assert (String.length a = String.length b) as El. { apply (f_equal String.length) in E. rewrite !slength_app in E. lia. }
  revert b E El. induction a as [|c a IH]; intros [|d b]; cbn; intros E El; try discriminate; [reflexivity|]. injection E as -> E. f_equal. apply IH; [exact E|lia].
Qed.
Section Names.
  Variable ks : list key_info.
  Hypothesis HN : NoDup (map k_name ks).
  Hypothesis Hnul : forall k, In k ks -> ~ In NUL (list_ascii_of_string (k_name k)).
  Lemma plain_symbol k n s : In k ks -> In (n, s) (symbols k) -> exists w,
    (n = k_name k /\ s = SBV w /\ (k_type k = TExact w \/ k_type k = TTernary w \/ k_type k = TOptional w \/ k_type k = TLpm w)) \/
    (n = k_name k ++ "_mask" /\ s = SBV w /\ (k_type k = TTernary w \/ k_type k = TOptional w)) \/
    (n = k_name k ++ "_prefix_length" /\ s = SInt /\ k_type k = TLpm w).
  Proof.
    intros Hk. specialize (Hnul k Hk). unfold symbols. rewrite (c_str_plain0 (k_name k) Hnul).
    rewrite (c_str_plain (k_name k) "_mask" Hnul) by (cbn; intuition discriminate). rewrite (c_str_plain (k_name k) "_prefix_length" Hnul) by (cbn; intuition discriminate).
    destruct (k_type k) as [| |w|w|w|w|w|w|w|w|w] eqn:Et; cbn [In]; try tauto; intros H; exists w; repeat destruct H as [H|H]; try tauto; injection H as <- <-; auto 10.
  Qed.
  Lemma name_inj k k' : In k ks -> In k' ks -> k_name k = k_name k' -> k = k'.
  Proof.
    intros H1 H2 E. clear Hnul. induction ks as [|a l IH]; cbn in *; [tauto|]. inversion HN as [|? ? Hn HN']; subst.
    destruct H1 as [<-|H1], H2 as [<-|H2]; auto; exfalso; apply Hn; [rewrite E|rewrite <- E]; now apply in_map.
  Qed.
  Lemma plain_apart : (~ exists k k' w, In k ks /\ In k' ks /\ (k_type k = TTernary w \/ k_type k = TOptional w) /\ width (k_type k') w /\ k_name k' = k_name k ++ "_mask") -> apart ks.
  Proof.
    intros HC. assert (forall k k' w, In k ks -> In k' ks -> (k_type k = TTernary w \/ k_type k = TOptional w) -> width (k_type k') w -> k_name k' <> k_name k ++ "_mask") as HC'.
    { intros k k' w H1 H2 H3 H4 H5. apply HC. exists k, k', w. auto. }
    clear HC. constructor.
    - intros Hi. apply in_concat in Hi as (l & Hl & Hi). apply in_map_iff in Hl as (k & <- & Hk). apply (plain_symbol k _ _ Hk) in Hi as (w & [(_ & H & _)|[(_ & H & _)|(H & _)]]); try discriminate.
      apply (f_equal String.length) in H. rewrite slength_app in H. cbn in H. lia.
    - apply nodup_concat.
      + exact (NoDup_map_inv _ _ HN).
      + intros k Hk. unfold symbols. specialize (Hnul k Hk). rewrite (c_str_plain0 (k_name k) Hnul).
        rewrite (c_str_plain (k_name k) "_mask" Hnul) by (cbn; intuition discriminate). rewrite (c_str_plain (k_name k) "_prefix_length" Hnul) by (cbn; intuition discriminate).
        destruct (k_type k); repeat constructor; cbn; try tauto; intros [E|[]]; try discriminate; injection E as E; apply (f_equal String.length) in E; rewrite slength_app in E; cbn in E; lia.
      + intros k k' [n s] Hk Hk' H1 H2. apply (plain_symbol k _ _ Hk) in H1 as (w & H1). apply (plain_symbol k' _ _ Hk') in H2 as (w' & H2).
        destruct H1 as [(-> & -> & H1)|[(-> & -> & H1)|(-> & -> & H1)]]; destruct H2 as [(E & E' & H2)|[(E & E' & H2)|(E & E' & H2)]]; try discriminate.
        * now apply name_inj.
        * injection E' as <-. destruct (HC' k' k w Hk' Hk H2); [|exact E]. destruct H1 as [H1|[H1|[H1|H1]]]; rewrite H1; constructor.
        * injection E' as <-. destruct (HC' k k' w Hk Hk' H1); [|now symmetry]. destruct H2 as [H2|[H2|[H2|H2]]]; rewrite H2; constructor.
        * apply suffix_inj in E. now apply name_inj.
        * apply suffix_inj in E. now apply name_inj.
  Qed.
  Lemma apart_plain : (forall k, In k ks -> representable k) -> apart ks -> ~ exists k k' w, In k ks /\ In k' ks /\ (k_type k = TTernary w \/ k_type k = TOptional w) /\ width (k_type k') w /\ k_name k' = k_name k ++ "_mask".
  Proof.
    intros Hr Ha (k & k' & w & Hk & Hk' & Ht & Hw & E). inversion Ha as [|? ? _ Ha']; subst.
    assert (k = k') as ->.
    { apply (concat_once symbols ks Ha' k k' (c_str (k_name k'), SBV w) Hk Hk').
      - rewrite E. unfold symbols. destruct Ht as [Et|Et]; rewrite Et; cbn; auto.
      - unfold symbols. destruct (Hr k' Hk') as (w' & _ & [Et|[Et|[Et|Et]]]); rewrite Et in *; inversion Hw; subst; cbn; auto. }
    apply (f_equal String.length) in E. rewrite slength_app in E. cbn in E. lia.
  Qed.
End Names.
