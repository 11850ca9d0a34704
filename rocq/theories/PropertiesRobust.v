(** C60-C63: what verdicts do not depend on. *)
From Coq Require Import String Ascii List ZArith NArith Bool Lia Permutation.
From Verif Require Import Base Token Ast Lexer AstConstructors Parser Info TypeChecker ConstraintInfo Interpreter LiteralFacts StrFacts NumFacts SpecLexer SpecGrammar SpecTyping SpecSemantics TypeFacts SemFacts EvalFacts EntryFacts SpecInfo InfoFacts InfoFacts2 ParserFacts4 InterpFacts InterpFacts2 ExplainFacts VerdictFacts SpecReading SpecRobust RetoldFacts LoadFacts RenameFacts NotationFacts PropertiesParser PropertiesInfo PropertiesInterpreter PropertiesVerdict PropertiesExplain PropertiesReading.
Import ListNotations.
Open Scope string_scope.

(** * C60 *)
(** The outcome for an entry depends only on the declarations of the table and of the actions it names. *)
Theorem C60_local : forall pton p p' ci ci' entry, P4ToConstraintInfo pton p = Ok ci -> P4ToConstraintInfo pton p' = Ok ci' ->
  (forall d, table_id d = pe_table_id entry -> (In d (p4_tables p) <-> In d (p4_tables p'))) ->
  (forall a d, In a (actions_of entry) -> action_id d = pa_id a -> (In d (p4_actions p) <-> In d (p4_actions p'))) ->
  ReasonEntryViolatesConstraint entry ci = ReasonEntryViolatesConstraint entry ci'.
Proof.
  intros pton p p' ci ci' entry H H' Ht Ha. apply info_lookup in H as (H1 & H2). apply info_lookup in H' as (H1' & H2').
  assert (forall A (a b : option A), (forall x, a = Some x <-> b = Some x) -> a = b) as Hopt. { intros A [x|] [y|] E; try reflexivity; [now apply E|symmetry; now apply E|now apply E]. }
  assert (GetTableInfoOrNull ci (pe_table_id entry) = GetTableInfoOrNull ci' (pe_table_id entry)) as Et.
  { apply Hopt. intros t. rewrite H1, H1'. split; intros (d & Hd & Hid & E); exists d; (split; [|auto]); apply (Ht d (eq_sym Hid)); exact Hd. }
  assert (forall a, In a (actions_of entry) -> ReasonActionViolates ci a = ReasonActionViolates ci' a) as Ea.
  { intros a Hi. unfold ReasonActionViolates. replace (GetActionInfoOrNull ci' (pa_id a)) with (GetActionInfoOrNull ci (pa_id a)); [reflexivity|].
    apply Hopt. intros t. rewrite H2, H2'. split; intros (d & Hd & Hid & E); exists d; (split; [|auto]); apply (Ha a d Hi (eq_sym Hid)); exact Hd. }
  unfold ReasonEntryViolatesConstraint. rewrite <- Et. destruct (GetTableInfoOrNull ci (pe_table_id entry)) as [t|]; [|reflexivity]. destruct (ReasonTableViolates t entry) as [r| |]; cbn [bind]; try reflexivity.
  destruct (negb _); [reflexivity|]. unfold actions_of in Ea. destruct (pe_action entry) as [[a| | |l|]|]; try reflexivity.
  - apply Ea. now left.
  - clear -Ea. induction l as [|a l IH]; cbn [ReasonActionSetViolates]; [reflexivity|]. rewrite (Ea a (or_introl eq_refl)). destruct (ReasonActionViolates ci' a) as [r| |]; cbn [bind]; try reflexivity.
    destruct (String.eqb r ""); [|reflexivity]. apply IH. intros b Hb. apply Ea. now right.
Qed.
Print Assumptions C60_local.
(** Adding declarations with other ids changes nothing. *)
Theorem C60_added : forall pton p ts acts ci ci' entry, P4ToConstraintInfo pton p = Ok ci ->
  P4ToConstraintInfo pton (mkP4Info (p4_tables p ++ ts) (p4_actions p ++ acts)) = Ok ci' ->
  (exists d, In d (p4_tables p) /\ table_id d = pe_table_id entry) -> (forall a, In a (actions_of entry) -> exists d, In d (p4_actions p) /\ action_id d = pa_id a) ->
  ReasonEntryViolatesConstraint entry ci = ReasonEntryViolatesConstraint entry ci'.
Proof.
  intros pton p ts acts ci ci' entry H H' (d0 & Hd0 & Hid0) Ha. destruct (proj1 (info_iff pton _) (ex_intro _ ci' H')) as (N1 & N2 & _). cbn [p4_tables p4_actions] in N1, N2.
  assert (forall A (l m : list A) (f : A -> N), NoDup (map f (l ++ m)) -> forall x y, In x l -> In y m -> f x <> f y) as Hx.
  { intros A l m f HN x y Hl Hm E. rewrite map_app in HN. induction l as [|z l IH]; [destruct Hl|]. cbn in HN. inversion HN as [|? ? Hz HN']. subst. destruct Hl as [->|Hl]; [|now apply IH]. apply Hz. rewrite E. apply in_or_app. right. now apply in_map. }
  apply (C60_local pton p (mkP4Info (p4_tables p ++ ts) (p4_actions p ++ acts)) ci ci' entry H H'); cbn [p4_tables p4_actions].
  - intros d Hd. rewrite in_app_iff. split; [auto|]. intros [Hi|Hi]; [exact Hi|]. exfalso. apply (Hx _ _ _ table_id N1 d0 d Hd0 Hi). congruence.
  - intros a d Hai Hd. rewrite in_app_iff. split; [auto|]. intros [Hi|Hi]; [exact Hi|]. exfalso. destruct (Ha a Hai) as (d1 & Hd1 & E). apply (Hx _ _ _ action_id N2 d1 d Hd1 Hi). congruence.
Qed.
Print Assumptions C60_added.
Definition ex_added : p4info := mkP4Info (p4_tables ex_info ++ [mkP4Table (mkPre 10 "u" [restriction "entry" ["k1 == 1"]]) [mkMF 1 "k1" 8 (MMatchType MTExact)]]) (p4_actions ex_info ++ []).
(** An entry whose action breaks its constraint, before and after another table is added. *)
Definition ex_entry : p4_entry := mkEntry 8 [] (Some (TAction (mkP4Action 9 [(1%N, "a")]))) 0.
Example C60_case : exists ci ci' why, P4ToConstraintInfo pton1 ex_info = Ok ci /\ P4ToConstraintInfo pton1 ex_added = Ok ci' /\
  (exists d, In d (p4_tables ex_info) /\ table_id d = pe_table_id ex_entry) /\ (forall a, In a (actions_of ex_entry) -> exists d, In d (p4_actions ex_info) /\ action_id d = pa_id a) /\
  (forall d, table_id d = pe_table_id ex_entry -> (In d (p4_tables ex_info) <-> In d (p4_tables ex_added))) /\
  ReasonEntryViolatesConstraint ex_entry ci = Ok why /\ why <> "".
Proof.
  destruct (P4ToConstraintInfo pton1 ex_info) as [ci| |] eqn:E; [|vm_compute in E; discriminate E|vm_compute in E; discriminate E]. destruct (P4ToConstraintInfo pton1 ex_added) as [ci'| |] eqn:E'; [|vm_compute in E'; discriminate E'|vm_compute in E'; discriminate E'].
  destruct (ReasonEntryViolatesConstraint ex_entry ci) as [why| |] eqn:Ew; vm_compute in E; apply Ok_inj in E; subst ci; vm_compute in Ew; [|discriminate Ew|discriminate Ew]. exists (the (mkInfo [] []) (P4ToConstraintInfo pton1 ex_info)), ci', why.
  split; [vm_compute; reflexivity|]. split; [reflexivity|]. split; [eexists; split; [right; left; reflexivity|reflexivity]|]. split; [intros a [<-|[]]; eexists; split; [left; reflexivity|reflexivity]|].
  split; [intros d Hd; cbn [ex_added p4_tables]; rewrite in_app_iff; split; [auto|intros [H|[<-|[]]]; [exact H|vm_compute in Hd; discriminate Hd]]|]. apply Ok_inj in Ew. subst why. split; [vm_compute; reflexivity|discriminate].
Qed.

(** * C61 *)
Lemma same_match_ind2 ks (P : list field_match -> list field_match -> Prop) :
  (forall l l', Permutation l l' -> P l l') ->
  (forall l l', Forall2 (fun f f' => fm_id f = fm_id f' /\ (fm_value f = fm_value f' \/ padded_field (fm_value f) (fm_value f'))) l l' -> P l l') ->
  (forall k l f, In k ks -> omitted k l -> matches_all (k_type k) f -> P l (mkFM (k_id k) f :: l)) ->
  (forall l l', P l l' -> P l' l) -> (forall l l' l'', P l l' -> P l' l'' -> P l l'') -> forall l l', same_match ks l l' -> P l l'.
Proof. intros H1 H2 H3 H4 H5 l l' H. induction H; eauto. Qed.
Lemma padded_unsigned s s' : padded s s' -> unsigned s' = unsigned s.
Proof. intros [n ->]. apply zeros_number. Qed.
Lemma zeros_zero n : unsigned (repeat_char n NUL) = 0%Z.
Proof. induction n as [|n IH]; [reflexivity|exact IH]. Qed.
Lemma padded_value t f f' v : fm_value f = fm_value f' \/ padded_field (fm_value f) (fm_value f') -> (field_value t (fm_value f) v <-> field_value t (fm_value f') v).
Proof.
  intros [->|H]; [reflexivity|]. destruct H; repeat match goal with H : padded _ _ |- _ => apply padded_unsigned in H end; split; intros H'; inversion H'; subst; clear H';
    repeat match goal with H : unsigned _ = unsigned _ |- _ => (rewrite H || rewrite <- H); clear H end; constructor; assumption.
Qed.
Lemma matches_all_value t f : matches_all t f -> exists v, field_value t f v /\ forall v', (field_value t f v' <-> v' = v) /\ (wildcard t v' <-> v' = v).
Proof.
  intros H. destruct H as [w i j|w i|w i h Hw Hh].
  - exists (VTernary 0 0). pose proof (fv_ternary w (repeat_char i NUL) (repeat_char j NUL)) as F. rewrite !zeros_zero in F. split; [exact F|]. intros v'. split; (split; [intros H; inversion H; now rewrite ?zeros_zero|intros ->]); [exact F|constructor].
  - exists (VLpm 0 0). pose proof (fv_lpm w (repeat_char i NUL) 0) as F. rewrite !zeros_zero in F. split; [exact F|]. intros v'. split; (split; [intros H; inversion H; now rewrite ?zeros_zero|intros ->]); [exact F|constructor].
  - exists (VRange 0 (2 ^ w - 1)). pose proof (fv_range w (repeat_char i NUL) h) as F. rewrite zeros_zero, Hh in F. split; [exact F|]. intros v'. split; (split; [intros H; inversion H; now rewrite ?zeros_zero, ?Hh|intros ->]); [exact F|now constructor].
Qed.
Section Same.
  Variable ks : list key_info.
  Hypothesis HN : NoDup (map k_id ks).
  Definition alike (l l' : list field_match) : Prop :=
    (consistent ks l <-> consistent ks l') /\ forall n v, Assigned ks l n v <-> Assigned ks l' n v.
  Lemma key_same k k' : In k ks -> In k' ks -> k_id k = k_id k' -> k = k'.
  Proof. now apply (nodup_keys k_id ks). Qed.
  Lemma padded_half l l' : Forall2 (fun f f' => fm_id f = fm_id f' /\ forall t v, field_value t (fm_value f) v <-> field_value t (fm_value f') v) l l' ->
    (forall k, omitted k l <-> omitted k l') /\ map fm_id l = map fm_id l' /\
    (forall f, In f l -> exists f', In f' l' /\ fm_id f = fm_id f' /\ forall t v, field_value t (fm_value f) v <-> field_value t (fm_value f') v) /\
    (forall f', In f' l' -> exists f, In f l /\ fm_id f = fm_id f' /\ forall t v, field_value t (fm_value f) v <-> field_value t (fm_value f') v).
  Proof.
    intros H. assert (map fm_id l = map fm_id l') as Em by (induction H as [|f f' l l' [E _] _ IH]; cbn; congruence). split; [|split; [exact Em|split]].
    - intros k. assert (forall l, omitted k l <-> ~ In (k_id k) (map fm_id l)) as Ho. { intros m. unfold omitted. rewrite in_map_iff. split; [intros Hm (f & E & Hf); exact (Hm f Hf E)|intros Hm f Hf E; apply Hm; eauto]. } rewrite !Ho, Em. reflexivity.
    - induction H as [|f f' l l' [E V] _ IH]; intros g Hg; [destruct Hg|]. injection Em as _ Em. destruct Hg as [->|Hg]; [exists f'; split; [now left|auto]|]. destruct (IH Em g Hg) as (g' & ? & ?). exists g'. split; [now right|auto].
    - induction H as [|f f' l l' [E V] _ IH]; intros g Hg; [destruct Hg|]. injection Em as _ Em. destruct Hg as [->|Hg]; [exists f; split; [now left|auto]|]. destruct (IH Em g Hg) as (g' & ? & ?). exists g'. split; [now right|auto].
  Qed.
  Lemma alike_padded l l' : Forall2 (fun f f' => fm_id f = fm_id f' /\ forall t v, field_value t (fm_value f) v <-> field_value t (fm_value f') v) l l' -> alike l l'.
  Proof.
    intros H. destruct (padded_half l l' H) as (Ho & Em & H1 & H2). split; [split; intros [C1 C2 C3]; split|].
    - intros f' Hf'. destruct (H2 f' Hf') as (f & Hf & E & V). destruct (C1 f Hf) as (k & v & Hk & Hid & Hv). exists k, v. split; [exact Hk|]. split; [congruence|now apply V].
    - now rewrite <- Em.
    - intros k Hk Hok. apply C3; [exact Hk|now apply Ho].
    - intros f Hf. destruct (H1 f Hf) as (f' & Hf' & E & V). destruct (C1 f' Hf') as (k & v & Hk & Hid & Hv). exists k, v. split; [exact Hk|]. split; [congruence|now apply V].
    - now rewrite Em.
    - intros k Hk Hok. apply C3; [exact Hk|now apply Ho].
    - intros n v. split; intros HA; destruct HA as [k f v Hk Hf Hid Hv|k v Hk Hom Hw].
      + destruct (H1 f Hf) as (f' & Hf' & E & V). eapply as_present; [exact Hk|exact Hf'|congruence|now apply V].
      + apply as_omitted; [exact Hk|now apply Ho|exact Hw].
      + destruct (H2 f Hf) as (f' & Hf' & E & V). eapply as_present; [exact Hk|exact Hf'|congruence|now apply V].
      + apply as_omitted; [exact Hk|now apply Ho|exact Hw].
  Qed.
  Lemma alike_all k l f : In k ks -> omitted k l -> matches_all (k_type k) f -> alike l (mkFM (k_id k) f :: l).
  Proof.
    intros Hk Ho Hm. destruct (matches_all_value _ _ Hm) as (v0 & Hv0 & Hu). split; [split; intros [C1 C2 C3]; split|].
    - intros g [<-|Hg]; [exists k, v0; auto|now apply C1].
    - cbn. constructor; [|exact C2]. intros Hi. apply in_map_iff in Hi as (g & E & Hg). exact (Ho g Hg E).
    - intros k' Hk' Ho'. apply C3; [exact Hk'|]. intros g Hg. apply Ho'. now right.
    - intros g Hg. apply C1. now right.
    - now inversion C2.
    - intros k' Hk' Ho'. destruct (N.eq_dec (k_id k) (k_id k')) as [E|E].
      + rewrite <- (key_same k k' Hk Hk' E). exists v0. now apply Hu.
      + apply C3; [exact Hk'|]. intros g [<-|Hg]; [exact E|now apply Ho'].
    - intros n v. split; intros HA; destruct HA as [k' g v Hk' Hg Hid Hv|k' v Hk' Hom Hw].
      + eapply as_present; [exact Hk'|right; exact Hg|exact Hid|exact Hv].
      + destruct (N.eq_dec (k_id k) (k_id k')) as [E|E].
        * rewrite <- (key_same k k' Hk Hk' E) in *. eapply (as_present ks _ k (mkFM (k_id k) f)); [exact Hk|now left|reflexivity|]. apply Hu in Hw as ->. exact Hv0.
        * apply as_omitted; [exact Hk'| |exact Hw]. intros g [<-|Hg]; [exact E|now apply Hom].
      + destruct Hg as [<-|Hg]; [|eapply as_present; [exact Hk'|exact Hg|exact Hid|exact Hv]]. cbn in Hid, Hv. rewrite <- (key_same k k' Hk Hk' Hid) in *. apply as_omitted; [exact Hk|exact Ho|]. apply Hu in Hv as ->. now apply Hu.
      + apply as_omitted; [exact Hk'| |exact Hw]. intros g Hg. apply Hom. now right.
  Qed.
  Lemma alike_same l l' : same_match ks l l' -> alike l l'.
  Proof.
    intros H. apply (same_match_ind2 ks alike); [| | | | |exact H].
    - intros m m' Hp. split; [split; intros [C1 C2 C3]; split|].
      + intros f Hf. apply C1. exact (Permutation_in _ (Permutation_sym Hp) Hf).
      + exact (Permutation_NoDup (Permutation_map fm_id Hp) C2).
      + intros k Hk Ho. apply C3; [exact Hk|]. intros f Hf. apply Ho. exact (Permutation_in _ Hp Hf).
      + intros f Hf. apply C1. exact (Permutation_in _ Hp Hf).
      + exact (Permutation_NoDup (Permutation_map fm_id (Permutation_sym Hp)) C2).
      + intros k Hk Ho. apply C3; [exact Hk|]. intros f Hf. apply Ho. exact (Permutation_in _ (Permutation_sym Hp) Hf).
      + intros n v. split; apply assigned_perm; [exact Hp|now apply Permutation_sym].
    - intros m m' Hp. apply alike_padded. induction Hp as [|f f' m m' [E V] _ IH]; constructor; [|exact IH]. split; [exact E|]. intros t v. now apply padded_value.
    - exact alike_all.
    - intros m m' [H1 H2]. split; [now symmetry|intros; now symmetry].
    - intros m m' m'' [H1 H2] [H3 H4]. split; [now rewrite H1|intros; now rewrite H2].
  Qed.
End Same.
(** Entries that assign the keys the same values get the same answer. *)
Lemma table_alike t ks entry entry' r : table_keys t ks -> alike ks (pe_match entry) (pe_match entry') -> pe_priority entry = pe_priority entry' ->
  ReasonTableViolates t entry = Ok r -> ReasonTableViolates t entry' = Ok r.
Proof.
  intros HK [Hc HA] Hpr H. apply table_ok in H. apply table_ok. destruct H as [H|(e & ctx & He & Ht & Hpa & Hch)]; [now left|right].
  destruct (entry_ok t ks HK entry ctx Hpa) as (Hco & keys & -> & HN & Hk). destruct (proj2 (entry_iff t ks HK entry') (proj1 Hc Hco)) as [ctx' Hpa'].
  destruct (entry_ok t ks HK entry' ctx' Hpa') as (_ & keys' & -> & HN' & Hk'). exists e. eexists. split; [exact He|]. split; [exact Ht|]. split; [exact Hpa'|]. rewrite <- Hch, <- Hpr. symmetry. apply check_same; [exact HN|exact HN'|].
  intros [n v]. rewrite Hk, Hk'. apply HA.
Qed.
Lemma same_action_id a a' : same_action a a' -> pa_id a = pa_id a'.
Proof. intros H. induction H; cbn; congruence. Qed.
Lemma same_action_passed ps a a' : same_action a a' -> (acceptable ps (pa_params a) <-> acceptable ps (pa_params a')) /\ forall n z, Passed ps (pa_params a) n z <-> Passed ps (pa_params a') n z.
Proof.
  intros H. induction H as [id l l' Hp|id l l' Hp|a a' H [I1 I2]|a a' a'' H [I1 I2] H' [I3 I4]]; cbn [pa_params].
  - split; [split; intros [A1 A2]; split|].
    + intros i s Hi. apply (A1 i s). exact (Permutation_in _ (Permutation_sym Hp) Hi).
    + exact (Permutation_NoDup (Permutation_map fst Hp) A2).
    + intros i s Hi. apply (A1 i s). exact (Permutation_in _ Hp Hi).
    + exact (Permutation_NoDup (Permutation_map fst (Permutation_sym Hp)) A2).
    + intros n z. split; intros (p & s & Hk & Hi & E); exists p, s; (split; [exact Hk|split; [|exact E]]); [exact (Permutation_in _ Hp Hi)|exact (Permutation_in _ (Permutation_sym Hp) Hi)].
  - assert (map fst l = map fst l') as Em by (induction Hp as [|x x' l l' [E _] _ IH]; cbn; congruence).
    assert (forall i s, In (i, s) l -> exists s', In (i, s') l' /\ unsigned s = unsigned s') as H1.
    { induction Hp as [|[i0 s0] [i0' s0'] l l' [E V] _ IH]; intros i s Hi; [destruct Hi|]. cbn in E, V. injection Em as _ Em. destruct Hi as [[= <- <-]|Hi]; [exists s0'; split; [left; congruence|symmetry; now apply padded_unsigned]|]. destruct (IH Em i s Hi) as (s' & ? & ?). exists s'. split; [now right|auto]. }
    assert (forall i s, In (i, s) l' -> exists s', In (i, s') l /\ unsigned s = unsigned s') as H2.
    { clear H1. induction Hp as [|[i0 s0] [i0' s0'] l l' [E V] _ IH]; intros i s Hi; [destruct Hi|]. cbn in E, V. injection Em as _ Em. destruct Hi as [[= <- <-]|Hi]; [exists s0; split; [left; congruence|now apply padded_unsigned]|]. destruct (IH Em i s Hi) as (s' & ? & ?). exists s'. split; [now right|auto]. }
    split; [split; intros [A1 A2]; split|].
    + intros i s Hi. destruct (H2 i s Hi) as (s' & Hi' & _). exact (A1 i s' Hi').
    + now rewrite <- Em.
    + intros i s Hi. destruct (H1 i s Hi) as (s' & Hi' & _). exact (A1 i s' Hi').
    + now rewrite Em.
    + intros n z. split; intros (p & s & Hk & Hi & En & Ez); [destruct (H1 _ _ Hi) as (s' & Hi' & E)|destruct (H2 _ _ Hi) as (s' & Hi' & E)]; exists p, s'; repeat split; try assumption; congruence.
  - split; [now symmetry|intros; now symmetry].
  - split; [now rewrite I1|intros; now rewrite I2].
Qed.
Lemma action_alike ci a ps x x' r : GetActionInfoOrNull ci (pa_id x) = Some a -> action_params a ps -> same_action x x' -> ReasonActionViolates ci x = Ok r -> ReasonActionViolates ci x' = Ok r.
Proof.
  intros Ha HP Hs H. pose proof (same_action_id _ _ Hs) as Hid. destruct (same_action_passed ps _ _ Hs) as [Hacc Hpass]. apply action_verdict in H as (a' & Ha' & H). assert (a' = a) as -> by congruence. apply action_verdict. exists a. split; [congruence|].
  destruct H as [H|(e & ctx & He & Ht & Hpa & Hc)]; [now left|right]. destruct (action_ok a ps HP x ctx Hpa) as (A & params & -> & HN & HA).
  destruct (action_total a ps HP x' (proj1 Hacc A)) as [ctx' Hpa']. destruct (action_ok a ps HP x' ctx' Hpa') as (_ & params' & -> & HN' & HA'). exists e. eexists. split; [exact He|]. split; [exact Ht|]. split; [exact Hpa'|].
  rewrite <- Hc, <- Hid. symmetry. apply check_same_action; [exact HN|exact HN'|]. intros [n z]. rewrite HA, HA'. apply Hpass.
Qed.
Lemma entry_alike pton p ci d ks entry entry' r : P4ToConstraintInfo pton p = Ok ci -> In d (p4_tables p) -> table_id d = pe_table_id entry -> Forall2 key_decl (pt_match_fields d) ks ->
  pe_table_id entry' = pe_table_id entry -> pe_priority entry' = pe_priority entry -> (NoDup (map k_id ks) -> NoDup (map k_name ks) -> alike ks (pe_match entry) (pe_match entry')) -> same_table_action (pe_action entry) (pe_action entry') ->
  (ReasonEntryViolatesConstraint entry ci = Ok r <-> ReasonEntryViolatesConstraint entry' ci = Ok r).
Proof.
  intros Hci Hd Hid Hf Hid' Hpr Hs Hsa.
  destruct (C37_exact pton p ci Hci) as (HT & _ & _ & HA). destruct (HT d Hd) as (ks' & t & Ht & Hto). rewrite Hid in Ht. assert (ks' = ks) as -> by (eapply forall2_fun; [exact key_decl_fun|exact (to_decls _ _ _ _ Hto)|exact Hf]).
  pose proof (to_keys _ _ _ _ Hto) as HK. pose proof (Hs (tk_ids _ _ HK) (tk_names _ _ HK)) as Hal. assert (alike ks (pe_match entry') (pe_match entry)) as Hal' by (destruct Hal as [H1 H2]; split; [now symmetry|intros; now symmetry]).
  assert (forall s x x', same_action x x' -> ReasonActionViolates ci x = Ok s -> ReasonActionViolates ci x' = Ok s) as Ha1.
  { intros s x x' Hx H. pose proof H as H'. apply action_verdict in H' as (a & Ha & _). destruct (HA _ _ Ha) as (da & ps & _ & _ & Hao). eapply action_alike; [exact Ha|exact (ao_params _ _ _ _ Hao)|exact Hx|exact H]. }
  assert (forall l l', Forall2 same_action l l' -> ReasonActionSetViolates ci l = Ok r -> ReasonActionSetViolates ci l' = Ok r) as Hl.
  { intros l l' Hl. induction Hl as [|x x' l l' Hx _ IH]; cbn [ReasonActionSetViolates]; [auto|]. intros H. apply bind_ok in H as (s & E & H). rewrite (Ha1 s x x' Hx E). cbn [bind]. destruct (String.eqb s ""); [now apply IH|exact H]. }
  assert (forall l l', Forall2 same_action l l' -> Forall2 same_action l' l) as Hsy by (intros l l' HF; induction HF; constructor; auto using sa_sym).
  unfold ReasonEntryViolatesConstraint. rewrite Hid', Ht, !bind_ok.
  split; intros (s & Hx & H); exists s; (split; [eapply table_alike; [exact HK| | |exact Hx]; auto|]); destruct (negb _); try exact H; destruct Hsa as [|a a' Sa|l l' Sl|o]; try exact H; eauto using sa_sym.
Qed.
(** Order, leading zero bytes and matches of everything in place of omitted keys do not change the answer, nor its text. *)
Theorem C61_same_match : forall pton p ci d ks entry entry' r, P4ToConstraintInfo pton p = Ok ci -> In d (p4_tables p) -> table_id d = pe_table_id entry -> Forall2 key_decl (pt_match_fields d) ks ->
  pe_table_id entry' = pe_table_id entry -> pe_priority entry' = pe_priority entry -> same_match ks (pe_match entry) (pe_match entry') -> same_table_action (pe_action entry) (pe_action entry') ->
  (ReasonEntryViolatesConstraint entry ci = Ok r <-> ReasonEntryViolatesConstraint entry' ci = Ok r).
Proof.
  intros pton p ci d ks entry entry' r Hci Hd Hid Hf Hid' Hpr Hs Hsa. apply (entry_alike pton p ci d ks); auto. intros HN _. exact (alike_same ks HN _ _ Hs).
Qed.
Print Assumptions C61_same_match.

Definition enc_decl : p4_table := mkP4Table (mkPre 1 "t" [restriction "entry" ["k1 == 65 && k2::mask == 0"]]) [mkMF 1 "k1" 8 (MMatchType MTExact); mkMF 2 "k2" 16 (MMatchType MTTernary)].
Definition enc_keys : list key_info := [mkKey 1 "k1" (TExact 8); mkKey 2 "k2" (TTernary 16)].
Definition enc_ci : constraint_info := Eval vm_compute in the (mkInfo [] []) (P4ToConstraintInfo pton1 (mkP4Info [enc_decl] [])).
Definition enc_short : p4_entry := mkEntry 1 [mkFM 1 (FMExact "A")] None 3.
Definition enc_long : p4_entry := mkEntry 1 [mkFM 1 (FMExact (String NUL "A")); mkFM 2 (FMTernary (String NUL (String NUL "")) (String NUL ""))] None 3.
Example C61_case : P4ToConstraintInfo pton1 (mkP4Info [enc_decl] []) = Ok enc_ci /\ Forall2 key_decl (pt_match_fields enc_decl) enc_keys /\ same_match enc_keys (pe_match enc_short) (pe_match enc_long) /\
  ReasonEntryViolatesConstraint enc_short enc_ci = Ok "" /\ ReasonEntryViolatesConstraint enc_long enc_ci = Ok "".
Proof.
  split; [vm_compute; reflexivity|]. split; [repeat constructor|]. split; [|split; vm_compute; reflexivity].
  apply sm_trans with [mkFM 1 (FMExact (String NUL "A"))]; [|apply sm_trans with (mkFM 2 (FMTernary (String NUL (String NUL "")) (String NUL "")) :: [mkFM 1 (FMExact (String NUL "A"))])].
  - apply sm_padding. constructor; [|constructor]. split; [reflexivity|]. right. constructor. now exists 1%nat.
  - apply (sm_all enc_keys (mkKey 2 "k2" (TTernary 16))); [right; now left| |apply (ma_ternary 16 2 1)]. intros f [<-|[]]. discriminate.
  - apply sm_order. apply perm_swap.
Qed.

(** * C62 *)
Lemma table_names pton p ci d : pton_ok pton -> P4ToConstraintInfo pton p = Ok ci -> In d (p4_tables p) -> NoDup (map mf_id (pt_match_fields d)) /\ NoDup (map mf_name (pt_match_fields d)).
Proof. intros Hp H Hd. destruct (proj1 (C37_loads_iff pton p Hp) (ex_intro _ ci H)) as (_ & _ & H3 & _). destruct (H3 d Hd) as (ks & _ & H1 & H2 & _). auto. Qed.
Lemma action_names pton p ci d : pton_ok pton -> P4ToConstraintInfo pton p = Ok ci -> In d (p4_actions p) -> NoDup (map ap_id (pad_params d)) /\ NoDup (map ap_name (pad_params d)).
Proof. intros Hp H Hd. destruct (proj1 (C37_loads_iff pton p Hp) (ex_intro _ ci H)) as (_ & _ & _ & H3). destruct (H3 d Hd) as (ks & _ & H1 & H2 & _). auto. Qed.
Lemma renamed_accepts pton p p' ci ci' entry : pton_ok pton -> renamed pton p p' -> P4ToConstraintInfo pton p = Ok ci -> P4ToConstraintInfo pton p' = Ok ci' ->
  ReasonEntryViolatesConstraint entry ci = Ok "" -> ReasonEntryViolatesConstraint entry ci' = Ok "".
Proof.
  intros Hp [HT HA] H H' Hr. apply (C58_accepted_iff pton p ci _ Hp H) in Hr as ((d & Hd & Hid & Hal) & Hdir & Ha). apply (C58_accepted_iff pton p' ci' _ Hp H'). split; [|split; [exact Hdir|]].
  - destruct (f2_left _ _ _ _ HT Hd) as (d' & Hd' & HR). exists d'. split; [exact Hd'|]. split; [unfold table_id in *; destruct HR as (E & _); congruence|].
    destruct (table_names _ _ _ _ Hp H Hd) as [N1 N2]. destruct (table_names _ _ _ _ Hp H' Hd') as [_ N3]. destruct Hal as [Hu|Hs]; [left|right; eapply table_says_renamed; eauto].
    destruct HR as (_ & _ & [_ Hu'|? ? ? ? Hr1 _]); [exact Hu'|exfalso; exact (restricted_not _ _ _ Hu Hr1)].
  - intros a Hi. destruct (Ha a Hi) as (da & Hda & Hida & Hala). destruct (f2_left _ _ _ _ HA Hda) as (d' & Hd' & HR). exists d'. split; [exact Hd'|]. split; [unfold action_id in *; destruct HR as (E & _); congruence|].
    destruct (action_names _ _ _ _ Hp H Hda) as [N1 N2]. destruct (action_names _ _ _ _ Hp H' Hd') as [_ N3]. destruct Hala as [Hu|Hs]; [left|right; eapply action_says_renamed; eauto].
    destruct HR as (_ & _ & [_ Hu'|? ? ? ? Hr1 _]); [exact Hu'|exfalso; exact (restricted_not _ _ _ Hu Hr1)].
Qed.
(** Renaming keys and parameters consistently (declarations and constraints) does not change what is accepted. *)
Theorem C62_accepts : forall pton p p' ci ci' entry, pton_ok pton -> renamed pton p p' -> P4ToConstraintInfo pton p = Ok ci -> P4ToConstraintInfo pton p' = Ok ci' ->
  (ReasonEntryViolatesConstraint entry ci = Ok "" <-> ReasonEntryViolatesConstraint entry ci' = Ok "").
Proof. intros pton p p' ci ci' entry Hp HR H H'. split; intros Hr; [exact (renamed_accepts pton p p' ci ci' entry Hp HR H H' Hr)|exact (renamed_accepts pton p' p ci' ci entry Hp (renamed_sym _ _ _ HR) H' H Hr)]. Qed.
Print Assumptions C62_accepts.
(** The renamed P4Info loads, if the new names are distinct. *)
Theorem C62_loads : forall pton p p', pton_ok pton -> renamed pton p p' ->
  (forall d, In d (p4_tables p') -> NoDup (map mf_name (pt_match_fields d))) -> (forall d, In d (p4_actions p') -> NoDup (map ap_name (pad_params d))) ->
  (exists ci, P4ToConstraintInfo pton p = Ok ci) -> exists ci, P4ToConstraintInfo pton p' = Ok ci.
Proof.
  intros pton p p' Hp [HT HA] N1 N2 H. apply (C37_loads_iff pton p Hp) in H as (H1 & H2 & H3 & H4). apply (C37_loads_iff pton p' Hp). split; [|split; [|split]].
  - erewrite <- (forall2_map_eq _ table_id table_id); [exact H1| |exact HT]. intros a b (E & _). exact E.
  - erewrite <- (forall2_map_eq _ action_id action_id); [exact H2| |exact HA]. intros a b (E & _). exact E.
  - intros d' Hd'. destruct (forall2_other _ _ _ _ HT Hd') as (d & Hd & R). eapply renamed_load_table; eauto.
  - intros d' Hd'. destruct (forall2_other _ _ _ _ HA Hd') as (d & Hd & R). eapply renamed_load_action; eauto.
Qed.
Print Assumptions C62_loads.
(** Names may even be swapped. *)
Definition named_decl (a b : string) : p4_table := mkP4Table (mkPre 1 "t" [restriction "entry" [(a ++ " == 65 && " ++ b ++ "::mask == 0")%string]]) [mkMF 1 a 8 (MMatchType MTExact); mkMF 2 b 16 (MMatchType MTTernary)].
Definition named_source (a b : string) : csource := Eval cbn in mkCSource (a ++ " == 65 && " ++ b ++ "::mask == 0") (mkLoc 0 0 (SrcTable "t")).
Definition named_tree (a b : string) : expr := the (EBool (mkMeta default_loc default_loc TUnknown) true) (ParseConstraint pton1 kTableConstraint (named_source a b)).
Definition tree1 : expr := Eval vm_compute in named_tree "k1" "k2".
Definition tree2 : expr := Eval vm_compute in named_tree "k2" "k1".
Lemma tree1_parsed : ParseConstraint pton1 kTableConstraint (named_source "k1" "k2") = Ok tree1.
Proof. vm_compute. reflexivity. Qed.
Lemma tree2_parsed : ParseConstraint pton1 kTableConstraint (named_source "k2" "k1") = Ok tree2.
Proof. vm_compute. reflexivity. Qed.
Example C62_case : renamed pton1 (mkP4Info [named_decl "k1" "k2"] []) (mkP4Info [named_decl "k2" "k1"] []) /\ exists ci ci',
  P4ToConstraintInfo pton1 (mkP4Info [named_decl "k1" "k2"] []) = Ok ci /\ P4ToConstraintInfo pton1 (mkP4Info [named_decl "k2" "k1"] []) = Ok ci' /\
  ReasonEntryViolatesConstraint enc_long ci = Ok "" /\ ReasonEntryViolatesConstraint enc_long ci' = Ok "".
Proof.
  assert (renamed pton1 (mkP4Info [named_decl "k1" "k2"] []) (mkP4Info [named_decl "k2" "k1"] [])) as HR.
  { split; [|constructor]. constructor; [|constructor]. split; [reflexivity|]. split; [repeat constructor|].
    apply (rr_some _ _ _ _ _ (named_source "k1" "k2") (named_source "k2" "k1") tree1 tree2); [apply extract_some; vm_compute; reflexivity|apply extract_some; vm_compute; reflexivity|exact (proj1 (text_iff pton1 pton1_ok _ _ _) tree1_parsed)|exact (proj1 (text_iff pton1 pton1_ok _ _ _) tree2_parsed)|].
    unfold tree1, tree2. repeat match goal with |- Renamed _ _ _ => constructor end.
    - exists (mkMF 1 "k1" 8 (MMatchType MTExact)), (mkMF 1 "k2" 8 (MMatchType MTExact)). split; [now left|auto].
    - exists (mkMF 2 "k2" 16 (MMatchType MTTernary)), (mkMF 2 "k1" 16 (MMatchType MTTernary)). split; [right; now left|auto]. }
  assert (P4ToConstraintInfo pton1 (mkP4Info [named_decl "k1" "k2"] []) = Ok enc_ci) as H by (vm_compute; reflexivity).
  assert (ReasonEntryViolatesConstraint enc_long enc_ci = Ok "") as Hl by (vm_compute; reflexivity).
  destruct (C62_loads pton1 _ _ pton1_ok HR) as [ci' H'].
  - intros d Hd. apply in_inv in Hd as [<-|Hd]; [|destruct Hd]. cbn [pt_match_fields named_decl map mf_name]. repeat constructor; cbn [In]; intros Hx; repeat destruct Hx as [Hx|Hx]; try discriminate Hx; exact Hx.
  - intros d Hd. destruct Hd.
  - exists enc_ci. exact H.
  - split; [exact HR|]. exists enc_ci, ci'. split; [exact H|]. split; [exact H'|]. split; [exact Hl|]. exact (proj1 (C62_accepts pton1 _ _ _ _ enc_long pton1_ok HR H H') Hl).
Qed.

(** * C63 *)
Lemma restated_accepts pton p p' ci ci' entry : pton_ok pton -> restated pton p p' -> P4ToConstraintInfo pton p = Ok ci -> P4ToConstraintInfo pton p' = Ok ci' ->
  ReasonEntryViolatesConstraint entry ci = Ok "" -> ReasonEntryViolatesConstraint entry ci' = Ok "".
Proof.
  intros Hp [HT HA] H H' Hr. apply (C58_accepted_iff pton p ci _ Hp H) in Hr as ((d & Hd & Hid & Hal) & Hdir & Ha). apply (C58_accepted_iff pton p' ci' _ Hp H'). split; [|split; [exact Hdir|]].
  - destruct (f2_left _ _ _ _ HT Hd) as (d' & Hd' & HR). exists d'. split; [exact Hd'|]. split; [unfold table_id in *; destruct HR as (E & _); congruence|].
    destruct Hal as [Hu|Hs]; [left; eapply restated_free; [apply HR|exact Hu]|right; eapply restated_says_table; eauto].
  - intros a Hi. destruct (Ha a Hi) as (da & Hda & Hida & Hala). destruct (f2_left _ _ _ _ HA Hda) as (d' & Hd' & HR). exists d'. split; [exact Hd'|]. split; [unfold action_id in *; destruct HR as (E & _); congruence|].
    destruct Hala as [Hu|Hs]; [left; eapply restated_free; [apply HR|exact Hu]|right; eapply restated_says_action; eauto].
Qed.
(** Only the trees of the constraints matter, not where their parts are in the source, nor how the text is written. *)
Theorem C63_accepts : forall pton p p' ci ci' entry, pton_ok pton -> restated pton p p' -> P4ToConstraintInfo pton p = Ok ci -> P4ToConstraintInfo pton p' = Ok ci' ->
  (ReasonEntryViolatesConstraint entry ci = Ok "" <-> ReasonEntryViolatesConstraint entry ci' = Ok "").
Proof. intros pton p p' ci ci' entry Hp HR H H'. split; intros Hr; [exact (restated_accepts pton p p' ci ci' entry Hp HR H H' Hr)|exact (restated_accepts pton p' p ci' ci entry Hp (restated_sym _ _ _ HR) H' H Hr)]. Qed.
Print Assumptions C63_accepts.
Theorem C63_loads : forall pton p p', pton_ok pton -> restated pton p p' -> ((exists ci, P4ToConstraintInfo pton p = Ok ci) <-> exists ci, P4ToConstraintInfo pton p' = Ok ci).
Proof.
  assert (forall pton p p', pton_ok pton -> restated pton p p' -> (exists ci, P4ToConstraintInfo pton p = Ok ci) -> exists ci, P4ToConstraintInfo pton p' = Ok ci) as Hx.
  { intros pton p p' Hp [HT HA] H. apply (C37_loads_iff pton p Hp) in H as (H1 & H2 & H3 & H4). apply (C37_loads_iff pton p' Hp). split; [|split; [|split]].
    - erewrite <- (forall2_map_eq _ table_id table_id); [exact H1| |exact HT]. intros a b (E & _). exact E.
    - erewrite <- (forall2_map_eq _ action_id action_id); [exact H2| |exact HA]. intros a b (E & _). exact E.
    - intros d' Hd'. destruct (forall2_other _ _ _ _ HT Hd') as (d & Hd & R). eapply restated_load_table; eauto.
    - intros d' Hd'. destruct (forall2_other _ _ _ _ HA Hd') as (d & Hd & R). eapply restated_load_action; eauto. }
  intros pton p p' Hp HR. split; apply Hx; auto using restated_sym.
Qed.
Print Assumptions C63_loads.
(** Numerals may be written in any base and with any number of leading zeros. *)
Theorem C63_numerals : forall pton ck cs cs' e, Forall2 same_token (Tokenize cs) (Tokenize cs') -> reads_as pton ck cs e -> exists e', reads_as pton ck cs' e' /\ Renamed eq e e'.
Proof. intros pton ck cs cs' e. apply reads_as_same. Qed.
Print Assumptions C63_numerals.
Definition hex_source : csource := mkCSource ("k1 == 0x0041" ++ nl ++ " && k2::mask == 0b00") (mkLoc 0 0 (SrcTable "t")).
Definition hex_decl : p4_table := mkP4Table (mkPre 1 "t" [restriction "entry" ["k1 == 0x0041"; " && k2::mask == 0b00"]]) (pt_match_fields enc_decl).
Lemma hex_same : Forall2 same_token (Tokenize (named_source "k1" "k2")) (Tokenize hex_source).
Proof.
  let l := eval vm_compute in (Tokenize (named_source "k1" "k2")) in assert (Tokenize (named_source "k1" "k2") = l) as -> by (vm_compute; reflexivity).
  let l := eval vm_compute in (Tokenize hex_source) in assert (Tokenize hex_source = l) as -> by (vm_compute; reflexivity).
  repeat (apply Forall2_cons || apply Forall2_nil); try (left; split; reflexivity); right.
  - exists 10%N, 16%N, 65%N. split; [constructor|]. split; [constructor|]. split; apply Reads_digits; [exists [6;5]%N|exists [0;0;4;1]%N]; repeat split; try discriminate; repeat (constructor; try easy).
  - exists 10%N, 2%N, 0%N. split; [constructor|]. split; [constructor|]. split; apply Reads_digits; [exists [0]%N|exists [0;0]%N]; repeat split; try discriminate; repeat (constructor; try easy).
Qed.
Example C63_case : restated pton1 (mkP4Info [enc_decl] []) (mkP4Info [hex_decl] []) /\ exists ci', P4ToConstraintInfo pton1 (mkP4Info [hex_decl] []) = Ok ci' /\ ReasonEntryViolatesConstraint enc_long ci' = Ok "".
Proof.
  destruct (C63_numerals pton1 kTableConstraint _ _ tree1 hex_same (proj1 (text_iff pton1 pton1_ok _ _ _) tree1_parsed)) as (e' & He' & HR').
  assert (restated pton1 (mkP4Info [enc_decl] []) (mkP4Info [hex_decl] [])) as HR.
  { split; [|constructor]. constructor; [|constructor]. split; [reflexivity|]. split; [reflexivity|].
    apply (rr_some _ _ _ _ _ (named_source "k1" "k2") hex_source tree1 e'); [apply extract_some; vm_compute; reflexivity|apply extract_some; vm_compute; reflexivity|exact (proj1 (text_iff pton1 pton1_ok _ _ _) tree1_parsed)|exact He'|exact HR']. }
  assert (P4ToConstraintInfo pton1 (mkP4Info [enc_decl] []) = Ok enc_ci) as H by (vm_compute; reflexivity).
  assert (ReasonEntryViolatesConstraint enc_long enc_ci = Ok "") as Hl by (vm_compute; reflexivity).
  destruct (proj1 (C63_loads pton1 _ _ pton1_ok HR) (ex_intro _ _ H)) as [ci' H']. split; [exact HR|]. exists ci'. split; [exact H'|]. exact (proj1 (C63_accepts pton1 _ _ _ _ enc_long pton1_ok HR H H') Hl).
Qed.
