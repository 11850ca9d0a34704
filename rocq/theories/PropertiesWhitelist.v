(** C90: every finite set of entries can be described by a constraint. *)
From Coq Require Import String Ascii List ZArith NArith Bool Lia.
From Verif Require Import Base Num Token Ast Lexer Quote AstConstructors Parser Info TypeChecker ConstraintInfo Interpreter SpecLexer SpecGrammar SpecParser SpecTyping SpecSemantics SpecInfo SpecExplain SpecSymbolic SpecSolver SpecReading SpecIdioms SpecSingle
  NumFacts LiteralFacts ParserFacts4 TypeFacts SemFacts2 EvalFacts EntryFacts InfoFacts InfoFacts2 InterpFacts InterpFacts2 ReadingFacts ReadingFacts2 ReadingFacts3 LoadFacts RenameFacts PacketFacts
  PropertiesParser PropertiesInfo PropertiesVerdict PropertiesExplain PropertiesEntries PropertiesReading SingleFacts SingleFacts2 WhitelistFacts.
Import ListNotations.
Open Scope string_scope.

Section Whitelist.
  Variables (ks : list key_info) (allowed : list (list field_match * Z)).
  Hypothesis HI : NoDup (map k_id ks).
  Hypothesis HN : NoDup (map k_name ks).
  Hypothesis Hw : int32_widths ks.
  Hypothesis HA : forall fields p, In (fields, p) allowed -> consistent ks fields /\ fitting ks fields /\ (0 <= p)%Z.
  Lemma ks_fun fields n v v' : NoDup (map fm_id fields) -> Assigned ks fields n v -> Assigned ks fields n v' -> v = v'.
  Proof. destruct (some_table ks HI HN) as [t HK]. exact (assigned_fun t ks HK fields n v v'). Qed.
  Lemma ks_typed fields k : consistent ks fields -> In k ks -> exists v, Assigned ks fields (k_name k) v /\ of_type (k_type k) v.
  Proof.
    intros Hc Hk. destruct (assigned_exists ks HI fields k Hc Hk) as (v & Ha). exists v. split; [exact Ha|]. remember (k_name k) as n eqn:En. destruct Ha as [k' f v Hk' _ _ Hv|k' v Hk' _ Hv]; (assert (k' = k) as -> by (eapply nodup_keys; eauto)); [eapply field_value_typed|eapply wildcard_typed]; eauto.
  Qed.
  Lemma alike_key fields fields' key : consistent ks fields -> consistent ks fields' -> (forall n v, key n = Some v <-> Assigned ks fields' n v) ->
    ((forall k v, In k ks -> Assigned ks fields (k_name k) v -> key (k_name k) = Some v) <-> match_alike ks fields fields').
  Proof.
    intros Hc Hc' Hkey. split.
    - intros H n v. split.
      + intros Ha. apply Hkey. assert (exists k, In k ks /\ n = k_name k) as (k & Hk & ->) by (destruct Ha; eauto). now apply H.
      + intros Ha. assert (exists k, In k ks /\ n = k_name k) as (k & Hk & ->) by (destruct Ha; eauto). destruct (assigned_exists ks HI fields k Hc Hk) as (v' & Ha'). pose proof (H k v' Hk Ha') as E. apply Hkey in E. now rewrite (ks_fun fields' _ v v' (co_once _ _ Hc') Ha E).
    - intros H k v Hk Ha. apply Hkey. now apply H.
  Qed.
  Lemma listed_means t q e fields key p : table_keys t ks -> Lists ks allowed q -> Means kTableConstraint q e -> consistent ks fields -> (forall n v, key n = Some v <-> Assigned ks fields n v) ->
    Typed (key_scope ks) e TBool /\ exists b, Meant unordered_exact (key_scope ks) (TableEnv key p) e (VBool b) /\ (b = true <-> exists fields', In (fields', p) allowed /\ match_alike ks fields' fields).
  Proof.
    intros HK HL HM Hc Hkey. pose proof (key_scope_same t ks HK) as HS.
    assert (forall k, In k ks -> declared (ti_keys_by_name t) (k_name k) (k_type k)) as Hd by (intros k Hk; exists k; split; [now apply (by_name t ks HK)|reflexivity]).
    assert (forall k, In k ks -> exists u, key (k_name k) = Some u /\ of_type (k_type k) u) as Hv by (intros k Hk; destruct (ks_typed fields k Hc Hk) as (v & Ha & Ht); exists v; split; [now apply Hkey|exact Ht]).
    destruct (says_lists unordered_exact unordered_equal (ti_keys_by_name t) key p ks Hd Hv allowed q e) as (H1 & _ & _ & _ & b & H2 & H3); [|exact HL|exact HM|].
    - intros f p' Hin. destruct (HA f p' Hin) as (C1 & C2 & _). split; [intros k v Hk; exact (fitting_bounded ks f k v HI Hw C2 Hk HN)|intros k v v' _; exact (ks_fun f (k_name k) v v' (co_once _ _ C1))].
    - split; [exact (typed_ext _ _ _ _ HS H1)|]. exists b. split; [exact (meant_scope _ _ _ _ _ _ HS H2)|]. rewrite H3. split; intros (f & Hin & H); exists f; (split; [exact Hin|]); destruct (HA f p Hin) as (C1 & _); now apply (alike_key f fields key C1 Hc Hkey).
  Qed.
  Lemma some_list : identifiers ks -> exists q, Lists ks allowed q /\ printable q.
  Proof.
    intros Hid. apply lists_exists; [exact Hid|]. intros fields p Hin. destruct (HA fields p Hin) as (C1 & C2 & C3). split; [exact C3|]. intros k Hk. destruct (assigned_exists ks HI fields k C1 Hk) as (v & Ha). exists v. split; [exact Ha|]. exact (fitting_bounded ks fields k v HI Hw C2 Hk HN Ha).
  Qed.
End Whitelist.

(** Entries accepted by a table with such a constraint. *)
Lemma accepted_says pton p ci d ks cs e entry P : pton_ok pton -> P4ToConstraintInfo pton p = Ok ci -> In d (p4_tables p) -> Forall2 key_decl (pt_match_fields d) ks ->
  restricted kTableConstraint (pt_preamble d) cs -> reads_as pton kTableConstraint cs e -> table_id d = pe_table_id entry -> pe_action entry = None ->
  (forall t key, table_keys t ks -> consistent ks (pe_match entry) -> (forall n v, key n = Some v <-> Assigned ks (pe_match entry) n v) ->
     Typed (key_scope ks) e TBool /\ exists b, Meant unordered_exact (key_scope ks) (TableEnv key (pe_priority entry)) e (VBool b) /\ (b = true <-> P)) ->
  (ReasonEntryViolatesConstraint entry ci = Ok "" <-> consistent ks (pe_match entry) /\ P).
Proof.
  intros Hp Hci Hd Hf Hr Hra Hid Hact HP. rewrite (C58_accepted_iff pton p ci entry Hp Hci). destruct (declared_table pton p ci d ks _ e Hp Hci Hd Hf Hr Hra) as (t & _ & _ & HK & _). pose proof (tk_ids _ _ HK) as HI. pose proof (tk_names _ _ HK) as HN.
  split.
  - intros ((d' & Hd' & Hid' & Hal) & _). assert (d' = d) as -> by (apply (table_decl_same pton p ci Hci); [exact Hd'|exact Hd|unfold table_id in *; congruence]).
    destruct Hal as [Hu|(ks' & cs' & e' & key & Hf' & Hr' & Hra' & Hc & Hkey & Hty & HMe)]; [destruct (restricted_not _ _ _ Hu Hr)|]. assert (ks' = ks) as -> by (eapply forall2_fun; [exact key_decl_fun|eassumption..]).
    pose proof (restricted_fun _ _ _ _ Hr Hr') as <-. pose proof (reads_as_fun pton _ _ e e' Hp Hra Hra') as <-. split; [exact Hc|].
    destruct (HP t key HK Hc Hkey) as (_ & b & Hb & E). apply E. pose proof (same_scope_sym _ _ (key_scope_same t ks HK)) as HS. apply (meant_scope _ _ _ _ _ _ HS) in Hb. apply (meant_scope _ _ _ _ _ _ HS) in HMe.
    pose proof (meant_fun None (Some t) _ (table_in_scope t ks HK) unordered_exact unordered_fun _ _ _ _ Hb HMe) as X. now injection X.
  - intros (Hc & Hex). split; [|split; [unfold direct; now rewrite Hact|unfold actions_of; rewrite Hact; intros a []]]. exists d. split; [exact Hd|]. split; [exact Hid|]. right.
    destruct (key_function ks (pe_match entry) HI HN Hc) as (key & Hkey). destruct (HP t key HK Hc Hkey) as (Hty & b & Hb & E). rewrite (proj2 E Hex) in Hb. exists ks, cs, e, key. auto 10.
Qed.

(** * C90 *)
(** If the constraint of a table is one that lists entries, printed, the checker allows the entries that have the values and
    the priority of one of the list, and no others. *)
Theorem C90_whitelist : forall num pton p ci d ks allowed q loc entry, (forall n, Decimal (num n) n) -> pton_ok pton -> P4ToConstraintInfo pton p = Ok ci -> In d (p4_tables p) -> Forall2 key_decl (pt_match_fields d) ks -> int32_widths ks ->
  listable ks allowed -> Lists ks allowed q -> printable q ->
  restricted kTableConstraint (pt_preamble d) (mkCSource (text_of (print num q)) loc) -> table_id d = pe_table_id entry -> pe_action entry = None ->
  (ReasonEntryViolatesConstraint entry ci = Ok "" <-> consistent ks (pe_match entry) /\ among ks allowed entry).
Proof.
  intros num pton p ci d ks allowed q loc entry Hnum Hp Hci Hd Hf Hw HA HL Hpr Hr Hid Hact. destruct (C10_print_parse pton kTableConstraint num q loc Hp Hnum Hpr) as (e & Hparse & HM).
  eapply accepted_says; eauto; [apply (text_iff pton Hp); exact Hparse|]. intros t key HK Hc Hkey. exact (listed_means ks allowed (tk_ids _ _ HK) (tk_names _ _ HK) Hw HA t q e (pe_match entry) key (pe_priority entry) HK HL HM Hc Hkey).
Qed.
Print Assumptions C90_whitelist.
(** If it is the negation of such a constraint, these entries are refused, and no others that fit the table. *)
Theorem C90_blacklist : forall num pton p ci d ks allowed q loc entry, (forall n, Decimal (num n) n) -> pton_ok pton -> P4ToConstraintInfo pton p = Ok ci -> In d (p4_tables p) -> Forall2 key_decl (pt_match_fields d) ks -> int32_widths ks ->
  listable ks allowed -> Lists ks allowed q -> printable q ->
  restricted kTableConstraint (pt_preamble d) (mkCSource (text_of (print num (SNot q))) loc) -> table_id d = pe_table_id entry -> pe_action entry = None ->
  (ReasonEntryViolatesConstraint entry ci = Ok "" <-> consistent ks (pe_match entry) /\ ~ among ks allowed entry).
Proof.
  intros num pton p ci d ks allowed q loc entry Hnum Hp Hci Hd Hf Hw HA HL Hpr Hr Hid Hact. destruct (C10_print_parse pton kTableConstraint num (SNot q) loc Hp Hnum Hpr) as (e & Hparse & HM).
  eapply accepted_says; eauto; [apply (text_iff pton Hp); exact Hparse|]. intros t key HK Hc Hkey. inversion HM as [| | | |m ? a Ma| | |]; subst.
  destruct (listed_means ks allowed (tk_ids _ _ HK) (tk_names _ _ HK) Hw HA t q a (pe_match entry) key (pe_priority entry) HK HL Ma Hc Hkey) as (Hty & b & Hb & E). split; [now apply T_not|].
  exists (negb b). split; [now apply mn_not|]. unfold among. rewrite <- E. destruct b; cbn; intuition congruence.
Qed.
Print Assumptions C90_blacklist.
(** Such a constraint exists for every list if the names of the keys are identifiers; it can be written into an annotation
    and the declaration can be loaded. *)
Theorem C90_exists : forall num pton fs ks allowed id name, (forall n, Decimal (num n) n) -> pton_ok pton -> Forall2 key_decl fs ks -> NoDup (map mf_id fs) -> NoDup (map mf_name fs) -> int32_widths ks -> identifiers ks -> listable ks allowed ->
  exists text ci, P4ToConstraintInfo pton (mkP4Info [mkP4Table (mkPre id name ["@entry_restriction" ++ parts_text [text]]) fs] []) = Ok ci /\
    forall entry, pe_table_id entry = id -> pe_action entry = None ->
    (ReasonEntryViolatesConstraint entry ci = Ok "" <-> consistent ks (pe_match entry) /\ among ks allowed entry).
Proof.
  intros num pton fs ks allowed id name Hnum Hp Hf N1 N2 Hw Hid HA. assert (NoDup (map k_id ks)) as HI by (rewrite (decl_ids_k _ _ Hf); exact N1). assert (NoDup (map k_name ks)) as HN by (rewrite (decl_names_k _ _ Hf); exact N2).
  destruct (some_list ks allowed HI HN Hw HA Hid) as (q & HL & Hpr). set (text := text_of (print num q)). set (d := mkP4Table (mkPre id name ["@entry_restriction" ++ parts_text [text]]) fs).
  assert (only tame text) as HT by (apply tokens_tame, print_tame; [exact Hnum|exact Hpr]). pose proof (annotated text id name HT) as Hr.
  destruct (C10_print_parse pton kTableConstraint num q (mkLoc 0 0 (SrcTable name)) Hp Hnum Hpr) as (e & Hparse & HM).
  assert (Typed (key_scope ks) e TBool) as Hty.
  { destruct allowed as [|[fields p] rest]; [inversion HL; subst; inversion HM; subst; constructor|]. destruct (HA fields p (or_introl eq_refl)) as (Hc & _). destruct (some_table ks HI HN) as [t HK]. destruct (key_function ks fields HI HN Hc) as (key & Hkey).
    exact (proj1 (listed_means ks _ HI HN Hw HA t q e fields key p HK HL HM Hc Hkey)). }
  assert (exists ci, P4ToConstraintInfo pton (mkP4Info [d] []) = Ok ci) as (ci & Hci).
  { apply (C37_loads_iff pton _ Hp). cbn [p4_tables p4_actions map]. split; [repeat constructor; intros []|]. split; [constructor|]. split; [|intros d' []]. intros d' [<-|[]]. exists ks. split; [exact Hf|]. split; [exact N1|]. split; [exact N2|]. right.
    exists (mkCSource text (mkLoc 0 0 (SrcTable name))), e, TBool. split; [exact Hr|]. split; [apply (text_iff pton Hp); exact Hparse|exact Hty]. }
  exists text, ci. split; [exact Hci|]. intros entry Eid Hact. exact (C90_whitelist num pton (mkP4Info [d] []) ci d ks allowed q _ entry Hnum Hp Hci (or_introl eq_refl) Hf Hw HA HL Hpr Hr (eq_sym Eid) Hact).
Qed.
Print Assumptions C90_exists.
(** The hypotheses hold of a list of two entries. *)
Definition wl_fields : list match_field := [mkMF 1 "t" 8 (MMatchType MTTernary); mkMF 2 "h.ip" 32 (MMatchType MTLpm); mkMF 3 "r" 16 (MMatchType MTRange)].
Definition wl_keys : list key_info := [mkKey 1 "t" (TTernary 8); mkKey 2 "h.ip" (TLpm 32); mkKey 3 "r" (TRange 16)].
Definition wl_byte (n : nat) : string := String (ascii_of_nat n) "".
Definition wl_one : list field_match := [mkFM 1 (FMTernary (wl_byte 2) (wl_byte 6))].
Definition wl_two : list field_match := [mkFM 3 (FMRange (wl_byte 1) (wl_byte 5)); mkFM 2 (FMLpm (wl_byte 10 ++ wl_byte 0 ++ wl_byte 0 ++ wl_byte 0) 8)].
Definition wl_allowed : list (list field_match * Z) := [(wl_one, 3%Z); (wl_two, 0%Z)].
Definition wl_describe (p z m a l lo hi : N) : surface :=
  SBin AND (SBin EQ (SAttr "priority") (SNum p))
    (SBin AND (SBin AND (field_is (SVar "t" []) "value" z) (field_is (SVar "t" []) "mask" m))
      (SBin AND (SBin AND (field_is (SVar "h" ["ip"]) "value" a) (field_is (SVar "h" ["ip"]) "prefix_length" l))
        (SBin AND (SBin AND (field_is (SVar "r" []) "low" lo) (field_is (SVar "r" []) "high" hi)) (SBool true)))).
Definition wl_surface : surface := SBin OR (wl_describe 3 2 6 0 0 0 65535) (SBin OR (wl_describe 0 0 0 167772160 8 1 5) (SBool false)).
Definition wl_text : string := Eval vm_compute in text_of (print dec_N wl_surface).
Definition wl_decl : p4_table := mkP4Table (mkPre 7 "w" ["@entry_restriction" ++ parts_text [wl_text]]) wl_fields.
Definition wl_ci : constraint_info := Eval vm_compute in the (mkInfo [] []) (P4ToConstraintInfo pton1 (mkP4Info [wl_decl] [])).
Lemma wl_declared : Forall2 key_decl wl_fields wl_keys.
Proof. repeat constructor. Qed.
Lemma wl_widths : int32_widths wl_keys.
Proof. intros k w [<-|[<-|[<-|[]]]] Hw; cbn in Hw; inversion Hw; subst; lia. Qed.
Lemma wl_ident w : In w ["t"; "h"; "ip"; "r"; "value"; "mask"; "prefix_length"; "low"; "high"; "priority"] -> ident w.
Proof.
  intros H. assert (forall c, In c (list_ascii_of_string "abcdefghijklmnopqrstuvwxyz_") -> letter c) as HL.
  { intros c Hc. unfold letter, between. cbn in Hc. repeat destruct Hc as [<-|Hc]; try contradiction; first [left; reflexivity|right; left; split; discriminate]. }
  repeat destruct H as [<-|H]; try contradiction; (split; [|split; intros u; discriminate]); eexists _, _; (split; [reflexivity|]); (split; [apply HL; cbn; tauto|]); intros c Hc; left; apply HL; cbn in Hc |- *; tauto.
Qed.
Lemma wl_identifiers : identifiers wl_keys.
Proof.
  intros k [<-|[<-|[<-|[]]]]; [exists "t", []|exists "h", ["ip"]|exists "r", []]; (split; [reflexivity|]); repeat (constructor; [apply wl_ident; cbn; tauto|]); constructor.
Qed.
Lemma wl_listable : listable wl_keys wl_allowed.
Proof.
  intros fields p [E|[E|[]]]; injection E as <- <-; (split; [|split; [|lia]]).
  - split; [intros f [<-|[]]; exists (mkKey 1 "t" (TTernary 8)); eexists; (split; [now left|]); (split; [reflexivity|constructor])|repeat constructor; cbn; intuition discriminate|].
    intros k [<-|[<-|[<-|[]]]] Ho; eexists; constructor; lia.
  - intros f k w [<-|[]] [<-|[<-|[<-|[]]]] E Hw; try discriminate E; inversion Hw; subst; constructor; reflexivity.
  - split; [|repeat constructor; cbn; intuition discriminate|intros k [<-|[<-|[<-|[]]]] Ho; eexists; constructor; lia].
    intros f [<-|[<-|[]]]; [exists (mkKey 3 "r" (TRange 16))|exists (mkKey 2 "h.ip" (TLpm 32))]; eexists; (split; [cbn; tauto|]); (split; [reflexivity|constructor]).
  - intros f k w [<-|[<-|[]]] [<-|[<-|[<-|[]]]] E Hw; try discriminate E; inversion Hw; subst; constructor; try reflexivity; lia.
Qed.
Lemma wl_lists : Lists wl_keys wl_allowed wl_surface.
Proof.
  assert (names wl_keys (SVar "t" []) (mkKey 1 "t" (TTernary 8))) as N1 by (split; [cbn; tauto|eexists _, _; split; reflexivity]).
  assert (names wl_keys (SVar "h" ["ip"]) (mkKey 2 "h.ip" (TLpm 32))) as N2 by (split; [cbn; tauto|eexists _, _; split; reflexivity]).
  assert (names wl_keys (SVar "r" []) (mkKey 3 "r" (TRange 16))) as N3 by (split; [cbn; tauto|eexists _, _; split; reflexivity]).
  constructor; [|constructor; [|constructor]].
  - apply (ds_all _ _ _ 3%N). eapply (ds_key _ _ _ _ _ (VTernary (Z.of_N 2) (Z.of_N 6))); [exact N1| |apply pin_ternary|].
    { apply (as_present _ _ (mkKey 1 "t" (TTernary 8)) (mkFM 1 (FMTernary (wl_byte 2) (wl_byte 6)))); cbn [In wl_keys wl_one]; auto. exact (fv_ternary 8 (wl_byte 2) (wl_byte 6)). }
    eapply (ds_key _ _ _ _ _ (VLpm (Z.of_N 0) (Z.of_N 0))); [exact N2| |apply pin_lpm|].
    { apply (as_omitted _ _ (mkKey 2 "h.ip" (TLpm 32))); [cbn; tauto|intros f [<-|[]]; discriminate|constructor]. }
    eapply (ds_key _ _ _ _ _ (VRange (Z.of_N 0) (Z.of_N 65535))); [exact N3| |apply pin_range|constructor].
    apply (as_omitted _ _ (mkKey 3 "r" (TRange 16))); [cbn; tauto|intros f [<-|[]]; discriminate|]. exact (wc_range 16 ltac:(lia)).
  - apply (ds_all _ _ _ 0%N). eapply (ds_key _ _ _ _ _ (VTernary (Z.of_N 0) (Z.of_N 0))); [exact N1| |apply pin_ternary|].
    { apply (as_omitted _ _ (mkKey 1 "t" (TTernary 8))); [cbn; tauto|intros f [<-|[<-|[]]]; discriminate|constructor]. }
    eapply (ds_key _ _ _ _ _ (VLpm (Z.of_N 167772160) (Z.of_N 8))); [exact N2| |apply pin_lpm|].
    { apply (as_present _ _ (mkKey 2 "h.ip" (TLpm 32)) (mkFM 2 (FMLpm (wl_byte 10 ++ wl_byte 0 ++ wl_byte 0 ++ wl_byte 0) 8))); cbn [In wl_keys wl_two]; auto. exact (fv_lpm 32 (wl_byte 10 ++ wl_byte 0 ++ wl_byte 0 ++ wl_byte 0) 8). }
    eapply (ds_key _ _ _ _ _ (VRange (Z.of_N 1) (Z.of_N 5))); [exact N3| |apply pin_range|constructor].
    apply (as_present _ _ (mkKey 3 "r" (TRange 16)) (mkFM 3 (FMRange (wl_byte 1) (wl_byte 5)))); cbn [In wl_keys wl_two]; auto. exact (fv_range 16 (wl_byte 1) (wl_byte 5)).
Qed.
Lemma wl_printable : printable wl_surface.
Proof.
  assert (forall op, In op [AND; EQ; OR] -> exists a ch o, binary op a ch o) as HB by (intros op [<-|[<-|[<-|[]]]]; do 3 eexists; constructor). pose proof wl_ident as HI.
  unfold wl_surface, wl_describe, field_is. cbn [printable]. repeat split; try exact I; try (apply HB; cbn; tauto); try (apply HI; cbn; tauto); repeat (constructor; [apply HI; cbn; tauto|]); constructor.
Qed.
Definition wl_entry (fields : list field_match) (p : Z) : p4_entry := mkEntry 7 fields None p.
Definition wl_refused (fields : list field_match) (p : Z) : bool := match ReasonEntryViolatesConstraint (wl_entry fields p) wl_ci with Ok "" => false | Ok _ => true | _ => false end.
Example C90_case : (forall n, Decimal (dec_N n) n) /\ pton_ok pton1 /\ P4ToConstraintInfo pton1 (mkP4Info [wl_decl] []) = Ok wl_ci /\ Forall2 key_decl wl_fields wl_keys /\ NoDup (map mf_id wl_fields) /\ NoDup (map mf_name wl_fields) /\ int32_widths wl_keys /\ identifiers wl_keys /\
  listable wl_keys wl_allowed /\ Lists wl_keys wl_allowed wl_surface /\ printable wl_surface /\
  restricted kTableConstraint (pt_preamble wl_decl) (mkCSource (text_of (print dec_N wl_surface)) (mkLoc 0 0 (SrcTable "w"))) /\
  ReasonEntryViolatesConstraint (wl_entry wl_one 3) wl_ci = Ok "" /\ ReasonEntryViolatesConstraint (wl_entry (rev wl_two) 0) wl_ci = Ok "" /\
  wl_refused wl_one 0 = true /\ wl_refused wl_two 3 = true /\ wl_refused [] 3 = true.
Proof.
  split; [exact dec_N_Decimal|]. split; [exact pton1_ok|]. split; [vm_compute; reflexivity|]. split; [exact wl_declared|]. split; [repeat constructor; cbn; intuition discriminate|]. split; [repeat constructor; cbn; intuition discriminate|].
  split; [exact wl_widths|]. split; [exact wl_identifiers|]. split; [exact wl_listable|]. split; [exact wl_lists|]. split; [exact wl_printable|].
  split. { apply (annotated (text_of (print dec_N wl_surface)) 7 "w"). apply tokens_tame, print_tame; [exact dec_N_Decimal|exact wl_printable]. }
  repeat split; vm_compute; reflexivity.
Qed.
