(** C79: what constraints demand of the packets that entries match. *)
From Coq Require Import String Ascii List ZArith NArith Bool Lia.
From Verif Require Import Base Num Token Ast AstConstructors Lexer Parser Info ConstraintInfo Interpreter SpecLexer SpecGrammar SpecParser SpecTyping SpecSemantics SpecInfo SpecExplain SpecCrash SpecPackets SpecIdioms LiteralFacts LexerFacts4 LexerFacts5 LexerFacts7 ParserFacts4 EvalFacts EntryFacts EntryFacts2 InfoFacts InfoFacts2 InterpFacts InterpFacts2 VerdictFacts LawFacts PacketFacts IdiomFacts NumFacts PropertiesParser PropertiesInfo PropertiesVerdict PropertiesExplain.
Import ListNotations.
Open Scope string_scope.

(** * C79 *)
Lemma idiom_settled pton p ci d ks cs s P e entry : pton_ok pton -> P4ToConstraintInfo pton p = Ok ci ->
  In d (p4_tables p) -> table_id d = pe_table_id entry -> Forall2 key_decl (pt_match_fields d) ks ->
  restricted kTableConstraint (pt_preamble d) cs -> reads_as pton kTableConstraint cs e -> Means kTableConstraint s e ->
  (forall k w, In k ks -> width (k_type k) w -> (0 <= w)%Z) -> canonical_entry ks (pe_match entry) ->
  Demands ks (pe_match entry) (pe_priority entry) s P ->
  NoDup (map k_name ks) /\ exists key, (forall n v, key n = Some v <-> Assigned ks (pe_match entry) n v) /\ settled ks (pe_priority entry) key e P.
Proof.
  intros Hp Hci Hd Hid Hf Hr Hra HM Hw HC HD. destruct (declared_table _ _ _ _ _ _ _ Hp Hci Hd Hf Hr Hra) as (t & e' & _ & HK & _ & _ & _ & _ & _). split; [apply HK|].
  destruct (entry_total t ks HK entry (proj1 HC)) as [ctx Hpa]. destruct (entry_ok t ks HK entry ctx Hpa) as (_ & keys & _ & HN & HA).
  assert (forall n v, assoc_find String.eqb n keys = Some v <-> Assigned ks (pe_match entry) n v) as Hk by (intros n v; rewrite <- HA; now apply (afind_iff String.eqb String.eqb_eq)).
  exists (fun n => assoc_find String.eqb n keys). split; [exact Hk|].
  exact (demands_settled ks (pe_match entry) (pe_priority entry) _ (tk_ids _ _ HK) (tk_names _ _ HK) Hw HC Hk s P HD e HM).
Qed.
(** Canonical entries are accepted iff they match the packets that the constraint says. *)
Theorem C79_accepted_iff : forall pton p ci d ks cs s P e entry, pton_ok pton -> P4ToConstraintInfo pton p = Ok ci ->
  In d (p4_tables p) -> table_id d = pe_table_id entry -> Forall2 key_decl (pt_match_fields d) ks ->
  restricted kTableConstraint (pt_preamble d) cs -> reads_as pton kTableConstraint cs e -> Means kTableConstraint s e ->
  (forall k w, In k ks -> width (k_type k) w -> (0 <= w)%Z) -> canonical_entry ks (pe_match entry) -> pe_action entry = None ->
  Demands ks (pe_match entry) (pe_priority entry) s P ->
  (ReasonEntryViolatesConstraint entry ci = Ok "" <-> P).
Proof.
  intros pton p ci d ks cs s P e entry Hp Hci Hd Hid Hf Hr Hra HM Hw HC Ha HD.
  destruct (idiom_settled _ _ _ _ _ _ _ _ _ _ Hp Hci Hd Hid Hf Hr Hra HM Hw HC HD) as (HN & key & Hk & Ht & Ho & b & Hb & E).
  rewrite (C26_accepted_iff_partial pton p ci d ks cs e entry key Hp Hci Hd Hid Hf Hr Hra Ht Hw (proj1 HC) Hk Ha Ho), <- E. split; [|intros ->; exact Hb].
  intros H. pose proof (den_unique _ (scope_keys ks HN) _ e _ _ H Hb) as EE. now injection EE.
Qed.
Print Assumptions C79_accepted_iff.
(** If the constraint is written in one line, every other canonical entry is reported as a violation. *)
Theorem C79_violated_iff : forall pton p ci d ks cs s P e entry, pton_ok pton -> P4ToConstraintInfo pton p = Ok ci ->
  In d (p4_tables p) -> table_id d = pe_table_id entry -> Forall2 key_decl (pt_match_fields d) ks ->
  restricted kTableConstraint (pt_preamble d) cs -> reads_as pton kTableConstraint cs e -> Means kTableConstraint s e -> one_line (cs_string cs) ->
  (forall k w, In k ks -> width (k_type k) w -> (0 <= w)%Z) -> canonical_entry ks (pe_match entry) -> pe_action entry = None ->
  Demands ks (pe_match entry) (pe_priority entry) s P ->
  ((exists text, text <> "" /\ ReasonEntryViolatesConstraint entry ci = Ok text) <-> ~ P).
Proof.
  intros pton p ci d ks cs s P e entry Hp Hci Hd Hid Hf Hr Hra HM HL Hw HC Ha HD. split.
  - intros (text & Hne & H) HP. apply (C79_accepted_iff pton p ci d ks cs s P e entry) in HP; auto. congruence.
  - intros HP. destruct (idiom_settled _ _ _ _ _ _ _ _ _ _ Hp Hci Hd Hid Hf Hr Hra HM Hw HC HD) as (HN & key & Hk & Ht & Ho & b & Hb & E).
    assert (b = false) as -> by (destruct b; [exfalso; now apply HP, E|reflexivity]). pose proof (C33_one_line_partial pton kTableConstraint (pt_preamble d) cs e Hp Hr Hra (proj1 HL) (proj2 HL)) as Hdis.
    destruct (C33_explained_partial pton p ci d ks cs e entry key Hp Hci Hd Hid Hf Hr Hra Ht Hw (proj1 HC) Hk Ho Hdis Hb) as (text & s' & b & q & rest & H & _ & _ & -> & _).
    eexists. split; [|exact H]. discriminate.
Qed.
Print Assumptions C79_violated_iff.
(** Optional keys always satisfy k::mask == 0 || k::mask == -1. *)
Theorem C79_optional : forall pton p ci d ks cs s k w e entry, pton_ok pton -> P4ToConstraintInfo pton p = Ok ci ->
  In d (p4_tables p) -> table_id d = pe_table_id entry -> Forall2 key_decl (pt_match_fields d) ks ->
  restricted kTableConstraint (pt_preamble d) cs -> reads_as pton kTableConstraint cs e ->
  names ks s k -> k_type k = TOptional w -> Means kTableConstraint (SBin OR (SBin EQ (SField s "mask") (SNum 0)) (SBin EQ (SField s "mask") (SNeg (SNum 1)))) e ->
  (forall k w, In k ks -> width (k_type k) w -> (0 <= w)%Z) -> canonical_entry ks (pe_match entry) -> pe_action entry = None ->
  ReasonEntryViolatesConstraint entry ci = Ok "".
Proof.
  intros pton p ci d ks cs s k w e entry Hp Hci Hd Hid Hf Hr Hra HN HT HM Hw HC Ha. assert (masked w (k_type k)) as HMK by (rewrite HT; constructor).
  apply (proj2 (C79_accepted_iff pton p ci d ks cs _ _ e entry Hp Hci Hd Hid Hf Hr Hra HM Hw HC Ha (de_or _ _ _ _ _ _ _ (de_ignored _ _ _ s k w HN HMK) (de_single _ _ _ s k w HN HMK)))). destruct (existsb (fun f => N.eqb (fm_id f) (k_id k)) (pe_match entry)) eqn:E.
    + right. apply existsb_exists in E as (f & Hin & Hfid). apply N.eqb_eq in Hfid. destruct HN as [Hk _]. assert (width (k_type k) w) as HW by (rewrite HT; constructor).
      destruct HC as [[C1 C2 _] HC]. pose proof (HC f k w Hin Hk (eq_sym Hfid) HW) as Hcf.
      destruct (declared_table _ _ _ _ _ _ _ Hp Hci Hd Hf Hr Hra) as (t & e' & _ & HK & _). destruct (C1 f Hin) as (k' & v & Hk' & Hid' & Hfv). assert (k' = k) as -> by (apply (nodup_keys k_id ks); [apply HK|assumption..|congruence]).
      rewrite HT in Hfv. inversion Hfv as [| | | |w' sv Hw0 E1 E2]; subst. rewrite <- E2 in Hcf. inversion Hcf as [| | | |? Hsv]; subst. exists (unsigned sv). split; [split; [apply unsigned_nonneg|exact Hsv]|].
      intros x Hx. split.
      * intros Hc. pose proof (Hc f Hin Hfid) as Hm. rewrite <- E2 in Hm. now inversion Hm.
      * intros -> g Hg Hgid. assert (g = f) as -> by (apply (nodup_keys fm_id (pe_match entry)); [assumption..|congruence]). rewrite <- E2. constructor.
    + left. intros x _ f Hin Hfid. exfalso. assert (existsb (fun f => N.eqb (fm_id f) (k_id k)) (pe_match entry) = true) by (apply existsb_exists; exists f; split; [exact Hin|now apply N.eqb_eq]). congruence.
Qed.
Print Assumptions C79_optional.
(** The examples of the language specification, for one table with all kinds of keys. *)
Definition doc_source : string :=
  "ipv4.valid == 0 -> ipv4.dst::mask == 0; ipv6.dst::prefix_length <= 64; (in_port::mask == 0 || in_port::mask == -1) && port::low >= 0x400; ::priority < 0x7ffffff; mac::value != mac('00:00:00:00:00:05')".
Definition doc_decl : p4_table := mkP4Table (mkPre 9 "doc" [restriction "entry" [doc_source]])
  [mkMF 1 "ipv4.valid" 1 (MMatchType MTExact); mkMF 2 "ipv4.dst" 32 (MMatchType MTTernary); mkMF 3 "ipv6.dst" 128 (MMatchType MTLpm); mkMF 4 "in_port" 9 (MMatchType MTOptional); mkMF 5 "port" 16 (MMatchType MTRange); mkMF 6 "mac" 48 (MMatchType MTExact)].
Definition doc_keys : list key_info := [mkKey 1 "ipv4.valid" (TExact 1); mkKey 2 "ipv4.dst" (TTernary 32); mkKey 3 "ipv6.dst" (TLpm 128); mkKey 4 "in_port" (TOptional 9); mkKey 5 "port" (TRange 16); mkKey 6 "mac" (TExact 48)].
Definition doc_cs : csource := mkCSource doc_source (mkLoc 0 0 (SrcTable "doc")).
Definition doc_ci : constraint_info := Eval vm_compute in the (mkInfo [] []) (P4ToConstraintInfo pton1 (mkP4Info [doc_decl] [])).
Definition doc_tree : expr := Eval vm_compute in the (ENotSet (mkMeta (mkLoc 0 0 SrcNone) (mkLoc 0 0 SrcNone) TNotSet)) (ParseConstraint pton1 kTableConstraint doc_cs).
Definition doc_surface : surface :=
  SBin SEMICOLON (SBin SEMICOLON (SBin SEMICOLON (SBin SEMICOLON
    (SBin IMPLIES (SBin EQ (SVar "ipv4" ["valid"]) (SNum 0)) (SBin EQ (SField (SVar "ipv4" ["dst"]) "mask") (SNum 0)))
    (SBin LE (SField (SVar "ipv6" ["dst"]) "prefix_length") (SNum 64)))
    (SBin AND (SBin OR (SBin EQ (SField (SVar "in_port" []) "mask") (SNum 0)) (SBin EQ (SField (SVar "in_port" []) "mask") (SNeg (SNum 1)))) (SBin GE (SField (SVar "port" []) "low") (SNum 1024))))
    (SBin LT (SAttr "priority") (SNum 134217727))) (SBin NE (SField (SVar "mac" []) "value") (SNum 5)).
(** ipv4.valid = 0, no match on ipv4.dst, ipv6.dst 2001::/16, in_port 3, port 1024..65535, mac 9. *)
Definition byte_ (n : N) : string := String (ascii_of_N n) "".
Definition doc_match : list field_match :=
  [mkFM 6 (FMExact (byte_ 9)); mkFM 1 (FMExact (byte_ 0)); mkFM 3 (FMLpm (byte_ 32 ++ byte_ 1 ++ repeat_char 14 NUL) 16); mkFM 4 (FMOptional (byte_ 3)); mkFM 5 (FMRange (byte_ 4 ++ byte_ 0) (byte_ 255 ++ byte_ 255))].
Definition doc_dst : field_match := mkFM 2 (FMTernary (byte_ 8) (byte_ 8)).
Lemma doc_means : Means kTableConstraint doc_surface doc_tree.
Proof.
  assert (forall m n s, s = dec (Z.of_N n) -> Means kTableConstraint (SNum n) (EInt m s)) as HN by (intros m n s E; constructor; now apply dec_Decimal).
  unfold doc_surface, doc_tree. repeat first [eapply M_bin; [constructor| |]|apply M_field|apply M_neg|apply M_attr|apply HN; vm_compute; reflexivity|
    match goal with |- Means _ (SVar ?i ?is) (EKey ?m _) => exact (M_var kTableConstraint m i is) end].
Qed.
Lemma doc_canonical : canonical_entry doc_keys doc_match /\ canonical_entry doc_keys (doc_dst :: doc_match).
Proof.
  assert (forall f, In f (doc_dst :: doc_match) -> exists k v, In k doc_keys /\ k_id k = fm_id f /\ field_value (k_type k) (fm_value f) v) as H1.
  { intros f Hf. assert (exists k, In k doc_keys /\ k_id k = fm_id f) as (k & Hk & E).
    { assert (forall i, existsb (fun k => N.eqb (k_id k) i) doc_keys = true -> exists k, In k doc_keys /\ k_id k = i) as HE by (intros i Hi; apply existsb_exists in Hi as (k & Hk & E); exists k; split; [exact Hk|now apply N.eqb_eq]).
      apply HE. repeat destruct Hf as [<-|Hf]; try contradiction; vm_compute; reflexivity. }
    exists k. repeat destruct Hf as [<-|Hf]; try contradiction; repeat destruct Hk as [<-|Hk]; try contradiction; try discriminate E; eexists; (split; [cbn; tauto|]); (split; [reflexivity|]); constructor; lia. }
  assert (forall f k w, In f (doc_dst :: doc_match) -> In k doc_keys -> k_id k = fm_id f -> width (k_type k) w -> canonical_field w (fm_value f)) as H2.
  { intros f k w Hf Hk E HW. repeat destruct Hf as [<-|Hf]; try contradiction; repeat destruct Hk as [<-|Hk]; try contradiction; try discriminate E; inversion HW; subst; constructor; repeat split; vm_compute; first [reflexivity|discriminate]. }
  assert (NoDup (map fm_id (doc_dst :: doc_match))) as H3. { cbn. repeat constructor; cbn; intuition discriminate. }
  assert (forall f, In f doc_match -> In f (doc_dst :: doc_match)) as HI by (intros; now right).
  assert (forall k l, omitted k l -> existsb (fun f => N.eqb (fm_id f) (k_id k)) l = false) as HO.
  { intros k l Ho. destruct (existsb (fun f => N.eqb (fm_id f) (k_id k)) l) eqn:E; [|reflexivity]. apply existsb_exists in E as (f & Hf & Hid). apply N.eqb_eq in Hid. destruct (Ho f Hf Hid). }
  split; (split; [split|]); auto.
  - cbn in H3. now inversion H3.
  - intros k Hk Ho. repeat destruct Hk as [<-|Hk]; try contradiction; try discriminate (HO _ _ Ho). eexists. constructor.
  - intros f k w Hf. apply H2. now right.
  - intros k Hk Ho. repeat destruct Hk as [<-|Hk]; try contradiction; discriminate (HO _ _ Ho).
Qed.
Lemma doc_demands l p : exists P, Demands doc_keys l p doc_surface P.
Proof.
  assert (forall k i is, In k doc_keys -> k_name k = String.concat "." (i :: is) -> names doc_keys (SVar i is) k) as HN by (intros k i is Hk E; split; [exact Hk|]; now exists i, is).
  eexists. unfold doc_surface. apply de_semi; [apply de_semi; [apply de_semi; [apply de_semi; [apply de_implies|]|apply de_and; [apply de_or|]]|]|].
  - apply (de_equal _ _ _ _ (mkKey 1 "ipv4.valid" (TExact 1)) 1 _ 0); [apply HN; [cbn; tauto|reflexivity]|constructor|exact (li_num 0)].
  - apply (de_ignored _ _ _ _ (mkKey 2 "ipv4.dst" (TTernary 32)) 32); [apply HN; [cbn; tauto|reflexivity]|constructor].
  - apply (de_prefix _ _ _ _ (mkKey 3 "ipv6.dst" (TLpm 128)) 128 _ 64); [apply HN; [cbn; tauto|reflexivity]|reflexivity|exact (li_num 64)|lia].
  - apply (de_ignored _ _ _ _ (mkKey 4 "in_port" (TOptional 9)) 9); [apply HN; [cbn; tauto|reflexivity]|constructor].
  - apply (de_single _ _ _ _ (mkKey 4 "in_port" (TOptional 9)) 9); [apply HN; [cbn; tauto|reflexivity]|constructor].
  - apply (de_low _ _ _ _ (mkKey 5 "port" (TRange 16)) 16 _ 1024); [apply HN; [cbn; tauto|reflexivity]|reflexivity|exact (li_num 1024)|unfold fits_width; lia].
  - apply (de_priority _ _ _ _ 134217727); [exact (li_num 134217727)|constructor].
  - apply (de_value _ _ _ _ (mkKey 6 "mac" (TExact 48)) 48 _ 5); [apply HN; [cbn; tauto|reflexivity]|reflexivity|exact (li_num 5)|unfold fits_width; lia|constructor].
Qed.
Example C79_case : P4ToConstraintInfo pton1 (mkP4Info [doc_decl] []) = Ok doc_ci /\ Forall2 key_decl (pt_match_fields doc_decl) doc_keys /\ restricted kTableConstraint (pt_preamble doc_decl) doc_cs /\
  reads_as pton1 kTableConstraint doc_cs doc_tree /\ Means kTableConstraint doc_surface doc_tree /\ one_line (cs_string doc_cs) /\ (forall k w, In k doc_keys -> width (k_type k) w -> (0 <= w)%Z) /\
  canonical_entry doc_keys doc_match /\ canonical_entry doc_keys (doc_dst :: doc_match) /\
  (forall l p, exists P, Demands doc_keys l p doc_surface P) /\
  ReasonEntryViolatesConstraint (mkEntry 9 doc_match None 1) doc_ci = Ok "" /\
  exists text, text <> "" /\ ReasonEntryViolatesConstraint (mkEntry 9 (doc_dst :: doc_match) None 1) doc_ci = Ok text.
Proof.
  split; [vm_compute; reflexivity|]. split; [repeat constructor|]. split.
  { eexists (parts_text [doc_source]), "", 0%Z, [doc_source]. split; [apply nt_here; reflexivity|]. split; [split; [apply no_special; vm_compute; reflexivity|left; reflexivity]|].
    split; [discriminate|]. split; [constructor; [apply no_special; vm_compute; reflexivity|constructor]|reflexivity]. }
  split; [apply (C08_parser_iff_grammar pton1 _ _ _ pton1_ok); vm_compute; reflexivity|].
  split; [exact doc_means|]. split; [split; apply no_special; vm_compute; reflexivity|]. split; [intros k w Hk HW; repeat destruct Hk as [<-|Hk]; try contradiction; inversion HW; lia|].
  split; [apply doc_canonical|]. split; [apply doc_canonical|]. split; [exact doc_demands|]. split; [vm_compute; reflexivity|]. eexists. split; [|vm_compute; reflexivity]. discriminate.
Qed.
