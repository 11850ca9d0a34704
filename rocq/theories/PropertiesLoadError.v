(** Why a declaration does not load, and with which message (C109). *)
From Coq Require Import String Ascii List ZArith NArith Bool Lia.
From Verif Require Import Base Num Token Ast Lexer Quote AstConstructors Parser Info TypeChecker ConstraintInfo SpecLexer SpecGrammar SpecParser SpecQuote SpecTyping SpecSemantics SpecInfo SpecReading SpecExplain SpecCrash SpecFault SpecReport
  SpecBlame SpecAddress SpecLoadError
  StrFacts LiteralFacts SemFacts EntryFacts ParserFacts4 AddressFacts TypeFacts QuoteFacts3 InfoFacts InfoFacts2 LoadFacts CrashFacts FaultFacts ReportFacts BlameFacts BlameFacts2 PropertiesParser PropertiesInfo PropertiesVerdict PropertiesFault PropertiesBlame.
Import ListNotations.
Open Scope string_scope.

(** * The first wrong key *)
Lemma insert_cases what l : forall bi bn, NoDup (map fst bi) -> NoDup (map fst bn) ->
  (exists r, insert_keys what l bi bn = Ok r) \/
  exists a o b ks, l = (a ++ o :: b)%list /\ Forall2 (fun o k => o = Ok k) a ks /\ NoDup (map fst bi ++ map k_id ks) /\ NoDup (map fst bn ++ map k_name ks) /\
    match o with
    | Ok k => (In (k_id k) (map fst bi ++ map k_id ks) \/ In (k_name k) (map fst bn ++ map k_name ks)) /\ insert_keys what l bi bn = Err InvalidArgument what
    | Err c m => insert_keys what l bi bn = Err c m
    | Crash w => insert_keys what l bi bn = Crash w
    end.
Proof.
  induction l as [|o l IH]; intros bi bn Hi Hn; cbn [insert_keys]; [eauto|]. destruct o as [k|c m|w]; cbn [bind].
  2, 3: right; eexists [], _, l, []; cbn [map app]; rewrite !app_nil_r; repeat (split; [reflexivity || assumption || constructor|]); reflexivity.
  unfold assoc_insert. destruct (assoc_find N.eqb (k_id k) bi) as [x|] eqn:E1.
  { right. exists [], (Ok k), l, []. cbn [map app]. rewrite !app_nil_r. split; [reflexivity|]. split; [constructor|]. split; [exact Hi|]. split; [exact Hn|]. split; [|reflexivity].
    left. apply (afind_in N.eqb N.eqb_eq) in E1. apply in_map_iff. exists (k_id k, x). auto. }
  apply (afind_none N.eqb N.eqb_eq) in E1. destruct (assoc_find String.eqb (k_name k) bn) as [x|] eqn:E2.
  { right. exists [], (Ok k), l, []. cbn [map app]. rewrite !app_nil_r. split; [reflexivity|]. split; [constructor|]. split; [exact Hi|]. split; [exact Hn|]. split; [|reflexivity].
    right. apply (afind_in String.eqb String.eqb_eq) in E2. apply in_map_iff. exists (k_name k, x). auto. }
  apply (afind_none String.eqb String.eqb_eq) in E2.
  destruct (IH (bi ++ [(k_id k, k)])%list (bn ++ [(k_name k, k)])%list) as [H|(a & o & b & ks & E & Hf & H1 & H2 & H)]; [rewrite map_app; now apply nodup_snoc|rewrite map_app; now apply nodup_snoc|now left|].
  right. exists (Ok k :: a), o, b, (k :: ks). rewrite map_app in H1, H2. cbn [map fst] in H1, H2. rewrite <- app_assoc in H1, H2. cbn [app] in H1, H2. cbn [map].
  split; [cbn; now rewrite E|]. split; [now constructor|]. split; [exact H1|]. split; [exact H2|].
  destruct o as [k'|c m|w]; [|exact H|exact H]. rewrite !map_app in H. cbn [map fst] in H. rewrite <- !(app_assoc _ [_]) in H. exact H.
Qed.
Lemma forall2_ok {A} (f : A -> outcome key_info) (R : A -> key_info -> Prop) l ks : (forall a k, f a = Ok k <-> R a k) -> Forall2 (fun o k => o = Ok k) (map f l) ks -> Forall2 R l ks.
Proof. intros H Hf. apply forall2_map in Hf. now apply (forall2_iff _ _ _ _ H). Qed.
Lemma not_a_key_err f m c : ParseMatchField f = Err c m -> not_a_key f m.
Proof.
  unfold ParseMatchField, ParseKeyType. destruct f as [i n w mt]. cbn [mf_match]. destruct mt as [[]| |]; cbn [bind]; intros H; try discriminate H; injection H as <- <-; constructor.
Qed.
Lemma keys_cases fs what : (exists ks, in_order key_decl fs ks) \/
  (exists a f ks m c, comes_after key_decl fs a f ks /\ not_a_key f m /\ insert_keys what (map ParseMatchField fs) [] [] = Err c m) \/
  repeats key_decl fs /\ insert_keys what (map ParseMatchField fs) [] [] = Err InvalidArgument what.
Proof.
  destruct (insert_cases what (map ParseMatchField fs) [] [] (NoDup_nil _) (NoDup_nil _)) as [(r & Hr)|(a & o & b & ks & E & Hf & H1 & H2 & H)].
  - left. apply insert_keys_ok in Hr as (ks & Hf & -> & H1 & H2); [|constructor|constructor]. cbn [fst snd app] in H1, H2. exists ks. split; [exact (forall2_ok _ _ _ _ match_field_ok Hf)|]. split; [now apply maps_keys|now apply maps_names].
  - right. apply map_eq_app in E as (l1 & l2 & -> & <- & E). destruct l2 as [|f l2]; [discriminate E|]. cbn [map] in E. injection E as E _. cbn [map app] in H1, H2, H. apply (forall2_ok _ _ _ _ match_field_ok) in Hf.
    assert (comes_after key_decl (l1 ++ f :: l2) l1 f ks) as Hca by (split; [eauto|split; [exact Hf|auto]]). rewrite <- E in H.
    destruct (ParseMatchField f) as [k|c m|w] eqn:Ek.
    + right. destruct H as [Hk H]. split; [|exact H]. exists l1, f, ks, k. split; [exact Hca|]. split; [now apply match_field_ok|exact Hk].
    + left. exists l1, f, ks, m, c. split; [exact Hca|]. split; [exact (not_a_key_err _ _ _ Ek)|exact H].
    + exfalso. unfold ParseMatchField, ParseKeyType in Ek. destruct (mf_match f) as [[]| |]; discriminate Ek.
Qed.
Lemma params_cases fs what : (exists ks, in_order param_decl fs ks) \/
  repeats param_decl fs /\ insert_keys what (map ParseParam fs) [] [] = Err InvalidArgument what.
Proof.
  destruct (insert_cases what (map ParseParam fs) [] [] (NoDup_nil _) (NoDup_nil _)) as [(r & Hr)|(a & o & b & ks & E & Hf & H1 & H2 & H)].
  - left. apply insert_keys_ok in Hr as (ks & Hf & -> & H1 & H2); [|constructor|constructor]. cbn [fst snd app] in H1, H2. exists ks. split; [exact (forall2_ok _ _ _ _ param_ok Hf)|]. split; [now apply maps_keys|now apply maps_names].
  - right. apply map_eq_app in E as (l1 & l2 & -> & <- & E). destruct l2 as [|f l2]; [discriminate E|]. cbn [map] in E. injection E as E _. cbn [map app] in H1, H2, H. apply (forall2_ok _ _ _ _ param_ok) in Hf.
    assert (comes_after param_decl (l1 ++ f :: l2) l1 f ks) as Hca by (split; [eauto|split; [exact Hf|auto]]). rewrite <- E in H.
    destruct (ParseParam f) as [k|c m|w] eqn:Ek.
    + destruct H as [Hk H]. split; [|exact H]. exists l1, f, ks, k. split; [exact Hca|]. split; [now apply param_ok|exact Hk].
    + exfalso. unfold ParseParam, ParseParamType in Ek. destruct (negb _); discriminate Ek.
    + exfalso. unfold ParseParam, ParseParamType in Ek. destruct (negb _); discriminate Ek.
Qed.
Lemma nodup_left {A} (l m : list A) : NoDup (l ++ m) -> NoDup l.
Proof. induction l as [|x l IH]; cbn; intros H; [constructor|]. inversion H as [|? ? Hn Hd]; subst. constructor; [|now apply IH]. intros Hi. apply Hn. apply in_or_app. now left. Qed.
(** There is one first. *)
Section First.
  Context {F : Type} (declares : F -> key_info -> Prop).
  Hypothesis Hfun : forall f k k', declares f k -> declares f k' -> k = k'.
  Lemma order_prefix a b ks : in_order declares (a ++ b) ks -> exists ks', in_order declares a ks'.
  Proof.
    intros (Hf & H1 & H2). apply Forall2_app_inv_l in Hf as (k1 & k2 & Hf & _ & ->). exists k1. rewrite map_app in H1, H2. split; [exact Hf|]. split; [exact (nodup_left _ _ H1)|exact (nodup_left _ _ H2)].
  Qed.
  Definition stops (a : list F) (f : F) : Prop := (exists ks, in_order declares a ks) /\ forall ks, ~ in_order declares (a ++ [f]) ks.
  Lemma split_one (a : list F) : forall f b a' f' b', (a ++ f :: b = a' ++ f' :: b')%list -> stops a f -> stops a' f' -> a = a' /\ f = f'.
  Proof.
    intros f b a' f' b' E H H'. apply app_eq_app in E as (l & [[Ea El]|[Ea El]]).
    - destruct l as [|x l]; [rewrite app_nil_r in Ea; cbn in El; injection El as E1 _; auto|]. exfalso. cbn in El. injection El as -> _.
      destruct H as [[ks Hk] _]. rewrite Ea in Hk. change (a' ++ x :: l)%list with (a' ++ [x] ++ l)%list in Hk. rewrite app_assoc in Hk. apply order_prefix in Hk as [ks' Hk]. exact (proj2 H' ks' Hk).
    - destruct l as [|x l]; [rewrite app_nil_r in Ea; cbn in El; injection El as E1 _; auto|]. exfalso. cbn in El. injection El as -> _.
      destruct H' as [[ks Hk] _]. rewrite Ea in Hk. change (a ++ x :: l)%list with (a ++ [x] ++ l)%list in Hk. rewrite app_assoc in Hk. apply order_prefix in Hk as [ks' Hk]. exact (proj2 H ks' Hk).
  Qed.
  Lemma order_fun fs ks ks' : in_order declares fs ks -> in_order declares fs ks' -> ks = ks'.
  Proof. intros (H & _) (H' & _). exact (forall2_fun declares Hfun _ _ _ H H'). Qed.
  Lemma stops_undeclared fs a f ks : comes_after declares fs a f ks -> (forall k, ~ declares f k) -> stops a f.
  Proof. intros [_ H] Hn. split; [eauto|]. intros ks' (Hf & _). apply Forall2_app_inv_l in Hf as (k1 & k2 & _ & Hf & _). inversion Hf; subst. eapply Hn; eassumption. Qed.
  Lemma stops_repeated fs a f ks k : comes_after declares fs a f ks -> declares f k -> In (k_id k) (map k_id ks) \/ In (k_name k) (map k_name ks) -> stops a f.
  Proof.
    intros [_ H] Hd Hi. split; [eauto|]. intros ks' (Hf & H1 & H2). apply Forall2_app_inv_l in Hf as (k1 & k2 & Hf1 & Hf & ->). inversion Hf as [|? k' ? ? Hd' Hf']; subst. inversion Hf'; subst.
    rewrite (Hfun _ _ _ Hd' Hd) in *. rewrite (forall2_fun declares Hfun _ _ _ Hf1 (proj1 H)) in *. rewrite map_app in H1, H2. cbn [map] in H1, H2.
    apply NoDup_remove_2 in H1. apply NoDup_remove_2 in H2. rewrite app_nil_r in H1, H2. tauto.
  Qed.
  Lemma stops_wrong fs a f b ks : (fs = a ++ f :: b)%list -> stops a f -> in_order declares fs ks -> False.
  Proof.
    intros -> [_ H] Hk. change (a ++ f :: b)%list with (a ++ [f] ++ b)%list in Hk. rewrite app_assoc in Hk. apply order_prefix in Hk as [ks' Hk]. exact (H ks' Hk).
  Qed.
End First.
Lemma no_key f m k : not_a_key f m -> ~ key_decl f k.
Proof. intros H (_ & _ & Ht). revert Ht. generalize (k_type k). intros t Ht. destruct H; inversion Ht. Qed.

(** * The text *)
Lemma annotated_fun ck pre t t' : annotated ck pre t -> annotated ck pre t' -> t = t'.
Proof.
  intros (_ & r & f & n & H & Hc) (_ & r' & f' & n' & H' & Hc'). destruct (notes_fun _ _ _ _ _ _ _ H _ _ _ H') as (E & _ & _). injection E as <-. apply c_part_iff in Hc, Hc'. congruence.
Qed.
Lemma annotated_restricted ck pre t cs : annotated ck pre t -> restricted ck pre cs -> exists ss, ss <> [] /\ Forall (without DQUOTE) ss /\ t = "(" ++ dq ++ String.concat (dq ++ " " ++ dq) ss ++ dq ++ ")".
Proof.
  intros (_ & r & f & n & H & Hc) (r' & f' & n' & ss & H' & Hc' & Hne & Hf & _). destruct (notes_fun _ _ _ _ _ _ _ H _ _ _ H') as (E & _ & _). injection E as <-. apply c_part_iff in Hc, Hc'. exists ss. unfold parts_text in Hc'. split; [exact Hne|]. split; [exact Hf|congruence].
Qed.
Lemma annotated_unrestricted ck pre t : annotated ck pre t -> unrestricted ck pre -> False.
Proof.
  intros (Hne & r & f & n & H & Hc) (f' & n' & [H'|(r' & H' & Hc')]); destruct (notes_fun _ _ _ _ _ _ _ H _ _ _ H') as (E & _ & _); [discriminate E|]. injection E as <-. apply c_part_iff in Hc, Hc'. congruence.
Qed.
Lemma concat_dq_inj s s' : "(" ++ dq ++ s ++ dq ++ ")" = "(" ++ dq ++ s' ++ dq ++ ")" -> s = s'.
Proof. intros H. injection H as H. apply (f_equal (strip_suffix (dq ++ ")"))) in H. change (String DQUOTE ")") with (dq ++ ")") in H. rewrite !(proj2 (strip_suffix_spec _ _ _) eq_refl) in H. congruence. Qed.
Lemma extract_cases ck pre : unrestricted ck pre \/ (exists cs, restricted ck pre cs) \/
  (exists t, annotated ck pre t /\ (forall s, t <> "(" ++ dq ++ s ++ dq ++ ")") /\
     ExtractConstraint ck pre = Err InvalidArgument (syntax_error ck pre (" must be enclosed in '(" ++ dq ++ "' and '" ++ dq ++ ")'"))) \/
  (exists s, annotated ck pre ("(" ++ dq ++ s ++ dq ++ ")") /\ (forall ss, ss <> [] -> Forall (without DQUOTE) ss -> s <> String.concat (dq ++ " " ++ dq) ss) /\
     ExtractConstraint ck pre = Err InvalidArgument (syntax_error ck pre (" was parsed with unexpected quotation marks (" ++ dq ++
      "). Ensure you aren't using any quotation marks in a comment. Otherwise, this suggests a parser assumption was violated, likely due to a p4c frontend change, or `@p4runtime_translation` support being added."))).
Proof.
  destruct (ExtractConstraint ck pre) as [[cs|]|c m|w] eqn:E; [right; left; exists cs; now apply extract_some|left; now apply extract_none| |destruct (extract_errors ck pre) as [(o & H)|(m & H)]; congruence].
  right. right. revert E. unfold ExtractConstraint. destruct (scan_notes ck (pr_annotations pre) "" 0%Z) as (r & f & n & H & ->). intros E.
  destruct r as [rest|]; [|discriminate E]. destruct (String.eqb_spec (c_str rest) "") as [E0|E0]; [discriminate E|].
  assert (annotated ck pre (c_str rest)) as Ha by (split; [exact E0|]; exists rest, f, n; split; [exact H|now apply c_part_iff]).
  destruct (strip_prefix ("(" ++ dq) (c_str rest)) as [t|] eqn:E1.
  - apply strip_prefix_spec in E1. destruct (strip_suffix (dq ++ ")") t) as [t'|] eqn:E2.
    + apply strip_suffix_spec in E2. destruct (contains_char DQUOTE (replace_quotes t')) eqn:E3; [|discriminate E]. right. exists t'. rewrite E1, E2 in Ha. split; [exact Ha|]. split.
      * intros ss Hne Hf ->. rewrite rq_concat in E3 by exact Hf. apply contains_iff in E3. now apply concat_nl_without in E3.
      * rewrite <- E. destruct ck; reflexivity.
    + left. exists (c_str rest). split; [exact Ha|]. split; [|rewrite <- E; destruct ck; reflexivity]. intros s Es. rewrite E1 in Es. injection Es as Es. change (String DQUOTE ")") with (dq ++ ")") in Es. apply strip_suffix_spec in Es. congruence.
  - left. exists (c_str rest). split; [exact Ha|]. split; [|rewrite <- E; destruct ck; reflexivity]. intros s Es.
    assert (strip_prefix ("(" ++ dq) (c_str rest) = Some (s ++ dq ++ ")")) as Ex by (apply strip_prefix_spec; exact Es). congruence.
Qed.
Lemma text_one pton ai ti ck pre G r r' : pton_ok pton -> in_scope ai ti G -> text_reason pton ck pre G r -> text_reason pton ck pre G r' -> r = r'.
Proof.
  intros Hp HG H H'.
  assert (forall t cs, annotated ck pre t -> (forall s, t <> "(" ++ dq ++ s ++ dq ++ ")") -> restricted ck pre cs -> False) as A1.
  { intros t cs Ha Hs Hr. destruct (annotated_restricted _ _ _ _ Ha Hr) as (ss & _ & _ & ->). exact (Hs _ eq_refl). }
  assert (forall s cs, annotated ck pre ("(" ++ dq ++ s ++ dq ++ ")") -> (forall ss, ss <> [] -> Forall (without DQUOTE) ss -> s <> String.concat (dq ++ " " ++ dq) ss) -> restricted ck pre cs -> False) as A2.
  { intros s cs Ha Hs Hr. destruct (annotated_restricted _ _ _ _ Ha Hr) as (ss & H1 & H2 & E). exact (Hs _ H1 H2 (concat_dq_inj _ _ E)). }
  assert (forall t s, annotated ck pre t -> (forall s, t <> "(" ++ dq ++ s ++ dq ++ ")") -> annotated ck pre ("(" ++ dq ++ s ++ dq ++ ")") -> False) as A3.
  { intros t s Ha Hs Ha'. exact (Hs _ (annotated_fun _ _ _ _ Ha Ha')). }
  assert (forall cs e u t, reads_as pton ck cs e -> stuck_at pton ck (Tokenize cs) u t -> False) as A4.
  { intros cs e u t He Hs. apply (text_iff pton Hp) in He. exact (proj1 (proj1 (C69_one_place pton ck cs Hp) e He) u t Hs). }
  assert (forall cs e u t s, reads_as pton ck cs e -> bad_address_at pton ck (Tokenize cs) u t s -> False) as A5.
  { intros cs e u t s He Hs. apply (text_iff pton Hp) in He. exact (proj2 (proj1 (C69_one_place pton ck cs Hp) e He) u t s Hs). }
  destruct H as [t Ha Hs|s Ha Hs|cs u t Hr Hs|cs u id st m Hr Hs Hm|cs e a b why Hr He Hf]; destruct H' as [t' Ha' Hs'|s' Ha' Hs'|cs' u' t' Hr' Hs'|cs' u' id' st' m' Hr' Hs' Hm'|cs' e' a' b' why' Hr' He' Hf'];
    try (exfalso; eauto; fail); try reflexivity; rewrite (restricted_fun _ _ _ _ Hr' Hr) in *.
  - destruct (C69_one_place pton ck cs Hp) as (_ & H2 & _). destruct (H2 _ _ _ _ Hs Hs') as [_ <-]. reflexivity.
  - exfalso. destruct (C69_one_place pton ck cs Hp) as (_ & _ & H3 & _). exact (H3 _ _ _ _ _ Hs Hs').
  - exfalso. eauto.
  - exfalso. destruct (C69_one_place pton ck cs Hp) as (_ & _ & H3 & _). exact (H3 _ _ _ _ _ Hs' Hs).
  - destruct (C69_one_place pton ck cs Hp) as (_ & _ & _ & H4). destruct (H4 _ _ _ _ _ _ Hs Hs') as (_ & <- & <-). apply (proj2 (C69_blames_that_address pton ck cs u id st Hp Hs)) in Hm, Hm'. congruence.
  - exfalso. eauto.
  - exfalso. eauto.
  - exfalso. eauto.
  - apply (text_iff pton Hp) in He, He'. rewrite He in He'. apply Ok_inj in He' as <-. destruct (C66_typed_or_fault ai ti G e HG) as (_ & _ & H3). destruct (H3 _ _ _ _ _ _ Hf Hf') as (-> & -> & ->). reflexivity.
Qed.
Lemma text_none pton ck pre G r : text_reason pton ck pre G r -> unrestricted ck pre -> False.
Proof. intros H Hu. destruct H; try (eapply annotated_unrestricted; eassumption); eapply restricted_not; eassumption. Qed.
Lemma text_typed pton ai ti ck pre G r cs e t : pton_ok pton -> in_scope ai ti G -> text_reason pton ck pre G r -> restricted ck pre cs -> reads_as pton ck cs e -> Typed G e t -> False.
Proof.
  intros Hp HG H Hr He Ht. destruct H as [t' Ha Hs|s Ha Hs|cs' u t' Hr' Hs|cs' u id st m Hr' Hs Hm|cs' e' a b why Hr' He' Hf].
  - destruct (annotated_restricted _ _ _ _ Ha Hr) as (ss & _ & _ & ->). exact (Hs _ eq_refl).
  - destruct (annotated_restricted _ _ _ _ Ha Hr) as (ss & H1 & H2 & E). exact (Hs _ H1 H2 (concat_dq_inj _ _ E)).
  - rewrite (restricted_fun _ _ _ _ Hr' Hr) in *. apply (text_iff pton Hp) in He. exact (proj1 (proj1 (C69_one_place pton ck cs Hp) e He) u t' Hs).
  - rewrite (restricted_fun _ _ _ _ Hr' Hr) in *. apply (text_iff pton Hp) in He. exact (proj2 (proj1 (C69_one_place pton ck cs Hp) e He) _ _ _ Hs).
  - rewrite (restricted_fun _ _ _ _ Hr' Hr) in *. apply (text_iff pton Hp) in He, He'. rewrite He in He'. apply Ok_inj in He' as <-. exact (proj1 (proj2 (C66_typed_or_fault ai ti G e HG)) _ _ _ _ Ht Hf).
Qed.

(** * C109 *)
Lemma insert_table what fs ks : in_order key_decl fs ks -> insert_keys what (map ParseMatchField fs) [] [] = Ok (map (fun k => (k_id k, k)) ks, map (fun k => (k_name k, k)) ks).
Proof.
  intros (Hf & Hi & Hn). apply insert_keys_ok; [constructor|constructor|]. exists ks. cbn [fst snd app]. rewrite maps_keys, maps_names. split; [|auto]. apply forall2_map. now apply (forall2_iff _ _ _ _ match_field_ok).
Qed.
Lemma insert_action what fs ks : in_order param_decl fs ks -> insert_keys what (map ParseParam fs) [] [] = Ok (map (fun k => (k_id k, k)) ks, map (fun k => (k_name k, k)) ks).
Proof.
  intros (Hf & Hi & Hn). apply insert_keys_ok; [constructor|constructor|]. exists ks. cbn [fst snd app]. rewrite maps_keys, maps_names. split; [|auto]. apply forall2_map. now apply (forall2_iff _ _ _ _ param_ok).
Qed.
Definition answer {A} (x : outcome A) (o : outcome string) : Prop := match x with Ok _ => False | Err _ m => o = Ok m | Crash w => o = Crash w end.
Lemma quoted_answer {A} c l cs a b text : c = InvalidArgument -> answer (@QuotedError A c l cs a b text) (shown cs a b l text).
Proof. intros ->. unfold QuotedError, shown. destruct (QuoteSubConstraint cs a b); reflexivity. Qed.
Lemma table_cases pton d : pton_ok pton -> (exists t, ParseTableInfo pton d = Ok t) \/ exists r o, table_reason pton d r /\ worded r o /\ answer (ParseTableInfo pton d) o.
Proof.
  intros Hp. unfold ParseTableInfo. set (what := "table " ++ pr_name (pt_preamble d) ++ " has duplicate key: ").
  destruct (keys_cases (pt_match_fields d) what) as [(ks & Hk)|[(a & f & ks & m & c & Hca & Hm & ->)|[Hrep ->]]].
  2: right; exists (Says m), (Ok m); split; [exact (tb_key _ _ a f ks m Hca Hm)|]; split; [constructor|reflexivity].
  2: right; exists (Says what), (Ok what); split; [exact (tb_repeated _ _ Hrep)|]; split; [constructor|reflexivity].
  rewrite (insert_table what _ ks Hk). cbn [bind]. pose proof Hk as (_ & _ & Hn).
  destruct (extract_cases kTableConstraint (pt_preamble d)) as [H|[(cs & H)|[(t & H1 & H2 & ->)|(s & H1 & H2 & ->)]]].
  3: right; eexists (Says _), (Ok _); split; [exact (tb_text _ _ ks _ Hk (tr_open _ _ _ _ t H1 H2))|]; split; [constructor|reflexivity].
  3: right; eexists (Says _), (Ok _); split; [exact (tb_text _ _ ks _ Hk (tr_quotes _ _ _ _ s H1 H2))|]; split; [constructor|reflexivity].
  - apply extract_none in H. rewrite H. cbn [bind]. eauto.
  - rewrite (proj2 (extract_some _ _ _) H). cbn [bind]. destruct (parse_cases pton kTableConstraint cs Hp) as [(e & He)|[(u & t & h & text & Hs & Hc & _ & E)|(u & id & st & m & Hs & _ & E)]].
    + rewrite He. cbn [bind]. apply (text_iff pton Hp) in He. set (ti := mkTable _ _ _ _ _ _).
      assert (NoDup (map fst (ti_keys_by_name ti))) as HN by (apply maps_names; exact Hn). destruct (C66_typed_or_fault None (Some ti) _ e (is_table ti HN)) as (HT & _).
      destruct (HT (C66_parsed _ _ _ _ He)) as [(t & Ht)|(a & b & why & Hf)].
      * destruct (infer_complete None (Some ti) _ (is_table ti HN) e t Ht) as (x & Hx & _). unfold InferTable. rewrite Hx. cbn [bind]. left. eexists. reflexivity.
      * right. exists (Shows cs a b "Type error: " why), (shown cs a b "Type error: " why). split; [exact (tb_text _ _ ks _ Hk (tr_type _ _ _ _ cs e a b why H He Hf))|]. split; [constructor|].
        rewrite (proj1 C66_blames_fault ti e a b why HN Hf). cbn [ti_source ti]. unfold shown. destruct (QuoteSubConstraint cs a b); reflexivity.
    + right. exists (Misplaced cs t), (shown cs (t_start t) (t_end t) "Parse error: " text). split; [exact (tb_text _ _ ks _ Hk (tr_stuck _ _ _ _ cs u t H Hs))|]. split; [exact (wd_unexpected cs t h text Hc)|].
      rewrite E. unfold shown. unfold parse_error, ParseErrorAt, QuotedError. destruct (QuoteSubConstraint cs (t_start t) (t_end t)); cbn [bind answer]; reflexivity.
    + right. exists (Says m), (Ok m). split; [|split; [constructor|rewrite E; reflexivity]]. apply (tb_text _ _ ks _ Hk). apply (tr_address _ _ _ _ cs u id st m H Hs). exact (proj2 (proj2 (C69_blames_that_address pton _ cs u id st Hp Hs) m) E).
Qed.
Lemma action_cases pton d : pton_ok pton -> (exists t, ParseActionInfo pton d = Ok t) \/ exists r o, action_reason pton d r /\ worded r o /\ answer (ParseActionInfo pton d) o.
Proof.
  intros Hp. unfold ParseActionInfo. set (what := "action " ++ pr_name (pad_preamble d) ++ " has duplicate param: ").
  destruct (params_cases (pad_params d) what) as [(ks & Hk)|[Hrep ->]].
  2: right; exists (Says what), (Ok what); split; [exact (ac_repeated _ _ Hrep)|]; split; [constructor|reflexivity].
  rewrite (insert_action what _ ks Hk). cbn [bind]. pose proof Hk as (_ & _ & Hn).
  destruct (extract_cases kActionConstraint (pad_preamble d)) as [H|[(cs & H)|[(t & H1 & H2 & ->)|(s & H1 & H2 & ->)]]].
  3: right; eexists (Says _), (Ok _); split; [exact (ac_text _ _ ks _ Hk (tr_open _ _ _ _ t H1 H2))|]; split; [constructor|reflexivity].
  3: right; eexists (Says _), (Ok _); split; [exact (ac_text _ _ ks _ Hk (tr_quotes _ _ _ _ s H1 H2))|]; split; [constructor|reflexivity].
  - apply extract_none in H. rewrite H. cbn [bind]. eauto.
  - rewrite (proj2 (extract_some _ _ _) H). cbn [bind]. destruct (parse_cases pton kActionConstraint cs Hp) as [(e & He)|[(u & t & h & text & Hs & Hc & _ & E)|(u & id & st & m & Hs & _ & E)]].
    + rewrite He. cbn [bind]. apply (text_iff pton Hp) in He. set (ti := mkAction _ _ _ _ _ _).
      assert (NoDup (map fst (ai_params_by_name ti))) as HN by (apply maps_names; exact Hn). destruct (C66_typed_or_fault (Some ti) None _ e (is_action ti HN)) as (HT & _).
      destruct (HT (C66_parsed _ _ _ _ He)) as [(t & Ht)|(a & b & why & Hf)].
      * destruct (infer_complete (Some ti) None _ (is_action ti HN) e t Ht) as (x & Hx & _). unfold InferAction. rewrite Hx. cbn [bind]. left. eexists. reflexivity.
      * right. exists (Shows cs a b "Type error: " why), (shown cs a b "Type error: " why). split; [exact (ac_text _ _ ks _ Hk (tr_type _ _ _ _ cs e a b why H He Hf))|]. split; [constructor|].
        rewrite (proj2 C66_blames_fault ti e a b why HN Hf). cbn [ai_source ti]. unfold shown. destruct (QuoteSubConstraint cs a b); reflexivity.
    + right. exists (Misplaced cs t), (shown cs (t_start t) (t_end t) "Parse error: " text). split; [exact (ac_text _ _ ks _ Hk (tr_stuck _ _ _ _ cs u t H Hs))|]. split; [exact (wd_unexpected cs t h text Hc)|].
      rewrite E. unfold shown. unfold parse_error, ParseErrorAt, QuotedError. destruct (QuoteSubConstraint cs (t_start t) (t_end t)); cbn [bind answer]; reflexivity.
    + right. exists (Says m), (Ok m). split; [|split; [constructor|rewrite E; reflexivity]]. apply (ac_text _ _ ks _ Hk). apply (tr_address _ _ _ _ cs u id st m H Hs). exact (proj2 (proj2 (C69_blames_that_address pton _ cs u id st Hp Hs) m) E).
Qed.
(** There is one reason. *)
Definition scope_table (ks : list key_info) : table_info := mkTable 0 "" None default_csource [] (map (fun k => (k_name k, k)) ks).
Definition scope_action (ks : list key_info) : action_info := mkAction 0 "" None default_csource [] (map (fun k => (k_name k, k)) ks).
Lemma key_in_scope ks : NoDup (map k_name ks) -> in_scope None (Some (scope_table ks)) (key_scope ks).
Proof. intros H. apply (is_table (scope_table ks)). now apply maps_names. Qed.
Lemma param_in_scope ks : NoDup (map k_name ks) -> in_scope (Some (scope_action ks)) None (param_scope ks).
Proof. intros H. apply (is_action (scope_action ks)). now apply maps_names. Qed.
Lemma table_one pton d r r' : pton_ok pton -> table_reason pton d r -> table_reason pton d r' -> r = r'.
Proof.
  intros Hp H H'. pose proof (stops_undeclared key_decl) as SU. pose proof (stops_repeated key_decl key_decl_fun) as SR. pose proof (split_one key_decl) as S1. pose proof (stops_wrong key_decl) as SW.
  destruct H as [a f ks m Hc Hm|(a & f & ks & k & Hc & Hd & Hi)|ks r Hk Ht]; destruct H' as [a' f' ks' m' Hc' Hm'|(a' & f' & ks' & k' & Hc' & Hd' & Hi')|ks' r' Hk' Ht']; try reflexivity.
  - assert (f = f') as <-. { pose proof Hc as ((b & E) & _). pose proof Hc' as ((b' & E') & _). rewrite E in E'. apply (S1 a f b a' f' b' E'); eapply SU; eauto using no_key. } destruct Hm; inversion Hm'; subst; reflexivity.
  - exfalso. assert (f = f') as <-. { pose proof Hc as ((b & E) & _). pose proof Hc' as ((b' & E') & _). rewrite E in E'. apply (S1 a f b a' f' b' E'); [eapply SU; eauto using no_key|eapply SR; eauto]. } exact (no_key _ _ _ Hm Hd').
  - exfalso. pose proof Hc as ((b & E) & _). eapply (SW _ a f b _ E); [eapply SU; eauto using no_key|exact Hk'].
  - exfalso. assert (f = f') as <-. { pose proof Hc as ((b & E) & _). pose proof Hc' as ((b' & E') & _). rewrite E in E'. apply (S1 a f b a' f' b' E'); [eapply SR; eauto|eapply SU; eauto using no_key]. } exact (no_key _ _ _ Hm' Hd).
  - exfalso. pose proof Hc as ((b & E) & _). eapply (SW _ a f b _ E); [eapply SR; eauto|exact Hk'].
  - exfalso. pose proof Hc' as ((b & E) & _). eapply (SW _ a' f' b _ E); [eapply SU; eauto using no_key|exact Hk].
  - exfalso. pose proof Hc' as ((b & E) & _). eapply (SW _ a' f' b _ E); [eapply SR; eauto|exact Hk].
  - rewrite (order_fun key_decl key_decl_fun _ _ _ Hk' Hk) in Ht'. exact (text_one pton _ _ _ _ _ _ _ Hp (key_in_scope ks (proj2 (proj2 Hk))) Ht Ht').
Qed.
Lemma action_one pton d r r' : pton_ok pton -> action_reason pton d r -> action_reason pton d r' -> r = r'.
Proof.
  intros Hp H H'. pose proof (stops_repeated param_decl param_decl_fun) as SR. pose proof (stops_wrong param_decl) as SW.
  destruct H as [(a & f & ks & k & Hc & Hd & Hi)|ks r Hk Ht]; destruct H' as [(a' & f' & ks' & k' & Hc' & Hd' & Hi')|ks' r' Hk' Ht']; try reflexivity.
  - exfalso. pose proof Hc as ((b & E) & _). eapply (SW _ a f b _ E); [eapply SR; eauto|exact Hk'].
  - exfalso. pose proof Hc' as ((b & E) & _). eapply (SW _ a' f' b _ E); [eapply SR; eauto|exact Hk].
  - rewrite (order_fun param_decl param_decl_fun _ _ _ Hk' Hk) in Ht'. exact (text_one pton _ _ _ _ _ _ _ Hp (param_in_scope ks (proj2 (proj2 Hk))) Ht Ht').
Qed.
(** A declaration with a reason does not load. *)
Lemma table_not pton d r t : pton_ok pton -> table_reason pton d r -> ParseTableInfo pton d = Ok t -> False.
Proof.
  intros Hp H Ht. destruct (proj1 (table_loads_iff pton d Hp) (ex_intro _ t Ht)) as (ks & Hf & Hi & Hn & Hx). rewrite <- (decl_ids_k _ _ Hf) in Hi. rewrite <- (decl_names_k _ _ Hf) in Hn.
  assert (in_order key_decl (pt_match_fields d) ks) as Hk by (split; [exact Hf|auto]). destruct H as [a f ks' m Hc Hm|(a & f & ks' & k & Hc & Hd & Hin)|ks' r Hk' Hr].
  - pose proof Hc as ((b & E) & _). apply (stops_wrong key_decl _ a f b _ E (stops_undeclared key_decl _ _ _ _ Hc (fun k => no_key _ _ k Hm)) Hk).
  - pose proof Hc as ((b & E) & _). apply (stops_wrong key_decl _ a f b _ E (stops_repeated key_decl key_decl_fun _ _ _ _ _ Hc Hd Hin) Hk).
  - rewrite (order_fun key_decl key_decl_fun _ _ _ Hk' Hk) in Hr. destruct Hx as [Hu|(cs & e & ty & H1 & H2 & H3)]; [exact (text_none _ _ _ _ _ Hr Hu)|]. exact (text_typed pton _ _ _ _ _ _ _ _ _ Hp (key_in_scope ks Hn) Hr H1 H2 H3).
Qed.
Lemma action_not pton d r t : pton_ok pton -> action_reason pton d r -> ParseActionInfo pton d = Ok t -> False.
Proof.
  intros Hp H Ht. destruct (proj1 (action_loads_iff pton d Hp) (ex_intro _ t Ht)) as (ks & Hf & Hi & Hn & Hx). rewrite <- (decl_ids_p _ _ Hf) in Hi. rewrite <- (decl_names_p _ _ Hf) in Hn.
  assert (in_order param_decl (pad_params d) ks) as Hk by (split; [exact Hf|auto]). destruct H as [(a & f & ks' & k & Hc & Hd & Hin)|ks' r Hk' Hr].
  - pose proof Hc as ((b & E) & _). apply (stops_wrong param_decl _ a f b _ E (stops_repeated param_decl param_decl_fun _ _ _ _ _ Hc Hd Hin) Hk).
  - rewrite (order_fun param_decl param_decl_fun _ _ _ Hk' Hk) in Hr. destruct Hx as [Hu|(cs & e & ty & H1 & H2 & H3)]; [exact (text_none _ _ _ _ _ Hr Hu)|]. exact (text_typed pton _ _ _ _ _ _ _ _ _ Hp (param_in_scope ks Hn) Hr H1 H2 H3).
Qed.
(** Every declaration loads or has a reason why it does not; not both, and not two. *)
Theorem C109_one_reason : forall pton, pton_ok pton ->
  (forall d, ((exists ci, P4ToConstraintInfo pton (one_table d) = Ok ci) \/ exists r, table_reason pton d r) /\
     (forall r ci, table_reason pton d r -> P4ToConstraintInfo pton (one_table d) <> Ok ci) /\
     (forall r r', table_reason pton d r -> table_reason pton d r' -> r = r')) /\
  (forall d, ((exists ci, P4ToConstraintInfo pton (one_action d) = Ok ci) \/ exists r, action_reason pton d r) /\
     (forall r ci, action_reason pton d r -> P4ToConstraintInfo pton (one_action d) <> Ok ci) /\
     (forall r r', action_reason pton d r -> action_reason pton d r' -> r = r')).
Proof.
  intros pton Hp. split; intros d; (split; [|split]).
  - rewrite one_table_load. destruct (table_cases pton d Hp) as [(t & ->)|(r & o & H & _)]; [left; eexists; reflexivity|right; eauto].
  - intros r ci Hr. rewrite one_table_load. destruct (ParseTableInfo pton d) as [t| |] eqn:E; [|discriminate|discriminate]. destruct (table_not pton d r t Hp Hr E).
  - intros r r'. exact (table_one pton d r r' Hp).
  - rewrite one_action_load. destruct (action_cases pton d Hp) as [(t & ->)|(r & o & H & _)]; [left; eexists; reflexivity|right; eauto].
  - intros r ci Hr. rewrite one_action_load. destruct (ParseActionInfo pton d) as [t| |] eqn:E; [|discriminate|discriminate]. destruct (action_not pton d r t Hp Hr E).
  - intros r r'. exact (action_one pton d r r' Hp).
Qed.
Print Assumptions C109_one_reason.
(** The reason is what is reported. *)
Theorem C109_reported : forall pton, pton_ok pton ->
  (forall d r, table_reason pton d r -> exists o, worded r o /\ P4ToConstraintInfo pton (one_table d) = reported o) /\
  (forall d r, action_reason pton d r -> exists o, worded r o /\ P4ToConstraintInfo pton (one_action d) = reported o).
Proof.
  intros pton Hp. split; intros d r Hr.
  - destruct (table_cases pton d Hp) as [(t & Ht)|(r' & o & H & Hw & Ha)]; [destruct (table_not pton d r t Hp Hr Ht)|]. rewrite (table_one pton d r r' Hp Hr H). exists o. split; [exact Hw|]. rewrite one_table_load. unfold answer in Ha.
    destruct (ParseTableInfo pton d); [destruct Ha|rewrite Ha; reflexivity|rewrite Ha; reflexivity].
  - destruct (action_cases pton d Hp) as [(t & Ht)|(r' & o & H & Hw & Ha)]; [destruct (action_not pton d r t Hp Hr Ht)|]. rewrite (action_one pton d r r' Hp Hr H). exists o. split; [exact Hw|]. rewrite one_action_load. unfold answer in Ha.
    destruct (ParseActionInfo pton d); [destruct Ha|rewrite Ha; reflexivity|rewrite Ha; reflexivity].
Qed.
Print Assumptions C109_reported.
(** In any P4Info the messages of its declarations are reported, in order: with C67, what a load reports is determined by these reasons. *)
Definition told_for (reason_of : reason -> Prop) (m : string) : Prop := exists r, reason_of r /\ worded r (Ok m).
Theorem C109_all_reported : forall pton p m, pton_ok pton -> P4ToConstraintInfo pton p = Err InvalidArgument m ->
  exists es es', m = listed (es ++ es') /\
    Report (fun d => forall r, ~ table_reason pton d r) (fun d m => told_for (table_reason pton d) m) (fun d => pr_id (pt_preamble d)) "duplicate table: " [] (p4_tables p) es /\
    Report (fun d => forall r, ~ action_reason pton d r) (fun d m => told_for (action_reason pton d) m) (fun d => pr_id (pad_preamble d)) "duplicate action: " [] (p4_actions p) es'.
Proof.
  intros pton p m Hp H. apply load_report in H as (es & es' & R1 & R2 & _ & ->). exists es, es'. split; [reflexivity|].
  destruct (C109_one_reason pton Hp) as [T A]. destruct (C109_reported pton Hp) as [T' A'].
  split.
  - revert R1. generalize (@nil N). intros taken R1. induction R1 as [taken|taken d ds m es Hf R IH|taken d ds es Hf Hi R IH|taken d ds es Hf Hi R IH].
    + constructor.
    + apply rp_fails; [|exact IH]. destruct (T d) as ([(ci & E)|(r & Hr)] & _ & _); [rewrite E in Hf; discriminate Hf|]. exists r. split; [exact Hr|]. destruct (T' d r Hr) as (o & Hw & E). rewrite E in Hf. destruct o as [x|c x|w]; cbn [reported] in Hf.
      * assert (x = m) as <- by (apply (listed_inj x m); congruence). exact Hw.
      * exfalso. inversion Hw as [|? ? ? ? ? Hs|? ? ? ? ? Hs]; subst; unfold shown in *; destruct (QuoteSubConstraint _ _ _); discriminate.
      * discriminate Hf.
    + apply rp_taken; [|exact Hi|exact IH]. destruct Hf as [ci E]. intros r Hr. exact (proj1 (proj2 (T d)) r ci Hr E).
    + apply rp_fine; [|exact Hi|exact IH]. destruct Hf as [ci E]. intros r Hr. exact (proj1 (proj2 (T d)) r ci Hr E).
  - clear R1. revert R2. generalize (@nil N). intros taken R2. induction R2 as [taken|taken d ds m es2 Hf R IH|taken d ds es2 Hf Hi R IH|taken d ds es2 Hf Hi R IH].
    + constructor.
    + apply rp_fails; [|exact IH]. destruct (A d) as ([(ci & E)|(r & Hr)] & _ & _); [rewrite E in Hf; discriminate Hf|]. exists r. split; [exact Hr|]. destruct (A' d r Hr) as (o & Hw & E). rewrite E in Hf. destruct o as [x|c x|w]; cbn [reported] in Hf.
      * assert (x = m) as <- by (apply (listed_inj x m); congruence). exact Hw.
      * exfalso. inversion Hw as [|? ? ? ? ? Hs|? ? ? ? ? Hs]; subst; unfold shown in *; destruct (QuoteSubConstraint _ _ _); discriminate.
      * discriminate Hf.
    + apply rp_taken; [|exact Hi|exact IH]. destruct Hf as [ci E]. intros r Hr. exact (proj1 (proj2 (A d)) r ci Hr E).
    + apply rp_fine; [|exact Hi|exact IH]. destruct Hf as [ci E]. intros r Hr. exact (proj1 (proj2 (A d)) r ci Hr E).
Qed.
Print Assumptions C109_all_reported.
(** A table whose annotation is not enclosed, an action whose annotation has a stray quotation mark, a table with a match field of no
    match type, an action that repeats a parameter name, a table with a token out of place and one with an address that is none. *)
Definition open_table : p4_table := mkP4Table (mkPre 1 "t" ["@entry_restriction(k == 1)"]) [mkMF 1 "k" 8 (MMatchType MTExact)].
Definition quotes_action : p4_action_decl := mkP4ActionDecl (mkPre 2 "a" ["@action_restriction(" ++ dq ++ "p == 1 // " ++ dq ++ "one" ++ dq ++ ")"]) [mkAP 1 "p" 8 ""].
Definition kind_table : p4_table := mkP4Table (mkPre 1 "t" []) [mkMF 1 "k" 8 (MMatchType MTExact); mkMF 2 "l" 8 (MMatchType MTUnspecified); mkMF 1 "k" 8 (MMatchType MTExact)].
Definition twice_action : p4_action_decl := mkP4ActionDecl (mkPre 2 "a" ["@action_restriction(p == 1)"]) [mkAP 1 "p" 8 ""; mkAP 2 "p" 8 ""].
Definition chain_table : p4_table := mkP4Table (mkPre 1 "t" [restriction "entry" ["a == b == c"]]) [].
Definition no_address_table : p4_table := mkP4Table (mkPre 1 "t" [restriction "entry" ["k == ipv4(" ++ "'1.2.3'" ++ ")"]]) [mkMF 1 "k" 32 (MMatchType MTExact)].
Example C109_case :
  table_reason pton1 open_table (Says ("In table t:" ++ nl ++ "Syntax error: @entry_restriction must be enclosed in '(" ++ dq ++ "' and '" ++ dq ++ ")'")) /\
  P4ToConstraintInfo pton1 (one_table open_table) = Err InvalidArgument (listed ["In table t:" ++ nl ++ "Syntax error: @entry_restriction must be enclosed in '(" ++ dq ++ "' and '" ++ dq ++ ")'"]) /\
  (exists m, action_reason pton1 quotes_action (Says ("In action a:" ++ nl ++ "Syntax error: @action_restriction was parsed with unexpected quotation marks (" ++ m))) /\
  table_reason pton1 kind_table (Says "match key of invalid MatchType: UNSPECIFIED") /\
  action_reason pton1 twice_action (Says "action a has duplicate param: ") /\
  (exists cs t, table_reason pton1 chain_table (Misplaced cs t) /\ t_kind t = EQ) /\
  told_for (table_reason pton1 no_address_table) "Invalid length for an IPv4 address: '1.2.3'. Expected IPv4 address to be 4 bytes." /\
  exists a b, table_reason pton1 faulty_decl (Shows faulty_csource a b "Type error: " "operand type ternary<16> does not support ordered comparison") /\ l_col a = 10%Z /\ l_col b = 15%Z.
Proof.
  assert (forall d m, P4ToConstraintInfo pton1 (one_table d) = Err InvalidArgument (listed [m]) -> exists r, table_reason pton1 d r /\ worded r (Ok m)) as HT.
  { intros d m E. destruct (proj1 (C109_one_reason pton1 pton1_ok) d) as ([(ci & Ec)|(r & Hr)] & _ & _); [congruence|]. exists r. split; [exact Hr|]. destruct (proj1 (C109_reported pton1 pton1_ok) d r Hr) as (o & Hw & Eo). rewrite Eo in E. destruct o as [x|c x|w]; cbn [reported] in E.
    - assert (x = m) as <- by (apply (listed_inj x m); congruence). exact Hw.
    - exfalso. inversion Hw as [|? ? ? ? ? Hs|? ? ? ? ? Hs]; subst; unfold shown in *; destruct (QuoteSubConstraint _ _ _); discriminate.
    - discriminate E. }
  assert (table_reason pton1 open_table (Says ("In table t:" ++ nl ++ "Syntax error: @entry_restriction must be enclosed in '(" ++ dq ++ "' and '" ++ dq ++ ")'"))) as H1.
  { apply (tb_text _ _ [mkKey 1 "k" (TExact 8)]).
    - split; [repeat constructor|]. split; repeat constructor; intros [].
    - refine (tr_open pton1 kTableConstraint (pt_preamble open_table) _ "(k == 1)" _ _).
      + split; [discriminate|]. exists "(k == 1)", "", 0%Z. split; [apply nt_here; reflexivity|]. apply c_part_iff. reflexivity.
      + intros s E. discriminate E. }
  split; [exact H1|]. split.
  { destruct (proj1 (C109_reported pton1 pton1_ok) _ _ H1) as (o & Hw & E). rewrite E. inversion Hw; subst. reflexivity. }
  split; [|split; [|split; [|split; [|split]]]].
  - eexists. apply (ac_text pton1 quotes_action [mkKey 1 "p" (TBit 8)]).
    + split; [repeat constructor|]. split; repeat constructor; intros [].
    + refine (tr_quotes pton1 kActionConstraint (pad_preamble quotes_action) _ ("p == 1 // " ++ dq ++ "one") _ _).
      * split; [discriminate|]. eexists _, "", 0%Z. split; [apply nt_here; reflexivity|]. apply c_part_iff. reflexivity.
      * intros ss Hne Hf E. apply (f_equal replace_quotes) in E. rewrite rq_concat in E by exact Hf. apply concat_nl_without in Hf. apply Hf. rewrite <- E. cbn. tauto.
  - apply (tb_key _ _ [mkMF 1 "k" 8 (MMatchType MTExact)] (mkMF 2 "l" 8 (MMatchType MTUnspecified)) [mkKey 1 "k" (TExact 8)]); [|constructor].
    split; [eexists; reflexivity|]. split; [repeat constructor|]. split; repeat constructor; intros [].
  - apply (ac_repeated pton1 twice_action). exists [mkAP 1 "p" 8 ""], (mkAP 2 "p" 8 ""), [mkKey 1 "p" (TBit 8)], (mkKey 2 "p" (TBit 8)).
    split; [split; [eexists; reflexivity|]; split; [repeat constructor|]; split; repeat constructor; intros []|]. split; [repeat constructor|]. right. now left.
  - destruct C69_case as ((u & t & Hs & _ & Ht) & _). exists (table_src "a == b == c"), t. split; [|exact Ht]. apply (tb_text _ _ []); [split; [constructor|split; constructor]|]. apply (tr_stuck _ _ _ _ _ u t); [|exact Hs].
    apply extract_some. vm_compute. reflexivity.
  - apply HT. vm_compute. reflexivity.
  - destruct C66_case as (a & b & Hf & Ha & Hb & Hd & Hr & Hra & _). exists a, b. split; [|auto]. apply (tb_text _ _ demo_keys); [|exact (tr_type _ _ _ _ _ _ _ _ _ Hr Hra Hf)].
    split; [exact Hd|]. rewrite (decl_ids_k _ _ Hd), (decl_names_k _ _ Hd). split; cbn; repeat constructor; cbn; intuition discriminate.
Qed.
