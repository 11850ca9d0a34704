(** C34-C36: overall verdicts and errors for entries. *)
From Coq Require Import String Ascii List ZArith NArith Bool Lia Permutation.
From Verif Require Import Base Num Token Ast Lexer Quote AstConstructors Parser Info TypeChecker ConstraintInfo Interpreter SpecLexer SpecGrammar SpecParser SpecTyping SpecSemantics SpecInfo SpecExplain
  StrFacts NumFacts LiteralFacts ParserFacts4 TypeFacts EvalFacts SemFacts SemFacts2 EntryFacts EntryFacts2 EntryFacts3 ExplainFacts VerdictFacts InfoFacts InfoFacts2 InterpFacts InterpFacts2 PropertiesParser PropertiesTypes PropertiesInfo PropertiesInterpreter PropertiesVerdict PropertiesExplain.
Import ListNotations.
Open Scope string_scope.

(** * C34 *)
(** The constraints hold of an entry and of an action. *)
Definition table_holds (ci : constraint_info) (entry : p4_entry) : Prop :=
  exists t, GetTableInfoOrNull ci (pe_table_id entry) = Some t /\
    (ti_constraint t = None \/
     exists e ctx, ti_constraint t = Some e /\ e_type e = TBool /\ ParseTableEntry entry t = Ok ctx /\ value_of ctx e = Ok (VBool true)).
Definition action_holds (ci : constraint_info) (a : p4_action) : Prop :=
  exists i, GetActionInfoOrNull ci (pa_id a) = Some i /\
    (ai_constraint i = None \/
     exists e ctx, ai_constraint i = Some e /\ e_type e = TBool /\ ParseAction a i = Ok ctx /\ value_of ctx e = Ok (VBool true)).
(** Entries whose action, if any, is given by value. *)
Definition direct (entry : p4_entry) : Prop :=
  match pe_action entry with None | Some (TAction _) | Some (TActionSet _) => True | _ => False end.
Definition with_action (entry : p4_entry) (a : option table_action) : p4_entry := mkEntry (pe_table_id entry) (pe_match entry) a (pe_priority entry).
Lemma table_accepts t entry : ReasonTableViolates t entry = Ok "" <->
  (ti_constraint t = None \/ exists e ctx, ti_constraint t = Some e /\ e_type e = TBool /\ ParseTableEntry entry t = Ok ctx /\ value_of ctx e = Ok (VBool true)).
Proof.
  rewrite table_ok. split.
  - intros [(E & _)|(e & ctx & He & Ht & Hp & Hc)]; [now left|]. right. exists e, ctx. apply check_accepts, ev_bool_ok in Hc. rewrite value_ev. auto.
  - intros [E|(e & ctx & He & Ht & Hp & Hv)]; [now left|]. right. exists e, ctx. rewrite value_ev in Hv. split; [exact He|]. split; [exact Ht|]. split; [exact Hp|]. now apply check_accepts, ev_bool_ok.
Qed.
Lemma action_accepts ci a : ReasonActionViolates ci a = Ok "" <-> action_holds ci a.
Proof.
  rewrite action_verdict. unfold action_holds. split; intros (i & Hi & H); exists i; (split; [exact Hi|]).
  - destruct H as [(E & _)|(e & ctx & He & Ht & Hp & Hc)]; [now left|]. right. exists e, ctx. apply check_accepts, ev_bool_ok in Hc. rewrite value_ev. auto.
  - destruct H as [E|(e & ctx & He & Ht & Hp & Hv)]; [now left|]. right. exists e, ctx. rewrite value_ev in Hv. split; [exact He|]. split; [exact Ht|]. split; [exact Hp|]. now apply check_accepts, ev_bool_ok.
Qed.
Theorem C34_accepted_iff : forall ci entry, ReasonEntryViolatesConstraint entry ci = Ok "" <->
  table_holds ci entry /\ direct entry /\ forall a, In a (actions_of entry) -> action_holds ci a.
Proof.
  intros ci entry. unfold ReasonEntryViolatesConstraint, table_holds, direct, actions_of. destruct (GetTableInfoOrNull ci (pe_table_id entry)) as [t|]; [|split; [discriminate|intros ((? & E & _) & _); discriminate]].
  assert ((exists t', Some t = Some t' /\ (ti_constraint t' = None \/ exists e ctx, ti_constraint t' = Some e /\ e_type e = TBool /\ ParseTableEntry entry t' = Ok ctx /\ value_of ctx e = Ok (VBool true))) <-> ReasonTableViolates t entry = Ok "") as ->.
  { rewrite table_accepts. split; [intros (t' & [= <-] & H); exact H|eauto]. }
  rewrite bind_ok. split.
  - intros (r & Hr & H). destruct (String.eqb_spec r "") as [->|Hn]; cbn [negb] in H; [|now apply Ok_inj in H]. split; [exact Hr|]. destruct (pe_action entry) as [[a|i|i|l|]|]; try discriminate.
    + split; [exact I|]. intros a' [<-|[]]. now apply action_accepts.
    + split; [exact I|]. apply action_set_accepts in H. rewrite Forall_forall in H. intros a Ha. apply action_accepts. auto.
    + split; [exact I|]. intros a [].
  - intros (Hr & Hd & Ha). exists "". split; [exact Hr|]. cbn [String.eqb negb]. destruct (pe_action entry) as [[a|i|i|l|]|]; try contradiction.
    + apply action_accepts, Ha. now left.
    + apply action_set_accepts, Forall_forall. intros a H. apply action_accepts. auto.
    + reflexivity.
Qed.
Print Assumptions C34_accepted_iff.
(** Otherwise the answer is that for the first part that is not accepted, be it an
    explanation or an error: the table part comes first, then the actions in order. *)
Lemma set_first ci l r : r <> Ok "" -> (ReasonActionSetViolates ci l = r <->
  exists pre a post, l = (pre ++ a :: post)%list /\ Forall (fun a => ReasonActionViolates ci a = Ok "") pre /\ ReasonActionViolates ci a = r).
Proof.
  intros Hne. induction l as [|a l IH]; cbn [ReasonActionSetViolates].
  - split; [congruence|]. intros ([|? ?] & a & post & E & _); discriminate.
  - split.
    + intros H. destruct (ReasonActionViolates ci a) as [s|c m|w] eqn:E; cbn [bind] in H; [|exists [], a, l; rewrite E; auto..].
      destruct (String.eqb_spec s "") as [->|Hn]; [|exists [], a, l; rewrite E; auto].
      apply IH in H as (pre & a' & post & -> & Hp & Ha). exists (a :: pre), a', post. split; [reflexivity|]. split; [now constructor|exact Ha].
    + intros (pre & a' & post & E & Hp & Ha). destruct pre as [|a0 pre]; cbn in E; injection E as -> ->.
      * rewrite Ha. destruct r as [s| |]; cbn [bind]; [|reflexivity..]. destruct (String.eqb_spec s "") as [->|]; [contradiction|reflexivity].
      * inversion Hp as [|? ? H1 H2]; subst. rewrite H1. cbn [bind String.eqb]. apply IH. exists pre, a', post. auto.
Qed.
Theorem C34_first_rejected : forall ci entry r, r <> Ok "" -> direct entry ->
  let alone a := ReasonEntryViolatesConstraint (with_action entry a) ci in
  (ReasonEntryViolatesConstraint entry ci = r <->
   alone None = r \/
   (alone None = Ok "" /\ exists pre a post, actions_of entry = (pre ++ a :: post)%list /\
      (forall b, In b pre -> alone (Some (TAction b)) = Ok "") /\ alone (Some (TAction a)) = r)).
Proof.
  intros ci entry r Hne Hd. unfold ReasonEntryViolatesConstraint, direct, actions_of in *. cbn [pe_table_id pe_match pe_action pe_priority with_action].
  destruct (GetTableInfoOrNull ci (pe_table_id entry)) as [t|]; [|split; [auto|intros [H|(H & _)]; [exact H|discriminate]]].
  change (ReasonTableViolates t (with_action entry None)) with (ReasonTableViolates t entry). 
  assert (forall a, ReasonTableViolates t (mkEntry (pe_table_id entry) (pe_match entry) a (pe_priority entry)) = ReasonTableViolates t entry) as E by reflexivity. unfold with_action. setoid_rewrite E. clear E.
  destruct (ReasonTableViolates t entry) as [s|c m|w]; cbn [bind]; [|split; [auto|intros [H|(H & _)]; [exact H|discriminate]]..].
  destruct (String.eqb_spec s "") as [->|Hn]; cbn [negb].
  - destruct (pe_action entry) as [[a|i|i|l|]|]; try contradiction.
    + split; [intros H; right; split; [reflexivity|]; exists [], a, []; split; [reflexivity|]; split; [intros ? []|exact H]|].
      intros [H|(_ & pre & a' & post & El & _ & Ha)]; [congruence|]. destruct pre as [|? []]; [|discriminate..]. injection El as -> _. exact Ha.
    + rewrite (set_first ci l r Hne). split.
      * intros (pre & a & post & El & Hp & Ha). right. split; [reflexivity|]. exists pre, a, post. rewrite Forall_forall in Hp. auto.
      * intros [H|(_ & pre & a & post & El & Hp & Ha)]; [congruence|]. exists pre, a, post. rewrite Forall_forall. auto.
    + split; [auto|]. intros [H|(_ & pre & a & post & El & _)]; [exact H|]. destruct pre; discriminate.
  - split; [auto|]. intros [H|(H & _)]; [exact H|]. apply Ok_inj in H. contradiction.
Qed.
Print Assumptions C34_first_rejected.
(** An action on its own is judged by its constraint (see C26 for when that holds). *)
Theorem C34_action_alone : forall ci entry a, ReasonEntryViolatesConstraint (with_action entry None) ci = Ok "" ->
  ReasonEntryViolatesConstraint (with_action entry (Some (TAction a))) ci = ReasonActionViolates ci a.
Proof.
  intros ci entry a. unfold ReasonEntryViolatesConstraint. cbn [pe_table_id pe_match pe_action pe_priority with_action]. destruct (GetTableInfoOrNull ci (pe_table_id entry)) as [t|]; [|discriminate].
  change (ReasonTableViolates t (with_action entry None)) with (ReasonTableViolates t entry). change (ReasonTableViolates t (with_action entry (Some (TAction a)))) with (ReasonTableViolates t entry).
  destruct (ReasonTableViolates t entry) as [s| |]; cbn [bind]; try discriminate. destruct (String.eqb_spec s "") as [->|Hn]; cbn [negb]; [reflexivity|]. intros H. apply Ok_inj in H. contradiction.
Qed.
Print Assumptions C34_action_alone.
(** Actions given by reference are not supported. *)
Theorem C34_indirect : forall ci entry, ~ direct entry -> ReasonEntryViolatesConstraint (with_action entry None) ci = Ok "" -> exists m, ReasonEntryViolatesConstraint entry ci = Err InvalidArgument m.
Proof.
  intros ci entry Hd. unfold ReasonEntryViolatesConstraint, direct in *. cbn [pe_table_id pe_match pe_action pe_priority with_action]. destruct (GetTableInfoOrNull ci (pe_table_id entry)) as [t|]; [|discriminate].
  change (ReasonTableViolates t (with_action entry None)) with (ReasonTableViolates t entry). destruct (ReasonTableViolates t entry) as [s| |]; cbn [bind]; try discriminate.
  destruct (String.eqb_spec s "") as [->|Hn]; cbn [negb]; [|intros H; apply Ok_inj in H; contradiction]. intros _. destruct (pe_action entry) as [[a|i|i|l|]|]; try tauto; eauto.
Qed.
Print Assumptions C34_indirect.
Definition good_action : p4_action := mkP4Action 4 [(1%N, "a"); (2%N, "")].
Definition bad_action : p4_action := mkP4Action 4 [(1%N, "a"); (2%N, "b")].
Definition set_entry (l : list p4_action) : p4_entry := mkEntry 3 demo_match (Some (TActionSet l)) 0.
Example C34_case : ReasonEntryViolatesConstraint (set_entry [good_action; good_action]) demo_ci = Ok "" /\ direct (set_entry [good_action; bad_action; bad_action]) /\
  (exists text, ReasonEntryViolatesConstraint (set_entry [good_action; bad_action; bad_action]) demo_ci = Ok text /\ text <> "") /\
  ~ direct (mkEntry 3 demo_match (Some (TMemberId 1)) 0) /\ ReasonEntryViolatesConstraint (with_action (mkEntry 3 demo_match (Some (TMemberId 1)) 0) None) demo_ci = Ok "".
Proof. split; [vm_compute; reflexivity|]. split; [exact I|]. split; [eexists; split; [vm_compute; reflexivity|discriminate]|]. split; [intros []|vm_compute; reflexivity]. Qed.

(** * C35 *)
Theorem C35_unknown_table : forall pton p ci entry, P4ToConstraintInfo pton p = Ok ci -> (forall d, In d (p4_tables p) -> table_id d <> pe_table_id entry) ->
  exists m, ReasonEntryViolatesConstraint entry ci = Err InvalidArgument m.
Proof.
  intros pton p ci entry Hci Hn. apply info_lookup in Hci as (Ht & _). unfold ReasonEntryViolatesConstraint. destruct (GetTableInfoOrNull ci (pe_table_id entry)) as [t|] eqn:E; [|eauto].
  apply Ht in E as (d & Hd & Hid & _). destruct (Hn d Hd). now symmetry.
Qed.
Print Assumptions C35_unknown_table.
(** Reached after the table part and the actions before it were accepted. *)
Theorem C35_unknown_action : forall pton p ci entry pre a post, P4ToConstraintInfo pton p = Ok ci -> (forall d, In d (p4_actions p) -> action_id d <> pa_id a) ->
  pe_action entry = Some (TAction a) /\ pre = [] \/ pe_action entry = Some (TActionSet (pre ++ a :: post)) ->
  (forall b, In b pre -> ReasonEntryViolatesConstraint (with_action entry (Some (TAction b))) ci = Ok "") ->
  ReasonEntryViolatesConstraint (with_action entry None) ci = Ok "" ->
  exists m, ReasonEntryViolatesConstraint entry ci = Err InvalidArgument m.
Proof.
  intros pton p ci entry pre a post Hci Hn Hact Hpre Ht. apply info_lookup in Hci as (_ & Hl).
  assert (exists m, ReasonActionViolates ci a = Err InvalidArgument m) as [m Hm].
  { unfold ReasonActionViolates. destruct (GetActionInfoOrNull ci (pa_id a)) as [i|] eqn:E; [|eauto]. apply Hl in E as (d & Hd & Hid & _). destruct (Hn d Hd). now symmetry. }
  exists m. apply C34_first_rejected; [discriminate| |].
  - unfold direct. destruct Hact as [(-> & _)| ->]; exact I.
  - right. split; [exact Ht|]. destruct Hact as [(Ha & ->)|Ha].
    + exists [], a, []. unfold actions_of. rewrite Ha. split; [reflexivity|]. split; [intros ? []|]. now rewrite C34_action_alone.
    + exists pre, a, post. unfold actions_of. rewrite Ha. split; [reflexivity|]. split; [exact Hpre|]. now rewrite C34_action_alone.
Qed.
Print Assumptions C35_unknown_action.
(** An unknown action is never accepted. *)
Theorem C35_unknown_never_accepted : forall pton p ci entry a, P4ToConstraintInfo pton p = Ok ci -> In a (actions_of entry) -> (forall d, In d (p4_actions p) -> action_id d <> pa_id a) ->
  ReasonEntryViolatesConstraint entry ci <> Ok "".
Proof.
  intros pton p ci entry a Hci Ha Hn H. apply C34_accepted_iff in H as (_ & _ & H). destruct (H a Ha) as (i & Hi & _). apply info_lookup in Hci as (_ & Hl). apply Hl in Hi as (d & Hd & Hid & _). destruct (Hn d Hd). now symmetry.
Qed.
Print Assumptions C35_unknown_never_accepted.
(** Whatever the match fields. *)
Theorem C35_unconstrained_table : forall pton p ci d entry, P4ToConstraintInfo pton p = Ok ci -> In d (p4_tables p) -> table_id d = pe_table_id entry -> unrestricted kTableConstraint (pt_preamble d) ->
  ReasonEntryViolatesConstraint (with_action entry None) ci = Ok "".
Proof.
  intros pton p ci d entry Hci Hd Hid Hu. destruct (proj1 (info_iff pton p) (ex_intro _ ci Hci)) as (_ & _ & H3 & _). destruct (H3 d Hd) as [t Et]. apply info_lookup in Hci as (Ht & _).
  assert (GetTableInfoOrNull ci (pe_table_id entry) = Some t) as El by (apply Ht; exists d; unfold table_id in Hid; auto). apply C34_accepted_iff. split; [|split; [exact I|intros ? []]].
  exists t. split; [exact El|]. left. destruct (table_parsed _ _ _ Et) as [ks [_ _ _ _ [(_ & E)|(e0 & e & Hr & _)]]]; [exact E|]. exfalso. exact (restricted_not _ _ _ Hu Hr).
Qed.
Print Assumptions C35_unconstrained_table.
(** Whatever the arguments. *)
Theorem C35_unconstrained_action : forall pton p ci d entry a, P4ToConstraintInfo pton p = Ok ci -> In d (p4_actions p) -> action_id d = pa_id a -> unrestricted kActionConstraint (pad_preamble d) ->
  ReasonEntryViolatesConstraint (with_action entry (Some (TAction a))) ci = ReasonEntryViolatesConstraint (with_action entry None) ci.
Proof.
  intros pton p ci d entry a Hci Hd Hid Hu. destruct (proj1 (info_iff pton p) (ex_intro _ ci Hci)) as (_ & _ & _ & H3). destruct (H3 d Hd) as [t Et]. apply info_lookup in Hci as (_ & Ht).
  assert (GetActionInfoOrNull ci (pa_id a) = Some t) as El by (apply Ht; exists d; unfold action_id in Hid; auto).
  assert (ReasonActionViolates ci a = Ok "") as Ea.
  { apply action_accepts. exists t. split; [exact El|]. left. destruct (action_parsed _ _ _ Et) as [ks [_ _ _ _ [(_ & E)|(e0 & e & Hr & _)]]]; [exact E|]. exfalso. exact (restricted_not _ _ _ Hu Hr). }
  unfold ReasonEntryViolatesConstraint. cbn [pe_table_id pe_match pe_action pe_priority with_action]. rewrite Ea. reflexivity.
Qed.
Print Assumptions C35_unconstrained_action.
Lemma free_unrestricted : unrestricted kTableConstraint (mkPre 5 "free" []).
Proof. exists "", 0%Z. left. constructor. Qed.
Example C35_case : (forall d, In d (p4_tables demo_info) -> table_id d <> 9%N) /\ (forall d, In d (p4_actions demo_info) -> action_id d <> 9%N) /\
  ReasonEntryViolatesConstraint (with_action (mkEntry 3 demo_match (Some (TAction (mkP4Action 9 []))) 0) None) demo_ci = Ok "" /\
  ReasonEntryViolatesConstraint (mkEntry 5 [mkFM 77 FMNotSet] None 0) demo_ci = Ok "".
Proof.
  split; [intros d [<-|[<-|[]]]; discriminate|]. split; [intros d [<-|[]]; discriminate|]. split; vm_compute; reflexivity.
Qed.

(** * C36 *)
(** Inconsistent entries of constrained tables: Internal if the first faulty match field is one
    of another kind than its key, or if no field is faulty but a key of unsupported kind is not matched;
    InvalidArgument otherwise. The process aborts instead if the mask of a negative number of bits is needed:
    for an optional match of such a key, or for an omitted range key. *)
Theorem C36_inconsistent : forall pton p ci d ks cs e0 entry, pton_ok pton -> P4ToConstraintInfo pton p = Ok ci ->
  In d (p4_tables p) -> table_id d = pe_table_id entry -> Forall2 key_decl (pt_match_fields d) ks ->
  restricted kTableConstraint (pt_preamble d) cs -> reads_as pton kTableConstraint cs e0 -> Typed (key_scope ks) e0 TBool ->
  ~ consistent ks (pe_match entry) ->
  (exists a f b m, pe_match entry = (a ++ f :: b)%list /\ all_fine ks a /\ misfit ks f /\ ReasonEntryViolatesConstraint entry ci = Err Internal m) \/
  (exists k m, all_fine ks (pe_match entry) /\ In k ks /\ omitted k (pe_match entry) /\ (forall w, ~ match_type w (k_type k)) /\ ReasonEntryViolatesConstraint entry ci = Err Internal m) \/
  ((forall a f b, pe_match entry = (a ++ f :: b)%list -> all_fine ks a -> ~ misfit ks f) /\ exists m, ReasonEntryViolatesConstraint entry ci = Err InvalidArgument m) \/
  (exists a f b k w s, pe_match entry = (a ++ f :: b)%list /\ all_fine ks a /\ In k ks /\ k_id k = fm_id f /\ k_type k = TOptional w /\ fm_value f = FMOptional s /\ (w < 0)%Z /\ ReasonEntryViolatesConstraint entry ci = Crash GmpAbort) \/
  (exists k w, all_fine ks (pe_match entry) /\ In k ks /\ omitted k (pe_match entry) /\ k_type k = TRange w /\ (w < 0)%Z /\ ReasonEntryViolatesConstraint entry ci = Crash GmpAbort).
Proof.
  intros pton p ci d ks cs e0 entry Hp Hci Hd Hid Hf Hr Hra Hty Hco.
  destruct (declared_table _ _ _ _ _ _ _ Hp Hci Hd Hf Hr Hra) as (t & e & Ht & HK & Hn & Hs & Hl & Hi & He). unfold table_id in Hid. rewrite Hid in Ht.
  pose proof (table_in_scope t ks HK) as HG. pose proof (key_scope_same t ks HK) as HS. apply same_scope_sym in HS.
  assert (e_type e = TBool) as Hte.
  { apply (typed_ext _ _ _ _ HS) in Hty. pose proof (proj1 (infer_ok None (Some t) _ HG _ _ Hi)) as Hty'. eapply (typed_fun None (Some t) _ HG); eauto. }
  assert (forall c m, ParseTableEntry entry t = Err c m -> exists m', ReasonEntryViolatesConstraint entry ci = Err c m') as Herr.
  { intros c m E. unfold ReasonEntryViolatesConstraint. rewrite Ht. unfold ReasonTableViolates. rewrite He, Hte. cbn [is_bool_type negb]. rewrite E. cbn. eauto. }
  assert (forall w, ParseTableEntry entry t = Crash w -> ReasonEntryViolatesConstraint entry ci = Crash w) as Hcr.
  { intros w E. unfold ReasonEntryViolatesConstraint. rewrite Ht. unfold ReasonTableViolates. rewrite He, Hte. cbn [is_bool_type negb]. rewrite E. reflexivity. }
  assert (matched ks [] []) as HM by (split; [constructor|intros k _; reflexivity]).
  destruct (parse_fields_cases' t ks HK (pe_match entry) [] [] HM) as [(Hall & keys' & Hk' & HM')|(a & f & b & El & Hall & [(Hmf & m & Hpm)|[(Hmf & Hnf & m & Hpm)|((k & w & s & Hk & Hidk & Ety & Ev & Hneg) & Hpm)]])].
  - destruct (fill_cases' (ti_keys_by_name t) keys') as [(keys2 & E)|[(m & E)|[(n & k & m & Hk & Hni & Hnm & E)|(n & k & w & Hk & Hni & Ety & Hneg & E)]]].
    + exfalso. apply Hco. apply (entry_iff t ks HK). unfold ParseTableEntry. rewrite Hk'. cbn [bind]. rewrite E. cbn [bind]. eauto.
    + right. right. left. split; [|eapply Herr; unfold ParseTableEntry; rewrite Hk'; cbn [bind]; rewrite E; reflexivity].
      intros a f b El _ (k & Hk & Hidk & _ & Hnf). destruct (Hall a f b El) as (k' & Hk1 & Hid1 & Hfit & _). assert (k = k') as <- by (apply (nodup_keys k_id ks); [apply HK|assumption..|congruence]). contradiction.
    + right. left. apply (by_name t ks HK) in Hk as [Hk En]. destruct (Herr Internal m) as [m' Hm']; [unfold ParseTableEntry; rewrite Hk'; cbn [bind]; rewrite E; reflexivity|]. exists k, m'.
      split; [exact Hall|]. split; [exact Hk|]. split; [|auto]. intros f Hff Eid. apply Hni. rewrite <- En. apply (proj2 HM' k Hk). cbn [app]. rewrite <- Eid. now apply in_map.
    + right. right. right. right. apply (by_name t ks HK) in Hk as [Hk En]. exists k, w. split; [exact Hall|]. split; [exact Hk|].
      split; [intros f Hff Eid; apply Hni; rewrite <- En; apply (proj2 HM' k Hk); cbn [app]; rewrite <- Eid; now apply in_map|]. split; [exact Ety|]. split; [exact Hneg|].
      apply Hcr. unfold ParseTableEntry. rewrite Hk'. cbn [bind]. rewrite E. reflexivity.
  - left. destruct (Herr Internal m) as [m' Hm']; [unfold ParseTableEntry; rewrite Hpm; reflexivity|]. exists a, f, b, m'. split; [exact El|]. split; [exact Hall|]. auto.
  - right. right. left. split; [|eapply Herr; unfold ParseTableEntry; rewrite Hpm; reflexivity].
    intros a' f' b' El' Hall' Hmf'.
    assert (forall f1 pre, misfit ks f1 -> ~ fine ks pre f1) as Hexc.
    { intros f1 pre (k & Hk & Hidk & _ & Hnf1) (k' & Hk1 & Hid1 & Hfit & _). assert (k = k') as <- by (apply (nodup_keys k_id ks); [apply HK|assumption..|congruence]). contradiction. }
    rewrite El' in El. clear -El Hall Hall' Hmf Hmf' Hnf Hexc. cbn [app] in *.
    (* the first field that is not fine is unique *)
    assert (forall (a a' : list field_match) f f' b b', (a' ++ f' :: b' = a ++ f :: b)%list -> (a' = a /\ f' = f) \/ (exists c, a = (a' ++ f' :: c)%list) \/ (exists c, a' = (a ++ f :: c)%list)) as Hcut.
    { clear. induction a as [|x a IH]; intros [|x' a'] f f' b b' E; cbn in E; injection E as E1 E2.
      - auto.
      - subst. right. right. exists a'. reflexivity.
      - subst. right. left. exists a. reflexivity.
      - subst x'. destruct (IH a' f f' b b' E2) as [(-> & ->)|[(c & ->)|(c & ->)]]; [auto|right; left; exists c; reflexivity|right; right; exists c; reflexivity]. }
    destruct (Hcut _ _ _ _ _ _ El) as [(-> & ->)|[(c & Ea)|(c & Ea)]]; [contradiction| |].
    + exact (Hexc _ _ Hmf' (Hall _ _ _ Ea)).
    + exact (Hnf (Hall' _ _ _ Ea)).
  - right. right. right. left. exists a, f, b, k, w, s. repeat (split; [assumption|]). apply Hcr. unfold ParseTableEntry. rewrite Hpm. reflexivity.
Qed.
Print Assumptions C36_inconsistent.
(** Unknown or repeated arguments of constrained actions. *)
Theorem C36_action_arguments : forall pton p ci d ps cs e0 x, pton_ok pton -> P4ToConstraintInfo pton p = Ok ci ->
  In d (p4_actions p) -> action_id d = pa_id x -> Forall2 param_decl (pad_params d) ps ->
  restricted kActionConstraint (pad_preamble d) cs -> reads_as pton kActionConstraint cs e0 ->
  ~ acceptable ps (pa_params x) -> exists m, ReasonActionViolates ci x = Err InvalidArgument m.
Proof.
  intros pton p ci d ps cs e0 x Hp Hci Hd Hid Hf Hr Hra Hac.
  destruct (declared_action _ _ _ _ _ _ _ Hp Hci Hd Hf Hr Hra) as (t & e & Ht & HK & _ & _ & Hl & Hi & He). unfold action_id in Hid. rewrite Hid in Ht.
  unfold ReasonActionViolates. rewrite Ht, He. destruct (is_bool_type (e_type e)); cbn [negb]; [|eauto].
  assert (forall l params, (exists q, parse_params t l params = Ok q) \/ exists m, parse_params t l params = Err InvalidArgument m) as Hc.
  { clear. induction l as [|[id v] l IH]; intros params; cbn [parse_params]; [eauto|]. destruct (assoc_find N.eqb id (ai_params_by_id t)) as [q|]; [|eauto]. destruct (assoc_find String.eqb (k_name q) params); eauto. }
  destruct (Hc (pa_params x) []) as [(q & E)|(m & E)].
  - exfalso. apply Hac. refine (proj1 (action_ok t ps HK x _ _)). unfold ParseAction. rewrite E. reflexivity.
  - unfold ParseAction. rewrite E. cbn. eauto.
Qed.
Print Assumptions C36_action_arguments.
Example C36_case : ~ consistent demo_keys [mkFM 1 (FMExact "a"); mkFM 7 (FMExact "a")] /\ (forall k w, In k demo_keys -> width (k_type k) w -> (0 <= w)%Z) /\
  ~ acceptable demo_params [(7%N, "a")] /\ misfit demo_keys (mkFM 1 (FMTernary "a" "b")) /\ all_fine demo_keys [].
Proof.
  split. { intros [H _ _]. destruct (H _ (or_intror (or_introl eq_refl))) as (k & v & [<-|[<-|[<-|[]]]] & E & _); discriminate. }
  split. { intros k w [<-|[<-|[<-|[]]]] Hw; inversion Hw; lia. }
  split. { intros [H _]. destruct (H 7%N "a" (or_introl eq_refl)) as (q & [<-|[<-|[]]] & E); discriminate. }
  split; [|intros [|? ?] ? ? E; discriminate]. exists (mkKey 1 "e" (TExact 8)). split; [now left|]. split; [reflexivity|]. split; [exact I|]. intros H. inversion H.
Qed.
(** A declaration with a negative width makes the process abort. *)
Example C36_negative_case : exists ci, P4ToConstraintInfo pton1 (mkP4Info [mkP4Table (mkPre 3 "demo" [restriction "entry" ["true"]]) [mkMF 1 "o" (-1) (MMatchType MTOptional)]] []) = Ok ci /\
  ~ consistent [mkKey 1 "o" (TOptional (-1))] [mkFM 1 (FMOptional "a")] /\
  ReasonEntryViolatesConstraint (mkEntry 3 [mkFM 1 (FMOptional "a")] None 1) ci = Crash GmpAbort.
Proof.
  eexists. split; [vm_compute; reflexivity|]. split; [|vm_compute; reflexivity].
  intros [H _ _]. destruct (H _ (or_introl eq_refl)) as (k & v & [<-|[]] & _ & Hv). inversion Hv. lia.
Qed.
(** A match of the wrong kind, and a missing argument. *)
Theorem C36_kind_mismatch_refuted : exists entry m, ~ consistent demo_keys (pe_match entry) /\ pe_table_id entry = 3%N /\ ReasonEntryViolatesConstraint entry demo_ci = Err Internal m.
Proof.
  exists (mkEntry 3 [mkFM 1 (FMTernary "a" "b")] None 0). eexists. split; [|split; [reflexivity|vm_compute; reflexivity]].
  intros [H _ _]. destruct (H _ (or_introl eq_refl)) as (k & v & [<-|[<-|[<-|[]]]] & E & Hv); try discriminate. inversion Hv.
Qed.
Print Assumptions C36_kind_mismatch_refuted.
Theorem C36_missing_argument_refuted : exists x m, acceptable demo_params (pa_params x) /\ ~ (forall k, In k demo_params -> In (k_id k) (map fst (pa_params x))) /\
  ReasonEntryViolatesConstraint (mkEntry 3 demo_match (Some (TAction x)) 0) demo_ci = Err Internal m.
Proof.
  exists (mkP4Action 4 [(2%N, "")]). eexists. split; [|split; [|vm_compute; reflexivity]].
  - split; [intros id s [[= <- <-]|[]]; exists (mkKey 2 "q" (TBit 8)); cbn; auto|repeat constructor; intros []].
  - intros H. destruct (H (mkKey 1 "p" (TBit 8)) (or_introl eq_refl)) as [E|[]]. discriminate.
Qed.
Print Assumptions C36_missing_argument_refuted.
