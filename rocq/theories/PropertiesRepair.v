(** A rejected entry stays rejected until a value that the explanation shows is changed (C106). *)
From Coq Require Import String Ascii List ZArith NArith Bool Lia Sorted.
From Verif Require Import Base Num Token Ast Lexer Quote AstConstructors Parser Info TypeChecker ConstraintInfo Interpreter SpecLexer SpecGrammar SpecParser SpecQuote SpecTyping SpecSemantics SpecInfo SpecExplain SpecCrash SpecReading SpecOutcome
  StrFacts ParserFacts4 RenameFacts InfoFacts2 InterpFacts2 ReadingFacts2 PropertiesParser PropertiesVerdict PropertiesExplain PropertiesEntries PropertiesReading PropertiesCrash OutcomeFacts3 OutcomeFacts5 PropertiesOutcome IntervalFacts MessageFacts MessageFacts2 PropertiesMessage InfoFacts PropertiesInfo PropertiesAppend SeparateFacts ReadingFacts LoadFacts PropertiesRobust.
Import ListNotations.
Open Scope string_scope.

(** * Facts *)
(** What one reading of a part says, another with at least the same values for what the part mentions says, too. *)
Definition keeps (r r' : env) (e : expr) : Prop :=
  match r, r' with
  | TableEnv key p, TableEnv key' p' => (forall n v, mentions e n -> key n = Some v -> key' n = Some v) /\ (has_attribute e -> p' = p)
  | ActionEnv param, ActionEnv param' => forall n z, mentions e n -> param n = Some z -> param' n = Some z
  | _, _ => False
  end.
Lemma keeps_sub r r' e e' : (forall n, mentions e n -> mentions e' n) -> (has_attribute e -> has_attribute e') -> keeps r r' e' -> keeps r r' e.
Proof. intros H1 H2. unfold keeps. destruct r, r'; auto. intros [H3 H4]. split; auto. Qed.
Lemma meant_keeps cmp G r r' e v : Meant cmp G r e v -> keeps r r' e -> Meant cmp G r' e v.
Proof.
  induction 1; intros HK.
  - constructor.
  - now constructor.
  - subst. destruct r'; [|contradiction]. destruct HK as [HK _]. eapply mn_key; [reflexivity|]. apply HK; [constructor|assumption].
  - subst. destruct r'; [contradiction|]. eapply mn_param; [reflexivity|]. apply HK; [constructor|assumption].
  - subst. destruct r'; [|contradiction]. destruct HK as [_ HK]. rewrite <- (HK (ha_here _ _)). eapply mn_priority. reflexivity.
  - constructor. apply IHMeant. revert HK. apply keeps_sub; intros; now constructor.
  - constructor. apply IHMeant. revert HK. apply keeps_sub; intros; now constructor.
  - eapply mn_left; eauto. apply IHMeant. revert HK. apply keeps_sub; intros; now constructor.
  - constructor; auto.
    + apply IHMeant1. revert HK. apply keeps_sub; intros; now constructor.
    + apply IHMeant2. revert HK. apply keeps_sub; intros; solve [now apply me_right|now apply ha_right].
  - eapply mn_compare; eauto.
    + apply IHMeant1. revert HK. apply keeps_sub; intros; now constructor.
    + apply IHMeant2. revert HK. apply keeps_sub; intros; solve [now apply me_right|now apply ha_right].
  - econstructor; [|eassumption]. apply IHMeant. revert HK. apply keeps_sub; intros; now constructor.
Qed.
(** The part that explains a truth value settles it. *)
Section Settled.
  Variables (cmp : ty -> binop -> value -> value -> bool -> Prop) (G : scope) (r r' : env).
  Hypothesis once : forall r e v v', Meant cmp G r e v -> Meant cmp G r e v' -> v = v'.
  Let M (r : env) (e : expr) (x : bool) : Prop := Meant cmp G r e (VBool x).
  Lemma once_bool r0 e x y : M r0 e x -> M r0 e y -> x = y.
  Proof. intros H1 H2. pose proof (once _ _ _ _ H1 H2) as E. now injection E. Qed.
  Lemma connected m o a b y : connective o -> M r' (EBin m o a b) y -> exists x, M r' a x /\ ((forall y', truth o x y' = y) \/ exists z, M r' b z /\ y = truth o x z).
  Proof.
    intros Hc H. inversion H as [| | | | | | |? ? ? ? x ? _ Ha Ht|? ? ? ? x z _ Ha Hb|? ? ? ? ? ? ? ? ? ? ? ? Hcm|]; subst.
    - exists x. split; [exact Ha|now left].
    - exists x. split; [exact Ha|]. right. exists z. auto.
    - exfalso. clear - Hc Hcm. inversion Hc; subst; inversion Hcm as [? E|? E]; subst; inversion E.
  Qed.
  Lemma connected_here m o a b x y z : connective o -> M r a x -> M r b y -> M r (EBin m o a b) z -> z = truth o x y.
  Proof. intros Hc Ha Hb H. apply (once_bool _ _ _ _ H). now apply mn_both. Qed.
  Lemma by_left m o a b x0 y0 y y' : connective o -> M r a x0 -> M r b y0 -> left_decides o x0 -> M r (EBin m o a b) y -> M r' (EBin m o a b) y' -> (forall z, M r' a z -> z = x0) -> y' = y.
  Proof.
    intros Hc Ha Hb Hl He He' IH. rewrite (connected_here _ _ _ _ _ _ _ Hc Ha Hb He). destruct (connected _ _ _ _ _ Hc He') as (x1 & Hx1 & H). rewrite (IH _ Hx1) in H. destruct H as [H|(z & _ & ->)]; [symmetry; apply H|apply Hl].
  Qed.
  Lemma by_right m o a b x0 y0 y y' : connective o -> M r a x0 -> M r b y0 -> right_decides o y0 -> M r (EBin m o a b) y -> M r' (EBin m o a b) y' -> (forall z, M r' b z -> z = y0) -> y' = y.
  Proof.
    intros Hc Ha Hb Hr He He' IH. rewrite (connected_here _ _ _ _ _ _ _ Hc Ha Hb He). destruct (connected _ _ _ _ _ Hc He') as (x1 & Hx1 & H). destruct H as [H|(z & Hz & ->)]; [rewrite <- (H y0); apply Hr|rewrite (IH _ Hz); apply Hr].
  Qed.
  Lemma settled e s : Explained (M r) e s -> forall x y y', M r s x -> M r' s x -> M r e y -> M r' e y' -> y' = y.
  Proof.
    induction 1 as [m b|m o a b Hc|m e s H IH|m o a b x0 y0 Hc Ha Hb Hl Hr|m o a b x0 y0 s Hc Ha Hb Hl Hr H IH|m o a b x0 y0 s Hc Ha Hb Hl Hr H IH|m o a b x0 y0 s t i j Hc Ha Hb Hl Hr H1 IH1 H2 IH2 Hi Hj Hij|m o a b x0 y0 s t i j Hc Ha Hb Hl Hr H1 IH1 H2 IH2 Hi Hj Hij];
      intros x y y' Hs Hs' He He'.
    - rewrite <- (once_bool _ _ _ _ Hs He), <- (once_bool _ _ _ _ Hs' He'). reflexivity.
    - rewrite <- (once_bool _ _ _ _ Hs He), <- (once_bool _ _ _ _ Hs' He'). reflexivity.
    - inversion He as [| | | | |? ? b Hb| | | | |]; subst. inversion He' as [| | | | |? ? b' Hb'| | | | |]; subst. f_equal. exact (IH _ _ _ Hs Hs' Hb Hb').
    - rewrite <- (once_bool _ _ _ _ Hs He), <- (once_bool _ _ _ _ Hs' He'). reflexivity.
    - exact (by_left _ _ _ _ _ _ _ _ Hc Ha Hb Hl He He' (fun z Hz => IH _ _ _ Hs Hs' Ha Hz)).
    - exact (by_right _ _ _ _ _ _ _ _ Hc Ha Hb Hr He He' (fun z Hz => IH _ _ _ Hs Hs' Hb Hz)).
    - exact (by_left _ _ _ _ _ _ _ _ Hc Ha Hb Hl He He' (fun z Hz => IH1 _ _ _ Hs Hs' Ha Hz)).
    - exact (by_right _ _ _ _ _ _ _ _ Hc Ha Hb Hr He He' (fun z Hz => IH2 _ _ _ Hs Hs' Hb Hz)).
  Qed.
End Settled.
Lemma value_dec (v w : value) : {v = w} + {v <> w}.
Proof. decide equality; solve [apply Z.eq_dec|apply bool_dec]. Qed.
Lemma changed {V} (dec : forall v w : V, {v = w} + {v <> w}) (key : string -> option V) l : (forall n v, In (n, v) l -> key n = Some v) \/ exists n v, In (n, v) l /\ key n <> Some v.
Proof.
  induction l as [|[n v] l [IH|(n' & v' & Hi & Hn)]]; [left; intros n v []| |right; exists n', v'; split; [now right|exact Hn]].
  destruct (key n) as [w|] eqn:E.
  - destruct (dec w v) as [->|Hn]; [|right; exists n, v; split; [now left|congruence]]. left. intros n' v' [H|H]; [now injection H as <- <-|exact (IH _ _ H)].
  - right. exists n, v. split; [now left|congruence].
Qed.
Lemma lines_contain {V} (f : string * V -> string) l kv : In kv l -> contains (f kv) (String.concat "" (map f l)).
Proof.
  assert (forall l : list string, String.concat "" l = fold_right append "" l) as Hc.
  { induction l0 as [|x [|y l0] IH]; [reflexivity|cbn; now rewrite sapp_nil_r|]. cbn [String.concat fold_right] in *. rewrite IH. reflexivity. }
  rewrite Hc. induction l as [|x l IH]; [intros []|]. intros [->|H]; cbn [map fold_right].
  - exists "", (fold_right append "" (map f l)). reflexivity.
  - destruct (IH H) as (a & b & ->). exists (f x ++ a), b. now rewrite !sapp_assoc.
Qed.
Lemma contains_after a part text : contains part text -> contains part (a ++ text).
Proof. intros (x & y & ->). exists (a ++ x), y. now rewrite sapp_assoc. Qed.
Lemma contains_here part text : contains part (part ++ text).
Proof. exists "", text. reflexivity. Qed.
Lemma told_part what x q r u : told what x q ++ r = "All " ++ what ++ " must " ++ u -> contains q u /\ forall part, contains part r -> contains part u.
Proof.
  unfold told. rewrite !sapp_assoc. intros E. do 3 apply sapp_inv_head in E. subst u. split; [do 4 apply contains_after; apply contains_here|]. intros part H. repeat first [exact H|apply contains_after].
Qed.
Lemma scope_once ks : NoDup (map k_name ks) -> forall r e v v', Meant unordered_exact (key_scope ks) r e v -> Meant unordered_exact (key_scope ks) r e v' -> v = v'.
Proof.
  intros HN r e v v' H H'. assert (NoDup (map fst (map (fun k => (k_name k, k)) ks))) as HN' by (rewrite map_map; exact HN).
  exact (meant_fun _ _ _ (is_table (mkTable 0 "" None default_csource [] _) HN') unordered_exact unordered_fun _ _ _ _ H H').
Qed.
Lemma params_once ks : NoDup (map k_name ks) -> forall r e v v', Meant unordered_exact (param_scope ks) r e v -> Meant unordered_exact (param_scope ks) r e v' -> v = v'.
Proof.
  intros HN r e v v' H H'. assert (NoDup (map fst (map (fun k => (k_name k, k)) ks))) as HN' by (rewrite map_map; exact HN).
  exact (meant_fun _ _ _ (is_action (mkAction 0 "" None default_csource [] _) HN') unordered_exact unordered_fun _ _ _ _ H H').
Qed.

(** * C106 *)
(** If a table rejects an entry and accepts another one, then the other one has another value for a key that the quoted
    part of the constraint mentions and that the explanation lists with its value, or it has another priority, and the
    quoted part mentions the priority. *)
Theorem C106_table : forall pton p ci entry entry' u, pton_ok pton -> P4ToConstraintInfo pton p = Ok ci -> sane_widths p -> legible pton p ->
  ReasonEntryViolatesConstraint entry ci = Ok ("All entries must " ++ u) -> ReasonEntryViolatesConstraint entry' ci = Ok "" -> pe_table_id entry' = pe_table_id entry ->
  exists d ks cs e s quoted, In d (p4_tables p) /\ pr_id (pt_preamble d) = pe_table_id entry /\ Forall2 key_decl (pt_match_fields d) ks /\
    restricted kTableConstraint (pt_preamble d) cs /\ reads_as pton kTableConstraint cs e /\ sub s e /\ QuoteSubConstraint cs (e_start s) (e_end s) = Ok quoted /\ contains quoted u /\
    ((has_attribute s /\ pe_priority entry' <> pe_priority entry /\ contains ("Priority:" ++ dec (pe_priority entry) ++ nl) u) \/
     exists n v, mentions s n /\ Assigned ks (pe_match entry) n v /\ ~ Assigned ks (pe_match entry') n v /\ contains ("Field: " ++ dq ++ n ++ dq ++ " -> Value: " ++ written_value v ++ nl) u).
Proof.
  intros pton p ci en en' u Hp Hci Hs Hl He He' Hid.
  apply (C58_accepted_iff pton p ci en' Hp Hci) in He' as ((d & Hd & Id & Hal) & _). unfold table_id in Id. rewrite Hid in Id.
  pose proof (table_explained pton p ci d en u Hp Hci Hs Hl Hd Id He) as Ht.
  inversion Ht as [| | |ks cs e key v Hk Hr Hra Hty Hco Hkey HJ]; subst v. inversion HJ as [|s x text Hh Hx Hsx Hrep| |]; subst text.
  destruct Hal as [Hun|(ks2 & cs2 & e2 & key2 & Hk2 & Hr2 & Hra2 & Hco2 & Hkey2 & Hty2 & Hm2)]; [destruct (restricted_not _ _ _ Hun Hr)|].
  assert (ks2 = ks) as -> by exact (forall2_fun key_decl key_decl_fun _ _ _ Hk2 Hk). pose proof (restricted_fun _ _ _ _ Hr Hr2) as <-. pose proof (reads_as_fun _ _ _ _ _ Hp Hra Hra2) as <-.
  destruct Hrep as (q & l & Hq & _ & Hll & Et). symmetry in Et. apply (told_part "entries") in Et as [Hqu Hpart].
  exists d, ks, cs, e, s, q. split; [exact Hd|]. split; [exact Id|]. split; [exact Hk|]. split; [exact Hr|]. split; [exact Hra|]. split; [exact (explained_sub _ _ _ Hx)|]. split; [exact Hq|]. split; [exact Hqu|].
  destruct (changed value_dec key2 l) as [Hsame|(n & v & Hi & Hn)].
  - assert (forall A, (has_attribute s -> pe_priority en' = pe_priority en) -> A) as Hno.
    { intros A Hpr. exfalso. pose proof (table_names pton p ci d Hp Hci Hd) as [_ HN]. rewrite <- (decl_names_k _ _ Hk) in HN.
      assert (Meant unordered_exact (key_scope ks) (TableEnv key2 (pe_priority en')) s (VBool x)) as Hs2.
      { refine (meant_keeps _ _ _ _ _ _ Hsx _). split; [|exact Hpr]. intros n v Hm Hn. apply Hsame, Hll. auto. }
      discriminate (settled _ _ _ _ (scope_once ks HN) _ _ Hx _ _ _ Hsx Hs2 Hh Hm2). }
    destruct (attribute_dec s) as [Ha|Ha]; [|apply Hno; intros H; contradiction]. destruct (Z.eq_dec (pe_priority en') (pe_priority en)) as [E|Hne]; [apply Hno; auto|].
    left. split; [exact Ha|]. split; [exact Hne|]. apply Hpart. do 7 apply contains_after. exists "". eexists. rewrite !sapp_assoc. reflexivity.
  - right. pose proof (proj1 (Hll n v) Hi) as [Hm Hv]. exists n, v. split; [exact Hm|]. split; [now apply Hkey|]. split; [intros H; apply Hn, Hkey2, H|]. apply Hpart. do 10 apply contains_after.
    exact (lines_contain (fun kv => "Field: " ++ dq ++ fst kv ++ dq ++ " -> Value: " ++ written_value (snd kv) ++ nl) l (n, v) Hi).
Qed.
Print Assumptions C106_table.
Lemma refused_action pton p l c r : actions_outcome pton p l (Says (String c r)) -> exists a d, In a l /\ In d (p4_actions p) /\ pr_id (pad_preamble d) = pa_id a /\ action_outcome pton d a (Says (String c r)).
Proof.
  intros H. remember (Says (String c r)) as w eqn:Ev. induction H as [|a l Hu|d a l v Hd Hi Ha Hne|d a l v Hd Hi Ha Hl IH]; try discriminate Ev.
  - exists a, d. split; [now left|auto].
  - destruct (IH Ev) as (a' & d' & Ha' & H). exists a', d'. split; [now right|exact H].
Qed.
Lemma action_explained pton p ci en u : pton_ok pton -> P4ToConstraintInfo pton p = Ok ci -> sane_widths p -> legible pton p -> ReasonEntryViolatesConstraint en ci = Ok ("All actions must " ++ u) ->
  exists a d, In a (actions_of en) /\ In d (p4_actions p) /\ pr_id (pad_preamble d) = pa_id a /\ action_outcome pton d a (Says ("All actions must " ++ u)).
Proof.
  intros Hp Hci Hs Hl He.
  destruct (C71_outcome pton p ci en Hp Hci Hs Hl) as (v & Ho & Hr). rewrite He in Hr. destruct v as [text|c]; [|destruct Hr as [m Hm]; discriminate]. cbn [reports] in Hr. injection Hr as <-.
    inversion Ho as [|d v Hd Hi Ht Hne|d|d l v Hd Hi Ht Hli Hac]; subst.
    { exfalso. inversion Ht as [| | |ks cs e key v Hf Hr Hra Hty Hco Hkey HJ]; subst. inversion HJ as [|s x text Hh Hx Hsx Hrep| |]; subst. destruct Hrep as (q & l & _ & _ & _ & E). discriminate E. }
    assert (exists a d, In a l /\ In d (p4_actions p) /\ pr_id (pad_preamble d) = pa_id a /\ action_outcome pton d a (Says ("All actions must " ++ u))) as (a & d' & Ha & H).
    { exact (refused_action pton p l _ _ Hac). }
    exists a, d'. split; [|exact H]. unfold action_list in Hli. unfold actions_of. destruct (pe_action en) as [[b| | |b|]|]; inversion Hli; subst; exact Ha.
Qed.
(** The same for the arguments of actions: if an entry is rejected because of an action, then an accepted entry, of any
    table, that uses the same action does not have all the arguments that the explanation lists. *)
Theorem C106_action : forall pton p ci entry u, pton_ok pton -> P4ToConstraintInfo pton p = Ok ci -> sane_widths p -> legible pton p ->
  ReasonEntryViolatesConstraint entry ci = Ok ("All actions must " ++ u) ->
  exists a d ps cs e s quoted, In a (actions_of entry) /\ In d (p4_actions p) /\ pr_id (pad_preamble d) = pa_id a /\ Forall2 param_decl (pad_params d) ps /\
    restricted kActionConstraint (pad_preamble d) cs /\ reads_as pton kActionConstraint cs e /\ sub s e /\ QuoteSubConstraint cs (e_start s) (e_end s) = Ok quoted /\ contains quoted u /\
    forall entry' a', ReasonEntryViolatesConstraint entry' ci = Ok "" -> In a' (actions_of entry') -> pa_id a' = pa_id a ->
      exists n z, mentions s n /\ Passed ps (pa_params a) n z /\ ~ Passed ps (pa_params a') n z /\ contains ("Param name: " ++ dq ++ n ++ dq ++ " -> Value: " ++ dec z ++ nl) u.
Proof.
  intros pton p ci en u Hp Hci Hs Hl He.
  destruct (action_explained pton p ci en u Hp Hci Hs Hl He) as (a & d & Ha & Hd & Id & Ht).
  inversion Ht as [| | |ps cs e param v Hk Hr Hra Hty Hac Hpa HJ]; subst v. inversion HJ as [|s x text Hh Hx Hsx Hrep| |]; subst text.
  destruct Hrep as (q & l & Hq & _ & Hll & Et). symmetry in Et. apply (told_part "actions") in Et as [Hqu Hpart].
  exists a, d, ps, cs, e, s, q. split; [exact Ha|]. split; [exact Hd|]. split; [exact Id|]. split; [exact Hk|]. split; [exact Hr|]. split; [exact Hra|]. split; [exact (explained_sub _ _ _ Hx)|]. split; [exact Hq|]. split; [exact Hqu|].
  intros en' a' He' Ha' Ia. apply (C58_accepted_iff pton p ci en' Hp Hci) in He' as (_ & _ & He'). destruct (He' a' Ha') as (d' & Hd' & Id' & Hal). assert (d' = d) as -> by (apply (action_decl_same pton p ci Hci); unfold action_id in Id'; congruence).
  destruct Hal as [Hun|(ks2 & cs2 & e2 & key2 & Hk2 & Hr2 & Hra2 & Hco2 & Hkey2 & Hty2 & Hm2)]; [destruct (restricted_not _ _ _ Hun Hr)|].
  assert (ks2 = ps) as -> by exact (forall2_fun param_decl param_decl_fun _ _ _ Hk2 Hk). pose proof (restricted_fun _ _ _ _ Hr Hr2) as <-. pose proof (reads_as_fun _ _ _ _ _ Hp Hra Hra2) as <-.
  destruct (changed Z.eq_dec key2 l) as [Hsame|(n & z & Hi & Hn)].
  - exfalso. pose proof (action_names pton p ci d Hp Hci Hd) as [_ HN]. rewrite <- (decl_names_p _ _ Hk) in HN.
    assert (Meant unordered_exact (param_scope ps) (ActionEnv key2) s (VBool x)) as Hs2.
    { refine (meant_keeps _ _ _ _ _ _ Hsx _). intros n z Hm Hn. apply Hsame, Hll. auto. }
    discriminate (settled _ _ _ _ (params_once ps HN) _ _ Hx _ _ _ Hsx Hs2 Hh Hm2).
  - pose proof (proj1 (Hll n z) Hi) as [Hm Hv]. exists n, z. split; [exact Hm|]. split; [now apply Hpa|]. split; [intros H; apply Hn, Hkey2, H|]. apply Hpart. do 7 apply contains_after.
    exact (lines_contain (fun kv => "Param name: " ++ dq ++ fst kv ++ dq ++ " -> Value: " ++ dec (snd kv) ++ nl) l (n, z) Hi).
Qed.
Print Assumptions C106_action.
(** Rejected and accepted entries, the latter with other values for what is shown; in the third pair only the priority differs. *)
Definition rp_decl : p4_table := mkP4Table (mkPre 9 "rp" [restriction "entry" ["k != 0 && (::priority > 2 || t::mask == 0)"]]) [mkMF 1 "k" 8 (MMatchType MTExact); mkMF 2 "t" 8 (MMatchType MTTernary)].
Definition rp_info : p4info := mkP4Info [rp_decl] [].
Definition rp_ci : constraint_info := Eval vm_compute in the (mkInfo [] []) (P4ToConstraintInfo pton1 rp_info).
Definition rp_entry (priority : Z) : p4_entry := mkEntry 9 [mkFM 1 (FMExact "a"); mkFM 2 (FMTernary "a" "a")] None priority.
Definition rp_text : string := Eval vm_compute in the "" (ReasonEntryViolatesConstraint (rp_entry 1) rp_ci).
Example C106_case : sane_widths demo_info /\ legible pton1 demo_info /\ P4ToConstraintInfo pton1 demo_info = Ok demo_ci /\
  ReasonEntryViolatesConstraint (mkEntry 3 [mkFM 1 (FMExact "")] None 5) demo_ci = Ok me_text /\ ReasonEntryViolatesConstraint (mkEntry 3 demo_match None 5) demo_ci = Ok "" /\ (exists u, me_text = "All entries must " ++ u) /\
  ReasonEntryViolatesConstraint (mkEntry 3 demo_match (Some (TAction (mkP4Action 4 [(1%N, "a"); (2%N, "a")]))) 0) demo_ci = Ok ma_text /\ (exists u, ma_text = "All actions must " ++ u) /\
  ReasonEntryViolatesConstraint (mkEntry 3 demo_match (Some (TAction (mkP4Action 4 [(1%N, "a"); (2%N, "")]))) 0) demo_ci = Ok "" /\
  P4ToConstraintInfo pton1 rp_info = Ok rp_ci /\ sane_widths rp_info /\ legible pton1 rp_info /\
  ReasonEntryViolatesConstraint (rp_entry 1) rp_ci = Ok rp_text /\ ReasonEntryViolatesConstraint (rp_entry 3) rp_ci = Ok "" /\ (exists u, rp_text = "All entries must " ++ u).
Proof.
  destruct C71_case as (Hs & Hl & _ & Hci & _). split; [exact Hs|]. split; [exact Hl|]. split; [exact Hci|].
  split; [vm_compute; reflexivity|]. split; [vm_compute; reflexivity|]. split; [eexists; unfold me_text; reflexivity|].
  split; [vm_compute; reflexivity|]. split; [eexists; unfold ma_text; reflexivity|]. split; [vm_compute; reflexivity|].
  split; [vm_compute; reflexivity|]. split.
  { split; intros d f Hd Hf; [|destruct Hd]. destruct Hd as [<-|[]]. destruct Hf as [<-|[<-|[]]]; cbn; lia. }
  split.
  { apply (C71_one_line pton1 _ pton1_ok). intros ck cs [d cs' Hd Hr|d cs' Hd Hr]; [|destruct Hd]. destruct Hd as [<-|[]].
    assert (cs' = mkCSource "k != 0 && (::priority > 2 || t::mask == 0)" (mkLoc 0 0 (SrcTable "rp"))) as -> by (refine (restricted_fun _ _ _ _ Hr (proj1 (extract_some _ _ _) _)); vm_compute; reflexivity).
    split; intros Hin; vm_compute in Hin; repeat destruct Hin as [Hin|Hin]; try discriminate Hin; exact Hin. }
  split; [vm_compute; reflexivity|]. split; [vm_compute; reflexivity|]. eexists. unfold rp_text. reflexivity.
Qed.
