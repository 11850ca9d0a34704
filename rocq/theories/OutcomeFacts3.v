(** Verdicts of single constraints. *)
From Coq Require Import String Ascii List ZArith NArith Bool Lia Sorted.
From Verif Require Import Base Num Token Ast Lexer Quote AstConstructors Parser Info TypeChecker ConstraintInfo Interpreter SpecLexer SpecGrammar SpecParser SpecTyping SpecSemantics SpecInfo SpecExplain SpecCrash SpecReading SpecOutcome
  StrFacts NumFacts LiteralFacts ParserFacts4 TypeFacts EvalFacts SemFacts SemFacts2 EntryFacts EntryFacts2 ExplainFacts ExplainFacts2 VerdictFacts InfoFacts InfoFacts2 InterpFacts InterpFacts2 ReadingFacts ReadingFacts2 CrashFacts OutcomeFacts OutcomeFacts2.
Import ListNotations.
Open Scope string_scope.

(** * Texts *)
Lemma before_slt a b : String.compare a b = Lt <-> slt a b.
Proof.
  unfold slt. revert b. induction a as [|x a IH]; intros [|y b]; cbn; try (split; congruence).
  unfold Ascii.compare. fold (byte x). fold (byte y). destruct (N.compare_spec (byte x) (byte y)) as [E|E|E].
  - rewrite E, N.ltb_irrefl. apply IH.
  - apply N.ltb_lt in E. rewrite E. split; reflexivity.
  - destruct (N.ltb_spec (byte x) (byte y)); [lia|]. apply N.ltb_lt in E. rewrite E. split; discriminate.
Qed.
Lemma sorted_before {V} (l : list (string * V)) : StronglySorted before l <-> StronglySorted klt l.
Proof.
  split; induction 1 as [|a l H IH Hf]; constructor; auto; (eapply Forall_impl; [|exact Hf]); intros b Hb; now apply before_slt.
Qed.
Lemma concat_all l : String.concat "" l = concat_strings l.
Proof. induction l as [|a [|b l] IH]; cbn in *; [reflexivity|now rewrite sapp_nil_r|]. now rewrite IH. Qed.
Lemma picked {V} (show : string * V -> string) (f : string -> bool) l :
  concat_strings (map (fun kv => if f (fst kv) then show kv else "") l) = concat_strings (map show (filter (fun kv => f (fst kv)) l)).
Proof. induction l as [|a l IH]; cbn; [reflexivity|]. destruct (f (fst a)); cbn; now rewrite IH. Qed.
Lemma filter_strong {V} (f : string * V -> bool) l : StronglySorted klt l -> StronglySorted klt (filter f l).
Proof.
  induction 1 as [|a l H IH Hf]; cbn; [constructor|]. destruct (f a); [|exact IH]. constructor; [exact IH|]. apply Forall_forall. intros b Hb. apply filter_In in Hb as [Hb _]. rewrite Forall_forall in Hf. auto.
Qed.
(** The one sorted list of what is mentioned. *)
Lemma listed_only {V} (keys : list (string * V)) (key : string -> option V) s s' l : NoDup (map fst keys) -> (forall n v, key n = Some v <-> In (n, v) keys) -> (forall n, mentions s n <-> mentions s' n) ->
  (StronglySorted before l /\ (forall n v, In (n, v) l <-> mentions s n /\ key n = Some v) <-> l = filter (fun kv => mem_string (fst kv) (GetVariables s')) (Ordered keys)).
Proof.
  intros HN Hk Hm. assert (StronglySorted klt (filter (fun kv => mem_string (fst kv) (GetVariables s')) (Ordered keys))) as Hs by (apply filter_strong, ordered_strong, HN).
  assert (forall n v, In (n, v) (filter (fun kv => mem_string (fst kv) (GetVariables s')) (Ordered keys)) <-> mentions s n /\ key n = Some v) as Hi.
  { intros n v. rewrite filter_In, ordered_in, mem_string_in, GetVariables_in, Hk, Hm. cbn. tauto. }
  split.
  - intros [H1 H2]. apply strong_unique; [now apply sorted_before|exact Hs|]. intros [n v]. rewrite H2, Hi. reflexivity.
  - intros ->. split; [now apply sorted_before|exact Hi].
Qed.
Lemma table_told ctx name prio keys key s s' x r text : ec_ctx ctx = CtxTable name prio keys -> NoDup (map fst keys) -> (forall n v, key n = Some v <-> In (n, v) keys) -> (forall n, mentions s n <-> mentions s' n) ->
  QuoteSubConstraint (ec_src ctx) (e_start s) (e_end s) = Ok r -> (table_report name (ec_src ctx) key prio s x text <-> text = violation_text ctx s' x r).
Proof.
  intros Hc HN Hk Hm Hq. unfold violation_text. rewrite Hc. cbv zeta beta.
  rewrite (picked (fun kv : string * value => "Field: " ++ dq ++ fst kv ++ dq ++ " -> Value: " ++ EvalResultToString (snd kv) ++ nl) (fun n => mem_string n (GetVariables s'))). split.
  - intros (quote & l & Hq' & H1 & H2 & ->). assert (quote = r) as -> by congruence. assert (l = filter (fun kv => mem_string (fst kv) (GetVariables s')) (Ordered keys)) as -> by (apply (listed_only keys key s s' l HN Hk Hm); auto).
    rewrite concat_all. reflexivity.
  - intros ->. exists r, (filter (fun kv => mem_string (fst kv) (GetVariables s')) (Ordered keys)). split; [exact Hq|]. destruct (proj2 (listed_only keys key s s' _ HN Hk Hm) eq_refl) as [H1 H2]. split; [exact H1|]. split; [exact H2|].
    rewrite concat_all. reflexivity.
Qed.
Lemma action_told ctx id name params param s s' x r text : ec_ctx ctx = CtxAction id name params -> NoDup (map fst params) -> (forall n v, param n = Some v <-> In (n, v) params) -> (forall n, mentions s n <-> mentions s' n) ->
  QuoteSubConstraint (ec_src ctx) (e_start s) (e_end s) = Ok r -> (action_report name (ec_src ctx) param s x text <-> text = violation_text ctx s' x r).
Proof.
  intros Hc HN Hk Hm Hq. unfold violation_text. rewrite Hc. cbv zeta beta.
  rewrite (picked (fun kv : string * Z => "Param name: " ++ dq ++ fst kv ++ dq ++ " -> Value: " ++ dec (snd kv) ++ nl) (fun n => mem_string n (GetVariables s'))). split.
  - intros (quote & l & Hq' & H1 & H2 & ->). assert (quote = r) as -> by congruence. assert (l = filter (fun kv => mem_string (fst kv) (GetVariables s')) (Ordered params)) as -> by (apply (listed_only params param s s' l HN Hk Hm); auto).
    rewrite concat_all. reflexivity.
  - intros ->. exists r, (filter (fun kv => mem_string (fst kv) (GetVariables s')) (Ordered params)). split; [exact Hq|]. destruct (proj2 (listed_only params param s s' _ HN Hk Hm) eq_refl) as [H1 H2]. split; [exact H1|]. split; [exact H2|].
    rewrite concat_all. reflexivity.
Qed.

(** * Judgements *)
Lemma reports_fun o v v' : reports o v -> reports o v' -> v = v'.
Proof. destruct v, v'; cbn; [congruence|intros -> [? ?]; discriminate|intros [? ->]; discriminate|intros [? ->] [? [= ->]]; reflexivity]. Qed.
Section S.
  Variables (ai : option action_info) (ti : option table_info) (G : scope).
  Hypothesis HG : in_scope ai ti G.
  Hypothesis Hbits : only_bits G.
  Variable ctx : eval_context.
  Hypothesis Hfit : env_fits G (env_of ctx).
  Hypothesis Hnb : no_bool G.
  Variable rep : expr -> bool -> string -> Prop.
  Hypothesis Hrep : forall s s' x r text, (forall n, mentions s n <-> mentions s' n) -> QuoteSubConstraint (ec_src ctx) (e_start s) (e_end s) = Ok r -> (rep s x text <-> text = violation_text ctx s' x r).
  Notation truth_of := (truth_of G ctx).
  Lemma judged e e' v : Infer ai ti e = Ok e' -> e_type e' = TBool -> literals e -> (forall s, sub s e -> exists r, QuoteSubConstraint (ec_src ctx) (e_start s) (e_end s) = Ok r) ->
    (forall w, check ctx e' <> Crash w) -> (Judged truth_of rep e v <-> reports (check ctx e') v).
  Proof.
    intros Hi Ht Hl Hq Hnc. pose proof (fun x => truth_ev ai ti G HG ctx Hfit e e' x Hi Hl) as HT. pose proof (truth_fun ai ti G HG ctx) as HF.
    assert (forall s s', Infer ai ti s = Ok s' -> e_start s' = e_start s /\ e_end s' = e_end s /\ forall n, mentions s n <-> mentions s' n) as Hsame.
    { intros s s' Hs. destruct (infer_ok ai ti G HG _ _ Hs) as (_ & _ & Hb & E1 & E2). split; [exact E1|]. split; [exact E2|]. intros n. rewrite <- (bare_mentions s), <- (bare_mentions s'), Hb. reflexivity. }
    assert (exists v, Judged truth_of rep e v /\ reports (check ctx e') v /\ forall v', Judged truth_of rep e v' -> v' = v) as (v0 & HJ & HR & HU).
    2: { split; [intros H; rewrite (HU _ H); exact HR|intros H; rewrite (reports_fun _ _ _ H HR); exact HJ]. }
    unfold check in *. destruct (ev_bool ctx e') as [x|c m|w] eqn:Ev; cbn [bind] in *.
    - destruct x.
      + exists (Says ""). assert (truth_of e true) as H by (apply HT; reflexivity). split; [now apply jd_true|]. split; [reflexivity|]. intros v' [H'|s x t H' _ _ _|c H' _|H']; [reflexivity| | |exfalso; exact (H' _ H)]; discriminate (HF _ _ _ H H').
      + assert (truth_of e false) as H by (apply HT; reflexivity). unfold explain in *.
        destruct (search ai ti G HG Hbits ctx Hfit Hnb e e' [] false Hi Ht Hl Ev) as [(s & s' & q & H1 & H2 & H3 & H4 & H5)|[(c & m & H1 & H2)|(w & H1)]]; rewrite H1 in *; cbn [bind] in *.
        * destruct (Hsame s s' H3) as (E1 & E2 & E3). destruct (Hq s H4) as [r Hr].
          assert (exists x, ev_bool ctx s' = Ok x) as [x Hx]. { pose proof (minimal_best ctx e' _ _ _ H1) as (q' & _ & HB & _). destruct (sufficient ctx e' q' s' HB false Ev) as (b & Hbs & _). eauto. }
          rewrite Hx in *. cbn [bind] in *. rewrite E1, E2, Hr in *. cbn [bind] in *. assert (truth_of s x) as Hsx by (apply (truth_ev ai ti G HG ctx Hfit s s' x H3 H5); exact Hx).
          exists (Says (violation_text ctx s' x r)). split; [eapply jd_false; eauto; now apply (Hrep s s' x r)|]. split; [reflexivity|].
          intros v' [H'|s2 x2 t H' He Hx2 Hr2|c H' Hu|H'].
          { discriminate (HF _ _ _ H H'). }
          { assert (s2 = s) as -> by (exact (explained_fun _ HF _ _ He _ H2)). assert (x2 = x) as -> by (eapply HF; eauto). f_equal. now apply (Hrep s s' x r). }
          { exfalso. exact (explained_not _ HF _ _ H2 _ Hu). }
          { exfalso. exact (H' _ H). }
        * exists (Failed c). split; [now apply jd_unexplained|]. split; [cbn; eauto|]. intros v' [H'|s2 x2 t H' He Hx2 Hr2|c' H' Hu|H'].
          { discriminate (HF _ _ _ H H'). }
          { exfalso. exact (explained_not _ HF _ _ He _ H2). }
          { f_equal. exact (unexplained_fun _ HF _ _ Hu _ H2). }
          { exfalso. exact (H' _ H). }
        * exfalso. exact (Hnc _ eq_refl).
    - destruct (infer_ok ai ti G HG _ _ Hi) as (_ & Han & _). assert (c = Internal) as -> by (eapply ev_bool_err; eauto). exists (Failed Internal).
      assert (forall x, ~ truth_of e x) as H by (intros x Hx; apply HT in Hx; congruence). split; [now apply jd_none|]. split; [cbn; eauto|].
      intros v' [H'|s2 x2 t H' He Hx2 Hr2|c' H' Hu|H']; [destruct (H _ H')..|reflexivity].
    - exfalso. exact (Hnc _ eq_refl).
  Qed.
End S.
