(** Errors of loading (proofs for C67). *)
From Coq Require Import String Ascii List ZArith NArith Bool Lia.
From Verif Require Import Base Num Token Ast Lexer Quote AstConstructors Parser Info TypeChecker ConstraintInfo SpecLexer SpecGrammar SpecTyping SpecSemantics SpecInfo SpecReport
  StrFacts SemFacts EntryFacts ExplainFacts InfoFacts InfoFacts2.
Import ListNotations.
Open Scope string_scope.

Section Collect.
  Context {D I : Type} (parse : D -> outcome I) (id : D -> N) (dup : string).
  Definition good d := exists i, parse d = Ok i.
  Definition bad d m := exists c, parse d = Err c m.
  Lemma report_taken ds : forall t t' es, (forall x, In x t <-> In x t') -> Report good bad id dup t ds es -> Report good bad id dup t' ds es.
  Proof.
    intros t t' es Ht H. revert t' Ht. induction H as [taken|taken d ds m es Hd H IH|taken d ds es Hd Hi H IH|taken d ds es Hd Hi H IH]; intros t' Ht.
    - constructor.
    - apply rp_fails; auto.
    - apply rp_taken; auto. now apply Ht.
    - apply rp_fine; auto; [now rewrite <- Ht|]. apply IH. intros x. cbn. now rewrite Ht.
  Qed.
  (** The errors collected are the report. *)
  Lemma collect_reports ds : forall bi es0 r es, collect parse id dup ds bi es0 = Ok (r, es) -> exists es1, es = (es0 ++ es1)%list /\ Report good bad id dup (map fst bi) ds es1.
  Proof.
    induction ds as [|d ds IH]; intros bi es0 r es H; cbn [collect] in H.
    - injection H as <- <-. exists []. rewrite app_nil_r. split; [reflexivity|constructor].
    - destruct (parse d) as [i|c m|w] eqn:E; [|..|discriminate].
      + destruct (assoc_insert N.eqb (id d) i bi) as [bi'|] eqn:Ei; unfold assoc_insert in Ei; destruct (assoc_find N.eqb (id d) bi) eqn:Ef; try discriminate.
        * injection Ei as <-. apply (afind_none N.eqb N.eqb_eq) in Ef. apply IH in H as (es1 & -> & HR). exists es1. split; [reflexivity|].
          apply rp_fine; [now exists i|exact Ef|]. eapply report_taken; [|exact HR]. intros x. rewrite map_app, in_app_iff. cbn. tauto.
        * apply IH in H as (es1 & -> & HR). exists (dup :: es1). rewrite <- app_assoc. split; [reflexivity|].
          apply rp_taken; [now exists i| |exact HR]. destruct (in_dec N.eq_dec (id d) (map fst bi)) as [Hi|Hi]; [exact Hi|]. apply (afind_none N.eqb N.eqb_eq) in Hi. congruence.
      + apply IH in H as (es1 & -> & HR). exists (m :: es1). rewrite <- app_assoc. split; [reflexivity|]. apply rp_fails; [now exists c|exact HR].
  Qed.
  Lemma report_collect ds : forall taken es1, Report good bad id dup taken ds es1 -> forall bi es0, exists r, collect parse id dup ds bi es0 = Ok r.
  Proof.
    intros taken es1 H bi es0. edestruct (collect_result parse id dup) as [Hr|(d & w & Hd & Hp & _)]; [exact Hr|exfalso].
    induction H as [taken|taken d' ds m es [c Hc] H IH|taken d' ds es [i Hc] Hi H IH|taken d' ds es [i Hc] Hi H IH]; [contradiction|..]; destruct Hd as [->|Hd]; try congruence; auto.
  Qed.
  Lemma report_fun ds : forall taken es es', Report good bad id dup taken ds es -> Report good bad id dup taken ds es' -> es = es'.
  Proof.
    intros taken es es' H. revert es'. induction H as [taken|taken d ds m es [c Hc] H IH|taken d ds es [i Hc] Hi H IH|taken d ds es [i Hc] Hi H IH]; intros es' H'; inversion H'; subst; try reflexivity;
      repeat match goal with H : good _ |- _ => destruct H as [? ?] | H : bad _ _ |- _ => destruct H as [? ?] end; try congruence; try contradiction; try (f_equal; first [congruence|auto]); auto.
  Qed.
End Collect.
Lemma report_ext {decl} fine fine' fails fails' id dup : (forall d : decl, fine d <-> fine' d) -> (forall (d : decl) m, fails d m <-> fails' d m) ->
  forall ds taken es, Report fine fails id dup taken ds es <-> Report fine' fails' id dup taken ds es.
Proof.
  intros H1 H2 ds taken es. split; induction 1; [constructor|apply rp_fails; [now apply H2|assumption]|apply rp_taken; [now apply H1|assumption..]|apply rp_fine; [now apply H1|assumption..]
    |constructor|apply rp_fails; [now apply H2|assumption]|apply rp_taken; [now apply H1|assumption..]|apply rp_fine; [now apply H1|assumption..]].
Qed.
Lemma items_join es e : nl ++ "- " ++ join (nl ++ "- ") (map (fun m => m ++ nl) (e :: es)) = items (e :: es).
Proof.
  revert e. induction es as [|f es IH]; intros e.
  - cbn [map join items]. now rewrite !sapp_nil_r.
  - specialize (IH f). cbn [items]. cbn [items] in IH. rewrite <- IH. cbn [map join]. now rewrite !sapp_assoc.
Qed.

Section Load.
  Variable pton : inet_pton6.
  Notation fine_t := (fun d => exists ci, P4ToConstraintInfo pton (one_table d) = Ok ci).
  Notation fails_t := (fun d m => P4ToConstraintInfo pton (one_table d) = Err InvalidArgument (listed [m])).
  Notation fine_a := (fun d => exists ci, P4ToConstraintInfo pton (one_action d) = Ok ci).
  Notation fails_a := (fun d m => P4ToConstraintInfo pton (one_action d) = Err InvalidArgument (listed [m])).
  Lemma listed_inj m m' : listed [m] = listed [m'] -> m = m'.
  Proof. unfold listed. intros H. apply sapp_inv_head in H. cbn [items] in H. rewrite !sapp_nil_r in H. apply sapp_inv_head in H. apply sapp_inv_head in H. now apply sapp_inv_tail in H. Qed.
  Lemma one_table_load d : P4ToConstraintInfo pton (one_table d) = match ParseTableInfo pton d with Ok i => Ok (mkInfo [] [(pr_id (pt_preamble d), i)]) | Err _ m => Err InvalidArgument (listed [m]) | Crash w => Crash w end.
  Proof.
    unfold P4ToConstraintInfo, one_table. cbn [p4_tables p4_actions collect]. destruct (ParseTableInfo pton d) as [i|c m|w]; cbn [bind]; [reflexivity| |reflexivity].
    cbn [app]. unfold listed. rewrite <- items_join. reflexivity.
  Qed.
  Lemma one_action_load d : P4ToConstraintInfo pton (one_action d) = match ParseActionInfo pton d with Ok i => Ok (mkInfo [(pr_id (pad_preamble d), i)] []) | Err _ m => Err InvalidArgument (listed [m]) | Crash w => Crash w end.
  Proof.
    unfold P4ToConstraintInfo, one_action. cbn [p4_tables p4_actions collect bind]. destruct (ParseActionInfo pton d) as [i|c m|w]; cbn [bind]; [reflexivity| |reflexivity].
    cbn [app]. unfold listed. rewrite <- items_join. reflexivity.
  Qed.
  Lemma table_report ds taken es : Report fine_t fails_t (fun d => pr_id (pt_preamble d)) "duplicate table: " taken ds es <->
    Report (good (ParseTableInfo pton)) (bad (ParseTableInfo pton)) (fun d => pr_id (pt_preamble d)) "duplicate table: " taken ds es.
  Proof.
    apply report_ext.
    - intros d. rewrite one_table_load. unfold good. destruct (ParseTableInfo pton d); split; intros [? H]; eauto; discriminate.
    - intros d m. rewrite one_table_load. unfold bad. destruct (ParseTableInfo pton d) as [|c m'|]; (split; [intros H|intros [? H]]); try discriminate; [assert (listed [m'] = listed [m]) as E by congruence; apply listed_inj in E as ->; eauto|injection H as -> ->; reflexivity].
  Qed.
  Lemma action_report ds taken es : Report fine_a fails_a (fun d => pr_id (pad_preamble d)) "duplicate action: " taken ds es <->
    Report (good (ParseActionInfo pton)) (bad (ParseActionInfo pton)) (fun d => pr_id (pad_preamble d)) "duplicate action: " taken ds es.
  Proof.
    apply report_ext.
    - intros d. rewrite one_action_load. unfold good. destruct (ParseActionInfo pton d); split; intros [? H]; eauto; discriminate.
    - intros d m. rewrite one_action_load. unfold bad. destruct (ParseActionInfo pton d) as [|c m'|]; (split; [intros H|intros [? H]]); try discriminate; [assert (listed [m'] = listed [m]) as E by congruence; apply listed_inj in E as ->; eauto|injection H as -> ->; reflexivity].
  Qed.
  Lemma load_report p m : P4ToConstraintInfo pton p = Err InvalidArgument m <->
    exists es es', Report fine_t fails_t (fun d => pr_id (pt_preamble d)) "duplicate table: " [] (p4_tables p) es /\
      Report fine_a fails_a (fun d => pr_id (pad_preamble d)) "duplicate action: " [] (p4_actions p) es' /\ (es ++ es')%list <> [] /\ m = listed (es ++ es').
  Proof.
    assert (forall es, es <> [] -> Err InvalidArgument ("P4Info to constraint info translation failed with the following errors:" ++ nl ++ "- " ++ join (nl ++ "- ") (map (fun m => m ++ nl) es)) = @Err constraint_info InvalidArgument (listed es)) as HE.
    { intros [|e es] H; [congruence|]. unfold listed. now rewrite <- items_join. }
    split.
    - unfold P4ToConstraintInfo. intros H. destruct (collect (ParseTableInfo pton) _ _ _ _ _) as [[ts es]|c0 m0|] eqn:E1; [|exfalso|discriminate].
      + cbn [bind] in H. destruct (collect (ParseActionInfo pton) _ _ _ _ _) as [[as_ es']|c0 m0|] eqn:E2; [|exfalso|discriminate].
        * cbn [bind] in H. apply collect_reports in E1 as (es1 & -> & R1). apply collect_reports in E2 as (es2 & -> & R2). cbn [app map] in *.
          exists es1, es2. split; [now apply table_report|]. split; [now apply action_report|]. destruct (es1 ++ es2)%list as [|e es] eqn:Ee; [discriminate|]. split; [discriminate|].
          rewrite HE in H by discriminate. congruence.
        * edestruct (collect_result (ParseActionInfo pton)) as [[r Hr]|(d & w & _ & _ & Hr)]; rewrite Hr in E2; discriminate.
      + edestruct (collect_result (ParseTableInfo pton)) as [[r Hr]|(d & w & _ & _ & Hr)]; rewrite Hr in E1; discriminate.
    - intros (es & es' & R1 & R2 & Hne & ->). apply table_report in R1. apply action_report in R2. unfold P4ToConstraintInfo.
      destruct (report_collect _ _ _ _ _ _ R1 [] []) as [[ts es1] E1]. rewrite E1. cbn [bind]. destruct (report_collect _ _ _ _ _ _ R2 [] es1) as [[as_ es2] E2]. rewrite E2. cbn [bind].
      apply collect_reports in E1 as (x & -> & R1'). apply collect_reports in E2 as (y & -> & R2'). cbn [app map] in *.
      rewrite (report_fun _ _ _ _ _ _ _ R1' R1), (report_fun _ _ _ _ _ _ _ R2' R2). destruct (es ++ es')%list as [|e l] eqn:Ee; [congruence|]. rewrite HE by discriminate. reflexivity.
  Qed.
  Lemma items_in es e : In e es -> exists a b, items es = a ++ (nl ++ "- " ++ e ++ nl) ++ b.
  Proof.
    induction es as [|f es IH]; [contradiction|]. intros [->|H].
    - exists "", (items es). cbn [items]. now rewrite !sapp_assoc.
    - destruct (IH H) as (a & b & E). cbn [items]. rewrite E. exists ((nl ++ "- " ++ f ++ nl) ++ a), b. now rewrite !sapp_assoc.
  Qed.
  Lemma report_in {decl} fine fails id dup ds : forall taken es (d : decl) m, Report fine fails id dup taken ds es -> (forall d, fine d -> forall m, ~ fails d m) -> (forall d m m', fails d m -> fails d m' -> m = m') ->
    In d ds -> fails d m -> In m es.
  Proof.
    intros taken es d m H Hx Hf Hd Hm. induction H as [taken|taken d' ds m' es Hc H IH|taken d' ds es Hc Hi H IH|taken d' ds es Hc Hi H IH]; [contradiction|..]; destruct Hd as [->|Hd]; auto.
    - left. eauto.
    - now right; auto.
    - destruct (Hx _ Hc _ Hm).
    - now right; auto.
    - destruct (Hx _ Hc _ Hm).
  Qed.
End Load.
