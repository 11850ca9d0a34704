(** Declarations load iff their parts are well-formed (C58, C62). *)
From Coq Require Import String Ascii List ZArith NArith Bool Lia.
From Verif Require Import Base Num Token Ast Lexer Quote AstConstructors Parser Info TypeChecker ConstraintInfo Interpreter SpecLexer SpecGrammar SpecTyping SpecSemantics SpecInfo SpecReading
  StrFacts NumFacts LiteralFacts ParserFacts4 TypeFacts EvalFacts SemFacts SemFacts2 EntryFacts ExplainFacts VerdictFacts InfoFacts InfoFacts2 InterpFacts InterpFacts2 ReadingFacts ReadingFacts2.
Import ListNotations.
Open Scope string_scope.

Lemma decl_names_k fs ks : Forall2 key_decl fs ks -> map k_name ks = map mf_name fs.
Proof. induction 1 as [|f k fs ks (_ & E & _) _ IH]; cbn; congruence. Qed.
Lemma decl_ids_k fs ks : Forall2 key_decl fs ks -> map k_id ks = map mf_id fs.
Proof. induction 1 as [|f k fs ks (E & _) _ IH]; cbn; congruence. Qed.
Lemma decl_names_p fs ks : Forall2 param_decl fs ks -> map k_name ks = map ap_name fs.
Proof. induction 1 as [|f k fs ks (_ & E & _) _ IH]; cbn; congruence. Qed.
Lemma decl_ids_p fs ks : Forall2 param_decl fs ks -> map k_id ks = map ap_id fs.
Proof. induction 1 as [|f k fs ks (E & _) _ IH]; cbn; congruence. Qed.
Lemma table_loads_iff pton d : pton_ok pton -> ((exists t, ParseTableInfo pton d = Ok t) <-> loadable_table pton d).
Proof.
  intros Hp. split.
  - intros [t H]. apply table_parsed in H as [ks [_ _ Hf HK Hc]]. exists ks. split; [exact Hf|]. split; [rewrite <- (decl_ids_k _ _ Hf); apply HK|]. split; [rewrite <- (decl_names_k _ _ Hf); apply HK|].
    destruct Hc as [(Hu & _)|(e0 & e & Hr & Hpc & Hi & _)]; [now left|right]. exists (ti_source t), e0, (e_type e). split; [exact Hr|]. split; [now apply (text_iff pton Hp)|].
    apply (typed_ext _ _ _ _ (key_scope_same t ks HK)). exact (proj1 (infer_ok None (Some t) _ (table_in_scope t ks HK) _ _ Hi)).
  - intros (ks & Hf & N1 & N2 & Hc). rewrite <- (decl_ids_k _ _ Hf) in N1. rewrite <- (decl_names_k _ _ Hf) in N2.
    set (mk := fun c cs => mkTable (pr_id (pt_preamble d)) (pr_name (pt_preamble d)) c cs (map (fun k => (k_id k, k)) ks) (map (fun k => (k_name k, k)) ks)).
    assert (forall c cs, table_keys (mk c cs) ks) as HK by (intros c cs; split; cbn; auto; try (intros x; tauto); rewrite map_map; assumption).
    assert (exists t, table_of pton d ks t) as [t Ht].
    { destruct Hc as [Hu|(cs & e0 & ty & Hr & Hra & Hty)].
      - exists (mk None (mkCSource "" (mkLoc 0 0 SrcNone))). split; [reflexivity..|exact Hf|apply HK|]. left. auto.
      - destruct (infer_complete None (Some (mk None cs)) _ (table_in_scope _ ks (HK None cs)) _ _ Hty) as (e & Hi & _). exists (mk (Some e) cs). split; [reflexivity..|exact Hf|apply HK|]. right.
        exists e0, e. split; [exact Hr|]. split; [now apply (text_iff pton Hp)|]. split; [|reflexivity]. rewrite <- Hi. apply infer_ext_t; reflexivity. }
    apply table_parses in Ht as (t' & Ht' & _). eauto.
Qed.
Lemma action_loads_iff pton d : pton_ok pton -> ((exists t, ParseActionInfo pton d = Ok t) <-> loadable_action pton d).
Proof.
  intros Hp. split.
  - intros [t H]. apply action_parsed in H as [ks [_ _ Hf HK Hc]]. exists ks. split; [exact Hf|]. split; [rewrite <- (decl_ids_p _ _ Hf); apply HK|]. split; [rewrite <- (decl_names_p _ _ Hf); apply HK|].
    destruct Hc as [(Hu & _)|(e0 & e & Hr & Hpc & Hi & _)]; [now left|right]. exists (ai_source t), e0, (e_type e). split; [exact Hr|]. split; [now apply (text_iff pton Hp)|].
    apply (typed_ext _ _ _ _ (param_scope_same t ks HK)). exact (proj1 (infer_ok (Some t) None _ (action_in_scope t ks HK) _ _ Hi)).
  - intros (ks & Hf & N1 & N2 & Hc). rewrite <- (decl_ids_p _ _ Hf) in N1. rewrite <- (decl_names_p _ _ Hf) in N2.
    set (mk := fun c cs => mkAction (pr_id (pad_preamble d)) (pr_name (pad_preamble d)) c cs (map (fun k => (k_id k, k)) ks) (map (fun k => (k_name k, k)) ks)).
    assert (forall c cs, action_params (mk c cs) ks) as HK by (intros c cs; split; cbn; auto; try (intros x; tauto); rewrite map_map; assumption).
    assert (exists t, action_of pton d ks t) as [t Ht].
    { destruct Hc as [Hu|(cs & e0 & ty & Hr & Hra & Hty)].
      - exists (mk None (mkCSource "" (mkLoc 0 0 SrcNone))). split; [reflexivity..|exact Hf|apply HK|]. left. auto.
      - destruct (infer_complete (Some (mk None cs)) None _ (action_in_scope _ ks (HK None cs)) _ _ Hty) as (e & Hi & _). exists (mk (Some e) cs). split; [reflexivity..|exact Hf|apply HK|]. right.
        exists e0, e. split; [exact Hr|]. split; [now apply (text_iff pton Hp)|]. split; [|reflexivity]. rewrite <- Hi. apply infer_ext_a; reflexivity. }
    apply action_parses in Ht as (t' & Ht' & _). eauto.
Qed.
