(** Facts for C77: forgetting the log gives the model; what is logged. *)
From Coq Require Import String Ascii List ZArith NArith Bool Lia.
From Verif Require Import Base Num Token Ast Quote Info TypeChecker Interpreter Traced SpecWork EvalFacts.
Import ListNotations.
Open Scope list_scope.

Lemma fst_lbind {A B} (r : logged (res A)) (f : A -> eval_cache -> logged (res B)) : fst (lbind r f) = rbind (fst r) (fun a c => fst (f a c)).
Proof. destruct r as [[[a|k m|w] c] t]; cbn; [destruct (f a c)|..]; reflexivity. Qed.
Lemma rbind_ext {A B} (r : res A) (f g : A -> eval_cache -> res B) : (forall a c, f a c = g a c) -> rbind r f = rbind r g.
Proof. intros H. destruct r as [[a|k m|w] c]; cbn; auto. Qed.
Lemma rbind_ext2 {A B} (r r' : res A) (f g : A -> eval_cache -> res B) : r = r' -> (forall a c, f a c = g a c) -> rbind r f = rbind r' g.
Proof. intros -> H. now apply rbind_ext. Qed.

Section Ctx.
  Variable ctx : eval_context.
  Lemma fst_bool ev lev e p c : (forall c, fst (lev e p c) = ev e p c) -> fst (leval_to_bool ctx lev e p c) = eval_to_bool ctx ev e p c.
  Proof.
    intros H. unfold leval_to_bool, eval_to_bool. destruct (match c with Some m => assoc_find path_eqb p m | None => None end); [reflexivity|]. rewrite fst_lbind. apply rbind_ext2; [apply H|reflexivity].
  Qed.
  Lemma fst_int ev lev e p c : (forall c, fst (lev e p c) = ev e p c) -> fst (leval_to_int ctx lev e p c) = eval_to_int ctx ev e p c.
  Proof. intros H. unfold leval_to_int, eval_to_int. rewrite fst_lbind. apply rbind_ext2; [apply H|reflexivity]. Qed.
  Lemma fst_int_annotated ev lev e p c : (forall c, fst (lev e p c) = ev e p c) -> fst (leval_to_int_annotated ctx lev e p c) = eval_to_int_annotated ctx ev e p c.
  Proof. intros H. unfold leval_to_int_annotated, eval_to_int_annotated. rewrite <- (fst_int ev lev e p c H). destruct (leval_to_int ctx lev e p c) as [[o c'] t]. reflexivity. Qed.
  Lemma fst_let {A} (x : logged A) p : fst (let '(r, t) := x in (r, p :: t)) = fst x.
  Proof. now destruct x. Qed.
  Lemma lEval_fst : forall e p c, fst (lEval ctx e p c) = Eval ctx e p c.
  Proof.
    induction e as [m b|m s|m n|m n|m e IH|m e IH|m e IH|m o l IHl r IHr|m f e IH|m n|m]; intros p c; try reflexivity; cbn [lEval]; (etransitivity; [apply (fst_let (A := res value))|]); cbn [Eval]; rewrite fst_lbind; (apply rbind_ext2; [|reflexivity]).
    - rewrite fst_lbind. apply rbind_ext2; [|reflexivity]. apply fst_bool. intros; apply IH.
    - rewrite fst_lbind. apply rbind_ext2; [|reflexivity]. apply fst_int. intros; apply IH.
    - rewrite fst_lbind. apply rbind_ext2; [apply IH|reflexivity].
    - destruct o; try reflexivity; rewrite fst_lbind; (apply rbind_ext2; [first [apply IHl|apply fst_bool; intros; apply IHl|apply fst_int_annotated; intros; apply IHl]|]; intros a c').
      all: try (rewrite fst_lbind; apply rbind_ext2; [first [apply IHr|apply fst_int_annotated; intros; apply IHr]|reflexivity]).
      all: destruct a; try reflexivity; cbv zeta; rewrite fst_lbind; apply rbind_ext2; [apply fst_bool; intros; apply IHr|reflexivity].
    - rewrite fst_lbind. apply rbind_ext2; [apply IH|reflexivity].
  Qed.
  Lemma lEvalToBool_fst e p c : fst (lEvalToBool ctx e p c) = EvalToBool ctx e p c.
  Proof. apply fst_bool. intros. apply lEval_fst. Qed.

  Lemma lSize_fst : forall e p c, fst (lSize e p c) = Size e p c.
  Proof.
    induction e as [m b|m s|m n|m n|m e IH|m e IH|m e IH|m o l IHl r IHr|m f e IH|m n|m]; intros p c; cbn [lSize Size]; destruct (match c with Some m => assoc_find path_eqb p m | None => None end); try reflexivity.
    - rewrite <- IH. destruct (lSize e (false :: p) c) as [[[z|k x|w] c1] t]; reflexivity.
    - rewrite <- IHl. destruct (lSize l (false :: p) c) as [[[z|k x|w] c1] t]; cbn [fst]; try reflexivity. rewrite <- IHr. destruct (lSize r (true :: p) c1) as [[[z2|k x|w] c2] t2]; reflexivity.
  Qed.
  Lemma fst_wbind {A B} (r : eres A * work) (f : A -> eval_cache -> option size_cache -> eres B * work) : fst (wbind r f) = ebind (fst r) (fun a c s => fst (f a c s)).
  Proof. destruct r as [[[[a|k m|w] c] s] t]; cbn; [destruct (f a c s)|..]; reflexivity. Qed.
  Lemma ebind_ext2 {A B} (r r' : eres A) (f g : A -> eval_cache -> option size_cache -> eres B) : r = r' -> (forall a c s, f a c s = g a c s) -> ebind r f = ebind r' g.
  Proof. intros -> H. destruct r' as [[[a|k m|w] c] s]; cbn; auto. Qed.
  Lemma fst_lift_eval {A} (r : logged (res A)) s : fst (llift_eval r s) = lift_eval (fst r) s.
  Proof. now destruct r as [[o c] t]. Qed.
  Lemma fst_lift_size {A} (r : logged (outcome A * option size_cache)) c : fst (llift_size r c) = lift_size (fst r) c.
  Proof. now destruct r as [[o s] t]. Qed.
  Lemma fst_let_work {A} (x : A * work) w0 : fst (let '(r, w) := x in (r, plus w0 w)) = fst x.
  Proof. now destruct x. Qed.
  Lemma lMinimal_fst : forall e p c s, fst (lMinimal ctx e p c s) = MinimalSubexpression ctx e p c s.
  Proof.
    induction e as [m b|m x|m n|m n|m e IH|m e IH|m e IH|m o l IHl r IHr|m f e IH|m n|m]; intros p c s; try reflexivity; cbn [lMinimal]; (etransitivity; [apply (fst_let_work (A := eres (expr * path)))|]).
    - apply IH.
    - destruct o; try reflexivity; cbn [MinimalSubexpression].
      all: rewrite fst_wbind; apply ebind_ext2; [rewrite fst_lift_eval, lEvalToBool_fst; reflexivity|]; intros bl c1 s1.
      all: rewrite fst_wbind; apply ebind_ext2; [rewrite fst_lift_eval, lEvalToBool_fst; reflexivity|]; intros br c2 s2.
      all: cbv zeta; destruct bl, br; cbn [negb]; try reflexivity; try apply IHl; try apply IHr.
      all: rewrite fst_wbind; apply ebind_ext2; [apply IHl|]; intros x0 c3 s3.
      all: rewrite fst_wbind; apply ebind_ext2; [apply IHr|]; intros x1 c4 s4.
      all: rewrite fst_wbind; apply ebind_ext2; [rewrite fst_lift_size, lSize_fst; reflexivity|]; intros n0 c5 s5.
      all: rewrite fst_wbind; apply ebind_ext2; [rewrite fst_lift_size, lSize_fst; reflexivity|]; reflexivity.
  Qed.
  Lemma lExplain_fst e c s : fst (lExplain ctx e c s) = ExplainConstraintViolation ctx e c s.
  Proof.
    unfold lExplain, ExplainConstraintViolation. rewrite <- lMinimal_fst. destruct (lMinimal ctx e [] c s) as [[[[[x p]|k m|w] c1] s1] t]; cbn [fst bind]; try reflexivity.
    rewrite <- lEvalToBool_fst. destruct (lEvalToBool ctx x p c1) as [[o c2] t2]. reflexivity.
  Qed.
  Lemma lcheck_fst e : fst (lcheck_constraint ctx e) = check_constraint ctx e.
  Proof.
    unfold lcheck_constraint, check_constraint. rewrite <- lEvalToBool_fst. destruct (lEvalToBool ctx e [] (Some [])) as [[[b|k m|w] c] t]; cbn [fst bind]; try reflexivity.
    destruct b; [reflexivity|]. rewrite <- lExplain_fst. destruct (lExplain ctx e c (Some [])). reflexivity.
  Qed.
End Ctx.
