(** The evaluator and the explainer without caches, and their agreement with the
    cached ones. *)
From Coq Require Import String Ascii List ZArith NArith Bool Lia.
From Verif Require Import Base Num Token Ast Quote Info TypeChecker Interpreter.
Import ListNotations.
Open Scope string_scope.

Lemma path_eqb_eq a b : path_eqb a b = true <-> a = b.
Proof.
  revert b. induction a as [|x a IH]; intros [|y b]; cbn; try (split; congruence).
  rewrite andb_true_iff, eqb_true_iff, IH. split; [intros [-> ->]; reflexivity|intros [= -> ->]; auto].
Qed.
Lemma path_eqb_refl a : path_eqb a a = true.
Proof. now apply path_eqb_eq. Qed.
Lemma find_app {V} p (m : list (path * V)) q v : assoc_find path_eqb p (m ++ [(q, v)]) =
  match assoc_find path_eqb p m with Some x => Some x | None => if path_eqb p q then Some v else None end.
Proof. induction m as [|[k x] m IH]; cbn; [reflexivity|]. destruct (path_eqb p k); [reflexivity|exact IH]. Qed.
Lemma cache_insert_find {V} p q (v : V) m : assoc_find path_eqb q (cache_insert p v m) =
  match assoc_find path_eqb q m with Some x => Some x | None => if path_eqb q p then Some v else None end.
Proof.
  unfold cache_insert, assoc_insert. destruct (assoc_find path_eqb p m) as [x|] eqn:E; [|apply find_app].
  destruct (assoc_find path_eqb q m) as [y|] eqn:Eq; [reflexivity|]. destruct (path_eqb q p) eqn:Ep; [|reflexivity].
  apply path_eqb_eq in Ep. congruence.
Qed.

(** The subexpression at a path. *)
Definition child (e : expr) (d : bool) : option expr :=
  match e, d with
  | ENot _ a, false | ENeg _ a, false | ECast _ a, false | EField _ _ a, false | EBin _ _ a _, false => Some a
  | EBin _ _ _ b, true => Some b
  | _, _ => None
  end.
Fixpoint at_path (root : expr) (p : path) : option expr :=
  match p with
  | [] => Some root
  | d :: p => match at_path root p with Some e => child e d | None => None end
  end.

(** * Sizes *)
Fixpoint size (e : expr) : outcome Z :=
  match e with
  | EBool _ _ | EInt _ _ | EKey _ _ | ENeg _ _ | ECast _ _ | EField _ _ _ | EAttr _ _ => Ok 1%Z
  | EBin _ _ a b => let* na := size a in let* nb := size b in Ok (1 + na + nb)%Z
  | ENot _ a => let* na := size a in Ok (1 + na)%Z
  | EParam _ _ | ENotSet _ => Err InvalidArgument "invalid expression: "
  end.
Definition size_ok (root : expr) (c : option size_cache) : Prop :=
  match c with
  | None => True
  | Some m => forall p n, assoc_find path_eqb p m = Some n -> exists e, at_path root p = Some e /\ size e = Ok n
  end.
Lemma size_store root p e n c : at_path root p = Some e -> size e = Ok n -> size_ok root c -> size_ok root (option_map (cache_insert p n) c).
Proof.
  destruct c as [m|]; cbn; [|auto]. intros Hp Hn H q k. rewrite cache_insert_find. destruct (assoc_find path_eqb q m) as [x|] eqn:E.
  - intros [= <-]. eauto.
  - destruct (path_eqb q p) eqn:Ep; [|discriminate]. apply path_eqb_eq in Ep as ->. intros [= <-]. eauto.
Qed.
Lemma Size_spec root e : forall p c, at_path root p = Some e -> size_ok root c ->
  fst (Size e p c) = size e /\ size_ok root (snd (Size e p c)) /\ (c = None -> snd (Size e p c) = None).
Proof.
  induction e as [m b|m s|m n|m n|m e IH|m e IH|m e IH|m o l IHl r IHr|m f e IH|m n|m]; intros p c Hp Hc.
  all: cbn [Size]; destruct (match c with Some m => assoc_find path_eqb p m | None => None end) as [k|] eqn:Ec;
    [destruct c as [mm|]; [|discriminate]; destruct (Hc _ _ Ec) as (e0 & He0 & Hk); rewrite Hp in He0; injection He0 as <-; cbn [fst snd]; rewrite Hk; split; [reflexivity|split; [exact Hc|discriminate]]|].
  all: try (split; [reflexivity|split; [exact Hc|auto]]).
  - specialize (IH (false :: p) c). cbn [at_path] in IH. rewrite Hp in IH. specialize (IH eq_refl Hc).
    destruct (Size e (false :: p) c) as [o c1]. cbn [fst snd] in IH. destruct IH as (E & Hc1 & HN). cbn [size]. rewrite <- E.
    destruct o as [na| |]; cbn [fst snd bind]; [|auto|auto]. split; [reflexivity|]. split; [|intros Hn; rewrite (HN Hn); reflexivity].
    apply (size_store root p (ENot m e)); [exact Hp| |exact Hc1]. cbn. now rewrite <- E.
  - specialize (IHl (false :: p) c). cbn [at_path] in IHl. rewrite Hp in IHl. specialize (IHl eq_refl Hc).
    destruct (Size l (false :: p) c) as [ol c1]. cbn [fst snd] in IHl. destruct IHl as (El & Hc1 & HN1). cbn [size]. rewrite <- El.
    destruct ol as [na| |]; cbn [fst snd bind]; [|auto|auto].
    specialize (IHr (true :: p) c1). cbn [at_path] in IHr. rewrite Hp in IHr. specialize (IHr eq_refl Hc1).
    destruct (Size r (true :: p) c1) as [or c2]. cbn [fst snd] in IHr. destruct IHr as (Er & Hc2 & HN2). rewrite <- Er.
    destruct or as [nb| |]; cbn [fst snd bind]; [|split; [reflexivity|split; [exact Hc2|auto]]|split; [reflexivity|split; [exact Hc2|auto]]].
    split; [reflexivity|]. split; [|intros Hn; rewrite (HN2 (HN1 Hn)); reflexivity].
    apply (size_store root p (EBin m o l r)); [exact Hp| |exact Hc2]. cbn. now rewrite <- El, <- Er.
Qed.

Section Ctx.
  Variable ctx : eval_context.
  Notation src := (ec_src ctx).

  (** * Evaluation *)
  Definition as_bool (e : expr) (v : value) : outcome bool :=
    match v with VBool b => Ok b | _ => RuntimeTypeError src e "expected expression of type bool" end.
  Definition as_int (e : expr) (v : value) : outcome Z :=
    match v with VInt z => Ok z | _ => RuntimeTypeError src e "expected expression of integral type" end.
  Fixpoint ev (e : expr) : outcome value :=
    let* v :=
      match e with
      | EBool _ b => Ok (VBool b)
      | EInt _ s =>
          match mpz_set_str s 10 with
          | Some z => Ok (VInt z)
          | None => Err Internal ("AST invariant violated; invalid decimal string: " ++ s)
          end
      | EKey _ key =>
          match ec_ctx ctx with
          | CtxAction _ _ _ => RuntimeTypeError src e "Found a reference to a key in an action constraint."
          | CtxTable name _ keys =>
              match assoc_find String.eqb key keys with
              | None => RuntimeTypeError src e ("unknown key " ++ key ++ " in table " ++ name)
              | Some v => Ok v
              end
          end
      | EParam _ param =>
          match ec_ctx ctx with
          | CtxTable _ _ _ => RuntimeTypeError src e "Found a reference to an action parameter in a table constraint."
          | CtxAction _ name params =>
              match assoc_find String.eqb param params with
              | None => RuntimeTypeError src e ("unknown action parameter " ++ param ++ " in action " ++ name)
              | Some z => Ok (VInt z)
              end
          end
      | EAttr _ name =>
          match ec_ctx ctx with
          | CtxAction _ _ _ => RuntimeTypeError src e "The constraint context does not contain a TableEntry."
          | CtxTable _ priority _ =>
              if String.eqb name "priority" then Ok (VInt priority)
              else RuntimeTypeError src e ("unknown attribute '" ++ name ++ "'")
          end
      | ENot _ a => let* v := ev a in let* b := as_bool a v in Ok (VBool (negb b))
      | ENeg _ a => let* v := ev a in let* z := as_int a v in Ok (VInt (- z))
      | ECast m a => let* v := ev a in CastTo src (m_type m) a v
      | EBin _ op l r =>
          match op with
          | OEQ | ONE =>
              let* vl := ev l in let* vr := ev r in
              Ok (VBool (match op with OEQ => value_eqb vl vr | _ => negb (value_eqb vl vr) end))
          | OGT | OGE | OLT | OLE =>
              let* zl := annotate (let* v := ev l in as_int l v) " in ordered comparison" in
              let* zr := annotate (let* v := ev r in as_int r v) " in ordered comparison" in
              Ok (VBool (ordered op zl zr))
          | OAND | OOR | OIMPLIES =>
              let* bl := (let* v := ev l in as_bool l v) in
              let right := let* br := (let* v := ev r in as_bool r v) in Ok (VBool br) in
              match op with
              | OAND => if bl then right else Ok (VBool false)
              | OOR => if bl then Ok (VBool true) else right
              | _ => if bl then right else Ok (VBool true)
              end
          | UNKNOWN_OPERATOR => Err Internal "unknown binary operator UNKNOWN_OPERATOR encountered at runtime"
          end
      | EField _ field a =>
          let* v := ev a in
          match EvalFieldAccess field v with
          | inl v' => Ok v'
          | inr tyname => RuntimeTypeError src e ("value of type " ++ tyname ++ " has no field " ++ field)
          end
      | ENotSet _ => Err InvalidArgument "invalid expression: "
      end in
    DynamicTypeCheck src e v.
  Definition ev_bool (e : expr) : outcome bool := let* v := ev e in as_bool e v.
  Definition ev_int (e : expr) : outcome Z := let* v := ev e in as_int e v.

  Definition cache_ok (root : expr) (c : eval_cache) : Prop :=
    match c with
    | None => True
    | Some m => forall p b, assoc_find path_eqb p m = Some b -> exists e, at_path root p = Some e /\ ev_bool e = Ok b
    end.
  (** [agrees root o c r]: the cached computation [r], started with the cache [c],
      gives the outcome [o] and a good cache. *)
  Definition agrees {A} (root : expr) (o : outcome A) (c : eval_cache) (r : res A) : Prop :=
    fst r = o /\ cache_ok root (snd r) /\ (c = None -> snd r = None).
  Lemma agrees_ret {A} root (o : outcome A) c : cache_ok root c -> agrees root o c (o, c).
  Proof. intros H. repeat split; auto. Qed.
  Lemma agrees_bind {A B} root (o : outcome A) (f : A -> outcome B) c r (g : A -> eval_cache -> res B) :
    agrees root o c r -> (forall a c', cache_ok root c' -> agrees root (f a) c' (g a c')) ->
    agrees root (bind o f) c (rbind r g).
  Proof.
    destruct r as [[a|k m|w] c1]; intros (<- & Hc & HN) H; cbn in *; [|repeat split; auto..].
    destruct (H a c1 Hc) as (E1 & E2 & E3). repeat split; auto.
  Qed.
  Lemma agrees_ext {A} root (o o' : outcome A) c r : agrees root o c r -> o = o' -> agrees root o' c r.
  Proof. intros H <-. exact H. Qed.
  Lemma to_bool_agrees root (EV : expr -> path -> eval_cache -> res value) e p c : at_path root p = Some e -> cache_ok root c ->
    agrees root (ev e) c (EV e p c) -> agrees root (ev_bool e) c (eval_to_bool ctx EV e p c).
  Proof.
    intros Hp Hc H. unfold eval_to_bool. destruct (match c with Some m => assoc_find path_eqb p m | None => None end) as [b|] eqn:Ec.
    - destruct c as [m|]; [|discriminate]. destruct (Hc _ _ Ec) as (e0 & He0 & Hb). rewrite Hp in He0. injection He0 as <-.
      split; [symmetry; exact Hb|]. split; [exact Hc|discriminate].
    - destruct (EV e p c) as [[v|k m|w] c1]; destruct H as (E & Hc1 & HN); cbn [fst snd] in *; unfold ev_bool; rewrite <- E; cbn [bind rbind];
        [|split; [reflexivity|auto]|split; [reflexivity|auto]].
      destruct v; cbn [as_bool]; try (split; [reflexivity|split; assumption]). split; [reflexivity|]. cbn [snd]. split; [|intros HN'; rewrite (HN HN'); reflexivity].
      destruct c1 as [m1|]; cbn [option_map]; [|exact I]. intros q b'. rewrite cache_insert_find. destruct (assoc_find path_eqb q m1) as [x|] eqn:Eq; [intros [= <-]; exact (Hc1 _ _ Eq)|].
      destruct (path_eqb q p) eqn:Ep; [|discriminate]. apply path_eqb_eq in Ep as ->. intros [= <-]. exists e. split; [exact Hp|]. unfold ev_bool. now rewrite <- E.
  Qed.
  Lemma Eval_agrees root e : forall p c, at_path root p = Some e -> cache_ok root c -> agrees root (ev e) c (Eval ctx e p c).
  Proof.
    induction e as [m b|m s|m n|m n|m e IH|m e IH|m e IH|m o l IHl r IHr|m f e IH|m n|m]; intros p c Hp Hc; cbn [ev Eval].
    all: apply agrees_bind; [|intros v c' Hc'; apply agrees_ret; exact Hc'].
    - now apply agrees_ret.
    - destruct (mpz_set_str s 10); now apply agrees_ret.
    - destruct (ec_ctx ctx) as [nm pr ks|]; [|now apply agrees_ret]. destruct (assoc_find String.eqb n ks); now apply agrees_ret.
    - destruct (ec_ctx ctx) as [nm pr ks|id nm ps]; [now apply agrees_ret|]. destruct (assoc_find String.eqb n ps); now apply agrees_ret.
    - assert (at_path root (false :: p) = Some e) as Hp' by (cbn; now rewrite Hp). specialize (IH (false :: p)).
      eapply agrees_ext; [apply agrees_bind; [apply (to_bool_agrees root); [exact Hp'|exact Hc|apply IH; auto]|intros b c' Hc'; apply agrees_ret; exact Hc']|].
      unfold ev_bool. destruct (ev e) as [v| |]; reflexivity.
    - assert (at_path root (false :: p) = Some e) as Hp' by (cbn; now rewrite Hp). specialize (IH (false :: p)). unfold eval_to_int.
      eapply agrees_ext; [apply agrees_bind; [apply agrees_bind; [apply IH; auto|]|intros b c' Hc'; apply agrees_ret; exact Hc']|].
      + intros v c' Hc'. change (match v with VInt z => (Ok z, c') | _ => (RuntimeTypeError src e "expected expression of integral type", c') end) with
          (match v with VInt z => (Ok z, c') | _ => (RuntimeTypeError src e "expected expression of integral type", c') end).
        instantiate (1 := fun v => as_int e v). destruct v; now apply agrees_ret.
      + destruct (ev e) as [v| |]; reflexivity.
    - assert (at_path root (false :: p) = Some e) as Hp' by (cbn; now rewrite Hp). apply agrees_bind; [now apply IH|]. intros v c' Hc'. now apply agrees_ret.
    - assert (at_path root (false :: p) = Some l) as Hl by (cbn; now rewrite Hp). assert (at_path root (true :: p) = Some r) as Hr by (cbn; now rewrite Hp).
      assert (forall x q c, at_path root q = Some x -> cache_ok root c -> (forall p c, at_path root p = Some x -> cache_ok root c -> agrees root (ev x) c (Eval ctx x p c)) ->
        agrees root (annotate (let* v := ev x in as_int x v) " in ordered comparison") c (eval_to_int_annotated ctx (Eval ctx) x q c)) as Hint.
      { intros x q c0 Hq Hc0 Hx. unfold eval_to_int_annotated, eval_to_int. destruct (Hx q c0 Hq Hc0) as (E & H2 & H3).
        destruct (Eval ctx x q c0) as [[v|k mm|w] c1]; cbn [fst snd] in *; rewrite <- E; cbn [rbind bind annotate].
        - destruct v; cbn [as_int]; (split; [reflexivity|auto]).
        - split; [reflexivity|auto].
        - split; [reflexivity|auto]. }
      destruct o.
      + now apply agrees_ret.
      + apply agrees_bind; [now apply IHl|]. intros vl c1 Hc1. apply agrees_bind; [now apply IHr|]. intros vr c2 Hc2. now apply agrees_ret.
      + apply agrees_bind; [now apply IHl|]. intros vl c1 Hc1. apply agrees_bind; [now apply IHr|]. intros vr c2 Hc2. now apply agrees_ret.
      + apply agrees_bind; [now apply Hint|]. intros vl c1 Hc1. apply agrees_bind; [now apply Hint|]. intros vr c2 Hc2. now apply agrees_ret.
      + apply agrees_bind; [now apply Hint|]. intros vl c1 Hc1. apply agrees_bind; [now apply Hint|]. intros vr c2 Hc2. now apply agrees_ret.
      + apply agrees_bind; [now apply Hint|]. intros vl c1 Hc1. apply agrees_bind; [now apply Hint|]. intros vr c2 Hc2. now apply agrees_ret.
      + apply agrees_bind; [now apply Hint|]. intros vl c1 Hc1. apply agrees_bind; [now apply Hint|]. intros vr c2 Hc2. now apply agrees_ret.
      + apply agrees_bind; [apply to_bool_agrees; auto|]. intros bl c1 Hc1. destruct bl; [|now apply agrees_ret].
        apply agrees_bind; [apply to_bool_agrees; auto|]. intros br c2 Hc2. now apply agrees_ret.
      + apply agrees_bind; [apply to_bool_agrees; auto|]. intros bl c1 Hc1. destruct bl; [now apply agrees_ret|].
        apply agrees_bind; [apply to_bool_agrees; auto|]. intros br c2 Hc2. now apply agrees_ret.
      + apply agrees_bind; [apply to_bool_agrees; auto|]. intros bl c1 Hc1. destruct bl; [|now apply agrees_ret].
        apply agrees_bind; [apply to_bool_agrees; auto|]. intros br c2 Hc2. now apply agrees_ret.
    - assert (at_path root (false :: p) = Some e) as Hp' by (cbn; now rewrite Hp). apply agrees_bind; [now apply IH|]. intros v c' Hc'.
      destruct (EvalFieldAccess f v); now apply agrees_ret.
    - destruct (ec_ctx ctx) as [nm pr ks|id nm ps]; [|now apply agrees_ret]. destruct (String.eqb n "priority"); now apply agrees_ret.
    - now apply agrees_ret.
  Qed.
  Lemma EvalToBool_agrees root e p c : at_path root p = Some e -> cache_ok root c -> agrees root (ev_bool e) c (EvalToBool ctx e p c).
  Proof. intros Hp Hc. apply to_bool_agrees; auto. now apply Eval_agrees. Qed.
  Lemma rbind_pure {A B} (o : outcome A) (f : A -> outcome B) (c : eval_cache) r : r = (o, c) -> rbind r (fun v c => (f v, c)) = (bind o f, c).
  Proof. intros ->. destruct o; reflexivity. Qed.
  Lemma rbind_step {A B} (o : outcome A) (f : A -> outcome B) (c : eval_cache) g : (forall a, g a c = (f a, c)) -> rbind (o, c) g = (bind o f, c).
  Proof. intros H. destruct o; cbn; auto. Qed.
  Lemma to_bool_none (EV : expr -> path -> eval_cache -> res value) e p : EV e p None = (ev e, None) -> eval_to_bool ctx EV e p None = (ev_bool e, None).
  Proof. intros H. unfold eval_to_bool, ev_bool. rewrite H. apply rbind_step. intros []; reflexivity. Qed.
  Lemma to_int_none (EV : expr -> path -> eval_cache -> res value) e p : EV e p None = (ev e, None) -> eval_to_int ctx EV e p None = (ev_int e, None).
  Proof. intros H. unfold eval_to_int, ev_int. rewrite H. apply rbind_step. intros []; reflexivity. Qed.
  Lemma Eval_none e : forall p, Eval ctx e p None = (ev e, None).
  Proof.
    induction e as [m b|m s|m n|m n|m e IH|m e IH|m e IH|m o l IHl r IHr|m f e IH|m n|m]; intros p; cbn [Eval ev]; apply rbind_pure.
    - reflexivity.
    - destruct (mpz_set_str s 10); reflexivity.
    - destruct (ec_ctx ctx) as [nm pr ks|]; [|reflexivity]. destruct (assoc_find String.eqb n ks); reflexivity.
    - destruct (ec_ctx ctx) as [nm pr ks|id nm ps]; [reflexivity|]. destruct (assoc_find String.eqb n ps); reflexivity.
    - rewrite (to_bool_none _ e _ (IH _)). unfold ev_bool. destruct (ev e) as [v| |]; cbn [bind]; try reflexivity. destruct (as_bool e v); reflexivity.
    - rewrite (to_int_none _ e _ (IH _)). unfold ev_int. destruct (ev e) as [v| |]; cbn [bind]; try reflexivity. destruct (as_int e v); reflexivity.
    - rewrite IH. destruct (ev e) as [v| |]; cbn [rbind bind]; reflexivity.
    - assert (forall e p, Eval ctx e p None = (ev e, None) -> eval_to_int_annotated ctx (Eval ctx) e p None = (annotate (ev_int e) " in ordered comparison", None)) as Ha.
      { intros x q Hx. unfold eval_to_int_annotated. now rewrite (to_int_none _ x _ Hx). }
      destruct o; try reflexivity;
        try (rewrite IHl; apply rbind_step; intros vl; rewrite IHr; apply rbind_step; intros vr; reflexivity);
        try (rewrite (Ha l _ (IHl _)); apply rbind_step; intros zl; rewrite (Ha r _ (IHr _)); apply rbind_step; intros zr; reflexivity);
        (rewrite (to_bool_none _ l _ (IHl _)); apply rbind_step; intros []; try reflexivity; rewrite (to_bool_none _ r _ (IHr _)); apply rbind_step; intros br; reflexivity).
    - rewrite IH. apply rbind_step. intros v. destruct (EvalFieldAccess f v); reflexivity.
    - destruct (ec_ctx ctx) as [nm pr ks|id nm ps]; [|reflexivity]. destruct (String.eqb n "priority"); reflexivity.
    - reflexivity.
  Qed.

  (** * Explanations *)
  Fixpoint minimal (e : expr) (p : path) : outcome (expr * path) :=
    match e with
    | EBool _ _ => Ok (e, p)
    | ENot _ a => minimal a (false :: p)
    | EBin _ op l r =>
        match op with
        | OEQ | ONE | OGT | OGE | OLT | OLE => Ok (e, p)
        | OAND | OOR | OIMPLIES =>
            let* bl := ev_bool l in
            let* br := ev_bool r in
            match match op with OOR => bl | _ => negb bl end, match op with OAND => negb br | _ => br end with
            | false, false => Ok (e, p)
            | true, false => minimal l (false :: p)
            | false, true => minimal r (true :: p)
            | true, true =>
                let* s0 := minimal l (false :: p) in
                let* s1 := minimal r (true :: p) in
                let* n0 := size (fst s0) in
                let* n1 := size (fst s1) in
                Ok (if Z.leb n0 n1 then s0 else s1)
            end
        | UNKNOWN_OPERATOR => Err Internal "unknown binary operator UNKNOWN_OPERATOR encountered at runtime"
        end
    | _ => Err Internal ("Explanation search should terminate at boolean expressions" ++ nl ++
               " Non-boolean expression reached: ")
    end.
  Lemma minimal_at root e : forall p s q, at_path root p = Some e -> minimal e p = Ok (s, q) -> at_path root q = Some s.
  Proof.
    induction e as [m b|m s|m n|m n|m e IH|m e IH|m e IH|m o l IHl r IHr|m f e IH|m n|m]; intros p s' q Hp H; cbn [minimal] in H; try discriminate H.
    - injection H as <- <-. exact Hp.
    - apply IH in H; [exact H|]. cbn. now rewrite Hp.
    - assert (at_path root (false :: p) = Some l) as Hl by (cbn; now rewrite Hp). assert (at_path root (true :: p) = Some r) as Hr by (cbn; now rewrite Hp).
      destruct o; try discriminate H; try (injection H as <- <-; exact Hp);
        (destruct (ev_bool l) as [bl| |]; cbn [bind] in H; try discriminate H; destruct (ev_bool r) as [br| |]; cbn [bind] in H; try discriminate H;
         destruct bl, br; cbn [negb] in H; try (injection H as <- <-; exact Hp); try (eapply IHl; eassumption); try (eapply IHr; eassumption));
        (destruct (minimal l (false :: p)) as [[s0 p0]| |] eqn:E0; cbn [bind] in H; try discriminate H; destruct (minimal r (true :: p)) as [[s1 p1]| |] eqn:E1; cbn [bind] in H; try discriminate H;
         cbn [fst] in H; destruct (size s0) as [n0| |]; cbn [bind] in H; try discriminate H; destruct (size s1) as [n1| |]; cbn [bind] in H; try discriminate H;
         destruct (Z.leb n0 n1); injection H as <- <-; [eapply IHl; eassumption|eapply IHr; eassumption]).
  Qed.
  Definition eagrees {A} (root : expr) (o : outcome A) (c : eval_cache) (s : option size_cache) (r : eres A) : Prop :=
    let '(o', c', s') := r in o' = o /\ cache_ok root c' /\ size_ok root s' /\ (c = None -> c' = None) /\ (s = None -> s' = None).
  Lemma eagrees_ret {A} root (o : outcome A) c s : cache_ok root c -> size_ok root s -> eagrees root o c s (o, c, s).
  Proof. intros. repeat split; auto. Qed.
  Lemma eagrees_bind {A B} root (o : outcome A) (f : A -> outcome B) c s r (g : A -> eval_cache -> option size_cache -> eres B) :
    eagrees root o c s r -> (forall a c' s', o = Ok a -> cache_ok root c' -> size_ok root s' -> eagrees root (f a) c' s' (g a c' s')) ->
    eagrees root (bind o f) c s (ebind r g).
  Proof.
    destruct r as [[[a|k m|w] c1] s1]; intros (<- & Hc & Hs & HN & HM) H; cbn in *; [|repeat split; auto..].
    specialize (H a c1 s1 eq_refl Hc Hs). destruct (g a c1 s1) as [[o' c2] s2]. destruct H as (E1 & E2 & E3 & E4 & E5). repeat split; auto.
  Qed.
  Lemma eagrees_eval root e p c s : at_path root p = Some e -> cache_ok root c -> size_ok root s ->
    eagrees root (ev_bool e) c s (lift_eval (EvalToBool ctx e p c) s).
  Proof.
    intros Hp Hc Hs. destruct (EvalToBool_agrees root e p c Hp Hc) as (E1 & E2 & E3). unfold lift_eval. destruct (EvalToBool ctx e p c). cbn in *. repeat split; auto.
  Qed.
  Lemma eagrees_size root e p c s : at_path root p = Some e -> cache_ok root c -> size_ok root s ->
    eagrees root (size e) c s (lift_size (Size e p s) c).
  Proof.
    intros Hp Hc Hs. destruct (Size_spec root e p s Hp Hs) as (E1 & E2 & E3). unfold lift_size. destruct (Size e p s). cbn in *. repeat split; auto.
  Qed.
  Lemma minimal_agrees root e : forall p c s, at_path root p = Some e -> cache_ok root c -> size_ok root s ->
    eagrees root (minimal e p) c s (MinimalSubexpression ctx e p c s).
  Proof.
    induction e as [m b|m x|m n|m n|m e IH|m e IH|m e IH|m o l IHl r IHr|m f e IH|m n|m]; intros p c s Hp Hc Hs; cbn [minimal MinimalSubexpression];
      try now apply eagrees_ret.
    - apply IH; auto. cbn. now rewrite Hp.
    - assert (at_path root (false :: p) = Some l) as Hl by (cbn; now rewrite Hp). assert (at_path root (true :: p) = Some r) as Hr by (cbn; now rewrite Hp).
      destruct o; try now apply eagrees_ret.
      all: apply eagrees_bind; [now apply eagrees_eval|]; intros bl c1 s1 Ebl Hc1 Hs1; apply eagrees_bind; [now apply eagrees_eval|]; intros br c2 s2 Ebr Hc2 Hs2.
      all: destruct bl, br; cbn [negb]; try now apply eagrees_ret.
      all: try (now apply IHl); try (now apply IHr).
      all: apply eagrees_bind; [now apply IHl|]; intros [x0 p0] c3 s3 E0 Hc3 Hs3; apply eagrees_bind; [now apply IHr|]; intros [x1 p1] c4 s4 E1 Hc4 Hs4.
      all: apply eagrees_bind; [apply eagrees_size; auto; exact (minimal_at root l _ _ _ Hl E0)|]; intros n0 c5 s5 En0 Hc5 Hs5;
        apply eagrees_bind; [apply eagrees_size; auto; exact (minimal_at root r _ _ _ Hr E1)|]; intros n1 c6 s6 En1 Hc6 Hs6; now apply eagrees_ret.
  Qed.
  Definition explain (e : expr) : outcome string :=
    let* (explanation, _) := minimal e [] in
    let* truth_value := ev_bool explanation in
    let* reason := QuoteSubConstraint src (e_start explanation) (e_end explanation) in
    Ok (violation_text ctx explanation truth_value reason).
  Definition check (e : expr) : outcome string :=
    let* ok := ev_bool e in if ok then Ok "" else explain e.
  Lemma explain_agrees root c s : cache_ok root c -> size_ok root s -> ExplainConstraintViolation ctx root c s = explain root.
  Proof.
    intros Hc Hs. unfold ExplainConstraintViolation, explain. pose proof (minimal_agrees root root [] c s eq_refl Hc Hs) as H.
    destruct (MinimalSubexpression ctx root [] c s) as [[o c1] s1]. destruct H as (-> & Hc1 & _).
    destruct (minimal root []) as [[x p]| |] eqn:E; cbn [bind]; [|reflexivity..]. apply (minimal_at root) in E; [|reflexivity].
    destruct (EvalToBool_agrees root x p c1 E Hc1) as (-> & _). reflexivity.
  Qed.
  Lemma check_agrees e : check_constraint ctx e = check e.
  Proof.
    unfold check_constraint, check. assert (cache_ok e (Some [])) as H0 by (intros p b; discriminate).
    destruct (EvalToBool_agrees e e [] (Some []) eq_refl H0) as (E & Hc & _). destruct (EvalToBool ctx e [] (Some [])) as [o c]. cbn [fst snd] in *. subst o.
    destruct (ev_bool e) as [[]| |]; cbn [bind]; try reflexivity. apply explain_agrees; [exact Hc|intros p b; discriminate].
  Qed.
End Ctx.
