(** Evaluations and searches that fail. *)
From Coq Require Import String Ascii List ZArith NArith Bool Lia.
From Verif Require Import Base Num Token Ast Lexer Quote AstConstructors Parser Info TypeChecker Interpreter SpecLexer SpecGrammar SpecParser SpecTyping SpecSemantics SpecInfo SpecExplain SpecReading SpecOutcome SpecLoadError SpecStuck
  StrFacts NumFacts LiteralFacts TypeFacts EvalFacts SemFacts SemFacts2 ExplainFacts ExplainFacts2 VerdictFacts ReadingFacts CrashFacts OutcomeFacts OutcomeFacts2.
Import ListNotations.
Open Scope string_scope.

(** * Errors *)
Lemma rte_bind {A B} src e text (f : A -> outcome B) : bind (RuntimeTypeError src e text) f = RuntimeTypeError src e text.
Proof. unfold RuntimeTypeError, QuotedError. destruct (QuoteSubConstraint src (e_start e) (e_end e)); reflexivity. Qed.
Lemma rte_loc {A} src e e' text : e_start e' = e_start e -> e_end e' = e_end e -> @RuntimeTypeError A src e' text = RuntimeTypeError src e text.
Proof. unfold RuntimeTypeError. intros -> ->. reflexivity. Qed.
Lemma rte_annotate {A} src e text : annotate (@RuntimeTypeError A src e text) " in ordered comparison" = RuntimeTypeError src e (text ++ ";  in ordered comparison").
Proof.
  unfold RuntimeTypeError, QuotedError. destruct (QuoteSubConstraint src (e_start e) (e_end e)) as [q|k m|w]; cbn [annotate]; [| |reflexivity].
  - assert (String.eqb (q ++ "Runtime type error: " ++ text) "" = false) as -> by (destruct q; reflexivity). rewrite !sapp_assoc. reflexivity.
  - cbn [String.append String.eqb]. rewrite !sapp_assoc. reflexivity.
Qed.
Lemma rte_answer src s text : RuntimeTypeError src s text = answer src (At s text).
Proof. unfold answer, shown, RuntimeTypeError, QuotedError. destruct (QuoteSubConstraint src (e_start s) (e_end s)); reflexivity. Qed.

Section S.
  Variables (ai : option action_info) (ti : option table_info) (G : scope).
  Hypothesis HG : in_scope ai ti G.
  Hypothesis Hbits : only_bits G.
  Hypothesis Hnb : no_bool G.
  Variable ctx : eval_context.
  Hypothesis Hfit : env_fits G (env_of ctx).
  Hypothesis Hwidth : forall n k z, In (n, k) (names G) -> width (k_type k) z -> (0 <= z)%Z.
  (** The name in the context is [name], and in a table all keys have values. *)
  Variable name : string.
  Hypothesis Hctx : match ec_ctx ctx with
    | CtxTable n _ keys => n = name /\ (exists l, G = InTable l) /\ forall m k t, Typed G (EKey m k) t -> exists v, assoc_find String.eqb k keys = Some v
    | CtxAction _ n _ => n = name /\ exists l, G = InAction l
    end.
  Notation r := (env_of ctx).
  Notation means := (Meant unordered_exact G r).
  Notation rte := (RuntimeTypeError (ec_src ctx)).
  Lemma typed_widths e t : Typed G e t -> forall w, width t w -> (0 <= w)%Z.
  Proof.
    intros Ht. induction Ht as [m b|m s|keys m n t Hk Hd Hu|params m n t Hk Hd Hu|m|m e H IH|m e H IH|m o a b Hc H1 IH1 H2 IH2
      |m o a b ta tb t Hc H1 IH1 H2 IH2 Hco|m o a b ta tb t Hc H1 IH1 H2 IH2 Hco Ho|m f e t t' H IH Hf]; intros w Hw; try now inversion Hw.
    - destruct Hd as (k & Hk' & <-). apply (Hwidth n k); [|exact Hw]. rewrite Hk. exact Hk'.
    - destruct Hd as (k & Hk' & <-). apply (Hwidth n k); [|exact Hw]. rewrite Hk. exact Hk'.
    - apply IH. inversion Hf; subst; inversion Hw; subst; constructor.
  Qed.
  Lemma common_widths a b ta tb t : Typed G a ta -> Typed G b tb -> common ta tb t -> forall w, width t w -> (0 <= w)%Z.
  Proof.
    intros Ha Hb Hco w Hw. apply lub_iff in Hco. unfold LeastUpperBound in Hco.
    destruct (ty_eqb ta tb), (StrictlyAbove ta tb), (StrictlyAbove tb ta); try discriminate; injection Hco as ->; eauto using typed_widths.
  Qed.
  Lemma cast_place x t : e_start (CastTransitivelyTo x t) = e_start x /\ e_end (CastTransitivelyTo x t) = e_end x.
  Proof. unfold CastTransitivelyTo. destruct (StrictlyAbove t (e_type x) && _); match goal with |- context [if ?c then _ else _] => destruct c end; split; reflexivity. Qed.
  (** Casts pass errors on. *)
  Lemma cast_stuck x t s text : ev ctx x = rte s text -> ev ctx (CastTransitivelyTo x t) = rte s text.
  Proof.
    intros H. assert (forall y u, ev ctx y = rte s text -> ev ctx (WrapWithCast y u) = rte s text) as HW by (intros y u Hy; unfold WrapWithCast; cbn [ev]; rewrite Hy, !rte_bind; reflexivity).
    unfold CastTransitivelyTo. destruct (StrictlyAbove t (e_type x) && _); match goal with |- context [if ?c then _ else _] => destruct c end; auto.
  Qed.
  Lemma stuck_cases e : forall e', Infer ai ti e = Ok e' -> literals e -> (exists v, means e v) \/ (exists s text, Stuck G r name e s text).
  Proof.
    induction e as [m b|m s|m n|m n|m e IH|m e IH|m e IH|m o l IHl y0 IHr|m f e IH|m n|m]; intros e' Hi Hl; destruct (infer_ok ai ti G HG _ e' Hi) as (Hty & _); pose proof (inv_atom ai ti G HG _ _ Hi) as Ha; cbn beta iota in Ha.
    - left. eexists. constructor.
    - destruct Hl as [n Hn]. left. eexists. constructor. exact Hn.
    - left. unfold env_of. destruct (ec_ctx ctx) as [nm pr keys|id nm ps] eqn:Ec.
      + destruct Hctx as (_ & _ & Hk). destruct (Hk _ _ _ Hty) as [v Hv]. exists v. eapply mn_key; [reflexivity|]. exact Hv.
      + exfalso. destruct Hctx as (_ & ks & E). clear Ha. rewrite E in Hty. inversion Hty; discriminate.
    - unfold env_of. destruct (ec_ctx ctx) as [nm pr keys|id nm ps] eqn:Ec.
      + exfalso. clear Ha. destruct Hctx as (_ & (ks & E) & _). rewrite E in Hty. inversion Hty; discriminate.
      + destruct (assoc_find String.eqb n ps) as [z|] eqn:Ez.
        * left. eexists. eapply mn_param; [reflexivity|exact Ez].
        * right. eexists. eexists. eapply sk_param; [reflexivity|exact Ez].
    - apply (inv_not ai ti G HG) in Hi as (x & Hx & Hxt & ->). destruct (IH x Hx Hl) as [(v & Hv)|(s & text & H1)]; [left|right; exists s, text; now constructor].
      pose proof (ev_typed ctx _ _ (ev_read ai ti G HG ctx e v Hfit Hv x Hx)) as Hof. rewrite Hxt in Hof. inversion Hof; subst. eexists. constructor. exact Hv.
    - apply (inv_neg ai ti G HG) in Hi as (x & Hx & Hxt & ->). destruct (IH x Hx Hl) as [(v & Hv)|(s & text & H1)]; [left|right; exists s, text; now constructor].
      pose proof (ev_typed ctx _ _ (ev_read ai ti G HG ctx e v Hfit Hv x Hx)) as Hof. rewrite Hxt in Hof. inversion Hof; subst. eexists. constructor. exact Hv.
    - destruct Ha.
    - destruct Hl as [Hll Hlr]. apply (inv_bin ai ti G HG) in Hi as (x & y & Hx & Hy & [(Hc & Htx & Hty' & ->)|(t & Hco & Ho & ->)]).
      + destruct (IHl x Hx Hll) as [(v & Hv)|(s & text & H1)]; [|right; exists s, text; now apply sk_left].
        pose proof (ev_typed ctx _ _ (ev_read ai ti G HG ctx l v Hfit Hv x Hx)) as Hof. rewrite Htx in Hof. inversion Hof as [b| | | | | | |]; subst.
        pose proof (decides_l o b Hc) as Dl. fold (left_decides o b) in Dl. destruct (match o with OOR => b | _ => negb b end) eqn:Ed.
        { left. assert (left_decides o b) as D by now apply Dl. exists (VBool (truth o b true)). eapply mn_left; [exact Hc|exact Hv|]. intros z. apply D. }
        { destruct (IHr y Hy Hlr) as [(v & Hv2)|(s & text & H1)].
          - left. pose proof (ev_typed ctx _ _ (ev_read ai ti G HG ctx y0 v Hfit Hv2 y Hy)) as Hof2. rewrite Hty' in Hof2. inversion Hof2; subst. eexists. eapply mn_both; eassumption.
          - right. exists s, text. assert (~ left_decides o b) as D by (intros D; apply Dl in D; discriminate). eapply sk_right; eassumption. }
      + assert (Typed G l (e_type x)) as Tx by exact (proj1 (infer_ok ai ti G HG _ _ Hx)). assert (Typed G y0 (e_type y)) as Ty by exact (proj1 (infer_ok ai ti G HG _ _ Hy)).
        pose proof (common_widths _ _ _ _ _ Tx Ty Hco) as Hw. pose proof Hco as (C1 & C2 & _).
        destruct (IHl x Hx Hll) as [(u & Hu)|(s & text & H1)].
        2: { right. destruct Ho as [Ho|[Ho Hord]]; [exists s, text; now apply sk_eq_left|]. exists s, (text ++ ";  in ordered comparison"). now apply sk_ordered_left. }
        pose proof (ev_typed ctx _ _ (ev_read ai ti G HG ctx l u Hfit Hu x Hx)) as Ofu. destruct (converts_total _ t u Ofu C1 Hw) as [u' Cu]. assert (of_type t u') as Ofu' by exact (converts_typed _ _ _ _ Ofu Cu).
        destruct Ho as [Ho|[Ho Hord]].
        * destruct (IHr y Hy Hlr) as [(v & Hv)|(s & text & H1)]; [|right; exists s, text; eapply sk_eq_right; eassumption].
          pose proof (ev_typed ctx _ _ (ev_read ai ti G HG ctx y0 v Hfit Hv y Hy)) as Ofv. destruct (converts_total _ t v Ofv C2 Hw) as [v' Cv].
          left. exists (VBool (match o with OEQ => value_eqb u' v' | _ => negb (value_eqb u' v') end)). eapply mn_compare; try eassumption; [now apply cm_eq|].
          split; [|intros [Hor _]; clear - Ho Hor; destruct Ho; inversion Hor]. split; [now left|now apply eq_iff].
        * assert ((exists w, t = TExact w) \/ forall w, t <> TExact w) as [[w ->]|Hne] by (clear; destruct t; try (right; intros; discriminate); left; eauto).
          { right. exists l, "expected expression of integral type;  in ordered comparison". eapply sk_order; eassumption. }
          destruct (IHr y Hy Hlr) as [(v & Hv)|(s & text & H1)]; [|right; exists s, (text ++ ";  in ordered comparison"); eapply sk_ordered_right; eassumption].
          assert (exists z, u' = VInt z) as [z ->] by (destruct Hord; inversion Ofu'; subst; try (eexists; reflexivity); exfalso; exact (Hne _ eq_refl)).
          pose proof (ev_typed ctx _ _ (ev_read ai ti G HG ctx y0 v Hfit Hv y Hy)) as Ofv. destruct (converts_total _ t v Ofv C2 Hw) as [v' Cv].
          assert (of_type t v') as Ofv' by exact (converts_typed _ _ _ _ Ofv Cv).
          assert (exists z, v' = VInt z) as [z' ->] by (destruct Hord; inversion Ofv'; subst; try (eexists; reflexivity); exfalso; exact (Hne _ eq_refl)).
          left. exists (VBool (ordered o z z')). eapply mn_compare; try eassumption; [now apply cm_ord|]. split; [|intros [_ [w E]]; exact (Hne w E)].
          split; [right; exact (conj Ho (conj (ex_intro _ z (nu_int z)) (ex_intro _ z' (nu_int z'))))|]. rewrite (ordered_iff o z z' Ho). apply (compares_numeral o (VInt z) (VInt z') z z'); auto; constructor.
    - apply (inv_field ai ti G HG) in Hi as (x & t & Hx & Hf & ->). destruct (IH x Hx Hl) as [(v & Hv)|(s & text & H1)]; [left|right; exists s, text; now constructor].
      pose proof (ev_typed ctx _ _ (ev_read ai ti G HG ctx e v Hfit Hv x Hx)) as Hof. destruct Hf; inversion Hof; subst; eexists; (eapply mn_field; [exact Hv|constructor]).
    - destruct Ha as [-> ->]. unfold env_of. destruct (ec_ctx ctx) as [nm pr keys|id nm ps] eqn:Ec; [left; eexists; eapply mn_priority; reflexivity|].
      right. eexists. eexists. eapply sk_priority. reflexivity.
    - destruct Ha.
  Qed.
  (** The error says so. *)
  Lemma types_of a ta x : Typed G a ta -> Infer ai ti a = Ok x -> e_type x = ta.
  Proof. intros Ha Hx. pose proof (proj1 (infer_ok ai ti G HG _ _ Hx)) as H. exact (typed_fun ai ti G HG _ _ _ H Ha). Qed.
  Lemma stuck_ev e s text : Stuck G r name e s text -> forall e', Infer ai ti e = Ok e' -> ev ctx e' = rte s text.
  Proof.
    intros H. induction H as [param m n Hr Hn|param m Hr|m o a b ta tb w v Ho Ha Hb Hco Hv|m e s text H IH|m e s text H IH|m f e s text H IH|m o a b s text Ho H IH|m o a b v s text Ho Hv H IH
      |m o a b s text Ho H IH|m o a b ta tb t v s text Ho Ha Hb Hco Hne Hv H IH|m o a b s text Ho H IH|m o a b x s text Ho Hx Hd H IH]; intros e' Hi; pose proof (inv_atom ai ti G HG _ _ Hi) as Hat; cbn beta iota in Hat.
    - destruct Hat as [t ->]. unfold env_of in Hr. destruct (ec_ctx ctx) as [nm pr keys|id nm ps] eqn:Ec; [discriminate|]. injection Hr as <-. destruct Hctx as [-> _]. cbn [ev]. rewrite Ec, Hn, rte_bind. now apply rte_loc.
    - destruct Hat as [_ ->]. unfold env_of in Hr. destruct (ec_ctx ctx) as [nm pr keys|id nm ps] eqn:Ec; [discriminate|]. cbn [ev]. rewrite Ec, rte_bind. now apply rte_loc.
    - apply (inv_bin ai ti G HG) in Hi as (x & y & Hx & Hy & [(Hc & _)|(t & Hco' & [He|[_ Hord]] & ->)]); [destruct Ho; inversion Hc|destruct Ho; inversion He|].
      rewrite (types_of _ _ _ Ha Hx), (types_of _ _ _ Hb Hy) in Hco'. assert (t = TExact w) as -> by (apply lub_iff in Hco, Hco'; congruence). pose proof Hco as (C1 & _).
      pose proof (ev_read ai ti G HG ctx a v Hfit Hv x Hx) as Ev. pose proof (ev_typed ctx _ _ Ev) as Ofv. rewrite <- (types_of _ _ _ Ha Hx) in C1. pose proof (common_widths _ _ _ _ _ Ha Hb Hco) as Hw.
      destruct (converts_total _ (TExact w) v Ofv C1 Hw) as [v' Cv]. assert (ev ctx (CastTransitivelyTo x (TExact w)) = Ok v') as Ev' by (apply ev_cast; [exact C1|exists v; split; [exact Ev|exact Cv]]).
      pose proof (converts_typed _ _ _ _ Ofv Cv) as Ofv'.
      assert (as_int ctx (CastTransitivelyTo x (TExact w)) v' = rte a "expected expression of integral type") as Ei.
      { inversion Ofv'; subst. cbn [as_int]. apply infer_loc in Hx as [E1 E2]. destruct (cast_place x (TExact w)) as [E3 E4]. apply rte_loc; congruence. }
      cbn [set_type ev]. clear - Ho Ev' Ei. destruct Ho; rewrite Ev'; cbn [bind]; rewrite Ei, rte_annotate, !rte_bind; reflexivity.
    - apply (inv_not ai ti G HG) in Hi as (x & Hx & _ & ->). cbn [set_type ev]. rewrite (IH x Hx), !rte_bind. reflexivity.
    - apply (inv_neg ai ti G HG) in Hi as (x & Hx & _ & ->). cbn [set_type ev]. rewrite (IH x Hx), !rte_bind. reflexivity.
    - apply (inv_field ai ti G HG) in Hi as (x & t & Hx & _ & ->). cbn [set_type ev]. rewrite (IH x Hx), !rte_bind. reflexivity.
    - apply (inv_bin ai ti G HG) in Hi as (x & y & Hx & Hy & [(Hc & _)|(t & Hco' & _ & ->)]); [destruct Ho; inversion Hc|]. pose proof (cast_stuck x t s text (IH x Hx)) as E. cbn [set_type ev]. clear - Ho E. destruct Ho; rewrite E, !rte_bind; reflexivity.
    - pose proof Hi as Hi0. apply (inv_bin ai ti G HG) in Hi as (x & y & Hx & Hy & [(Hc & _)|(t & Hco' & _ & ->)]); [destruct Ho; inversion Hc|]. pose proof (cast_stuck y t s text (IH y Hy)) as E.
      pose proof (ev_read ai ti G HG ctx a v Hfit Hv x Hx) as Ev. pose proof (ev_typed ctx _ _ Ev) as Ofv. pose proof Hco' as (C1 & _).
      destruct (converts_total _ t v Ofv C1 (common_widths _ _ _ _ _ (proj1 (infer_ok ai ti G HG _ _ Hx)) (proj1 (infer_ok ai ti G HG _ _ Hy)) Hco')) as [v' Cv].
      assert (ev ctx (CastTransitivelyTo x t) = Ok v') as Ev' by (apply ev_cast; [exact C1|exists v; split; [exact Ev|exact Cv]]).
      cbn [set_type ev]. clear - Ho E Ev'. destruct Ho; rewrite Ev'; cbn [bind]; rewrite E, !rte_bind; reflexivity.
    - apply (inv_bin ai ti G HG) in Hi as (x & y & Hx & Hy & [(Hc & _)|(t & Hco' & _ & ->)]); [destruct Ho; inversion Hc|]. pose proof (cast_stuck x t s text (IH x Hx)) as E. cbn [set_type ev]. clear - Ho E. destruct Ho; rewrite E, rte_bind, rte_annotate, !rte_bind; reflexivity.
    - apply (inv_bin ai ti G HG) in Hi as (x & y & Hx & Hy & [(Hc & _)|(t' & Hco' & [He|[_ Hord]] & ->)]); [destruct Ho; inversion Hc|destruct Ho; inversion He|].
      rewrite (types_of _ _ _ Ha Hx), (types_of _ _ _ Hb Hy) in Hco'. assert (t' = t) as -> by (apply lub_iff in Hco, Hco'; congruence). pose proof Hco as (C1 & _). pose proof (cast_stuck y t s text (IH y Hy)) as E.
      pose proof (ev_read ai ti G HG ctx a v Hfit Hv x Hx) as Ev. pose proof (ev_typed ctx _ _ Ev) as Ofv. rewrite <- (types_of _ _ _ Ha Hx) in C1. pose proof (common_widths _ _ _ _ _ Ha Hb Hco) as Hw.
      destruct (converts_total _ t v Ofv C1 Hw) as [v' Cv]. assert (ev ctx (CastTransitivelyTo x t) = Ok v') as Ev' by (apply ev_cast; [exact C1|exists v; split; [exact Ev|exact Cv]]).
      pose proof (converts_typed _ _ _ _ Ofv Cv) as Ofv'. assert (exists z, v' = VInt z) as [z ->] by (destruct Hord; inversion Ofv'; subst; try (eexists; reflexivity); exfalso; exact (Hne _ eq_refl)).
      cbn [set_type ev]. clear - Ho E Ev'. destruct Ho; rewrite Ev'; cbn [bind as_int annotate]; rewrite E, rte_bind, rte_annotate, !rte_bind; reflexivity.
    - apply (inv_bin ai ti G HG) in Hi as (x & y & Hx & Hy & [(Hc & _ & _ & ->)|(t & Hco' & [He|[He _]] & _)]); [|destruct Ho; inversion He..]. pose proof (IH x Hx) as E. cbn [set_type ev]. clear - Ho E. destruct Ho; rewrite E, !rte_bind; reflexivity.
    - apply (inv_bin ai ti G HG) in Hi as (x' & y & Hx' & Hy & [(Hc & _ & _ & ->)|(t & Hco' & [He|[He _]] & _)]); [|destruct Ho; inversion He..]. pose proof (IH y Hy) as E.
      pose proof (ev_read ai ti G HG ctx a _ Hfit Hx x' Hx') as Ev. assert (match o with OOR => x | _ => negb x end = false) as Ed.
      { pose proof (decides_l o x Ho) as Dl. fold (left_decides o x) in Dl. destruct (match o with OOR => x | _ => negb x end); [|reflexivity]. exfalso. apply Hd. now apply Dl. }
      cbn [set_type ev]. clear - Ho Ev E Ed. destruct Ho; rewrite Ev; cbn [bind as_bool]; destruct x; try discriminate Ed; rewrite E, !rte_bind; reflexivity.
  Qed.
  Lemma stuck_bool e e' s text : Infer ai ti e = Ok e' -> Stuck G r name e s text -> ev_bool ctx e' = rte s text.
  Proof. intros Hi H. unfold ev_bool. rewrite (stuck_ev _ _ _ H _ Hi), rte_bind. reflexivity. Qed.

  (** * The search *)
  Notation truth_of := (truth_of G ctx).
  Lemma size_message e c m : size e = Err c m -> c = InvalidArgument /\ m = "invalid expression: ".
  Proof.
    revert c m. induction e; cbn [size]; intros c mm E; try discriminate; try (injection E as <- <-; split; reflexivity).
    - apply bind_err in E as [E|(? & _ & E)]; [eauto|discriminate].
    - apply bind_err in E as [E|(? & _ & E)]; [eauto|]. apply bind_err in E as [E|(? & _ & E)]; [eauto|discriminate].
  Qed.
  (** The error with which a search fails. *)
  Definition failure {A} (t : trouble) : outcome A :=
    match t with At s text => rte s text | NoSize => Err InvalidArgument "invalid expression: " | Unquoted _ => Crash ModelOutOfFuel end.
  Lemma failure_bind {A B} t (f : A -> outcome B) : bind (failure t) f = failure t.
  Proof. destruct t; [apply rte_bind|reflexivity..]. Qed.
  Lemma minimal_conn m o x y p : connective o -> minimal ctx (EBin m o x y) p =
    bind (ev_bool ctx x) (fun bl => bind (ev_bool ctx y) (fun br => match match o with OOR => bl | _ => negb bl end, match o with OAND => negb br | _ => br end with
            | false, false => Ok (EBin m o x y, p)
            | true, false => minimal ctx x (false :: p)
            | false, true => minimal ctx y (true :: p)
            | true, true => let* s0 := minimal ctx x (false :: p) in let* s1 := minimal ctx y (true :: p) in let* n0 := size (fst s0) in let* n1 := size (fst s1) in Ok (if Z.leb n0 n1 then s0 else s1) end)).
  Proof. intros []; reflexivity. Qed.
  Lemma left_test o x : connective o -> (left_decides o x <-> match o with OOR => x | _ => negb x end = true).
  Proof. exact (decides_l o x). Qed.
  Lemma right_test o y : connective o -> (right_decides o y <-> match o with OAND => negb y | _ => y end = true).
  Proof. exact (decides_r o y). Qed.
  Lemma yes (P : Prop) (b : bool) : (P <-> b = true) -> P -> b = true.
  Proof. tauto. Qed.
  Lemma no (P : Prop) (b : bool) : (P <-> b = true) -> ~ P -> b = false.
  Proof. destruct b; [intros H N; exfalso; apply N; now apply H|reflexivity]. Qed.
  Lemma inv_conn m o l y e' : connective o -> Infer ai ti (EBin m o l y) = Ok e' -> exists x x', Infer ai ti l = Ok x /\ Infer ai ti y = Ok x' /\ e_type x = TBool /\ e_type x' = TBool /\ e' = EBin (mkMeta (m_start m) (m_end m) TBool) o x x'.
  Proof.
    intros Ho Hi. apply (inv_bin ai ti G HG) in Hi as (x & x' & Hx & Hy & [(Hc & H1 & H2 & ->)|(t & Hco' & [He|[He _]] & _)]); [|destruct Ho; inversion He..]. exists x, x'. auto 6.
  Qed.
  Lemma truth_found e e' x : Infer ai ti e = Ok e' -> truth_of e x -> ev_bool ctx e' = Ok x.
  Proof. intros Hi H. apply ev_bool_ok. exact (ev_read ai ti G HG ctx e (VBool x) Hfit H e' Hi). Qed.
  Lemma explained_found e s : Explained truth_of e s -> forall e' p, Infer ai ti e = Ok e' -> exists s' q, minimal ctx e' p = Ok (s', q) /\ Infer ai ti s = Ok s'.
  Proof.
    induction 1 as [m b|m o a b Hc|m e s H IH|m o a b x y Hc Ha Hb Nl Nr|m o a b x y s Hc Ha Hb Dl Nr H IH|m o a b x y s Hc Ha Hb Nl Dr H IH
      |m o a b x y s t i j Hc Ha Hb Dl Dr H IH H2 IH2 Hi Hj Hle|m o a b x y s t i j Hc Ha Hb Dl Dr H IH H2 IH2 Hi Hj Hlt]; intros e' p Hin.
    - pose proof (inv_atom ai ti G HG _ _ Hin) as Hat. cbn beta iota in Hat. subst e'. eexists. eexists. split; [reflexivity|exact Hin].
    - pose proof Hin as Hin0. apply (inv_bin ai ti G HG) in Hin as (x & y & Hx & Hy & [(Hc' & _)|(t & Hco & Ho & ->)]); [exfalso; exact (conn_cmp _ Hc' Hc)|].
      eexists. eexists. split; [cbn [set_type minimal]; destruct Ho as [Ho|[Ho _]]; destruct Ho; reflexivity|exact Hin0].
    - apply (inv_not ai ti G HG) in Hin as (x & Hx & _ & ->). cbn [set_type minimal]. exact (IH x _ Hx).
    - pose proof Hin as Hin0. apply (inv_conn _ _ _ _ _ Hc) in Hin as (a' & b' & Ia & Ib & _ & _ & ->). rewrite (minimal_conn _ _ _ _ _ Hc), (truth_found _ _ _ Ia Ha), (truth_found _ _ _ Ib Hb). cbn [bind].
      rewrite (no _ _ (left_test o x Hc) Nl), (no _ _ (right_test o y Hc) Nr). eexists. eexists. split; [reflexivity|exact Hin0].
    - apply (inv_conn _ _ _ _ _ Hc) in Hin as (a' & b' & Ia & Ib & _ & _ & ->). rewrite (minimal_conn _ _ _ _ _ Hc), (truth_found _ _ _ Ia Ha), (truth_found _ _ _ Ib Hb). cbn [bind].
      rewrite (yes _ _ (left_test o x Hc) Dl), (no _ _ (right_test o y Hc) Nr). exact (IH a' _ Ia).
    - apply (inv_conn _ _ _ _ _ Hc) in Hin as (a' & b' & Ia & Ib & _ & _ & ->). rewrite (minimal_conn _ _ _ _ _ Hc), (truth_found _ _ _ Ia Ha), (truth_found _ _ _ Ib Hb). cbn [bind].
      rewrite (no _ _ (left_test o x Hc) Nl), (yes _ _ (right_test o y Hc) Dr). exact (IH b' _ Ib).
    - apply (inv_conn _ _ _ _ _ Hc) in Hin as (a' & b' & Ia & Ib & _ & _ & ->). rewrite (minimal_conn _ _ _ _ _ Hc), (truth_found _ _ _ Ia Ha), (truth_found _ _ _ Ib Hb). cbn [bind].
      rewrite (yes _ _ (left_test o x Hc) Dl), (yes _ _ (right_test o y Hc) Dr). destruct (IH a' (false :: p) Ia) as (s' & q & -> & Is). destruct (IH2 b' (true :: p) Ib) as (t' & q' & -> & It). cbn [bind fst].
      apply size_Nodes in Hi, Hj. apply (size_same ai ti G HG Hbits s s' Is) in Hi. apply (size_same ai ti G HG Hbits t t' It) in Hj. rewrite Hi, Hj. cbn [bind]. apply Z.leb_le in Hle. rewrite Hle. eexists. eexists. split; [reflexivity|exact Is].
    - apply (inv_conn _ _ _ _ _ Hc) in Hin as (a' & b' & Ia & Ib & _ & _ & ->). rewrite (minimal_conn _ _ _ _ _ Hc), (truth_found _ _ _ Ia Ha), (truth_found _ _ _ Ib Hb). cbn [bind].
      rewrite (yes _ _ (left_test o x Hc) Dl), (yes _ _ (right_test o y Hc) Dr). destruct (IH a' (false :: p) Ia) as (s' & q & -> & Is). destruct (IH2 b' (true :: p) Ib) as (t' & q' & -> & It). cbn [bind fst].
      apply size_Nodes in Hi, Hj. apply (size_same ai ti G HG Hbits s s' Is) in Hi. apply (size_same ai ti G HG Hbits t t' It) in Hj. rewrite Hi, Hj. cbn [bind]. apply Z.leb_gt in Hlt. rewrite Hlt. eexists. eexists. split; [reflexivity|exact It].
  Qed.
  Lemma search_fails e t : Unclear G r name e t -> forall e' p, Infer ai ti e = Ok e' -> minimal ctx e' p = failure t.
  Proof.
    induction 1 as [m e t H IH|m o a b x s text Hc Ha Hs|m o a b x y t Hc Ha Hb Dl H IH|m o a b x y t Hc Ha Hb Nl Dr H IH|m o a b x y s t Hc Ha Hb Dl Dr Hx H IH|m o a b x y s s' Hc Ha Hb Dl Dr Hx Hx' Hn]; intros e' p Hin.
    - apply (inv_not ai ti G HG) in Hin as (x & Hx & _ & ->). cbn [set_type minimal]. exact (IH x _ Hx).
    - apply (inv_conn _ _ _ _ _ Hc) in Hin as (a' & b' & Ia & Ib & _ & _ & ->). rewrite (minimal_conn _ _ _ _ _ Hc), (truth_found _ _ _ Ia Ha), (stuck_bool _ _ _ _ Ib Hs). cbn [bind]. rewrite rte_bind. reflexivity.
    - apply (inv_conn _ _ _ _ _ Hc) in Hin as (a' & b' & Ia & Ib & _ & _ & ->). rewrite (minimal_conn _ _ _ _ _ Hc), (truth_found _ _ _ Ia Ha), (truth_found _ _ _ Ib Hb). cbn [bind].
      rewrite (yes _ _ (left_test o x Hc) Dl). rewrite (IH a' _ Ia). destruct (match o with OAND => negb y | _ => y end); [apply failure_bind|reflexivity].
    - apply (inv_conn _ _ _ _ _ Hc) in Hin as (a' & b' & Ia & Ib & _ & _ & ->). rewrite (minimal_conn _ _ _ _ _ Hc), (truth_found _ _ _ Ia Ha), (truth_found _ _ _ Ib Hb). cbn [bind].
      rewrite (no _ _ (left_test o x Hc) Nl), (yes _ _ (right_test o y Hc) Dr). exact (IH b' _ Ib).
    - apply (inv_conn _ _ _ _ _ Hc) in Hin as (a' & b' & Ia & Ib & _ & _ & ->). rewrite (minimal_conn _ _ _ _ _ Hc), (truth_found _ _ _ Ia Ha), (truth_found _ _ _ Ib Hb). cbn [bind].
      rewrite (yes _ _ (left_test o x Hc) Dl), (yes _ _ (right_test o y Hc) Dr). destruct (explained_found _ _ Hx a' (false :: p) Ia) as (s' & q & -> & Is). rewrite (IH b' _ Ib). cbn [bind]. apply failure_bind.
    - apply (inv_conn _ _ _ _ _ Hc) in Hin as (a' & b' & Ia & Ib & _ & _ & ->). rewrite (minimal_conn _ _ _ _ _ Hc), (truth_found _ _ _ Ia Ha), (truth_found _ _ _ Ib Hb). cbn [bind].
      rewrite (yes _ _ (left_test o x Hc) Dl), (yes _ _ (right_test o y Hc) Dr). destruct (explained_found _ _ Hx a' (false :: p) Ia) as (s1 & q & -> & Is). destruct (explained_found _ _ Hx' b' (true :: p) Ib) as (s2 & q' & -> & Is'). cbn [bind fst].
      destruct (size s1) as [i|c mm|w] eqn:Ei; cbn [bind]; [|destruct (size_message _ _ _ Ei) as [-> ->]; reflexivity|exfalso; exact (size_no_crash _ _ Ei)].
      destruct (size s2) as [j|c mm|w] eqn:Ej; cbn [bind]; [|destruct (size_message _ _ _ Ej) as [-> ->]; reflexivity|exfalso; exact (size_no_crash _ _ Ej)].
      exfalso. apply Hn. exists i, j. apply (size_same ai ti G HG Hbits s s1 Is) in Ei. apply (size_same ai ti G HG Hbits s' s2 Is') in Ej. split; now apply size_Nodes.
  Qed.
  Lemma nodes_known e : (exists n, Nodes e n) \/ ~ exists n, Nodes e n.
  Proof. destruct (size e) as [n|c m|w] eqn:E; [left; exists n; now apply size_Nodes|right; intros [n Hn]; apply size_Nodes in Hn; congruence..]. Qed.
  Lemma explained_or e : forall e' x, Infer ai ti e = Ok e' -> e_type e' = TBool -> literals e -> truth_of e x -> (exists s, Explained truth_of e s) \/ exists t, Unclear G r name e t.
  Proof.
    unfold no_bool in Hnb. induction e as [m b|m s|m n|m n|m e IH|m e IH|m e IH|m o l IHl y0 IHr|m f e IH|m n|m]; intros e' v Hi Ht Hl Hv;
      destruct (infer_ok ai ti G HG _ e' Hi) as (_ & Han & _); pose proof (inv_atom ai ti G HG _ _ Hi) as Ha; cbn beta iota in Ha.
    - left. eexists. constructor.
    - subst e'. discriminate Ht.
    - destruct Ha as [t ->]. cbn in Ht. subst t. inversion Han as [| |keys' ? ? HGk Hd Hu| | | | | | | | |]. exfalso. pose proof Hnb as Hnb2. rewrite HGk in Hnb2. exact (Hnb2 _ Hd).
    - destruct Ha as [t ->]. cbn in Ht. subst t. inversion Han as [| | |keys' ? ? HGk Hd Hu| | | | | | | |]. exfalso. pose proof Hnb as Hnb2. rewrite HGk in Hnb2. exact (Hnb2 _ Hd).
    - apply (inv_not ai ti G HG) in Hi as (x & Hx & Hxt & ->). assert (exists b, truth_of e b) as [b Hb] by (unfold OutcomeFacts2.truth_of in *; inversion Hv; eauto).
      destruct (IH x b Hx Hxt Hl Hb) as [(s & Hs)|(t & Hu)]; [left; exists s; now constructor|right; exists t; now constructor].
    - apply (inv_neg ai ti G HG) in Hi as (x & Hx & Hxt & ->). discriminate Ht.
    - destruct Ha.
    - pose proof Hi as Hi0. apply (inv_bin ai ti G HG) in Hi as (x & y & Hx & Hy & [(Hc & Htx & Hty & ->)|(t & Hco & Ho & ->)]).
      2: { left. eexists. apply xp_compare. destruct Ho as [Ho|[Ho _]]; [now apply cm_eq|now apply cm_ord]. }
      destruct Hl as [Hll Hlr]. assert (exists bl, truth_of l bl) as [bl Hbl].
      { unfold OutcomeFacts2.truth_of in *. inversion Hv; subst; eauto. exfalso. match goal with H : comparison _ |- _ => exact (conn_cmp _ Hc H) end. }
      destruct (stuck_cases y0 y Hy Hlr) as [(v2 & Hv2)|(s & text & Hs)]; [|right; eexists; eapply uc_operand; eassumption].
      pose proof (ev_typed ctx _ _ (ev_read ai ti G HG ctx y0 v2 Hfit Hv2 y Hy)) as Hof. rewrite Hty in Hof. inversion Hof as [br| | | | | | |]; subst. change (truth_of y0 br) in Hv2.
      pose proof (left_test o bl Hc) as Dl. pose proof (right_test o br Hc) as Dr.
      destruct (match o with OOR => bl | _ => negb bl end), (match o with OAND => negb br | _ => br end).
      + assert (left_decides o bl) as DL by now apply Dl. assert (right_decides o br) as DR by now apply Dr.
        destruct (IHl x bl Hx Htx Hll Hbl) as [(s & Hs)|(t & Hu)]; [|right; exists t; eapply uc_left; eassumption]. destruct (IHr y br Hy Hty Hlr Hv2) as [(s' & Hs')|(t & Hu)]; [|right; exists t; eapply uc_right_too; eassumption].
        destruct (nodes_known s) as [[i Ni]|Ni]; [|right; exists NoSize; eapply uc_size; try eassumption; intros (i & j & N1 & _); apply Ni; eauto].
        destruct (nodes_known s') as [[j Nj]|Nj]; [|right; exists NoSize; eapply uc_size; try eassumption; intros (i' & j & _ & N1); apply Nj; eauto].
        left. destruct (Z.le_gt_cases i j); eexists; [eapply xp_both_left; eassumption|eapply xp_both_right; eassumption].
      + assert (left_decides o bl) as DL by now apply Dl. assert (~ right_decides o br) as DR by (intros H; apply Dr in H; discriminate).
        destruct (IHl x bl Hx Htx Hll Hbl) as [(s & Hs)|(t & Hu)]; [left; exists s; eapply xp_left; eassumption|right; exists t; eapply uc_left; eassumption].
      + assert (~ left_decides o bl) as DL by (intros H; apply Dl in H; discriminate). assert (right_decides o br) as DR by now apply Dr.
        destruct (IHr y br Hy Hty Hlr Hv2) as [(s & Hs)|(t & Hu)]; [left; exists s; eapply xp_right; eassumption|right; exists t; eapply uc_right; eassumption].
      + assert (~ left_decides o bl) as DL by (intros H; apply Dl in H; discriminate). assert (~ right_decides o br) as DR by (intros H; apply Dr in H; discriminate).
        left. eexists. eapply xp_none; eassumption.
    - apply (inv_field ai ti G HG) in Hi as (x & t & Hx & Hf & ->). rewrite type_set in Ht. subst t. inversion Hf.
    - destruct Ha as [-> ->]. discriminate Ht.
    - destruct Ha.
  Qed.
  Lemma not_unquoted e s : ~ Unclear G r name e (Unquoted s).
  Proof. intros H. remember (Unquoted s) as t eqn:E. induction H; try discriminate E; auto. Qed.
  Lemma failure_answer e t : Unclear G r name e t -> failure t = answer (ec_src ctx) t.
  Proof. intros H. destruct t; [apply rte_answer|reflexivity|destruct (not_unquoted _ _ H)]. Qed.
  (** Checks that fail, and only those. *)
  Lemma troubled e e' t : Infer ai ti e = Ok e' -> Trouble G r name (ec_src ctx) e t -> check ctx e' = answer (ec_src ctx) t.
  Proof.
    intros Hi [s text H|t' Hv H|s Hv H Hq]; unfold check.
    - rewrite (stuck_bool _ _ _ _ Hi H), rte_bind. apply rte_answer.
    - rewrite (truth_found _ _ _ Hi Hv). cbn [bind]. unfold explain. rewrite (search_fails _ _ H _ _ Hi), failure_bind. exact (failure_answer _ _ H).
    - rewrite (truth_found _ _ _ Hi Hv). cbn [bind]. unfold explain. destruct (explained_found _ _ H e' [] Hi) as (s' & q & Em & Is). rewrite Em. cbn [bind].
      assert (exists x, ev_bool ctx s' = Ok x) as [x ->]. { pose proof (minimal_best ctx e' _ _ _ Em) as (q' & _ & HB & _). destruct (sufficient ctx e' q' s' HB false (truth_found _ _ _ Hi Hv)) as (b & Hbs & _). eauto. }
      cbn [bind answer]. apply infer_loc in Is as [-> ->]. destruct (QuoteSubConstraint (ec_src ctx) (e_start s) (e_end s)) as [quote| |]; [destruct (Hq quote eq_refl)|reflexivity..].
  Qed.
  Lemma troubled_only e e' : Infer ai ti e = Ok e' -> e_type e' = TBool -> literals e -> (forall text, check ctx e' <> Ok text) -> exists t, Trouble G r name (ec_src ctx) e t.
  Proof.
    intros Hi Ht Hl Hn. destruct (stuck_cases e e' Hi Hl) as [(v & Hv)|(s & text & H)]; [|eexists; apply tb_value; exact H].
    pose proof (ev_typed ctx _ _ (ev_read ai ti G HG ctx e v Hfit Hv e' Hi)) as Hof. rewrite Ht in Hof. inversion Hof as [x| | | | | | |]; subst. unfold check in Hn. rewrite (truth_found _ _ _ Hi Hv) in Hn. cbn [bind] in Hn.
    destruct x; [destruct (Hn _ eq_refl)|]. destruct (explained_or e e' false Hi Ht Hl Hv) as [(s & Hs)|(t & Hu)]; [|exists t; now apply tb_reason].
    exists (Unquoted s). apply tb_quote; [exact Hv|exact Hs|]. intros quote Hq. unfold explain in Hn. destruct (explained_found _ _ Hs e' [] Hi) as (s' & q & Em & Is). rewrite Em in Hn. cbn [bind] in Hn.
    assert (exists x, ev_bool ctx s' = Ok x) as [x Ex]. { pose proof (minimal_best ctx e' _ _ _ Em) as (q' & _ & HB & _). destruct (sufficient ctx e' q' s' HB false (truth_found _ _ _ Hi Hv)) as (b & Hbs & _). eauto. }
    rewrite Ex in Hn. cbn [bind] in Hn. apply infer_loc in Is as [E1 E2]. rewrite E1, E2, Hq in Hn. cbn [bind] in Hn. exact (Hn _ eq_refl).
  Qed.
End S.
