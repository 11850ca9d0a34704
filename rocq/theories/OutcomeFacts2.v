(** The search for explanations, as a search in the constraint as written. *)
From Coq Require Import String Ascii List ZArith NArith Bool Lia Sorted.
From Verif Require Import Base Num Token Ast Lexer Quote AstConstructors Parser Info TypeChecker ConstraintInfo Interpreter SpecLexer SpecGrammar SpecParser SpecTyping SpecSemantics SpecInfo SpecExplain SpecCrash SpecReading SpecOutcome
  StrFacts NumFacts LiteralFacts ParserFacts4 TypeFacts EvalFacts SemFacts SemFacts2 EntryFacts EntryFacts2 ExplainFacts ExplainFacts2 VerdictFacts InfoFacts InfoFacts2 InterpFacts InterpFacts2 ReadingFacts ReadingFacts2 CrashFacts OutcomeFacts.
Import ListNotations.
Open Scope string_scope.

(** * Sizes *)
Lemma cast_size x t : CastTransitivelyTo x t = x \/ (below (e_type x) t /\ size (CastTransitivelyTo x t) = Ok 1%Z).
Proof.
  unfold CastTransitivelyTo, WrapWithCast. destruct (StrictlyAbove t (e_type x)) eqn:E; cbn [andb]; [|rewrite E; cbn [andb]; now left].
  apply above_iff in E. destruct (tycase_eqb (type_case (e_type x)) CInt); cbn [andb].
  - right. split; [exact E|]. destruct (_ && _); reflexivity.
  - destruct (StrictlyAbove t (e_type x) && _); [right; split; [exact E|reflexivity]|now left].
Qed.
(** Names in the scope of an action are numbers. *)
Definition only_bits (G : scope) : Prop := forall ps, G = InAction ps -> forall n t, declared ps n t -> usable t -> exists w, t = TBit w.
Lemma action_types G ps e t : G = InAction ps -> only_bits G -> Typed G e t -> t = TBool \/ t = TInt \/ exists w, t = TBit w.
Proof.
  intros HG Hb H. induction H; auto; subst; try discriminate.
  - right. right. eapply Hb; eauto.
  - destruct IHTyped as [->|[->|[w ->]]]; match goal with H : has_field _ _ _ |- _ => inversion H end.
Qed.
Lemma param_uncast G ps m n w b tb t : G = InAction ps -> only_bits G -> Typed G (EParam m n) (TBit w) -> Typed G b tb -> common (TBit w) tb t -> ~ below (TBit w) t.
Proof.
  intros HG Hb Ha Ht (H1 & H2 & H3) Hbt. destruct H2 as [->|H2].
  - destruct (action_types G ps b t HG Hb Ht) as [->|[->|[w' ->]]]; apply above_iff in Hbt; discriminate.
  - assert (convertible t (TBit w)) as Hc.
    { apply H3; [now left|]. apply above_iff in Hbt as Ea, H2 as Eb. destruct (action_types G ps b tb HG Hb Ht) as [->|[->|[w' ->]]].
      - destruct t; discriminate.
      - right. apply below_step. constructor.
      - destruct t; cbn in Ea, Eb; try discriminate; apply Z.eqb_eq in Ea, Eb; subst; now left. }
    destruct Hc as [->|Hc]; [exact (below_irrefl _ Hbt)|exact (below_irrefl _ (below_trans _ _ _ Hbt Hc))].
Qed.
Section S.
  Variables (ai : option action_info) (ti : option table_info) (G : scope).
  Hypothesis HG : in_scope ai ti G.
  Hypothesis Hbits : only_bits G.
  Lemma small_size e t t' : Typed G e t -> below t t' -> (forall m n, e <> EParam m n) -> size e = Ok 1%Z.
  Proof.
    intros H Hb Hp. apply above_iff in Hb. destruct H; try reflexivity; try (destruct t'; discriminate Hb). destruct (Hp _ _ eq_refl).
  Qed.
  Lemma size_same e : forall e', Infer ai ti e = Ok e' -> forall n, size e' = Ok n <-> size e = Ok n.
  Proof.
    induction e as [m b|m s|m n|m n|m e IH|m e IH|m e IH|m o l IHl r IHr|m f e IH|m n|m]; intros e' Hi k; pose proof (inv_atom ai ti G HG _ _ Hi) as Ha; cbn beta iota in Ha.
    - subst e'. reflexivity.
    - subst e'. reflexivity.
    - destruct Ha as [t ->]. reflexivity.
    - destruct Ha as [t ->]. cbn. split; discriminate.
    - apply (inv_not ai ti G HG) in Hi as (x & Hx & Hxt & ->). cbn [set_type size]. rewrite !bind_ok. split; intros (n & Hn & E); exists n; (split; [now apply (IH x Hx)|exact E]).
    - apply (inv_neg ai ti G HG) in Hi as (x & Hx & Hxt & ->). reflexivity.
    - destruct Ha.
    - apply (inv_bin ai ti G HG) in Hi as (x & y & Hx & Hy & Hi).
      assert (forall a b c d, (forall n, size a = Ok n <-> size l = Ok n) -> (forall n, size b = Ok n <-> size r = Ok n) -> (size (EBin c d a b) = Ok k <-> size (EBin m o l r) = Ok k)) as HB.
      { intros a b c d H1 H2. cbn [size]. rewrite !bind_ok. split; intros (n & Hn & E); apply bind_ok in E as (n' & Hn' & E); exists n; (split; [now apply H1|]); apply bind_ok; exists n'; (split; [now apply H2|exact E]). }
      destruct Hi as [(Hc & Htx & Hty & ->)|(t & Hco & Ho & ->)]; cbn [set_type]; [apply HB; [exact (IHl _ Hx)|exact (IHr _ Hy)]|].
      pose proof (proj1 (infer_ok ai ti G HG _ _ Hx)) as Tl. pose proof (proj1 (infer_ok ai ti G HG _ _ Hy)) as Tr.
      assert (forall e0 e1 x0 y0, Infer ai ti e0 = Ok x0 -> Typed G e0 (e_type x0) -> Typed G e1 (e_type y0) -> common (e_type x0) (e_type y0) t ->
        (forall n, size x0 = Ok n <-> size e0 = Ok n) -> forall n, size (CastTransitivelyTo x0 t) = Ok n <-> size e0 = Ok n) as HC.
      { intros e0 e1 x0 y0 Hi0 T0 T1 Hco0 IH0 n. destruct (cast_size x0 t) as [->|[Hb Hs]]; [apply IH0|]. rewrite Hs. rewrite (small_size _ _ _ T0 Hb); [reflexivity|].
        intros m0 n0 ->. assert ((exists ks, G = InTable ks) \/ exists ps, G = InAction ps) as [[ks HK]|[ps HP]] by (destruct G; eauto).
        - inversion T0; congruence.
        - assert (exists w, e_type x0 = TBit w) as [w Ew] by (inversion T0; subst; eapply Hbits; eauto). rewrite Ew in *. exact (param_uncast G ps m0 n0 w e1 _ t HP Hbits T0 T1 Hco0 Hb). }
      apply HB; [exact (HC l r x y Hx Tl Tr Hco (IHl _ Hx))|]. apply (HC r l y x Hy Tr Tl); [|exact (IHr _ Hy)]. destruct Hco as (H1 & H2 & H3). split; [exact H2|]. split; [exact H1|]. auto.
    - apply (inv_field ai ti G HG) in Hi as (x & t & Hx & Hf & ->). reflexivity.
    - destruct Ha as [-> ->]. reflexivity.
    - destruct Ha.
  Qed.

  (** * The search *)
  Variable ctx : eval_context.
  Hypothesis Hfit : env_fits G (env_of ctx).
  Hypothesis Hnb : no_bool G.
  Definition truth_of (e : expr) (x : bool) : Prop := Meant unordered_exact G (env_of ctx) e (VBool x).
  Lemma truth_ev e e' x : Infer ai ti e = Ok e' -> literals e -> (truth_of e x <-> ev_bool ctx e' = Ok x).
  Proof.
    intros Hi Hl. rewrite ev_bool_ok. split.
    - intros H. exact (ev_read ai ti G HG ctx e (VBool x) Hfit H e' Hi).
    - intros H. exact (ev_reads ai ti G HG ctx e e' (VBool x) Hi Hl H).
  Qed.
  Lemma truth_fun e x y : truth_of e x -> truth_of e y -> x = y.
  Proof. intros H H'. pose proof (meant_fun ai ti G HG unordered_exact unordered_fun _ _ _ _ H H') as [= E]. exact E. Qed.
  Lemma search e : forall e' p x, Infer ai ti e = Ok e' -> e_type e' = TBool -> literals e -> ev_bool ctx e' = Ok x ->
    (exists s s' q, minimal ctx e' p = Ok (s', q) /\ Explained truth_of e s /\ Infer ai ti s = Ok s' /\ sub s e /\ literals s) \/
    (exists c m, minimal ctx e' p = Err c m /\ Unexplained truth_of e c) \/
    (exists w, minimal ctx e' p = Crash w).
  Proof.
    unfold no_bool in Hnb. induction e as [m b|m s|m n|m n|m e IH|m e IH|m e IH|m o l IHl r IHr|m f e IH|m n|m]; intros e' p v Hi Ht Hl Hv;
      destruct (infer_ok ai ti G HG _ e' Hi) as (_ & Han & _); pose proof (inv_atom ai ti G HG _ _ Hi) as Ha; cbn beta iota in Ha.
    - subst e'. left. exists (EBool m b), (set_type TBool (EBool m b)), p. split; [reflexivity|]. split; [constructor|]. split; [exact Hi|]. split; [constructor|exact Hl].
    - subst e'. discriminate Ht.
    - destruct Ha as [t ->]. cbn in Ht. subst t. inversion Han as [| |keys' ? ? HGk Hd Hu| | | | | | | | |]; subst. exfalso. pose proof Hnb as Hnb2. rewrite HGk in Hnb2. exact (Hnb2 _ Hd).
    - destruct Ha as [t ->]. cbn in Ht. subst t. inversion Han as [| | |keys' ? ? HGk Hd Hu| | | | | | | |]; subst. exfalso. pose proof Hnb as Hnb2. rewrite HGk in Hnb2. exact (Hnb2 _ Hd).
    - apply (inv_not ai ti G HG) in Hi as (x & Hx & Hxt & ->). cbn [set_type minimal]. cbn [set_type] in Hv. apply ev_bool_not in Hv.
      destruct (IH x (false :: p) _ Hx Hxt Hl Hv) as [(s & s' & q & H1 & H2 & H3 & H4 & H5)|[(c & mm & H1 & H2)|(w & H1)]].
      + left. exists s, s', q. split; [exact H1|]. split; [now constructor|]. split; [exact H3|]. split; [now constructor|exact H5].
      + right. left. exists c, mm. split; [exact H1|now constructor].
      + right. right. eauto.
    - apply (inv_neg ai ti G HG) in Hi as (x & Hx & Hxt & ->). discriminate Ht.
    - destruct Ha.
    - pose proof Hi as Hi0. apply (inv_bin ai ti G HG) in Hi as (x & y & Hx & Hy & [(Hc & Htx & Hty & ->)|(t & Hco & Ho & ->)]).
      + cbn [set_type minimal]. cbn [set_type] in Hv, Han, Hi0. destruct Hl as [Hll Hlr].
        pose proof (ev_bool_conn ctx _ o x y v Hc Hv) as (bl & Hbl & _).
        pose proof (fun b => truth_ev l x b Hx Hll) as Tl. pose proof (fun b => truth_ev r y b Hy Hlr) as Tr.
        assert (Annotated G y) as Hay by (inversion Han; assumption).
        set (M := fun bl br => match match o with OOR => bl | _ => negb bl end, match o with OAND => negb br | _ => br end with
            | false, false => Ok (EBin (mkMeta (m_start m) (m_end m) TBool) o x y, p)
            | true, false => minimal ctx x (false :: p)
            | false, true => minimal ctx y (true :: p)
            | true, true => let* s0 := minimal ctx x (false :: p) in let* s1 := minimal ctx y (true :: p) in let* n0 := size (fst s0) in let* n1 := size (fst s1) in Ok (if Z.leb n0 n1 then s0 else s1) end).
        assert (minimal ctx (EBin (mkMeta (m_start m) (m_end m) TBool) o x y) p = bind (ev_bool ctx x) (fun bl => bind (ev_bool ctx y) (fun br => M bl br))) as EM by (destruct Hc; reflexivity).
        change (match o with OAND | OOR | OIMPLIES => _ | _ => _ end) with (minimal ctx (EBin (mkMeta (m_start m) (m_end m) TBool) o x y) p). rewrite EM, Hbl. cbn [bind].
        destruct (ev_bool ctx y) as [br|c mm|w] eqn:Hbr; cbn [bind].
        2: { right. left. exists c, mm. split; [reflexivity|]. assert (c = Internal) as -> by (eapply ev_bool_err; eauto). apply ux_value with bl; [exact Hc|now apply Tl|]. intros b Hb. apply Tr in Hb. congruence. }
        2: { right. right. eauto. }
        assert (truth_of l bl) as Hbl' by now apply Tl. assert (truth_of r br) as Hbr' by now apply Tr. unfold M.
        pose proof (decides_l o bl Hc) as Dl. pose proof (decides_r o br Hc) as Dr. fold (left_decides o bl) in Dl. fold (right_decides o br) in Dr.
        destruct (match o with OOR => bl | _ => negb bl end), (match o with OAND => negb br | _ => br end).
        * assert (left_decides o bl) as DL by now apply Dl. assert (right_decides o br) as DR by now apply Dr.
          destruct (IHl x (false :: p) _ Hx Htx Hll Hbl) as [(s & s' & q & H1 & H2 & H3 & H4 & H5)|[(c & mm & H1 & H2)|(w & H1)]]; rewrite H1; cbn [bind].
          2: { right. left. exists c, mm. split; [reflexivity|]. eapply ux_left; eauto. }
          2: { right. right. eauto. }
          destruct (IHr y (true :: p) _ Hy Hty Hlr Hbr) as [(t & t' & q' & H1' & H2' & H3' & H4' & H5')|[(c & mm & H1' & H2')|(w & H1')]]; rewrite H1'; cbn [bind fst].
          2: { right. left. exists c, mm. split; [reflexivity|]. eapply ux_right_too; eauto. }
          2: { right. right. eauto. }
          destruct (size s') as [i|c mm|w] eqn:Ei; cbn [bind].
          2: { right. left. exists c, mm. split; [reflexivity|]. apply size_err in Ei as Ec. subst c. eapply ux_size; eauto. intros (i & j & Hn & _). apply size_Nodes in Hn. apply (size_same s s' H3) in Hn. congruence. }
          2: { exfalso. exact (size_no_crash _ _ Ei). }
          destruct (size t') as [j|c mm|w] eqn:Ej; cbn [bind].
          2: { right. left. exists c, mm. split; [reflexivity|]. apply size_err in Ej as Ec. subst c. eapply ux_size; eauto. intros (i' & j & _ & Hn). apply size_Nodes in Hn. apply (size_same t t' H3') in Hn. congruence. }
          2: { exfalso. exact (size_no_crash _ _ Ej). }
          apply (size_same s s' H3) in Ei. apply (size_same t t' H3') in Ej. apply size_Nodes in Ei, Ej. left. destruct (Z.leb_spec i j).
          { exists s, s', q. split; [reflexivity|]. split; [eapply xp_both_left; eauto|]. split; [exact H3|]. split; [now constructor|exact H5]. }
          { exists t, t', q'. split; [reflexivity|]. split; [eapply xp_both_right; eauto|]. split; [exact H3'|]. split; [now apply sub_right|exact H5']. }
        * assert (left_decides o bl) as DL by now apply Dl. assert (~ right_decides o br) as DR by (intros H; apply Dr in H; discriminate).
          destruct (IHl x (false :: p) _ Hx Htx Hll Hbl) as [(s & s' & q & H1 & H2 & H3 & H4 & H5)|[(c & mm & H1 & H2)|(w & H1)]]; rewrite H1.
          { left. exists s, s', q. split; [reflexivity|]. split; [eapply xp_left; eauto|]. split; [exact H3|]. split; [now constructor|exact H5]. }
          { right. left. exists c, mm. split; [reflexivity|]. eapply ux_left; eauto. }
          { right. right. eauto. }
        * assert (~ left_decides o bl) as DL by (intros H; apply Dl in H; discriminate). assert (right_decides o br) as DR by now apply Dr.
          destruct (IHr y (true :: p) _ Hy Hty Hlr Hbr) as [(s & s' & q & H1 & H2 & H3 & H4 & H5)|[(c & mm & H1 & H2)|(w & H1)]]; rewrite H1.
          { left. exists s, s', q. split; [reflexivity|]. split; [eapply xp_right; eauto|]. split; [exact H3|]. split; [now apply sub_right|exact H5]. }
          { right. left. exists c, mm. split; [reflexivity|]. eapply ux_right; eauto. }
          { right. right. eauto. }
        * assert (~ left_decides o bl) as DL by (intros H; apply Dl in H; discriminate). assert (~ right_decides o br) as DR by (intros H; apply Dr in H; discriminate).
          left. exists (EBin m o l r), (EBin (mkMeta (m_start m) (m_end m) TBool) o x y), p. split; [reflexivity|]. split; [eapply xp_none; eauto|]. split; [exact Hi0|]. split; [constructor|split; assumption].
      + left. exists (EBin m o l r). eexists. exists p. split; [cbn [set_type minimal]; destruct Ho as [Ho|[Ho _]]; destruct Ho; reflexivity|].
        split; [apply xp_compare; destruct Ho as [Ho|[Ho _]]; [now apply cm_eq|now apply cm_ord]|]. split; [exact Hi0|]. split; [constructor|exact Hl].
    - apply (inv_field ai ti G HG) in Hi as (x & t & Hx & Hf & ->). rewrite type_set in Ht. subst t. inversion Hf.
    - destruct Ha as [-> ->]. discriminate Ht.
    - destruct Ha.
  Qed.
End S.
