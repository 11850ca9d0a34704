(** The parser accepts exactly the grammar's language. *)
From Coq Require Import String Ascii List ZArith NArith Bool Lia ZifyBool ZifyN ZifyNat.
From Verif Require Import Base Num Token Ast Lexer Quote AstConstructors Parser SpecLexer SpecGrammar StrFacts NumFacts LiteralFacts ParserFacts.
Import ListNotations.
Open Scope string_scope.

Lemma binary_iff k p ch o : binary k p ch o <->
  ext_kind k = true /\ k <> DOUBLE_COLON /\ TokenPrecedence k = p /\ is_left k = ch /\ ConvertBinaryOperator k = Ok o.
Proof.
  split.
  - intros []; repeat split; discriminate.
  - intros (H1 & H2 & <- & <- & H3). destruct k; try discriminate; try congruence; injection H3 as <-; constructor.
Qed.
Lemma none_left k : is_none k = negb (is_left k).
Proof. destruct k; reflexivity. Qed.
Lemma ext_prec k : ext_kind k = true -> (1 <= TokenPrecedence k <= 7)%nat /\ TokenPrecedence k <> 6%nat /\ (TokenPrecedence k = 7%nat <-> k = DOUBLE_COLON) /\ stop_kind k = false.
Proof. destruct k; try discriminate; cbn; repeat split; try lia; discriminate. Qed.

Section Facts.
  Variable pton : inet_pton6.
  Hypothesis Hpton : pton_ok pton.
  Variable ck : constraint_kind.
  Variable src : csource.
  Variable eof : loc.
  Notation PA := (parse_above pton ck src eof).
  Notation EX := (extend pton ck src eof).
  Notation Expect := (ExpectTokenKind src eof).
  Notation pk ts := (t_kind (Peek eof ts)).
  Notation Der := (D pton ck).
  Notation init := (initial pton ck src eof).

  Lemma D_le n w e : Der n w e -> (n <= 8)%nat.
  Proof. induction 1; try lia; match goal with H : binary _ _ _ _ |- _ => inversion H; lia end. Qed.
  Lemma D_down m n w e : Der n w e -> (m <= n)%nat -> Der m w e.
  Proof. intros H Hm. induction Hm as [|n Hm IH]; [exact H|]. apply IH. now apply D_up. Qed.
  Definition start_kind (k : kind) : bool :=
    match k with
    | TRUE | FALSE | BINARY | OCTARY | DECIMAL | HEXADEC | ID | DOUBLE_COLON | BANG | MINUS | LPAR => true
    | _ => false
    end.
  Lemma D_first n w e : Der n w e -> exists t w', w = t :: w' /\ start_kind (t_kind t) = true.
  Proof.
    induction 1 as [t Ht|t Ht|t b n s Hb|id lp st rp n s Hid|id w ids Hid|dc id Hdc|lp w rp e Hlp|w e dc id H IH|t w e Ht|t w e Ht
      |p o w1 e1 t w2 e2 Hb H1 IH1|p o w1 e1 t w2 e2 Hb H1 IH1|w e t H IH|n w e H IH].
    - eexists _, _. split; [reflexivity|now rewrite Ht].
    - eexists _, _. split; [reflexivity|now rewrite Ht].
    - eexists _, _. split; [reflexivity|now destruct Hb].
    - eexists _, _. split; [reflexivity|now rewrite Hid].
    - eexists _, _. split; [reflexivity|now rewrite Hid].
    - eexists _, _. split; [reflexivity|now rewrite Hdc].
    - eexists _, _. split; [reflexivity|now rewrite Hlp].
    - destruct IH as (t & w' & -> & Ht). eexists _, _. split; [reflexivity|exact Ht].
    - eexists _, _. split; [reflexivity|now rewrite Ht].
    - eexists _, _. split; [reflexivity|now rewrite Ht].
    - destruct IH1 as (t' & w' & -> & Ht). eexists _, _. split; [reflexivity|exact Ht].
    - destruct IH1 as (t' & w' & -> & Ht). eexists _, _. split; [reflexivity|exact Ht].
    - destruct IH as (t' & w' & -> & Ht). eexists _, _. split; [reflexivity|exact Ht].
    - exact IH.
  Qed.
  Lemma start_not_stop k : start_kind k = true -> stop_kind k = false.
  Proof. destruct k; try discriminate; reflexivity. Qed.

  Definition okctx (n ctx : nat) : Prop := (n < 6 -> ctx < n)%nat /\ (ctx <= 6)%nat.
  (** What follows is not absorbed at level [n]. *)
  Definition stops (n : nat) (ts : list token) : Prop :=
    stop_kind (pk ts) = true \/
    ext_kind (pk ts) = true /\ (TokenPrecedence (pk ts) < n \/ TokenPrecedence (pk ts) = n /\ is_left (pk ts) = true)%nat.
  Lemma stops_up n ts : stops n ts -> stops (S n) ts.
  Proof. intros [H|[H1 H2]]; [now left|right; split; [exact H1|lia]]. Qed.

  Definition PAc ts ctx r := exists N, forall f, (N <= f)%nat -> PA f ts ctx = r.
  Definition EXc e ts ctx r := exists N, forall f, (N <= f)%nat -> EX f e ts ctx = r.

  Lemma EX_stop e ts ctx : stops ctx ts -> EXc e ts ctx (Ok (e, ts)).
  Proof.
    intros H. exists 1%nat. intros [|f] Hf; [lia|]. rewrite EX_S. cbn zeta.
    destruct H as [->|[H1 H2]]; [reflexivity|].
    destruct (ext_prec _ H1) as (_ & _ & _ & ->). rewrite H1.
    assert ((Nat.eqb ctx (TokenPrecedence (pk ts)) && is_none (pk ts))%bool = false) as ->.
    { rewrite none_left. destruct (Nat.eqb_spec ctx (TokenPrecedence (pk ts))); [|reflexivity].
      destruct H2 as [H2|[_ ->]]; [lia|reflexivity]. }
    assert ((Nat.ltb (TokenPrecedence (pk ts)) ctx || Nat.eqb ctx (TokenPrecedence (pk ts)) && is_left (pk ts))%bool = true) as ->; [|reflexivity].
    destruct H2 as [H2|[H2 ->]]; [apply Nat.ltb_lt in H2; now rewrite H2|].
    replace (Nat.eqb ctx (TokenPrecedence (pk ts))) with true by (symmetry; apply Nat.eqb_eq; lia). apply orb_true_r.
  Qed.
  Lemma PA_init ts ctx e rest r : (exists N, forall f, (N <= f)%nat -> init f ts = Ok (e, rest)) ->
    EXc e rest ctx r -> PAc ts ctx r.
  Proof.
    intros [N1 H1] [N2 H2]. exists (S (Nat.max N1 N2)). intros [|f] Hf; [lia|]. rewrite PA_S, H1 by lia. cbn [bind]. apply H2. lia.
  Qed.
  (** One round of the extension loop. *)
  Lemma EX_commit e t ts ctx f : ext_kind (t_kind t) = true -> (ctx < TokenPrecedence (t_kind t))%nat ->
    EX (S f) e (t :: ts) ctx =
      if (kind_eqb (t_kind t) SEMICOLON && stop_kind (pk ts))%bool then Ok (e, ts)
      else if kind_eqb (t_kind t) DOUBLE_COLON then
        let* (field, ts) := Expect ID ts in
        let* ast := MakeFieldAccess e field in
        EX f ast ts ctx
      else
        let* (another, ts) := PA f ts (TokenPrecedence (t_kind t)) in
        let* ast := MakeBinaryExpression t e another in
        EX f ast ts ctx.
  Proof.
    intros H1 H2. rewrite EX_S. cbn zeta. cbn [Peek tl]. destruct (ext_prec _ H1) as (_ & _ & _ & ->). rewrite H1.
    replace (Nat.eqb ctx (TokenPrecedence (t_kind t))) with false by (symmetry; apply Nat.eqb_neq; lia).
    replace (Nat.ltb (TokenPrecedence (t_kind t)) ctx) with false by (symmetry; apply Nat.ltb_ge; lia). reflexivity.
  Qed.

  (** * Completeness *)
  Lemma complete n w e : Der n w e ->
    ((1 <= n)%nat -> forall ctx rest r, okctx n ctx -> stops n rest -> EXc e rest ctx r -> PAc (w ++ rest) ctx r) /\
    (forall rest, stop_kind (pk rest) = true -> PAc (w ++ rest) 0 (Ok (e, rest))).
  Proof.
    intros H.
    assert (forall n w e, (1 <= n)%nat ->
       ((1 <= n)%nat -> forall ctx rest r, okctx n ctx -> stops n rest -> EXc e rest ctx r -> PAc (w ++ rest) ctx r) ->
       ((1 <= n)%nat -> forall ctx rest r, okctx n ctx -> stops n rest -> EXc e rest ctx r -> PAc (w ++ rest) ctx r) /\
       (forall rest, stop_kind (pk rest) = true -> PAc (w ++ rest) 0 (Ok (e, rest)))) as Hpos.
    { clear. intros n w e Hn H. split; [exact H|]. intros rest Hr. apply H; [exact Hn|split; lia|now left|].
      apply EX_stop. now left. }
    induction H as [t Ht|t Ht|t b n s Hb Hn Hs|id lp st rp n s Hid Hlp Hst Hrp Ha Hs|id w ids Hid Hd|dc id Hdc Hid|lp w rp e Hlp H IH Hrp
      |w e dc id H IH Hdc Hid|t w e Ht H IH|t w e Ht H IH
      |p o w1 e1 t w2 e2 Hb H1 IH1 H2 IH2|p o w1 e1 t w2 e2 Hb H1 IH1 H2 IH2|w e t H IH Ht|n w e H IH].
    - apply Hpos; [lia|]. intros _ ctx rest r Hc Hst Hx. eapply PA_init; [|exact Hx]. exists 0%nat. intros f _.
      unfold initial. cbn [app Peek tl]. rewrite Ht. unfold MakeBooleanConstant. rewrite Ht. reflexivity.
    - apply Hpos; [lia|]. intros _ ctx rest r Hc Hst Hx. eapply PA_init; [|exact Hx]. exists 0%nat. intros f _.
      unfold initial. cbn [app Peek tl]. rewrite Ht. unfold MakeBooleanConstant. rewrite Ht. reflexivity.
    - apply Hpos; [lia|]. intros _ ctx rest r Hc Hst Hx. eapply PA_init; [|exact Hx]. exists 0%nat. intros f _.
      unfold initial. cbn [app Peek tl].
      assert (MakeIntegerConstant t = Ok (EInt (at_ (t_start t) (t_end t)) s)) as E.
      { apply (MakeInteger_spec t b); [exact Hb| |eauto]. unfold numeral_text. destruct Hb; eauto. }
      rewrite E. destruct Hb; reflexivity.
    - apply Hpos; [lia|]. intros _ ctx rest r Hc Hst' Hx. eapply PA_init; [|exact Hx]. exists 0%nat. intros f _.
      unfold initial. cbn [app Peek tl]. rewrite Hid, Hlp. cbn [kind_eqb]. rewrite kind_eqb_refl, !Expect_cons by assumption.
      cbn [bind]. rewrite Expect_cons by assumption. cbn [bind].
      rewrite (proj2 (MakeNetworkAddress_spec pton (t_text id) (t_text st) (t_start id) (t_end rp) (EInt (at_ (t_start id) (t_end rp)) s) Hpton)); [reflexivity|eauto].
    - apply Hpos; [lia|]. intros _ ctx rest r Hc Hst' Hx. eapply PA_init; [|exact Hx]. exists 0%nat. intros f _.
      assert (pk rest <> DOT /\ pk rest <> LPAR) as [Hr1 Hr2].
      { split; intros E; destruct Hst' as [Hk|[Hk _]]; rewrite E in Hk; discriminate. }
      unfold initial. cbn [app Peek tl]. rewrite Hid.
      assert (kind_eqb (pk (w ++ rest)) LPAR = false) as ->.
      { destruct Hd as [|dot i w ids Hdot]; cbn [app Peek]; [|rewrite Hdot; reflexivity].
        destruct (kind_eqb_spec (pk rest) LPAR); [congruence|reflexivity]. }
      rewrite (ids_complete src eof w ids rest Hd Hr1). cbn [bind].
      assert (MakeVariable (id :: ids) ck = Ok (variable ck (at_ (t_start id) (t_end (last ids id))) (map t_text (id :: ids)))) as ->; [|reflexivity].
      unfold MakeVariable. assert (forallb (fun t => kind_eqb (t_kind t) ID) (id :: ids) = true) as ->.
      { cbn [forallb]. rewrite Hid. cbn [kind_eqb]. rewrite kind_eqb_refl. cbn [andb]. clear - Hd. induction Hd as [|dot i w ids Hdot Hi H IH]; [reflexivity|].
        cbn [forallb]. now rewrite Hi, kind_eqb_refl. }
      cbn [ret_check bind]. unfold variable, Located, at_.
      assert (last (id :: ids) id = last ids id) as -> by (destruct ids; reflexivity).
      assert (forall sep l, join sep l = String.concat sep l) as Ej.
      { intros sep l. induction l as [|x l IH]; [reflexivity|]. destruct l as [|y l]; [reflexivity|]. cbn [join String.concat] in *. now rewrite IH. }
      assert (forall l, concat_strings l = String.concat "" l) as Ec.
      { intros l. induction l as [|x l IH]; [reflexivity|]. cbn [concat_strings]. rewrite IH. destruct l; [cbn; apply sapp_nil_r|reflexivity]. }
      destruct ck; now rewrite ?Ej, ?Ec.
    - apply Hpos; [lia|]. intros _ ctx rest r Hc Hst' Hx. eapply PA_init; [|exact Hx]. exists 0%nat. intros f _.
      unfold initial. cbn [app Peek tl]. rewrite Hdc, Expect_cons by assumption. reflexivity.
    - apply Hpos; [lia|]. intros _ ctx rest r Hc Hst' Hx. eapply PA_init; [|exact Hx].
      destruct (proj2 IH (rp :: rest)) as [N HN]; [cbn [Peek]; now rewrite Hrp|]. exists N. intros f Hf.
      unfold initial. cbn [app Peek tl]. rewrite Hlp, <- app_assoc. cbn [app]. rewrite HN by exact Hf. cbn [bind].
      rewrite Expect_cons by assumption. reflexivity.
    - apply Hpos; [lia|]. intros _ ctx rest r [Hc1 Hc2] Hst' [N HN]. rewrite <- app_assoc.
      apply (proj1 IH ltac:(lia)); [split; lia|right; cbn [app Peek]; rewrite Hdc; cbn; auto|].
      exists (S N). intros [|f] Hf; [lia|]. cbn [app]. rewrite EX_commit by (rewrite Hdc; cbn; lia). rewrite Hdc. cbn [kind_eqb].
      change (kind_eqb DOUBLE_COLON SEMICOLON) with false. cbn [andb]. change (kind_eqb DOUBLE_COLON DOUBLE_COLON) with true. cbn [andb].
      rewrite Expect_cons by assumption. cbn [bind]. unfold MakeFieldAccess. rewrite Hid, kind_eqb_refl. cbn [ret_check bind]. apply HN. lia.
    - apply Hpos; [lia|]. intros _ ctx rest r [Hc1 Hc2] Hst' Hx. eapply PA_init; [|exact Hx].
      destruct (proj1 IH ltac:(lia) 6%nat rest (Ok (e, rest))) as [N HN]; [split; lia|exact Hst'|now apply EX_stop|].
      exists N. intros f Hf. unfold initial. cbn [app Peek tl]. rewrite Ht. cbn [TokenPrecedence]. rewrite HN by exact Hf. cbn [bind].
      unfold MakeBooleanNegation. rewrite Ht. reflexivity.
    - apply Hpos; [lia|]. intros _ ctx rest r [Hc1 Hc2] Hst' Hx. eapply PA_init; [|exact Hx].
      destruct (proj1 IH ltac:(lia) 6%nat rest (Ok (e, rest))) as [N HN]; [split; lia|exact Hst'|now apply EX_stop|].
      exists N. intros f Hf. unfold initial. cbn [app Peek tl]. rewrite Ht. cbn [TokenPrecedence]. rewrite HN by exact Hf. cbn [bind].
      unfold MakeArithmeticNegation. rewrite Ht. reflexivity.
    - apply binary_iff in Hb as (Hk1 & Hk2 & Hp & Hl & Ho). pose proof (ext_prec _ Hk1) as (Hr & Hn6 & Hn7 & Hns).
      apply Hpos; [lia|]. intros _ ctx rest r [Hc1 Hc2] Hst' Hx. rewrite <- app_assoc.
      assert (p <> 7%nat) by (intros E; apply Hk2, Hn7; lia).
      apply (proj1 IH1 ltac:(lia)); [split; lia|right; cbn [app Peek]; split; [exact Hk1|right; split; [lia|exact Hl]]|].
      destruct (proj1 IH2 ltac:(lia) p rest (Ok (e2, rest))) as [N HN]; [split; lia|now apply stops_up|now apply EX_stop|].
      destruct Hx as [N2 HN2]. exists (S (Nat.max N N2)). intros [|f] Hf; [lia|]. cbn [app]. rewrite EX_commit by (rewrite ?Hp; auto; lia).
      destruct (D_first _ _ _ H2) as (t2 & w2' & -> & Ht2).
      replace (stop_kind (pk ((t2 :: w2') ++ rest))) with false by (symmetry; apply start_not_stop; exact Ht2). rewrite andb_false_r.
      destruct (kind_eqb_spec (t_kind t) DOUBLE_COLON); [congruence|]. rewrite Hp, HN by lia. cbn [bind].
      unfold MakeBinaryExpression. rewrite Ho. cbn [bind]. apply HN2. lia.
    - apply binary_iff in Hb as (Hk1 & Hk2 & Hp & Hl & Ho). pose proof (ext_prec _ Hk1) as (Hr & Hn6 & Hn7 & Hns).
      apply Hpos; [lia|]. intros _ ctx rest r [Hc1 Hc2] Hst' Hx. rewrite <- app_assoc.
      assert (p <> 7%nat) by (intros E; apply Hk2, Hn7; lia).
      apply (proj1 IH1 ltac:(lia)); [split; lia|right; cbn [app Peek]; split; [exact Hk1|left; lia]|].
      destruct (proj1 IH2 ltac:(lia) p rest (Ok (e2, rest))) as [N HN]; [split; lia|now apply stops_up|now apply EX_stop|].
      destruct Hx as [N2 HN2]. exists (S (Nat.max N N2)). intros [|f] Hf; [lia|]. cbn [app]. rewrite EX_commit by (rewrite ?Hp; auto; lia).
      destruct (D_first _ _ _ H2) as (t2 & w2' & -> & Ht2).
      replace (stop_kind (pk ((t2 :: w2') ++ rest))) with false by (symmetry; apply start_not_stop; exact Ht2). rewrite andb_false_r.
      destruct (kind_eqb_spec (t_kind t) DOUBLE_COLON); [congruence|]. rewrite Hp, HN by lia. cbn [bind].
      unfold MakeBinaryExpression. rewrite Ho. cbn [bind]. apply HN2. lia.
    - split; [lia|]. intros rest Hr. rewrite <- app_assoc. apply (proj1 IH ltac:(lia)); [split; lia| |].
      + right. cbn [app Peek]. rewrite Ht. cbn. auto.
      + exists 1%nat. intros [|f] Hf; [lia|]. cbn [app]. rewrite EX_commit by (rewrite Ht; cbn; lia). rewrite Ht, Hr. reflexivity.
    - split; [|exact (proj2 IH)]. intros Hn ctx rest r [Hc1 Hc2] Hst' Hx. apply (proj1 IH ltac:(lia)); [split; lia|now apply stops_up|exact Hx].
  Qed.

  (** * Soundness *)
  Definition follow (n : nat) (ts : list token) : Prop :=
    ext_kind (pk ts) = true -> (TokenPrecedence (pk ts) < n \/ TokenPrecedence (pk ts) = n /\ is_left (pk ts) = true)%nat.
  Definition result ctx w e rest : Prop :=
    (exists n, (1 <= n)%nat /\ okctx n ctx /\ Der n w e /\ stops ctx rest) \/
    (ctx = 0%nat /\ Der 0 w e /\ stop_kind (pk rest) = true).
  Lemma sound f :
    (forall ts ctx e rest, (ctx <= 6)%nat -> Forall numeral_text ts -> PA f ts ctx = Ok (e, rest) ->
       exists w, ts = (w ++ rest)%list /\ result ctx w e rest) /\
    (forall ast ts ctx w0 n e rest, (ctx <= 6)%nat -> Forall numeral_text ts -> Der n w0 ast -> (1 <= n)%nat -> okctx n ctx -> follow n ts ->
       EX f ast ts ctx = Ok (e, rest) ->
       exists w, ts = (w ++ rest)%list /\ result ctx (w0 ++ w) e rest).
  Proof.
    induction f as [|f [IHp IHe]]; [split; intros; discriminate|]. split.
    - intros ts ctx e rest Hctx Hnum H. rewrite PA_S in H. apply bind_ok in H as ([a1 ts1] & E & H).
      destruct ts as [|t ts]; [exfalso; revert E; apply bad_not_ok; apply (Unexpected_bad (Peek eof []))|].
      enough (exists w n, (t :: ts) = (w ++ ts1)%list /\ Der n w a1 /\ (6 <= n)%nat /\ follow n ts1) as (w & n & E1 & HD & Hn & Hf).
      { rewrite E1 in *. apply Forall_app in Hnum as [_ Hnum].
        destruct (IHe a1 ts1 ctx w n e rest) as (w' & -> & Hr); auto; [lia|split; lia|].
        exists (w ++ w')%list. split; [now rewrite app_assoc|exact Hr]. }
      clear H. inversion Hnum as [|? ? Ht Hts]; subst.
      assert (forall ts, follow 8 ts) as Hf8.
      { intros l Hl. apply ext_prec in Hl as [Hl _]. left. lia. }
      unfold initial in E. cbn [Peek tl] in E.
      destruct (t_kind t) eqn:Hk; try (exfalso; revert E; apply bad_not_ok; apply Unexpected_bad).
      + unfold MakeBooleanConstant in E. rewrite Hk in E. cbn in E. injection E as <- <-. exists [t], 8%nat. split; [reflexivity|]. split; [now constructor|]. auto.
      + unfold MakeBooleanConstant in E. rewrite Hk in E. cbn in E. injection E as <- <-. exists [t], 8%nat. split; [reflexivity|]. split; [now constructor|]. auto.
      + apply bind_ok in E as ([a2 ts2] & E2 & E). unfold MakeBooleanNegation in E. rewrite Hk in E. cbn in E. injection E as <- <-.
        apply IHp in E2 as (w & -> & Hr); [|cbn; lia|exact Hts]. exists (t :: w), 6%nat. split; [reflexivity|].
        destruct Hr as [(n & Hn1 & [Hn2 Hn3] & HD & Hst)|[? _]]; [|discriminate]. split; [|split; [lia|]].
        * constructor; [exact Hk|]. apply (D_down _ n); [exact HD|cbn in *; lia].
        * intros Hx. destruct Hst as [Hst|[_ Hst]]; [apply ext_prec in Hx; destruct Hx as (_ & _ & _ & Hx); congruence|exact Hst].
      + apply bind_ok in E as ([a2 ts2] & E2 & E). unfold MakeArithmeticNegation in E. rewrite Hk in E. cbn in E. injection E as <- <-.
        apply IHp in E2 as (w & -> & Hr); [|cbn; lia|exact Hts]. exists (t :: w), 6%nat. split; [reflexivity|].
        destruct Hr as [(n & Hn1 & [Hn2 Hn3] & HD & Hst)|[? _]]; [|discriminate]. split; [|split; [lia|]].
        * constructor; [exact Hk|]. apply (D_down _ n); [exact HD|cbn in *; lia].
        * intros Hx. destruct Hst as [Hst|[_ Hst]]; [apply ext_prec in Hx; destruct Hx as (_ & _ & _ & Hx); congruence|exact Hst].
      + apply bind_ok in E as ([id ts2] & E2 & E). apply Expect_ok_cons in E2 as [-> Hid]; [|discriminate]. cbn in E. injection E as <- <-.
        exists [t; id], 8%nat. split; [reflexivity|]. split; [now constructor|]. auto.
      + apply bind_ok in E as ([a2 ts2] & E2 & E). apply bind_ok in E as ([rp ts3] & E3 & E). injection E as <- <-.
        apply Expect_ok_cons in E3 as [-> Hrp]; [|discriminate].
        apply IHp in E2 as (w & -> & Hr); [|lia|exact Hts]. exists (t :: w ++ [rp])%list, 8%nat. split; [cbn; now rewrite <- app_assoc|].
        split; [|auto]. constructor; auto. destruct Hr as [(n & Hn1 & [Hn2 Hn3] & HD & Hst)|(_ & HD & _)]; [|exact HD].
        apply (D_down _ n); [exact HD|lia].
      + destruct (kind_eqb_spec (pk ts) LPAR) as [Hlp|Hlp].
        * destruct ts as [|lp ts]; [discriminate Hlp|]. cbn [Peek tl] in *.
          apply bind_ok in E as ([st ts2] & E2 & E). apply bind_ok in E as ([rp ts3] & E3 & E). apply bind_ok in E as (a4 & E4 & E).
          injection E as <- <-. apply Expect_ok_cons in E2 as [-> Hst]; [|discriminate]. apply Expect_ok_cons in E3 as [-> Hrp]; [|discriminate].
          apply MakeNetworkAddress_spec in E4 as (n & d & Ha & Hd & ->); [|exact Hpton].
          exists [t; lp; st; rp], 8%nat. split; [reflexivity|]. split; [econstructor; eauto|auto].
        * apply bind_ok in E as ([ids ts2] & E2 & E). apply bind_ok in E as (a3 & E3 & E). injection E as <- <-.
          apply (ids_ok src eof _ _ _ _ (le_n _)) in E2 as (w & -> & Hd & Hr).
          exists (t :: w), 8%nat. split; [reflexivity|]. split; [|auto].
          enough (a3 = variable ck (at_ (t_start t) (t_end (last ids t))) (map t_text (t :: ids))) as -> by now constructor.
          unfold MakeVariable in E3. apply bind_ok in E3 as (u & _ & E3). unfold variable, at_.
          assert (last (t :: ids) t = last ids t) as El by (destruct ids; reflexivity).
          assert (forall sep l, join sep l = String.concat sep l) as Ej.
          { intros sep l. induction l as [|x l IH]; [reflexivity|]. destruct l as [|y l]; [reflexivity|]. cbn [join String.concat] in *. now rewrite IH. }
          assert (forall l, concat_strings l = String.concat "" l) as Ec.
          { intros l. induction l as [|x l IH]; [reflexivity|]. cbn [concat_strings]. rewrite IH. destruct l; [cbn; apply sapp_nil_r|reflexivity]. }
          rewrite El in E3. destruct ck; injection E3 as <-; now rewrite <- ?Ej, <- ?Ec.
      + apply bind_ok in E as (a2 & E2 & E). injection E as <- <-. apply (MakeInteger_spec t 2) in E2 as (n & s & Hn & Hs & ->); [|rewrite Hk; constructor|exact Ht].
        exists [t], 8%nat. split; [reflexivity|]. split; [|auto]. eapply D_num; [rewrite Hk; constructor|eassumption..].
      + apply bind_ok in E as (a2 & E2 & E). injection E as <- <-. apply (MakeInteger_spec t 8) in E2 as (n & s & Hn & Hs & ->); [|rewrite Hk; constructor|exact Ht].
        exists [t], 8%nat. split; [reflexivity|]. split; [|auto]. eapply D_num; [rewrite Hk; constructor|eassumption..].
      + apply bind_ok in E as (a2 & E2 & E). injection E as <- <-. apply (MakeInteger_spec t 10) in E2 as (n & s & Hn & Hs & ->); [|rewrite Hk; constructor|exact Ht].
        exists [t], 8%nat. split; [reflexivity|]. split; [|auto]. eapply D_num; [rewrite Hk; constructor|eassumption..].
      + apply bind_ok in E as (a2 & E2 & E). injection E as <- <-. apply (MakeInteger_spec t 16) in E2 as (n & s & Hn & Hs & ->); [|rewrite Hk; constructor|exact Ht].
        exists [t], 8%nat. split; [reflexivity|]. split; [|auto]. eapply D_num; [rewrite Hk; constructor|eassumption..].
    - intros ast ts ctx w0 n e rest Hctx Hnum HD Hn Hok Hf H.
      assert (stops ctx ts -> e = ast -> rest = ts -> exists w, ts = (w ++ rest)%list /\ result ctx (w0 ++ w) e rest) as Hstop.
      { intros Hs -> ->. exists []. split; [reflexivity|]. rewrite app_nil_r. left. exists n. auto. }
      rewrite EX_S in H. cbn zeta in H.
      destruct (stop_kind (pk ts)) eqn:Es; [injection H as <- <-; apply Hstop; auto; now left|].
      destruct (ext_kind (pk ts)) eqn:Ex; [|exfalso; revert H; apply bad_not_ok; apply Unexpected_bad].
      destruct (_ && _)%bool eqn:E1; [exfalso; revert H; apply bad_not_ok; apply ParseErrorAt_bad|].
      destruct (_ || _)%bool eqn:E2.
      { injection H as <- <-. apply Hstop; auto. right. split; [exact Ex|].
        apply orb_true_iff in E2 as [E2|E2]; [left; now apply Nat.ltb_lt|].
        apply andb_true_iff in E2 as [E2 E3]. apply Nat.eqb_eq in E2. right. split; [lia|exact E3]. }
      assert (ctx < TokenPrecedence (pk ts))%nat as Hlt.
      { apply orb_false_iff in E2 as [E2 E3]. apply Nat.ltb_ge in E2.
        destruct (Nat.eqb_spec ctx (TokenPrecedence (pk ts))) as [E|E]; [|lia]. rewrite none_left in E1. cbn in *. rewrite E3 in E1. discriminate. }
      destruct ts as [|t ts]; [discriminate Es|]. cbn [Peek tl] in *. specialize (Hf Ex). cbn [Peek] in Hf. inversion Hnum as [|? ? Ht Hts]; subst.
      pose proof (ext_prec _ Ex) as (Hr & Hn6 & Hn7 & _). apply D_le in HD as Hle.
      destruct (kind_eqb (t_kind t) SEMICOLON && stop_kind (pk ts))%bool eqn:E3.
      { injection H as <- <-. apply andb_true_iff in E3 as [E3 E4]. destruct (kind_eqb_spec (t_kind t) SEMICOLON) as [Hk|]; [|discriminate].
        exists [t]. split; [reflexivity|]. right. rewrite Hk in Hlt. cbn in Hlt. split; [lia|]. split; [|exact E4].
        constructor; [|exact Hk]. apply (D_down _ n); [exact HD|lia]. }
      destruct (kind_eqb_spec (t_kind t) DOUBLE_COLON) as [Hk|Hk].
      + apply bind_ok in H as ([id ts2] & E4 & H). apply bind_ok in H as (a3 & E5 & H).
        apply Expect_ok_cons in E4 as [-> Hid]; [|discriminate]. unfold MakeFieldAccess in E5. rewrite Hid in E5. cbn in E5. injection E5 as <-.
        inversion Hts as [|? ? _ Hts2]; subst. rewrite Hk in Hf. cbn in Hf.
        apply (IHe _ _ ctx (w0 ++ [t; id])%list 7%nat) in H as (w & -> & Hres); auto.
        * exists (t :: id :: w). split; [reflexivity|]. rewrite <- app_assoc in Hres. exact Hres.
        * constructor; auto. apply (D_down _ n); [exact HD|lia].
        * lia.
        * split; lia.
        * intros Hx. pose proof (ext_prec _ Hx) as (Hx1 & _ & Hx7 & _). destruct (Nat.eq_dec (TokenPrecedence (pk ts2)) 7) as [E|E]; [|lia].
          right. split; [exact E|]. apply Hx7 in E. now rewrite E.
      + apply bind_ok in H as ([a2 ts2] & E4 & H). apply bind_ok in H as (a3 & E5 & H).
        unfold MakeBinaryExpression in E5. apply bind_ok in E5 as (o & Eo & E5). injection E5 as <-.
        set (p := TokenPrecedence (t_kind t)) in *. assert (p <> 7%nat) as Hp7 by (intros E; apply Hk, Hn7, E).
        apply IHp in E4 as (w2 & -> & Hr2); [|lia|exact Hts].
        destruct Hr2 as [(n2 & Hn21 & [Hn22 Hn23] & HD2 & Hst)|[? _]]; [|lia].
        apply Forall_app in Hts as [_ Hts].
        apply (IHe _ _ ctx (w0 ++ t :: w2)%list p) in H as (w & -> & Hres); auto.
        * exists (t :: w2 ++ w)%list. split; [cbn; now rewrite <- app_assoc|]. rewrite <- app_assoc in Hres. exact Hres.
        * destruct (is_left (t_kind t)) eqn:El.
          -- apply D_chain; [apply binary_iff; auto| |]; [apply (D_down _ n); [exact HD|lia]|apply (D_down _ n2); [exact HD2|lia]].
          -- assert (p < n)%nat as Hpn by (destruct Hf as [Hf|[_ Hf]]; [exact Hf|congruence]).
             apply D_single; [apply binary_iff; auto| |]; [apply (D_down _ n); [exact HD|lia]|apply (D_down _ n2); [exact HD2|lia]].
        * lia.
        * split; lia.
        * intros Hx. destruct Hst as [Hst|[_ Hst]]; [|exact Hst]. apply ext_prec in Hx as (_ & _ & _ & Hx). congruence.
  Qed.
End Facts.
