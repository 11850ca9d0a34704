(** Facts behind C55-C57. *)
From Coq Require Import String Ascii List ZArith NArith Bool Lia.
From Verif Require Import Base Num Token Ast Lexer Quote AstConstructors Parser Info TypeChecker ConstraintInfo Interpreter SpecLexer SpecGrammar SpecParser SpecTyping SpecSemantics SpecInfo SpecMisc SpecLaws
  StrFacts NumFacts LiteralFacts ParserFacts4 TypeFacts EvalFacts SemFacts SemFacts2 InterpFacts InterpFacts2.
Import ListNotations.
Open Scope string_scope.

(** * Trees that differ in locations *)
Lemma alike_refl e : Alike e e.
Proof. induction e; now constructor. Qed.
Lemma alike_sym e f : Alike e f -> Alike f e.
Proof. induction 1; now constructor. Qed.
Lemma typed_alike G e f t : Alike e f -> Typed G e t -> Typed G f t.
Proof. intros H. revert t. induction H; intros t Ht; inversion Ht; subst; solve [econstructor; eauto]. Qed.
Lemma literals_alike e f : Alike e f -> literals e -> literals f.
Proof. induction 1; cbn [literals]; auto. intros [? ?]; auto. Qed.
Lemma den_alike G r e f v : Alike e f -> Den G r e v -> Den G r f v.
Proof.
  intros H. revert v. induction H; intros v Hd; inversion Hd; subst; try solve [econstructor; eauto].
  eapply sem_compare; eauto using typed_alike.
Qed.
Lemma orders_alike G e f : Alike e f -> orders_exact G e -> orders_exact G f.
Proof.
  induction 1; intros Ho; inversion Ho; subst; try solve [constructor; auto]; eapply oe_here; eauto using typed_alike.
Qed.
Definition same_kt (w w' : list token) : Prop := map (fun t => (t_kind t, t_text t)) w = map (fun t => (t_kind t, t_text t)) w'.
Lemma dots_alike w ids : Dots w ids -> forall w', same_kt w w' -> exists ids', Dots w' ids' /\ map t_text ids' = map t_text ids.
Proof.
  induction 1 as [|dot id w ids Hd Hi H IH]; intros w' E; unfold same_kt in E.
  - destruct w'; [|discriminate]. exists []. split; [constructor|reflexivity].
  - destruct w' as [|d' [|i' w']]; try discriminate. cbn in E. injection E as E1 E2 E3 E4 E5. destruct (IH w' E5) as (ids' & H' & Em).
    exists (i' :: ids'). split; [constructor; congruence|cbn; congruence].
Qed.
Lemma same_kt_app a b w' : same_kt (a ++ b) w' -> exists a' b', w' = (a' ++ b')%list /\ same_kt a a' /\ same_kt b b'.
Proof.
  unfold same_kt. rewrite map_app. intros E. symmetry in E. apply map_eq_app in E as (a' & b' & -> & E1 & E2). exists a', b'. auto.
Qed.
Lemma same_kt_cons t w w' : same_kt (t :: w) w' -> exists t' u, w' = t' :: u /\ t_kind t' = t_kind t /\ t_text t' = t_text t /\ same_kt w u.
Proof. unfold same_kt. destruct w' as [|t' u]; [discriminate|]. cbn. intros E. injection E as E1 E2 E3. eauto 8. Qed.
Lemma same_kt_nil w' : same_kt [] w' -> w' = [].
Proof. unfold same_kt. destruct w'; [auto|discriminate]. Qed.
Ltac skt :=
  repeat match goal with
  | H : same_kt (_ ++ _)%list _ |- _ => apply same_kt_app in H as (? & ? & -> & ? & ?)
  | H : same_kt (_ :: _) _ |- _ => apply same_kt_cons in H as (? & ? & -> & ? & ? & ?)
  | H : same_kt [] _ |- _ => apply same_kt_nil in H as ->
  end.
Lemma D_alike pton ck n w e : D pton ck n w e -> forall w', same_kt w w' -> exists e', D pton ck n w' e' /\ Alike e e'.
Proof.
  induction 1 as [t Ht|t Ht|t b n s Hb Hr Hs|id lp st rp n s H1 H2 H3 H4 Ha Hs|id w ids Hi Hd|dc id Hd Hi|lp w rp e Hl H IH Hr|w e dc id H IH Hd Hi|t w e Ht H IH|t w e Ht H IH
    |p o w1 e1 t w2 e2 Hb H1 IH1 H2 IH2|p o w1 e1 t w2 e2 Hb H1 IH1 H2 IH2|w e t H IH Ht|n w e H IH]; intros w' E; skt.
  - eexists. split; [apply D_true; congruence|constructor].
  - eexists. split; [apply D_false; congruence|constructor].
  - eexists. split; [eapply D_num; [match goal with E : t_kind _ = t_kind t |- _ => rewrite E; exact Hb end|match goal with E : t_text _ = t_text t |- _ => rewrite E; exact Hr end|exact Hs]|constructor].
  - eexists. split; [eapply D_addr; try congruence; [|exact Hs]|constructor]. match goal with |- Address _ ?a ?b _ => replace a with (t_text id) by congruence; replace b with (t_text st) by congruence end. exact Ha.
  - match goal with E : same_kt w _ |- _ => destruct (dots_alike _ _ Hd _ E) as (ids' & Hd' & Em) end. eexists. split; [apply D_var; [congruence|exact Hd']|].
    cbn [map]. rewrite Em. match goal with E : t_text _ = t_text id |- _ => rewrite E end. destruct ck; constructor.
  - eexists. split; [apply D_attr; congruence|]. match goal with E : t_text _ = t_text id |- _ => rewrite E end. constructor.
  - match goal with E : same_kt w _ |- _ => destruct (IH _ E) as (e' & H' & Ha) end. eexists. split; [apply D_paren; [congruence|exact H'|congruence]|exact Ha].
  - match goal with E : same_kt w _ |- _ => destruct (IH _ E) as (e' & H' & Ha) end. eexists. split; [apply D_field; [exact H'|congruence|congruence]|]. match goal with E : t_text _ = t_text id |- _ => rewrite E end. now constructor.
  - match goal with E : same_kt w _ |- _ => destruct (IH _ E) as (e' & H' & Ha) end. eexists. split; [apply D_not; [congruence|exact H']|]. now constructor.
  - match goal with E : same_kt w _ |- _ => destruct (IH _ E) as (e' & H' & Ha) end. eexists. split; [apply D_neg; [congruence|exact H']|]. now constructor.
  - match goal with E : same_kt w1 _, F : same_kt w2 _ |- _ => destruct (IH1 _ E) as (e1' & H1' & Ha1); destruct (IH2 _ F) as (e2' & H2' & Ha2) end.
    eexists. split; [eapply D_chain; [match goal with E : t_kind _ = t_kind t |- _ => rewrite E; exact Hb end|exact H1'|exact H2']|]. now constructor.
  - match goal with E : same_kt w1 _, F : same_kt w2 _ |- _ => destruct (IH1 _ E) as (e1' & H1' & Ha1); destruct (IH2 _ F) as (e2' & H2' & Ha2) end.
    eexists. split; [eapply D_single; [match goal with E : t_kind _ = t_kind t |- _ => rewrite E; exact Hb end|exact H1'|exact H2']|]. now constructor.
  - match goal with E : same_kt w _ |- _ => destruct (IH _ E) as (e' & H' & Ha) end. eexists. split; [apply D_trailing; [exact H'|congruence]|exact Ha].
  - destruct (IH _ E) as (e' & H' & Ha). eexists. split; [apply D_up; exact H'|exact Ha].
Qed.
Lemma reads_as_kt pton ck cs cs' e : reads_as pton ck cs e -> same_kt (Tokenize cs) (Tokenize cs') -> exists e', reads_as pton ck cs' e' /\ Alike e e'.
Proof.
  intros (w & t & Ew & Ht & Hd) E. rewrite Ew in E. apply same_kt_app in E as (w' & t' & Ew' & E1 & E2). skt.
  destruct (D_alike _ _ _ _ _ Hd _ E1) as (e' & Hd' & Ha). exists e'. split; [|exact Ha]. exists w', x. rewrite Ew'. split; [reflexivity|]. split; [congruence|exact Hd'].
Qed.

(** * Laws *)
Section Laws.
  Variable keys : list (string * key_info).
  Hypothesis HN : NoDup (map fst keys).
  Let G := InTable keys.
  Lemma scope_witness : in_scope None (Some (mkTable 0 "" None default_csource [] keys)) G.
  Proof. exact (is_table (mkTable 0 "" None default_csource [] keys) HN). Qed.
  Variable r : env.
  Hypothesis HR : env_ok G r.
  Lemma total_bool a : Typed G a TBool -> literals a -> exists x, Den G r a (VBool x).
  Proof.
    intros Ht Hl. destruct (den_total _ _ _ scope_witness r a TBool HR Ht Hl) as (v & Hv & Hty); [intros _; now exists keys|]. inversion Hty; subst. eauto.
  Qed.
  Lemma den_unique e v v' : Den G r e v -> Den G r e v' -> v = v'.
  Proof. apply (den_fun _ _ _ scope_witness). Qed.
  Lemma den_conn m o a b x y v : connective o -> Den G r a (VBool x) -> Den G r b (VBool y) -> Den G r (EBin m o a b) v <-> v = VBool (truth o x y).
  Proof. intros Hc Ha Hb. split; [intros H; eapply den_unique; [exact H|]|intros ->]; now apply sem_both. Qed.
  Lemma den_not m a x v : Den G r a (VBool x) -> Den G r (ENot m a) v <-> v = VBool (negb x).
  Proof. intros Ha. split; [intros H; eapply den_unique; [exact H|]|intros ->]; now constructor. Qed.
  Lemma den_const m b v : Den G r (EBool m b) v <-> v = VBool b.
  Proof. split; [intros H; now inversion H|intros ->; constructor]. Qed.
  (** Comparisons. *)
  Lemma value_dec (u v : value) : {u = v} + {u <> v}.
  Proof. decide equality; try apply Z.eq_dec. apply bool_dec. Qed.
  Lemma den_eq m n a b x : Den G r (EBin m OEQ a b) (VBool x) -> Den G r (EBin n ONE a b) (VBool (negb x)).
  Proof.
    intros H. inversion H as [| | | | | | |? ? ? ? ? ? Hc|? ? ? ? ? ? Hc|? ? ? ? ta tb t u v u' v' ? Ta Tb Hco H1 H2 C1 C2 Hcp Hx|]; subst; try (inversion Hc; fail).
    eapply sem_compare; try eassumption; [left; constructor|].
    destruct (value_dec u' v') as [E|E].
    - assert (x = true) as -> by (apply Hx; rewrite E; constructor). split; [discriminate|]. intros Hn. inversion Hn; congruence.
    - assert (x = false) as ->. { destruct x; [|reflexivity]. assert (Compares OEQ u' v') as Hc by (now apply Hx). inversion Hc; congruence. } split; [|reflexivity]. now constructor.
  Qed.
  Lemma common_sym a b c : common a b c -> common b a c.
  Proof. intros (H1 & H2 & H3). split; [exact H2|]. split; [exact H1|]. auto. Qed.
  Lemma den_swap m n o o' a b x : (forall u v, comparable o u v -> comparable o' v u) -> (forall u v, Compares o u v <-> Compares o' v u) -> (connective o -> False) ->
    Den G r (EBin m o a b) (VBool x) -> Den G r (EBin n o' b a) (VBool x).
  Proof.
    intros Hcm Hs Hnc H. inversion H as [| | | | | | |? ? ? ? ? ? Hc|? ? ? ? ? ? Hc|? ? ? ? ta tb t u v u' v' ? Ta Tb Hco H1 H2 C1 C2 Hcp Hx|]; subst; try (exfalso; auto; fail).
    eapply sem_compare; [exact Tb|exact Ta|apply common_sym; exact Hco|exact H2|exact H1|exact C2|exact C1|apply Hcm; exact Hcp|]. rewrite Hx. apply Hs.
  Qed.
  Lemma numeral_unique u x y : numeral u x -> numeral u y -> x = y.
  Proof. intros H1 H2. inversion H1; subst; now inversion H2. Qed.
  Lemma den_not_lt m n a b x : Den G r (EBin m OLT a b) (VBool x) -> Den G r (EBin n OGE a b) (VBool (negb x)).
  Proof.
    intros H. inversion H as [| | | | | | |? ? ? ? ? ? Hc|? ? ? ? ? ? Hc|? ? ? ? ta tb t u v u' v' ? Ta Tb Hco H1 H2 C1 C2 Hcp Hx|]; subst; try (inversion Hc; fail).
    destruct Hcp as [Hcp|(_ & (p & Hp) & (q & Hq))]; [inversion Hcp|].
    eapply sem_compare; try eassumption; [right; split; [constructor|eauto]|].
    destruct (Z.lt_ge_cases p q) as [L|L].
    - assert (x = true) as -> by (apply Hx; econstructor; eauto). split; [discriminate|]. intros Hn. inversion Hn as [| | | | |? ? p' q' Hp' Hq' Hge]; subst.
      rewrite (numeral_unique _ _ _ Hp' Hp), (numeral_unique _ _ _ Hq' Hq) in Hge. lia.
    - assert (x = false) as ->.
      { destruct x; [|reflexivity]. assert (Compares OLT u' v') as Hc by (now apply Hx). inversion Hc as [| |? ? p' q' Hp' Hq' Hge| | |]; subst. rewrite (numeral_unique _ _ _ Hp' Hp), (numeral_unique _ _ _ Hq' Hq) in Hge. lia. }
      split; [|reflexivity]. intros _. econstructor; eauto. lia.
  Qed.
  Lemma den_le m n1 n2 n a b x : Den G r (EBin m OLE a b) (VBool x) -> Den G r (EBin n OOR (EBin n1 OLT a b) (EBin n2 OEQ a b)) (VBool x).
  Proof.
    intros H. inversion H as [| | | | | | |? ? ? ? ? ? Hc|? ? ? ? ? ? Hc|? ? ? ? ta tb t u v u' v' ? Ta Tb Hco H1 H2 C1 C2 Hcp Hx|]; subst; try (inversion Hc; fail).
    destruct Hcp as [Hcp|(_ & (p & Hp) & (q & Hq))]; [inversion Hcp|].
    assert (of_type t u') as Tu by (eapply converts_typed; [|exact C1]; eapply (den_typed _ _ _ scope_witness); eauto).
    assert (of_type t v') as Tv by (eapply converts_typed; [|exact C2]; eapply (den_typed _ _ _ scope_witness); eauto).
    assert (u' = v' <-> p = q) as Heq.
    { split; [intros ->; exact (numeral_unique _ _ _ Hp Hq)|]. intros ->. inversion Hp; subst; inversion Hq; subst; auto; exfalso; inversion Tu; subst; inversion Tv. }
    assert (Den G r (EBin n1 OLT a b) (VBool (Z.ltb p q))) as D1.
    { eapply sem_compare; try eassumption; [right; split; [constructor|eauto]|]. rewrite Z.ltb_lt. split; [intros; econstructor; eauto|].
      intros Hc. inversion Hc as [| |? ? p' q' Hp' Hq' Hge| | |]; subst. now rewrite (numeral_unique _ _ _ Hp' Hp), (numeral_unique _ _ _ Hq' Hq) in Hge. }
    assert (Den G r (EBin n2 OEQ a b) (VBool (Z.eqb p q))) as D2.
    { eapply sem_compare; try eassumption; [left; constructor|]. rewrite Z.eqb_eq, <- Heq. split; [intros ->; constructor|]. intros Hc. now inversion Hc. }
    assert (x = truth OOR (Z.ltb p q) (Z.eqb p q)) as ->.
    { cbn [truth]. apply eq_true_iff_eq. rewrite Hx, orb_true_iff, Z.ltb_lt, Z.eqb_eq. split.
      - intros Hc. inversion Hc as [| | |? ? p' q' Hp' Hq' Hge| |]; subst. rewrite (numeral_unique _ _ _ Hp' Hp), (numeral_unique _ _ _ Hq' Hq) in Hge. lia.
      - intros Hpq. econstructor; eauto. lia. }
    now apply sem_both; [constructor| |].
  Qed.
  Lemma den_refl m a x : Den G r (EBin m OEQ a a) (VBool x) -> x = true.
  Proof.
    intros H. inversion H as [| | | | | | |? ? ? ? ? ? Hc|? ? ? ? ? ? Hc|? ? ? ? ta tb t u v u' v' ? Ta Tb Hco H1 H2 C1 C2 Hcp Hx|]; subst; try (inversion Hc; fail).
    pose proof (den_unique _ _ _ H1 H2) as ->. pose proof (typed_fun _ _ _ scope_witness _ _ _ Ta Tb) as ->. pose proof (converts_fun _ _ _ _ _ C1 C2) as ->. apply Hx. constructor.
  Qed.
  Lemma inv_not_b m a : Typed G (ENot m a) TBool -> Typed G a TBool.
  Proof. intros H. now inversion H. Qed.
  Lemma inv_conn_b m o a b : connective o -> Typed G (EBin m o a b) TBool -> Typed G a TBool /\ Typed G b TBool.
  Proof. intros Hc H. inversion H; subst; auto; exfalso; destruct Hc; match goal with H : equality _ |- _ => inversion H | H : ordering _ |- _ => inversion H end. Qed.

  Definition unbool (v : value) : bool := match v with VBool b => b | _ => true end.
  Ltac subterms :=
    repeat match goal with
    | H : Typed G (ENot _ _) TBool |- _ => apply inv_not_b in H
    | H : Typed G (EBin _ OAND _ _) TBool |- _ => apply inv_conn_b in H as [? ?]; [|constructor]
    | H : Typed G (EBin _ OOR _ _) TBool |- _ => apply inv_conn_b in H as [? ?]; [|constructor]
    | H : Typed G (EBin _ OIMPLIES _ _) TBool |- _ => apply inv_conn_b in H as [? ?]; [|constructor]
    | H : _ /\ _ |- _ => destruct H
    end.
  Ltac atoms :=
    repeat match goal with
    | H : Typed G ?a TBool, L : literals ?a |- _ =>
        lazymatch goal with
        | K : Den G r a _ |- _ => fail
        | _ => let x := fresh "x" in destruct (total_bool a H L) as [x ?]
        end
    end.
  Ltac den_solve := first [apply sem_both; [constructor|den_solve|den_solve]|apply sem_not; den_solve|apply sem_bool|eassumption].
  Lemma law_sound a b : Law a b -> Typed G a TBool -> Typed G b TBool -> literals a -> literals b -> exists x, Den G r a (VBool x) /\ Den G r b (VBool x).
  Proof.
    intros HL Ta Tb La Lb. destruct (total_bool _ Ta La) as [x Hx]. destruct (total_bool _ Tb Lb) as [y Hy].
    enough (x = y) as -> by eauto.
    destruct HL; cbn [literals] in La, Lb.
    1-20: subterms; atoms;
      match goal with Hx : Den G r ?l (VBool ?x), Hy : Den G r ?k (VBool ?y) |- ?x = ?y =>
        let D1 := fresh in let D2 := fresh in
        eassert (Den G r l (VBool _)) as D1 by den_solve; eassert (Den G r k (VBool _)) as D2 by den_solve;
        let E1 := fresh in let E2 := fresh in pose proof (den_unique _ _ _ Hx D1) as E1; pose proof (den_unique _ _ _ Hy D2) as E2; apply (f_equal unbool) in E1, E2; cbn [unbool] in E1, E2; rewrite E1; try rewrite E2; clear E1 E2
      end;
      repeat match goal with b : bool |- _ => destruct b end; reflexivity.
    - inversion Hy as [| | | | |? ? z Hz| | | | |]; subst. apply (den_eq _ m) in Hz. pose proof (den_unique _ _ _ Hx Hz) as E. now injection E.
    - apply (den_swap _ n _ OEQ) in Hx; [pose proof (den_unique _ _ _ Hx Hy) as E; now injection E| | |intros C; inversion C].
      + intros u v [H|(H & _)]; [left; constructor|inversion H].
      + intros u v. split; intros H; inversion H; constructor.
    - apply den_refl in Hx as ->. now inversion Hy.
    - apply (den_swap _ n _ OLT) in Hx; [pose proof (den_unique _ _ _ Hx Hy) as E; now injection E| | |intros C; inversion C].
      + intros u v [H|(H & H1 & H2)]; [inversion H|right; split; [constructor|auto]].
      + intros u v. split; intros H; inversion H; subst; econstructor; eauto; lia.
    - apply (den_swap _ n _ OLE) in Hx; [pose proof (den_unique _ _ _ Hx Hy) as E; now injection E| | |intros C; inversion C].
      + intros u v [H|(H & H1 & H2)]; [inversion H|right; split; [constructor|auto]].
      + intros u v. split; intros H; inversion H; subst; econstructor; eauto; lia.
    - inversion Hy as [| | | | |? ? z Hz| | | | |]; subst. apply (den_not_lt _ m) in Hz. pose proof (den_unique _ _ _ Hx Hz) as E. now injection E.
    - apply (den_le _ n1 n2 n) in Hx. pose proof (den_unique _ _ _ Hx Hy) as E. now injection E.
  Qed.
End Laws.
