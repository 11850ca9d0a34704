(** Facts about pieces of constraints. *)
From Coq Require Import String Ascii List ZArith NArith Bool Lia.
From Verif Require Import Base Token Lexer Ast AstConstructors Quote Parser SpecLexer SpecGrammar SpecParser SpecInfo SpecCut
  StrFacts LexerFacts4 ParserFacts3 ParserFacts4 ParserFacts5 CombineFacts.
Import ListNotations.
Open Scope string_scope.

(** * Lexing pieces *)
Lemma next_cut lx r after it : Next (lx ++ r ++ after) lx it (r ++ after) -> Next (lx ++ r) lx it r.
Proof.
  intros (_ & n & Hs & H1 & H2). split; [reflexivity|]. exists n. split; [exact Hs|]. split.
  - intros m lx' it' rest' Hm E. apply (H1 m lx' it' (rest' ++ after) Hm). rewrite <- !sapp_assoc, E. reflexivity.
  - intros lx' it' rest' E. apply (H2 lx' it' (rest' ++ after)). rewrite <- !sapp_assoc, E. reflexivity.
Qed.
Lemma lex_from l s ts : Lex l s ts -> forall a t ts', ts = (a ++ t :: ts')%list -> exists before s', s = before ++ s' /\ Lex (t_start t) s' (t :: ts').
Proof.
  induction 1 as [l|l c s Hn|l s lx rest ts Hn H IH|l s lx k text rest ts Hn H IH]; intros a t ts' E.
  - destruct a as [|x [|y a]]; try discriminate E. injection E as <- <-. exists "", "". split; [reflexivity|]. constructor.
  - destruct a as [|x [|y a]]; try discriminate E. injection E as <- <-. exists "", (String c s). split; [reflexivity|]. now constructor.
  - destruct (IH _ _ _ E) as (before & s' & -> & HL). exists (lx ++ before), s'. split; [|exact HL]. destruct Hn as [-> _]. now rewrite sapp_assoc.
  - destruct a as [|x a].
    + injection E as <- <-. exists "", s. split; [reflexivity|]. cbn [t_start]. econstructor; eassumption.
    + injection E as _ E. destruct (IH _ _ _ E) as (before & s' & -> & HL). exists (lx ++ before), s'. split; [|exact HL]. destruct Hn as [-> _]. now rewrite sapp_assoc.
Qed.
Lemma lex_until l s ts : Lex l s ts -> forall v t b, ts = (v ++ t :: b)%list -> ~ sentinel (t_kind t) -> exists cut after, s = cut ++ after /\ Lex l cut (v ++ [t; mkTok END_OF_INPUT "" (t_end t) (t_end t)]).
Proof.
  induction 1 as [l|l c s Hn|l s lx rest ts Hn H IH|l s lx k text rest ts Hn H IH]; intros v t b E Ht.
  - exfalso. destruct v as [|x [|y v]]; try discriminate E. injection E as <- <-. apply Ht. now left.
  - exfalso. destruct v as [|x [|y v]]; try discriminate E. injection E as <- <-. apply Ht. now right.
  - destruct (IH _ _ _ E Ht) as (cut & after & -> & HL). exists (lx ++ cut), after. pose proof Hn as [-> _]. split; [now rewrite sapp_assoc|]. eapply Lex_skip; [|exact HL]. exact (next_cut _ _ _ _ Hn).
  - destruct v as [|x v].
    + injection E as <- _. exists lx, rest. pose proof Hn as [-> _]. split; [reflexivity|]. cbn [app t_end]. eapply Lex_tok; [|apply Lex_end].
      rewrite <- (sapp_nil_r lx) at 1. apply (next_cut lx "" rest). exact Hn.
    + injection E as <- E. destruct (IH _ _ _ E Ht) as (cut & after & -> & HL). exists (lx ++ cut), after. pose proof Hn as [-> _]. split; [now rewrite sapp_assoc|]. cbn [app]. eapply Lex_tok; [|exact HL]. exact (next_cut _ _ _ _ Hn).
Qed.
Lemma cut_tokens c a v t b : Tokenize c = (a ++ (v ++ [t]) ++ b)%list -> Forall (fun t => ~ sentinel (t_kind t)) (v ++ [t]) -> exists cut l, Cut c (v ++ [t]) cut l.
Proof.
  intros E HF. pose proof (proj1 (Tokenize_Lex c _) eq_refl) as HL.
  assert (exists f v', (v ++ [t] = f :: v')%list) as (f & v' & Ef) by (destruct v; cbn; eauto).
  assert (Tokenize c = (a ++ f :: v' ++ b)%list) as E' by (rewrite E, Ef; reflexivity). destruct (lex_from _ _ _ HL a f (v' ++ b) E') as (before & s' & Es & HL').
  assert (f :: v' ++ b = v ++ t :: b)%list as Ev by (change (f :: v' ++ b)%list with ((f :: v') ++ b)%list; rewrite <- Ef, <- app_assoc; reflexivity).
  apply Forall_app in HF as [_ Ht]. inversion Ht as [|? ? Ht' _]; subst. rewrite Ev in HL'.
  destruct (lex_until _ _ _ HL' v t b eq_refl Ht') as (cut & after & -> & HC). exists cut, (t_start f). split; [destruct v; discriminate|]. split; [eauto|]. split; [exists before, after; exact Es|].
  exists (mkTok END_OF_INPUT "" (t_end t) (t_end t)). split; [apply Tokenize_Lex; cbn [cs_loc cs_string]; rewrite <- app_assoc; exact HC|]. split; [reflexivity|]. split.
  - intros t0 ts' E0. rewrite Ef in E0. now injection E0 as -> _.
  - intros t0 ts' E0. apply app_inj_tail in E0 as [_ ->]. reflexivity.
Qed.

(** * Parentheses *)
Lemma opened_app a b : opened (a ++ b) = (opened a + opened b)%Z.
Proof. induction a as [|t a IH]; cbn [app opened]; [reflexivity|]. rewrite IH. lia. Qed.
Definition flat (t : token) : Prop := t_kind t <> LPAR /\ t_kind t <> RPAR.
Lemma flat_opened ts : Forall flat ts -> opened ts = 0%Z.
Proof. induction 1 as [|t ts [H1 H2] _ IH]; cbn [opened]; [reflexivity|]. rewrite IH. destruct (t_kind t) eqn:Ek; try reflexivity; congruence. Qed.
Lemma flat_balanced ts : Forall flat ts -> balanced ts.
Proof. intros H. split; [now apply flat_opened|]. intros a b ->. apply Forall_app in H as [H _]. rewrite (flat_opened _ H). lia. Qed.
Lemma app_split {A} (a b c d : list A) : (a ++ b = c ++ d)%list -> (exists m, a = c ++ m /\ d = m ++ b)%list \/ (exists m, c = a ++ m /\ b = m ++ d)%list.
Proof.
  revert c. induction a as [|x a IH]; intros c E; [right; exists c; auto|]. destruct c as [|y c]; [left; exists (x :: a); auto|].
  injection E as <- E. destruct (IH _ E) as [(m & -> & ->)|(m & -> & ->)]; [left|right]; exists m; auto.
Qed.
Lemma balanced_app a b : balanced a -> balanced b -> balanced (a ++ b).
Proof.
  intros [A1 A2] [B1 B2]. split; [rewrite opened_app; lia|]. intros u v E. destruct (app_split _ _ _ _ E) as [(m & -> & ->)|(m & -> & ->)].
  - exact (A2 u m eq_refl).
  - rewrite opened_app. pose proof (B2 m v eq_refl). lia.
Qed.
Lemma balanced_paren lp w rp : t_kind lp = LPAR -> t_kind rp = RPAR -> balanced w -> balanced (lp :: w ++ [rp]).
Proof.
  intros Hl Hr [H1 H2]. split; [cbn [opened]; rewrite opened_app; cbn [opened]; rewrite Hl, Hr; lia|]. intros [|x a] b E; [cbn; lia|]. injection E as <- E. cbn [opened]. rewrite Hl.
  destruct (app_split _ _ _ _ E) as [(m & -> & ->)|(m & -> & E')].
  - pose proof (H2 a m eq_refl). lia.
  - rewrite opened_app. destruct m as [|y [|z m]]; cbn [opened]; try discriminate E'; [lia|]. injection E' as <- _. rewrite Hr. lia.
Qed.
Lemma balanced_cons t w : flat t -> balanced w -> balanced (t :: w).
Proof. intros Ht H. change (t :: w)%list with ([t] ++ w)%list. apply balanced_app; [apply flat_balanced; repeat constructor; exact (proj1 Ht) || exact (proj2 Ht)|exact H]. Qed.
Section S.
  Variables (pton : inet_pton6) (ck : constraint_kind).
  Local Notation Der := (D pton ck).
  Lemma dots_flat w ids : Dots w ids -> Forall flat w.
  Proof. induction 1 as [|dot id w ids Hd Hi H IH]; constructor; [split; congruence|]. constructor; [split; congruence|exact IH]. Qed.
  Lemma binary_flat t p ch o : binary (t_kind t) p ch o -> flat t.
  Proof. intros H. split; intros E; rewrite E in H; inversion H. Qed.
  Lemma D_balanced n w e : Der n w e -> balanced w.
  Proof.
    induction 1 as [t Ht|t Ht|t b n s Hb|id lp st rp n s Hid Hlp Hst Hrp|id w ids Hid Hd|dc id Hdc Hid|lp w rp e Hlp H IH Hrp|w e dc id H IH Hdc Hid|t w e Ht H IH|t w e Ht H IH
      |p o w1 e1 t w2 e2 Hb H1 IH1 H2 IH2|p o w1 e1 t w2 e2 Hb H1 IH1 H2 IH2|w e t H IH Ht|n w e H IH].
    - apply flat_balanced. repeat constructor; congruence.
    - apply flat_balanced. repeat constructor; congruence.
    - apply flat_balanced. constructor; [|constructor]. split; intros E; rewrite E in Hb; inversion Hb.
    - apply balanced_cons; [split; congruence|]. apply (balanced_paren lp [st] rp Hlp Hrp). apply flat_balanced. repeat constructor; congruence.
    - apply flat_balanced. constructor; [split; congruence|]. exact (dots_flat _ _ Hd).
    - apply flat_balanced. repeat constructor; congruence.
    - now apply balanced_paren.
    - apply balanced_app; [exact IH|]. apply flat_balanced. repeat constructor; congruence.
    - apply balanced_cons; [split; congruence|exact IH].
    - apply balanced_cons; [split; congruence|exact IH].
    - apply balanced_app; [exact IH1|]. apply balanced_cons; [exact (binary_flat _ _ _ _ Hb)|exact IH2].
    - apply balanced_app; [exact IH1|]. apply balanced_cons; [exact (binary_flat _ _ _ _ Hb)|exact IH2].
    - apply balanced_app; [exact IH|]. apply flat_balanced. repeat constructor; congruence.
    - exact IH.
  Qed.
  Lemma opened_left u : Forall (fun t => t_kind t = LPAR) u -> opened u = Z.of_nat (List.length u).
  Proof. induction 1 as [|t u Ht _ IH]; [reflexivity|]. cbn [opened List.length]. rewrite IH, Ht. lia. Qed.
  Lemma opened_right z : Forall (fun t => t_kind t = RPAR \/ t_kind t = SEMICOLON) z -> (opened z <= 0)%Z.
  Proof. induction 1 as [|t z [Ht|Ht] _ IH]; cbn [opened]; [lia| |]; rewrite Ht; lia. Qed.
  (** A piece that ends before the closing parentheses lacks one. *)
  Definition closing (z : list token) : Prop := z = [] \/ exists z' t, z = (z' ++ [t])%list /\ t_kind t = RPAR.
  Lemma closing_opened z : closing z -> Forall (fun t => t_kind t = RPAR \/ t_kind t = SEMICOLON) z -> opened z = 0%Z -> z = [].
  Proof.
    intros [->|(z' & t & -> & Ht)] H E; [reflexivity|]. exfalso. apply Forall_app in H as [H _]. apply opened_right in H. rewrite opened_app in E. cbn [opened] in E. rewrite Ht in E. lia.
  Qed.
  Lemma core_left u v z x : Forall (fun t => t_kind t = LPAR) u -> balanced (u ++ v ++ z) -> balanced ((v ++ z) ++ x) -> u = [].
  Proof.
    intros Hu [B _] [_ B']. pose proof (B' _ _ eq_refl) as H. rewrite opened_app in B. rewrite (opened_left _ Hu) in B. destruct u; [reflexivity|]. cbn [List.length] in B. lia.
  Qed.
  Lemma core_right u v z x : closing z -> Forall (fun t => t_kind t = RPAR \/ t_kind t = SEMICOLON) z -> balanced (u ++ v ++ z) -> opened x = 0%Z -> balanced (x ++ u ++ v) -> z = [].
  Proof.
    intros Hc Hz [B _] Hx [B' _]. apply (closing_opened z Hc Hz). rewrite !opened_app in *. lia.
  Qed.
  (** The tokens from the start to the end of an expression; if they are balanced, they are the expression. *)
  Lemma D_piece n w e : Der n w e -> exists u v z, w = (u ++ v ++ z)%list /\
    Forall (fun t => t_kind t = LPAR) u /\ Forall (fun t => t_kind t = RPAR \/ t_kind t = SEMICOLON) z /\
    (exists f v', v = f :: v' /\ e_start e = t_start f) /\ (exists v' f, v = (v' ++ [f])%list /\ e_end e = t_end f) /\
    ((1 <= n)%nat -> closing z) /\ (balanced v -> exists n', Der n' v e).
  Proof.
    induction 1 as [t Ht|t Ht|t b n s Hb Hr Hs|id lp st rp n s Hid Hlp Hst Hrp Ha Hs|id w ids Hid Hd|dc id Hdc Hid|lp w rp e Hlp H IH Hrp|w e dc id H IH Hdc Hid|t w e Ht H IH|t w e Ht H IH
      |p o w1 e1 t w2 e2 Hb H1 IH1 H2 IH2|p o w1 e1 t w2 e2 Hb H1 IH1 H2 IH2|w e t H IH Ht|n w e H IH].
    - exists [], [t], []. split; [reflexivity|]. split; [constructor|]. split; [constructor|]. split; [exists t, []; auto|]. split; [exists [], t; auto|]. split; [now left|]. intros _. exists 8%nat. now constructor.
    - exists [], [t], []. split; [reflexivity|]. split; [constructor|]. split; [constructor|]. split; [exists t, []; auto|]. split; [exists [], t; auto|]. split; [now left|]. intros _. exists 8%nat. now constructor.
    - exists [], [t], []. split; [reflexivity|]. split; [constructor|]. split; [constructor|]. split; [exists t, []; auto|]. split; [exists [], t; auto|]. split; [now left|]. intros _. exists 8%nat. econstructor; eassumption.
    - exists [], [id; lp; st; rp], []. split; [reflexivity|]. split; [constructor|]. split; [constructor|]. split; [exists id, [lp; st; rp]; auto|]. split; [exists [id; lp; st], rp; auto|]. split; [now left|]. intros _. exists 8%nat. econstructor; eassumption.
    - exists [], (id :: w), []. split; [now rewrite app_nil_r|]. split; [constructor|]. split; [constructor|]. split; [exists id, w; split; [reflexivity|]; unfold e_start; now rewrite variable_meta|]. split.
      + assert (exists v', (id :: w) = (v' ++ [last ids id])%list) as (v' & E).
        { clear - Hd. revert id. induction Hd as [|dot i w ids Hdot Hi H IH]; intros id; [exists []; auto|].
          destruct (IH i) as (v' & E). exists (id :: dot :: v'). rewrite E.
          replace (last (i :: ids) id) with (last ids i); [auto|]. destruct ids; [reflexivity|]. cbn. clear. revert t. induction ids as [|j ids IH]; intros t; [reflexivity|]. cbn in *. apply IH. }
        exists v', (last ids id). split; [exact E|]. unfold e_end. now rewrite variable_meta.
      + split; [now left|]. intros _. exists 8%nat. now constructor.
    - exists [], [dc; id], []. split; [reflexivity|]. split; [constructor|]. split; [constructor|]. split; [exists dc, [id]; auto|]. split; [exists [dc], id; auto|]. split; [now left|]. intros _. exists 8%nat. now constructor.
    - destruct IH as (u & v & z & -> & Hu & Hz & Hf & Hl & _ & Hv). exists (lp :: u), v, (z ++ [rp])%list. split; [cbn; now rewrite <- !app_assoc|].
      split; [now constructor|]. split; [apply Forall_app; split; [exact Hz|]; constructor; [now left|constructor]|]. split; [exact Hf|]. split; [exact Hl|]. split; [intros _; right; exists z, rp; auto|exact Hv].
    - pose proof (D_balanced _ _ _ H) as HB. destruct IH as (u & v & z & -> & Hu & Hz & (f & v' & Ev & Es) & _ & _ & _). exists u, ((v ++ z) ++ [dc; id])%list, [].
      split; [rewrite app_nil_r, <- !app_assoc; reflexivity|]. split; [exact Hu|]. split; [constructor|]. split; [exists f, ((v' ++ z) ++ [dc; id])%list; rewrite Ev; auto|]. split; [exists ((v ++ z) ++ [dc])%list, id; rewrite <- !app_assoc; auto|].
      split; [now left|]. intros Hb. pose proof (core_left _ _ _ _ Hu HB Hb) as ->. exists 7%nat. now constructor.
    - pose proof (D_balanced _ _ _ H) as HB. destruct IH as (u & v & z & -> & Hu & Hz & _ & (v' & f & Ev & Ee) & Hc & _). exists [], ([t] ++ u ++ v)%list, z.
      split; [cbn; now rewrite <- app_assoc|]. split; [constructor|]. split; [exact Hz|]. split; [exists t, (u ++ v)%list; auto|]. split; [exists ([t] ++ u ++ v')%list, f; rewrite Ev; split; [cbn; now rewrite <- app_assoc|exact Ee]|].
      split; [intros _; apply Hc; lia|]. intros Hb. assert (z = []) as -> by (apply (core_right u v z [t]); auto; [apply Hc; lia|apply flat_opened; repeat constructor; congruence]).
      exists 6%nat. rewrite app_nil_r in H. now constructor.
    - pose proof (D_balanced _ _ _ H) as HB. destruct IH as (u & v & z & -> & Hu & Hz & _ & (v' & f & Ev & Ee) & Hc & _). exists [], ([t] ++ u ++ v)%list, z.
      split; [cbn; now rewrite <- app_assoc|]. split; [constructor|]. split; [exact Hz|]. split; [exists t, (u ++ v)%list; auto|]. split; [exists ([t] ++ u ++ v')%list, f; rewrite Ev; split; [cbn; now rewrite <- app_assoc|exact Ee]|].
      split; [intros _; apply Hc; lia|]. intros Hb. assert (z = []) as -> by (apply (core_right u v z [t]); auto; [apply Hc; lia|apply flat_opened; repeat constructor; congruence]).
      exists 6%nat. rewrite app_nil_r in H. now constructor.
    - pose proof (D_balanced _ _ _ H1) as HB1. pose proof (D_balanced _ _ _ H2) as HB2.
      destruct IH1 as (u1 & v1 & z1 & -> & Hu1 & Hz1 & (f1 & v1' & Ev1 & Es1) & _ & _ & _). destruct IH2 as (u2 & v2 & z2 & -> & Hu2 & Hz2 & _ & (v2' & f2 & Ev2 & Ee2) & Hc2 & _).
      exists u1, ((v1 ++ z1) ++ t :: u2 ++ v2)%list, z2. split; [rewrite <- !app_assoc; cbn; rewrite <- !app_assoc; reflexivity|]. split; [exact Hu1|]. split; [exact Hz2|].
      split; [exists f1, ((v1' ++ z1) ++ t :: u2 ++ v2)%list; rewrite Ev1; auto|]. split; [exists ((v1 ++ z1) ++ t :: u2 ++ v2')%list, f2; rewrite Ev2; split; [rewrite <- !app_assoc; cbn; rewrite <- !app_assoc; reflexivity|exact Ee2]|].
      split; [intros _; apply Hc2; lia|]. intros Hv. pose proof (core_left _ _ _ _ Hu1 HB1 Hv) as ->. cbn [app] in H1, HB1.
      assert (z2 = []) as ->.
      { apply (core_right u2 v2 z2 ((v1 ++ z1) ++ [t])); auto; [apply Hc2; lia| |rewrite <- app_assoc; exact Hv]. rewrite opened_app, (proj1 HB1), (flat_opened [t]); [reflexivity|]. constructor; [exact (binary_flat _ _ _ _ Hb)|constructor]. }
      exists p. rewrite app_nil_r in H2. econstructor; eassumption.
    - pose proof (D_balanced _ _ _ H1) as HB1. pose proof (D_balanced _ _ _ H2) as HB2.
      destruct IH1 as (u1 & v1 & z1 & -> & Hu1 & Hz1 & (f1 & v1' & Ev1 & Es1) & _ & _ & _). destruct IH2 as (u2 & v2 & z2 & -> & Hu2 & Hz2 & _ & (v2' & f2 & Ev2 & Ee2) & Hc2 & _).
      exists u1, ((v1 ++ z1) ++ t :: u2 ++ v2)%list, z2. split; [rewrite <- !app_assoc; cbn; rewrite <- !app_assoc; reflexivity|]. split; [exact Hu1|]. split; [exact Hz2|].
      split; [exists f1, ((v1' ++ z1) ++ t :: u2 ++ v2)%list; rewrite Ev1; auto|]. split; [exists ((v1 ++ z1) ++ t :: u2 ++ v2')%list, f2; rewrite Ev2; split; [rewrite <- !app_assoc; cbn; rewrite <- !app_assoc; reflexivity|exact Ee2]|].
      split; [intros _; apply Hc2; lia|]. intros Hv. pose proof (core_left _ _ _ _ Hu1 HB1 Hv) as ->. cbn [app] in H1, HB1.
      assert (z2 = []) as ->.
      { apply (core_right u2 v2 z2 ((v1 ++ z1) ++ [t])); auto; [apply Hc2; lia| |rewrite <- app_assoc; exact Hv]. rewrite opened_app, (proj1 HB1), (flat_opened [t]); [reflexivity|]. constructor; [exact (binary_flat _ _ _ _ Hb)|constructor]. }
      exists p. rewrite app_nil_r in H2. econstructor; eassumption.
    - destruct IH as (u & v & z & -> & Hu & Hz & Hf & Hl & _ & Hv). exists u, v, (z ++ [t])%list. split; [now rewrite <- !app_assoc|]. split; [exact Hu|].
      split; [apply Forall_app; split; [exact Hz|]; constructor; [now right|constructor]|]. split; [exact Hf|]. split; [exact Hl|]. split; [lia|exact Hv].
    - destruct IH as (u & v & z & -> & Hu & Hz & Hf & Hl & Hc & Hv). exists u, v, z. split; [reflexivity|]. split; [exact Hu|]. split; [exact Hz|]. split; [exact Hf|]. split; [exact Hl|]. split; [intros _; apply Hc; lia|exact Hv].
  Qed.
End S.
