(** Facts about the work of reading a constraint. *)
From Coq Require Import String Ascii List ZArith NArith Bool Lia.
From Verif Require Import Base Num Token Ast Lexer Quote AstConstructors Parser Info TypeChecker ParserWork SpecBounds SpecWork SpecReadCost ParserFacts.
Import ListNotations.
Open Scope string_scope.

Lemma fst_after {A} w (r : costed A) : fst (after w r) = fst r.
Proof. reflexivity. Qed.
Lemma fst_wbind {A B} (r : costed A) (f : A -> costed B) g : (forall a, fst (f a) = g a) -> fst (wbind r f) = bind (fst r) g.
Proof. intros H. destruct r as [[a|k m|c] w]; cbn; auto. Qed.
Lemma bind_ext {A B} (x : outcome A) (f g : A -> outcome B) : (forall a, f a = g a) -> bind x f = bind x g.
Proof. intros H. destruct x; cbn; auto. Qed.

Section Facts.
  Variable pton : inet_pton6.
  Variable ck : constraint_kind.
  Variable src : csource.
  Variable eof : loc.

  Lemma same_ids : forall n ts, (List.length ts <= n)%nat -> fst (wparse_ids src eof ts) = parse_ids src eof ts.
  Proof.
    induction n as [|n IH]; intros ts Hn; (destruct ts as [|t ts1]; [reflexivity|]); [cbn in Hn; lia|]. cbn [wparse_ids parse_ids]. rewrite fst_after. destruct (kind_eqb (t_kind t) DOT); [|reflexivity]. rewrite !fst_after.
    destruct ts1 as [|id ts2]; [reflexivity|]. destruct (kind_eqb (t_kind id) ID); [|reflexivity].
    rewrite (fst_wbind _ _ (fun '(ids, rest) => Ok (id :: ids, rest))) by now intros []. rewrite IH by (cbn in Hn; lia). reflexivity.
  Qed.
  (** The functions unfolded once. *)
  Definition winitial (f : nat) (ts : list token) : costed (expr * list token) :=
    let t := Peek eof ts in let ts := tl ts in
          (after take
            match t_kind t with
            | TRUE | FALSE => free (let* a := MakeBooleanConstant t in Ok (a, ts))
            | BINARY | OCTARY | DECIMAL | HEXADEC => free (let* a := MakeIntegerConstant t in Ok (a, ts))
            | ID =>
                after (peeks 1)
                  (if kind_eqb (t_kind (Peek eof ts)) LPAR then
                     after take
                     (wbind (wExpectTokenKind src eof STRING (tl ts)) (fun '(string_token, ts) =>
                      wbind (wExpectTokenKind src eof RPAR ts) (fun '(rpar_token, ts) =>
                      free (let* a := MakeNetworkAddressIntegerConstant pton (t_text t) (t_text string_token) (t_start t) (t_end rpar_token) in Ok (a, ts)))))
                   else
                     wbind (wparse_ids src eof ts) (fun '(ids, ts) => free (let* a := MakeVariable (t :: ids) ck in Ok (a, ts))))
            | DOUBLE_COLON =>
                wbind (wExpectTokenKind src eof ID ts) (fun '(attribute_name, ts) =>
                free (let* a := MakeAttributeAccess t attribute_name in Ok (a, ts)))
            | BANG =>
                wbind (wparse_above pton ck src eof f ts (TokenPrecedence BANG)) (fun '(a, ts) =>
                after (copy a) (free (let* a := MakeBooleanNegation t a in Ok (a, ts))))
            | MINUS =>
                wbind (wparse_above pton ck src eof f ts (TokenPrecedence MINUS)) (fun '(a, ts) =>
                after (copy a) (free (let* a := MakeArithmeticNegation t a in Ok (a, ts))))
            | LPAR =>
                wbind (wparse_above pton ck src eof f ts 0) (fun '(a, ts) =>
                wbind (wExpectTokenKind src eof RPAR ts) (fun '(_, ts) =>
                free (Ok (a, ts))))
            | _ => free (Unexpected t initial_kinds src)
            end).
  Lemma wparse_S f ts ctx : wparse_above pton ck src eof (S f) ts ctx = wbind (winitial f ts) (fun '(ast, ts) => wextend pton ck src eof f ast ts ctx).
  Proof. reflexivity. Qed.
  Lemma wextend_S f ast ts ctx : wextend pton ck src eof (S f) ast ts ctx =
        after (peeks 1)
        (let t := Peek eof ts in
        match t_kind t with
        | END_OF_INPUT | RPAR => free (Ok (ast, ts))
        | DOUBLE_COLON | AND | SEMICOLON | OR | IMPLIES | EQ | NE | GT | GE | LT | LE =>
            let prec := TokenPrecedence (t_kind t) in
            if (Nat.eqb ctx prec && match TokenAssociativity (t_kind t) with ANONE => true | _ => false end)%bool then
              free (ParseError t src
                ("operator " ++ KindToKeyword (t_kind t) ++
                 " is non-associative; enclose expression to the left of the operator in '(' and ')' to disambiguate?"))
            else if (Nat.ltb prec ctx || (Nat.eqb ctx prec && match TokenAssociativity (t_kind t) with ALEFT => true | _ => false end))%bool then
              free (Ok (ast, ts))
            else
              after take
              (let ts := tl ts in
              let next := t_kind (Peek eof ts) in
              after (peeks (if kind_eqb (t_kind t) SEMICOLON then if kind_eqb next END_OF_INPUT then 1 else 2 else 0))
              (if (kind_eqb (t_kind t) SEMICOLON && (kind_eqb next END_OF_INPUT || kind_eqb next RPAR))%bool then
                free (Ok (ast, ts))
              else if kind_eqb (t_kind t) DOUBLE_COLON then
                wbind (wExpectTokenKind src eof ID ts) (fun '(field, ts) =>
                wbind (after (copy ast) (free (MakeFieldAccess ast field))) (fun ast =>
                wextend pton ck src eof f ast ts ctx))
              else
                wbind (wparse_above pton ck src eof f ts prec) (fun '(another, ts) =>
                wbind (after (plus_work (copy ast) (copy another)) (free (MakeBinaryExpression t ast another))) (fun ast =>
                wextend pton ck src eof f ast ts ctx))))
        | _ => free (Unexpected t extension_kinds src)
        end).
  Proof. reflexivity. Qed.
  Lemma extend_S f ast ts ctx : extend pton ck src eof (S f) ast ts ctx =
        let t := Peek eof ts in
        match t_kind t with
        | END_OF_INPUT | RPAR => Ok (ast, ts)
        | DOUBLE_COLON | AND | SEMICOLON | OR | IMPLIES | EQ | NE | GT | GE | LT | LE =>
            let prec := TokenPrecedence (t_kind t) in
            if (Nat.eqb ctx prec &&
                match TokenAssociativity (t_kind t) with ANONE => true | _ => false end)%bool then
              ParseError t src
                ("operator " ++ KindToKeyword (t_kind t) ++
                 " is non-associative; enclose expression to the left of the operator in '(' and ')' to disambiguate?")
            else if (Nat.ltb prec ctx ||
                     (Nat.eqb ctx prec &&
                      match TokenAssociativity (t_kind t) with ALEFT => true | _ => false end))%bool then
              Ok (ast, ts)
            else
              let ts := tl ts in
              let next := t_kind (Peek eof ts) in
              if (kind_eqb (t_kind t) SEMICOLON &&
                  (kind_eqb next END_OF_INPUT || kind_eqb next RPAR))%bool then
                Ok (ast, ts)
              else if kind_eqb (t_kind t) DOUBLE_COLON then
                let* (field, ts) := ExpectTokenKind src eof ID ts in
                let* ast := MakeFieldAccess ast field in
                extend pton ck src eof f ast ts ctx
              else
                let* (another, ts) := parse_above pton ck src eof f ts prec in
                let* ast := MakeBinaryExpression t ast another in
                extend pton ck src eof f ast ts ctx
        | _ => Unexpected t extension_kinds src
        end.
  Proof. reflexivity. Qed.
  Lemma same_work f : (forall ts ctx, fst (wparse_above pton ck src eof f ts ctx) = parse_above pton ck src eof f ts ctx) /\
    (forall a ts ctx, fst (wextend pton ck src eof f a ts ctx) = extend pton ck src eof f a ts ctx).
  Proof.
    induction f as [|f [IH1 IH2]]; split; intros; [reflexivity|reflexivity| |].
    - rewrite wparse_S, PA_S. erewrite fst_wbind; [|intros [b us]; rewrite IH2; instantiate (1 := fun '(b, us) => extend pton ck src eof f b us ctx); reflexivity]. unfold winitial, initial. cbv zeta. rewrite fst_after.
      f_equal. destruct (t_kind (Peek eof ts)); try reflexivity;
      match goal with
      | |- fst (after (peeks 1) _) = _ =>
          rewrite fst_after; destruct (kind_eqb (t_kind (Peek eof (tl ts))) LPAR);
          [rewrite fst_after; apply fst_wbind; intros [s us]; apply fst_wbind; now intros [s' vs]
          |erewrite fst_wbind; [|intros [s us]; cbn [fst free]; instantiate (1 := fun '(s, us) => let* b := MakeVariable (Peek eof ts :: s) ck in Ok (b, us)); reflexivity]; now rewrite (same_ids _ _ (le_n _))]
      | |- fst (wbind (wExpectTokenKind _ _ _ _) _) = _ => apply fst_wbind; now intros [b us]
      | |- fst (wbind (wparse_above _ _ _ _ _ _ _) (fun '(a, ts) => wbind _ _)) = _ => rewrite <- IH1; apply fst_wbind; intros [b us]; apply fst_wbind; now intros [? ?]
      | |- _ => rewrite <- IH1; apply fst_wbind; now intros [b us]
      end.
    - rewrite wextend_S, extend_S. cbv zeta. rewrite fst_after. destruct (t_kind (Peek eof ts)); try reflexivity;
      (destruct (Nat.eqb ctx _ && _)%bool; [reflexivity|]; destruct (Nat.ltb _ ctx || _)%bool; [reflexivity|]; rewrite !fst_after; destruct (kind_eqb _ SEMICOLON && _)%bool; [reflexivity|]; cbn [kind_eqb];
       match goal with |- fst (wbind (wExpectTokenKind _ _ _ _) _) = _ => apply fst_wbind; intros [fl us]; apply fst_wbind; intros e'; apply IH2 | _ => rewrite <- IH1; apply fst_wbind; intros [an us]; apply fst_wbind; intros e'; apply IH2 end).
  Qed.

  Local Notation len l := (Z.of_nat (List.length l)).
  Open Scope Z_scope.
  Lemma messages_nodes e : messages e = nodes e.
  Proof. induction e; cbn [messages nodes]; lia. Qed.
  Lemma nodes_one e : 1 <= nodes e.
  Proof. induction e; cbn [nodes]; lia. Qed.
  Lemma depths_shift e : forall n, depths n e = n * nodes e + depths 0 e.
  Proof.
    induction e; intros n; cbn [depths nodes]; rewrite ?Z.add_0_l; try lia;
      repeat match goal with H : forall n, depths n ?x = _ |- _ => rewrite (H (n + 1)), (H 1); clear H end; lia.
  Qed.
  Lemma depths_bound e : 0 <= depths 0 e /\ 2 * depths 0 e <= nodes e * (nodes e - 1).
  Proof.
    induction e; cbn [depths nodes]; rewrite ?Z.add_0_l; try lia; rewrite !(depths_shift _ 1);
      repeat match goal with |- context [nodes ?x] => lazymatch goal with H : 1 <= nodes x |- _ => fail | _ => pose proof (nodes_one x) end end; nia.
  Qed.

  (** The work of an initial part, of a whole expression, and of extending [a]. *)
  Definition tri (n : Z) : Z := n * (n - 1).
  Definition base (w : work) : Prop := 0 <= taken w /\ 0 <= peeked w /\ 0 <= copied w.
  Definition good (c : Z) (m d : Z) (ts : list token) (r : costed (expr * list token)) : Prop :=
    let '(o, w) := r in
    base w /\ peeked w <= 3 * taken w + c /\ 2 * copied w <= tri (m + taken w) - tri m /\ taken w <= len ts + 1 /\
    match o with
    | Ok (e, rest) => copied w + d = depths 0 e /\ nodes e <= m + taken w /\ taken w + len rest = len ts
    | _ => True
    end.
  Lemma tri_mono x y : 1 <= x <= y -> tri x <= tri y.
  Proof. unfold tri. nia. Qed.
  Lemma tri_plus x y : 0 <= x -> 0 <= y -> tri x + tri y + 2 * x + 2 * y <= tri (1 + x + y).
  Proof. unfold tri. nia. Qed.
  Lemma tri_step x y : 1 <= x -> 1 <= y -> tri x + 2 * x <= tri (x + y).
  Proof. unfold tri. nia. Qed.
  Lemma expect_cost k ts : k <> END_OF_INPUT -> exists o, wExpectTokenKind src eof k ts = (o, take) /\ match o with Ok (t, rest) => exists u, ts = t :: rest /\ t_kind t = k /\ u = t | _ => True end.
  Proof.
    intros Hk. unfold wExpectTokenKind, ExpectTokenKind. destruct (kind_eqb_spec (t_kind (Peek eof ts)) k) as [E|E].
    - eexists. split; [reflexivity|]. destruct ts as [|t ts]; [cbn in E; congruence|]. exists t. auto.
    - pose proof (Unexpected_bad (A := token * list token) (Peek eof ts) [k] src) as HB. destruct (Unexpected (Peek eof ts) [k] src) as [x|x y|x]; [destruct HB|eexists; split; [reflexivity|exact I]..].
  Qed.
  Lemma ids_cost : forall n ts, (List.length ts <= n)%nat ->
    let '(o, w) := wparse_ids src eof ts in base w /\ copied w = 0 /\ peeked w <= taken w + 1 /\ taken w <= len ts + 1 /\ match o with Ok (ids, rest) => taken w + len rest = len ts | _ => True end.
  Proof.
    unfold base. induction n as [|n IH]; intros ts Hn; (destruct ts as [|t ts1]; [cbn; lia|]); [cbn in Hn; lia|]. cbn [wparse_ids]. destruct (kind_eqb (t_kind t) DOT); [|cbn; lia].
    destruct ts1 as [|id ts2].
    - pose proof (Unexpected_bad (A := list token * list token) (Peek eof []) [ID] src) as HB. destruct (Unexpected (Peek eof []) [ID] src); [destruct HB|cbn; lia..].
    - destruct (kind_eqb (t_kind id) ID).
      + assert (List.length ts2 <= n)%nat as Hl by (cbn in Hn; lia). specialize (IH ts2 Hl). destruct (wparse_ids src eof ts2) as [[[ids rest]|k m|c] w]; cbn [wbind after fst snd free plus_work taken peeked copied peeks take no_work List.length] in *; lia.
      + pose proof (Unexpected_bad (A := list token * list token) id [ID] src) as HB. destruct (Unexpected id [ID] src); [destruct HB|cbn; lia..].
  Qed.

  Lemma good_free c m d ts o : 0 <= c -> 0 <= m -> match o with Ok (e, rest) => d = depths 0 e /\ nodes e <= m /\ len rest = len ts | _ => True end -> good c m d ts (free o).
  Proof. intros Hc Hm H. unfold good, base, free, no_work, tri. cbn [taken peeked copied]. repeat split; try nia. destruct o as [[e rest]|k x|x]; [|exact I..]. destruct H as (? & ? & ?). repeat split; lia. Qed.
  Definition leaf (e : expr) : Prop := nodes e = 1 /\ depths 0 e = 0.
  Ltac leaves := let H := fresh in intros H; repeat (apply bind_ok in H as (? & _ & H)); injection H as <-; split; reflexivity.
  Lemma leaf_bool t e : MakeBooleanConstant t = Ok e -> leaf e.
  Proof. unfold MakeBooleanConstant. leaves. Qed.
  Lemma leaf_int t e : MakeIntegerConstant t = Ok e -> leaf e.
  Proof. unfold MakeIntegerConstant. leaves. Qed.
  Lemma leaf_address a b s t e : MakeNetworkAddressIntegerConstant pton a b s t = Ok e -> leaf e.
  Proof. unfold MakeNetworkAddressIntegerConstant. leaves. Qed.
  Lemma leaf_variable ts e : MakeVariable ts ck = Ok e -> leaf e.
  Proof. unfold MakeVariable. destruct ts; [discriminate|]. intros H. apply bind_ok in H as (? & _ & H). destruct ck; injection H as <-; split; reflexivity. Qed.
  Lemma leaf_attr a b e : MakeAttributeAccess a b = Ok e -> leaf e.
  Proof. unfold MakeAttributeAccess. leaves. Qed.
  Lemma not_cost t a e : MakeBooleanNegation t a = Ok e -> nodes e = 1 + nodes a /\ depths 0 e = nodes a + depths 0 a.
  Proof. unfold MakeBooleanNegation. intros H. apply bind_ok in H as (? & _ & H). injection H as <-. cbn [nodes depths]. rewrite !Z.add_0_l, (depths_shift a 1). lia. Qed.
  Lemma neg_cost t a e : MakeArithmeticNegation t a = Ok e -> nodes e = 1 + nodes a /\ depths 0 e = nodes a + depths 0 a.
  Proof. unfold MakeArithmeticNegation. intros H. apply bind_ok in H as (? & _ & H). injection H as <-. cbn [nodes depths]. rewrite !Z.add_0_l, (depths_shift a 1). lia. Qed.
  Lemma field_cost a t e : MakeFieldAccess a t = Ok e -> nodes e = 1 + nodes a /\ depths 0 e = nodes a + depths 0 a.
  Proof. unfold MakeFieldAccess. intros H. apply bind_ok in H as (? & _ & H). injection H as <-. cbn [nodes depths]. rewrite !Z.add_0_l, (depths_shift a 1). lia. Qed.
  Lemma bin_cost t a b e : MakeBinaryExpression t a b = Ok e -> nodes e = 1 + nodes a + nodes b /\ depths 0 e = nodes a + depths 0 a + nodes b + depths 0 b.
  Proof. unfold MakeBinaryExpression. intros H. apply bind_ok in H as (? & _ & H). injection H as <-. cbn [nodes depths]. rewrite !Z.add_0_l, (depths_shift a 1), (depths_shift b 1). lia. Qed.

  Ltac cb := cbn [wbind after fst snd free plus_work taken peeked copied peeks take no_work copy List.length] in *; repeat rewrite messages_nodes.
  Lemma negation_cost ts t mk f ctx (Hmk : forall a e, mk a = Ok e -> nodes e = 1 + nodes a /\ depths 0 e = nodes a + depths 0 a) :
    good 0 0 0 ts (wparse_above pton ck src eof f ts ctx) ->
    good (-1) 0 0 (t :: ts) (after take (wbind (wparse_above pton ck src eof f ts ctx) (fun '(a, ts) => after (copy a) (free (let* a := mk a in Ok (a, ts)))))).
  Proof.
    unfold good, base, tri. destruct (wparse_above pton ck src eof f ts ctx) as [[[a us]|k m|c] w]; cb; [|intros H; repeat split; nia..].
    intros (Hb & Hp & Hc & Ht & He & Hn & Hl). pose proof (nodes_one a) as H1. destruct (depths_bound a) as [H2 H3].
    cb. repeat split; try nia. destruct (mk a) as [e|k m|c] eqn:E; cbn [bind]; [|exact I..]. destruct (Hmk a e E) as [-> ->]. repeat split; lia.
  Qed.
  Ltac mono a := match goal with |- context [tri (nodes a + ?X)] => assert (tri (nodes a) <= tri (nodes a + X)) by (apply tri_mono; lia) end.
  Ltac step a := match goal with |- context [tri (nodes a + ?X)] => assert (tri (nodes a) + 2 * nodes a <= tri (nodes a + X)) by (apply tri_step; lia) end.
  Lemma good_cost f : (forall ts ctx, good 0 0 0 ts (wparse_above pton ck src eof f ts ctx)) /\ (forall a ts ctx, good 1 (nodes a) (depths 0 a) ts (wextend pton ck src eof f a ts ctx)).
  Proof.
    induction f as [|f [IH1 IH2]]; split; intros.
    - apply good_free; [lia|lia|exact I].
    - pose proof (nodes_one a). apply good_free; [lia|lia|exact I].
    - rewrite wparse_S. assert (good (-1) 0 0 ts (winitial f ts)) as HG.
      { unfold winitial. destruct ts as [|t ts].
        - cbn [Peek t_kind]. pose proof (Unexpected_bad (A := expr * list token) (Peek eof []) initial_kinds src) as HB. unfold Peek in HB. destruct (Unexpected _ initial_kinds src); [destruct HB|unfold good, base, tri; cbn; lia..].
        - cbn [Peek tl].
          assert (forall o, (forall e rest, o = Ok (e, rest) -> rest = ts /\ leaf e) -> good (-1) 0 0 (t :: ts) (after take (free o))) as Hleaf.
          { intros o Ho. unfold good, base, tri. cb. repeat split; try lia. destruct o as [[e rest]|k x|x]; [|exact I..].
            destruct (Ho e rest eq_refl) as (-> & ? & ?). repeat split; lia. }
          assert (forall (o : outcome expr) e rest, bind o (fun a => Ok (a, ts)) = Ok (e, rest) -> exists a, o = Ok a /\ e = a /\ rest = ts) as Hb.
          { intros o e rest H. apply bind_ok in H as (x & Hx & H). injection H as <- <-. eauto. }
          destruct (t_kind t); try (apply Hleaf; intros e rest H; apply Hb in H as (x & Hx & -> & ->); split; [reflexivity|]; eauto using leaf_bool, leaf_int);
          try (apply Hleaf; intros e rest H; exfalso; exact (bad_not_ok _ _ (Unexpected_bad _ _ _) H));
          try (apply negation_cost; [|apply IH1]; eauto using not_cost, neg_cost).
          + clear IH1 IH2 Hleaf Hb. destruct (expect_cost ID ts ltac:(discriminate)) as (o & -> & Ho). destruct o as [[id us]|k m|c]; [|unfold good, base, tri; cb; lia..]. destruct Ho as (_ & -> & _).
            unfold good, base, tri. unfold MakeAttributeAccess. cb. cbn [bind nodes depths]. repeat split; lia.
          + specialize (IH1 ts 0%nat). clear IH2 Hleaf Hb. unfold good, base, tri in IH1. destruct (wparse_above pton ck src eof f ts 0) as [[[a us]|k m|c] w]; [|unfold good, base, tri; cb; repeat split; nia..].
            destruct (expect_cost RPAR us ltac:(discriminate)) as (o & Eo & Ho). unfold good, base, tri. cb. rewrite Eo. destruct o as [[rp vs]|k m|c]; [|cb; repeat split; nia..]. destruct Ho as (_ & -> & _). cb. repeat split; nia.
          + clear IH1 IH2 Hleaf Hb. destruct (kind_eqb (t_kind (Peek eof ts)) LPAR) eqn:EL.
            * destruct ts as [|lp ts]; [discriminate|]. cbn [tl]. destruct (expect_cost STRING ts ltac:(discriminate)) as (o & -> & Ho). destruct o as [[st us]|k m|c]; [|unfold good, base, tri; cb; lia..]. destruct Ho as (_ & -> & _).
              cb. destruct (expect_cost RPAR us ltac:(discriminate)) as (o & -> & Ho). destruct o as [[rp vs]|k m|c]; [|unfold good, base, tri; cb; lia..]. destruct Ho as (_ & -> & _).
              unfold good, base, tri. cb. repeat split; try lia. destruct (MakeNetworkAddressIntegerConstant _ _ _ _ _) as [e|k m|c] eqn:E; cbn [bind]; [|exact I..]. destruct (leaf_address _ _ _ _ _ E) as [-> ->]. repeat split; lia.
            * pose proof (ids_cost _ ts (le_n _)) as HI. destruct (wparse_ids src eof ts) as [[[ids us]|k m|c] w]; unfold good, base, tri in *; cb; [|repeat split; nia..].
              repeat split; try nia. destruct (MakeVariable _ ck) as [e|k m|c] eqn:E; cbn [bind]; [|exact I..]. destruct (leaf_variable _ _ E) as [-> ->]. repeat split; lia. }
      destruct (winitial f ts) as [[[a us]|k m|c] w]; cbn [wbind]; [|unfold good, base in HG |- *; repeat split; try lia; exact I..].
      specialize (IH2 a us ctx). clear IH1. destruct (wextend pton ck src eof f a us ctx) as [[[e vs]|k m|c] w']; unfold good, base in *; cb; pose proof (nodes_one a) as H1; destruct (depths_bound a) as [H2 H3]; fold (tri (nodes a)) in H3;
        (assert (tri (nodes a + taken w') <= tri (0 + (taken w + taken w'))) as H4 by (unfold tri; nia)); change (tri 0) with 0 in *; repeat split; try lia.
    - rewrite wextend_S. pose proof (nodes_one a) as H1. destruct (depths_bound a) as [H2 H3].
      assert (forall o : outcome (expr * list token), (forall e rest, o = Ok (e, rest) -> e = a /\ rest = ts) -> good 1 (nodes a) (depths 0 a) ts (after (peeks 1) (free o))) as Hstop.
      { intros o Ho. unfold good, base, tri. cb. repeat split; try lia. destruct o as [[e rest]|k m|c]; [|exact I..]. destruct (Ho e rest eq_refl) as [-> ->]. repeat split; lia. }
      assert (forall text e rest, ParseError (A := expr * list token) (Peek eof ts) src text <> Ok (e, rest)) as Hpe by (intros text e rest H; exact (bad_not_ok _ _ (ParseErrorAt_bad _ _ _ _) H)).
      cbv zeta.
      assert (good 1 (nodes a) (depths 0 a) ts (after (peeks 1) (free (Ok (a, ts))))) as Hsame by (apply Hstop; intros e rest [= <- <-]; auto).
      destruct ts as [|t ts]; [exact Hsame|]. cbn [Peek tl] in *. remember (t_kind t) as k eqn:Ek. clear Ek.
      assert (good 1 (nodes a) (depths 0 a) (t :: ts) (after (peeks 1) (after take (after (peeks (if kind_eqb k SEMICOLON then if kind_eqb (t_kind (Peek eof ts)) END_OF_INPUT then 1 else 2 else 0))
        (if (kind_eqb k SEMICOLON && (kind_eqb (t_kind (Peek eof ts)) END_OF_INPUT || kind_eqb (t_kind (Peek eof ts)) RPAR))%bool then free (Ok (a, ts))
         else if kind_eqb k DOUBLE_COLON then
                wbind (wExpectTokenKind src eof ID ts) (fun '(field, ts) =>
                wbind (after (copy a) (free (MakeFieldAccess a field))) (fun ast =>
                wextend pton ck src eof f ast ts ctx))
              else
                wbind (wparse_above pton ck src eof f ts (TokenPrecedence k)) (fun '(another, ts) =>
                wbind (after (plus_work (copy a) (copy another)) (free (MakeBinaryExpression t a another))) (fun ast =>
                wextend pton ck src eof f ast ts ctx))))))) as Hgo.
      { set (n := if kind_eqb k SEMICOLON then if kind_eqb (t_kind (Peek eof ts)) END_OF_INPUT then 1 else 2 else 0).
        assert (0 <= n <= 2) as Hn by (unfold n; destruct (kind_eqb k SEMICOLON), (kind_eqb (t_kind (Peek eof ts)) END_OF_INPUT); lia). clearbody n. clear Hstop Hpe Hsame.
        destruct (_ && _)%bool; [|destruct (kind_eqb k DOUBLE_COLON)].
        - unfold good, base. cb. mono a. repeat split; lia.
        - destruct (expect_cost ID ts ltac:(discriminate)) as (o & -> & Ho). destruct o as [[fd us]|c m|c]; [|unfold good, base; cb; mono a; repeat split; try lia; exact I..]. destruct Ho as (_ & -> & _).
          cb. destruct (MakeFieldAccess a fd) as [e|c m|c] eqn:E; [|unfold good, base; cb; step a; repeat split; try lia; exact I..]. destruct (field_cost _ _ _ E) as [E1 E2].
          specialize (IH2 e us ctx). unfold good, base in *. cb. destruct (wextend pton ck src eof f e us ctx) as [[[e' vs]|c m|c] w]; cb; rewrite ?E1, ?E2 in IH2;
          match goal with |- context [tri (nodes a + ?X)] => assert (tri (1 + nodes a + taken w) <= tri (nodes a + X)) as H4 by (apply tri_mono; lia) end;
          pose proof (tri_step (nodes a) 1 ltac:(lia) ltac:(lia)) as H5; rewrite (Z.add_comm (nodes a) 1) in H5; repeat split; try lia.
        - specialize (IH1 ts (TokenPrecedence k)). destruct (wparse_above pton ck src eof f ts (TokenPrecedence k)) as [[[b us]|c m|c] w];
            [|unfold good, base in *; cb; (match goal with |- context [tri (nodes a + ?X)] => assert (tri (nodes a) + tri (0 + taken w) <= tri (nodes a + X)) as H4 by (unfold tri; nia) end); change (tri 0) with 0 in *; repeat split; try lia; exact I..].
          pose proof (nodes_one b) as H1'. destruct (depths_bound b) as [H2' H3'].
          cb. destruct (MakeBinaryExpression t a b) as [e|c m|c] eqn:E;
            [|unfold good, base in *; cb; (match goal with |- context [tri (nodes a + ?X)] => assert (tri (1 + nodes a + nodes b) <= tri (nodes a + X)) as H4 by (apply tri_mono; lia) end);
              pose proof (tri_plus (nodes a) (nodes b) ltac:(lia) ltac:(lia)) as H5; fold (tri (nodes b)) in H3'; change (tri 0) with 0 in *; rewrite ?(messages_nodes b); repeat split; try lia; exact I..]. destruct (bin_cost _ _ _ _ E) as [E1 E2].
          specialize (IH2 e us ctx). unfold good, base in *. cb. destruct (wextend pton ck src eof f e us ctx) as [[[e' vs]|c m|c] w']; cb; rewrite ?E1, ?E2 in IH2;
          match goal with |- context [tri (nodes a + ?X)] => assert (tri (1 + nodes a + nodes b + taken w') <= tri (nodes a + X)) as H4 by (apply tri_mono; lia) end;
          pose proof (tri_plus (nodes a) (nodes b) ltac:(lia) ltac:(lia)) as H5; fold (tri (nodes b)) in H3'; change (tri 0) with 0 in *; rewrite ?(messages_nodes b); repeat split; try lia. }
      destruct k; try exact Hsame; try (apply Hstop; intros e rest H; exfalso; exact (bad_not_ok _ _ (Unexpected_bad _ _ _) H));
        (destruct (Nat.eqb ctx _ && _)%bool; [apply Hstop; intros e rest H; exfalso; exact (Hpe _ _ _ H)|]; destruct (Nat.ltb _ ctx || _)%bool; [exact Hsame|exact Hgo]).
  Qed.
End Facts.
