(** Proofs about the parser: fuel, and equivalence with the grammar. *)
From Coq Require Import String Ascii List ZArith NArith Bool Lia ZifyBool ZifyN ZifyNat.
From Verif Require Import Base Num Token Ast Lexer Quote AstConstructors Parser SpecLexer SpecGrammar StrFacts NumFacts LiteralFacts.
Import ListNotations.
Open Scope string_scope.

Lemma kind_eqb_spec a b : reflect (a = b) (kind_eqb a b).
Proof. unfold kind_eqb. destruct (kind_eq_dec a b); constructor; auto. Qed.
Lemma kind_eqb_refl a : kind_eqb a a = true.
Proof. destruct (kind_eqb_spec a a); congruence. Qed.

(** Errors are neither results nor lack of fuel. *)
Definition bad {A} (r : outcome A) : Prop := match r with Ok _ => False | Crash ModelOutOfFuel => False | _ => True end.
Lemma std_string_fill_fuel n c : std_string_fill n c <> Crash ModelOutOfFuel.
Proof. unfold std_string_fill. destruct (n <? 0)%Z; discriminate. Qed.
Lemma Quote_fuel c s e : Quote c s e <> Crash ModelOutOfFuel.
Proof.
  unfold Quote, quote_line_error. destruct (loc_proto_equal s e); [discriminate|].
  destruct (_ <? _)%nat; [discriminate|]. destruct (_ <? _)%nat; [discriminate|].
  destruct (skipn _ _); [discriminate|].
  destruct (std_string_fill (l_col s) " ") eqn:E1; cbn [bind]; [|discriminate|intros [= ->]; now apply std_string_fill_fuel in E1].
  match goal with |- bind (std_string_fill ?a ?b) _ <> _ => destruct (std_string_fill a b) eqn:E2; cbn [bind] end;
    [discriminate|discriminate|intros [= ->]; now apply std_string_fill_fuel in E2].
Qed.
Lemma QuoteSub_fuel c s e : QuoteSubConstraint c s e <> Crash ModelOutOfFuel.
Proof.
  unfold QuoteSubConstraint. destruct (_ || _)%bool; [discriminate|].
  destruct (Explain s e) eqn:E1; cbn [bind]; [|discriminate|unfold Explain in E1; destruct (l_src s); discriminate].
  destruct (Quote c s e) eqn:E2; cbn [bind]; [discriminate|discriminate|intros [= ->]; now apply Quote_fuel in E2].
Qed.
Lemma ParseErrorAt_bad {A} src s e text : bad (ParseErrorAt (A := A) src s e text).
Proof.
  unfold ParseErrorAt. destruct (QuoteSubConstraint src s e) as [q|k m|w] eqn:E; [exact I|exact I|].
  destruct w; try exact I. now apply QuoteSub_fuel in E.
Qed.
Lemma Unexpected_bad {A} t l src : bad (Unexpected (A := A) t l src).
Proof. unfold Unexpected, ParseError. destruct (kind_eqb _ _); apply ParseErrorAt_bad. Qed.
Lemma bad_not_ok {A} (r : outcome A) a : bad r -> r <> Ok a.
Proof. intros H ->. exact H. Qed.
Lemma bad_not_fuel {A} (r : outcome A) : bad r -> r <> Crash ModelOutOfFuel.
Proof. intros H ->. exact H. Qed.
Lemma bind_ok {A B} (x : outcome A) (f : A -> outcome B) b : bind x f = Ok b -> exists a, x = Ok a /\ f a = Ok b.
Proof. destruct x; cbn; try discriminate. eauto. Qed.
Lemma bind_fuel {A B} (x : outcome A) (f : A -> outcome B) : bind x f = Crash ModelOutOfFuel ->
  x = Crash ModelOutOfFuel \/ exists a, x = Ok a /\ f a = Crash ModelOutOfFuel.
Proof. destruct x; cbn; try discriminate; eauto. intros [= ->]. auto. Qed.
Ltac inv_bind H := let a := fresh "a" in let E := fresh "E" in apply bind_ok in H as (a & E & H).

Section Facts.
  Variable pton : inet_pton6.
  Variable ck : constraint_kind.
  Variable src : csource.
  Variable eof : loc.
  Notation PA := (parse_above pton ck src eof).
  Notation EX := (extend pton ck src eof).
  Notation Expect := (ExpectTokenKind src eof).
  Notation pk ts := (t_kind (Peek eof ts)).

  (** * Shape of the initial part *)
  Definition initial (f : nat) (ts : list token) : outcome (expr * list token) :=
    let t := Peek eof ts in
    let ts := tl ts in
    match t_kind t with
    | TRUE | FALSE => let* a := MakeBooleanConstant t in Ok (a, ts)
    | BINARY | OCTARY | DECIMAL | HEXADEC => let* a := MakeIntegerConstant t in Ok (a, ts)
    | ID =>
        if kind_eqb (t_kind (Peek eof ts)) LPAR then
          let* (string_token, ts) := Expect STRING (tl ts) in
          let* (rpar_token, ts) := Expect RPAR ts in
          let* a := MakeNetworkAddressIntegerConstant pton (t_text t) (t_text string_token)
                      (t_start t) (t_end rpar_token) in
          Ok (a, ts)
        else
          let* (ids, ts) := parse_ids src eof ts in
          let* a := MakeVariable (t :: ids) ck in
          Ok (a, ts)
    | DOUBLE_COLON =>
        let* (attribute_name, ts) := Expect ID ts in
        let* a := MakeAttributeAccess t attribute_name in
        Ok (a, ts)
    | BANG =>
        let* (a, ts) := PA f ts (TokenPrecedence BANG) in
        let* a := MakeBooleanNegation t a in
        Ok (a, ts)
    | MINUS =>
        let* (a, ts) := PA f ts (TokenPrecedence MINUS) in
        let* a := MakeArithmeticNegation t a in
        Ok (a, ts)
    | LPAR =>
        let* (a, ts) := PA f ts 0 in
        let* (_, ts) := Expect RPAR ts in
        Ok (a, ts)
    | _ => Unexpected t initial_kinds src
    end.
  Lemma PA_S f ts ctx : PA (S f) ts ctx = (let* (ast, ts) := initial f ts in EX f ast ts ctx).
  Proof. reflexivity. Qed.
  Definition ext_kind (k : kind) : bool :=
    match k with DOUBLE_COLON | AND | SEMICOLON | OR | IMPLIES | EQ | NE | GT | GE | LT | LE => true | _ => false end.
  Definition stop_kind (k : kind) : bool := match k with END_OF_INPUT | RPAR => true | _ => false end.
  Definition is_none (k : kind) : bool := match TokenAssociativity k with ANONE => true | _ => false end.
  Definition is_left (k : kind) : bool := match TokenAssociativity k with ALEFT => true | _ => false end.
  Definition nonassoc_text (k : kind) : string :=
    "operator " ++ KindToKeyword k ++
    " is non-associative; enclose expression to the left of the operator in '(' and ')' to disambiguate?".
  Lemma EX_S f ast ts ctx : EX (S f) ast ts ctx =
    let t := Peek eof ts in
    let k := t_kind t in
    if stop_kind k then Ok (ast, ts)
    else if ext_kind k then
      if (Nat.eqb ctx (TokenPrecedence k) && is_none k)%bool then ParseError t src (nonassoc_text k)
      else if (Nat.ltb (TokenPrecedence k) ctx || (Nat.eqb ctx (TokenPrecedence k) && is_left k))%bool then Ok (ast, ts)
      else
        let next := pk (tl ts) in
        if (kind_eqb k SEMICOLON && stop_kind next)%bool then Ok (ast, tl ts)
        else if kind_eqb k DOUBLE_COLON then
          let* (field, ts) := Expect ID (tl ts) in
          let* ast := MakeFieldAccess ast field in
          EX f ast ts ctx
        else
          let* (another, ts) := PA f (tl ts) (TokenPrecedence k) in
          let* ast := MakeBinaryExpression t ast another in
          EX f ast ts ctx
    else Unexpected t extension_kinds src.
  Proof.
    cbn [extend]. unfold is_none, is_left, nonassoc_text. destruct (t_kind (Peek eof ts)); cbn [stop_kind ext_kind TokenAssociativity TokenPrecedence kind_eqb];
      try reflexivity.
    replace (kind_eqb (pk (tl ts)) END_OF_INPUT || kind_eqb (pk (tl ts)) RPAR)%bool with (stop_kind (pk (tl ts))); [reflexivity|].
    destruct (pk (tl ts)); reflexivity.
  Qed.
  Opaque parse_above extend.

  (** * More fuel does not change a result *)
  Definition le_out {A} (r r' : outcome A) : Prop := r = Crash ModelOutOfFuel \/ r = r'.
  Lemma le_refl {A} (r : outcome A) : le_out r r.
  Proof. now right. Qed.
  Lemma le_bind {A B} (x x' : outcome A) (f f' : A -> outcome B) :
    le_out x x' -> (forall a, le_out (f a) (f' a)) -> le_out (bind x f) (bind x' f').
  Proof.
    intros [->| ->] H; [now left|]. destruct x'; cbn; [apply H|now right|now right].
  Qed.
  Lemma fuel_S f : (forall ts ctx, le_out (PA f ts ctx) (PA (S f) ts ctx)) /\
    (forall ast ts ctx, le_out (EX f ast ts ctx) (EX (S f) ast ts ctx)).
  Proof.
    induction f as [|f [IHp IHe]].
    - split; intros; left; reflexivity.
    - split.
      + intros ts ctx. rewrite (PA_S f), (PA_S (S f)). apply le_bind; [|intros [? ?]; apply IHe].
        unfold initial. destruct (t_kind (Peek eof ts)); try apply le_refl;
          (apply le_bind; [apply IHp|intros [? ?]; apply le_refl]).
      + intros ast ts ctx. rewrite (EX_S f), (EX_S (S f)). cbn zeta.
        destruct (stop_kind _); [apply le_refl|]. destruct (ext_kind _); [|apply le_refl].
        destruct (_ && _)%bool; [apply le_refl|]. destruct (_ || _)%bool; [apply le_refl|].
        destruct (_ && _)%bool; [apply le_refl|]. destruct (kind_eqb _ _).
        * apply le_bind; [apply le_refl|]. intros [? ?]. apply le_bind; [apply le_refl|]. intros ?. apply IHe.
        * apply le_bind; [apply IHp|]. intros [? ?]. apply le_bind; [apply le_refl|]. intros ?. apply IHe.
  Qed.
  Lemma fuel_le f f' : (f <= f')%nat -> (forall ts ctx, le_out (PA f ts ctx) (PA f' ts ctx)) /\
    (forall ast ts ctx, le_out (EX f ast ts ctx) (EX f' ast ts ctx)).
  Proof.
    induction 1 as [|f' H [IHp IHe]]; [split; intros; apply le_refl|].
    destruct (fuel_S f') as [Hp He]. split; intros.
    - destruct (IHp ts ctx) as [E|E]; [now left|]. rewrite E. apply Hp.
    - destruct (IHe ast ts ctx) as [E|E]; [now left|]. rewrite E. apply He.
  Qed.

  (** * Tokens are consumed *)
  Lemma Expect_ok k ts t rest : Expect k ts = Ok (t, rest) -> t = Peek eof ts /\ t_kind t = k /\ rest = tl ts.
  Proof.
    unfold ExpectTokenKind. destruct (kind_eqb_spec (pk ts) k) as [E|E]; [intros [= <- <-]; auto|].
    intros H. exfalso. revert H. apply bad_not_ok, Unexpected_bad.
  Qed.
  Lemma Expect_ok_cons k ts t rest : k <> END_OF_INPUT -> Expect k ts = Ok (t, rest) -> ts = t :: rest /\ t_kind t = k.
  Proof.
    intros Hk H. apply Expect_ok in H as (-> & H & ->). destruct ts as [|t ts]; [cbn in H; congruence|]. auto.
  Qed.
  Lemma Expect_cons k t rest : t_kind t = k -> Expect k (t :: rest) = Ok (t, rest).
  Proof. intros <-. unfold ExpectTokenKind. cbn [Peek]. now rewrite kind_eqb_refl. Qed.
  Lemma ids_ok n : forall ts ids rest, (List.length ts <= n)%nat -> parse_ids src eof ts = Ok (ids, rest) ->
    exists w, ts = (w ++ rest)%list /\ Dots w ids /\ pk rest <> DOT.
  Proof.
    induction n as [|n IH]; intros ts ids rest Hn H.
    - destruct ts; [|cbn in Hn; lia]. cbn in H. injection H as <- <-. exists []. split; [reflexivity|]. split; [constructor|discriminate].
    - destruct ts as [|t ts]; [cbn in H; injection H as <- <-; exists []; split; [reflexivity|split; [constructor|discriminate]]|].
      cbn [parse_ids] in H. destruct (kind_eqb_spec (t_kind t) DOT) as [Hd|Hd].
      + destruct ts as [|id ts]; [exfalso; revert H; apply bad_not_ok, Unexpected_bad|].
        destruct (kind_eqb_spec (t_kind id) ID) as [Hi|Hi]; [|exfalso; revert H; apply bad_not_ok, Unexpected_bad].
        apply bind_ok in H as ([ids' rest'] & E & H). injection H as <- <-.
        destruct (IH ts ids' rest') as (w & -> & Hw & Hr); [cbn in Hn; lia|exact E|].
        exists (t :: id :: w). split; [reflexivity|]. split; [now constructor|exact Hr].
      + injection H as <- <-. exists []. split; [reflexivity|]. split; [constructor|exact Hd].
  Qed.
  Lemma ids_complete w ids rest : Dots w ids -> pk rest <> DOT -> parse_ids src eof (w ++ rest) = Ok (ids, rest).
  Proof.
    induction 1 as [|dot id w ids Hd Hi H IH]; intros Hr.
    - cbn [app]. destruct rest as [|t rest]; [reflexivity|]. cbn [parse_ids]. cbn in Hr.
      destruct (kind_eqb_spec (t_kind t) DOT); [congruence|reflexivity].
    - cbn [app parse_ids]. rewrite Hd, Hi. cbn [kind_eqb]. rewrite !kind_eqb_refl, (IH Hr). reflexivity.
  Qed.
  Lemma initial_len f : (forall ts ctx a rest, PA f ts ctx = Ok (a, rest) -> (List.length rest < List.length ts)%nat) ->
    forall t ts a1 ts1, initial f (t :: ts) = Ok (a1, ts1) -> (List.length ts1 <= List.length ts)%nat.
  Proof.
    intros IHp t ts a1 ts1 E.
      unfold initial in E. cbn [Peek tl] in E.
      assert (forall ctx', (let* (a, ts) := PA f ts ctx' in let* (_, ts) := Expect RPAR ts in Ok (a, ts)) = Ok (a1, ts1) -> (List.length ts1 <= List.length ts)%nat) as Hpar.
      { intros ctx' H. apply bind_ok in H as ([a2 ts2] & E2 & H). apply bind_ok in H as ([t3 ts3] & E3 & H).
        injection H as <- <-. apply IHp in E2. apply Expect_ok in E3 as (_ & _ & ->). destruct ts2; cbn in *; lia. }
      assert (forall ctx' (mk : expr -> outcome expr), (let* (a, ts) := PA f ts ctx' in let* a := mk a in Ok (a, ts)) = Ok (a1, ts1) -> (List.length ts1 <= List.length ts)%nat) as Hun.
      { intros ctx' mk H. apply bind_ok in H as ([a2 ts2] & E2 & H). apply bind_ok in H as (a3 & E3 & H).
        injection H as <- <-. apply IHp in E2. lia. }
      destruct (t_kind t); try (exfalso; revert E; apply bad_not_ok; apply Unexpected_bad); try (now apply Hun in E); try (now apply Hpar in E);
        try (apply bind_ok in E as (a2 & E2 & E); injection E as <- <-; lia).
      + apply bind_ok in E as ([a2 ts2] & E2 & E). apply bind_ok in E as (a3 & E3 & E). injection E as <- <-.
        apply Expect_ok_cons in E2 as [-> _]; [cbn; lia|discriminate].
      + destruct (kind_eqb _ _).
        * apply bind_ok in E as ([a2 ts2] & E2 & E). apply bind_ok in E as ([a3 ts3] & E3 & E). apply bind_ok in E as (a4 & E4 & E).
          injection E as <- <-. apply Expect_ok_cons in E2 as [E2 _]; [|discriminate]. apply Expect_ok_cons in E3 as [-> _]; [|discriminate].
          destruct ts as [|? ts]; cbn in *; [discriminate|]. subst. cbn. lia.
        * apply bind_ok in E as ([a2 ts2] & E2 & E). apply bind_ok in E as (a3 & E3 & E). injection E as <- <-.
          apply (ids_ok _ _ _ _ (le_n _)) in E2 as (w & -> & _). rewrite app_length. lia.
  Qed.
  Lemma consume f : (forall ts ctx a rest, PA f ts ctx = Ok (a, rest) -> (List.length rest < List.length ts)%nat) /\
    (forall ast ts ctx a rest, EX f ast ts ctx = Ok (a, rest) -> (List.length rest <= List.length ts)%nat).
  Proof.
    induction f as [|f [IHp IHe]]; [split; intros; discriminate|]. split.
    - intros ts ctx a rest H. rewrite PA_S in H. apply bind_ok in H as ([a1 ts1] & E & H). apply IHe in H.
      enough (List.length ts1 < List.length ts)%nat by lia. clear H.
      destruct ts as [|t ts]; [exfalso; revert E; apply bad_not_ok; apply (Unexpected_bad (Peek eof []))|].
      cbn [List.length]. enough (List.length ts1 <= List.length ts)%nat by lia.
      exact (initial_len f IHp _ _ _ _ E).
    - intros ast ts ctx a rest H. rewrite EX_S in H. cbn zeta in H.
      destruct (stop_kind _) eqn:Es; [injection H as <- <-; lia|].
      destruct (ext_kind _); [|exfalso; revert H; apply bad_not_ok; apply Unexpected_bad].
      destruct (_ && _)%bool; [exfalso; revert H; apply bad_not_ok; apply ParseErrorAt_bad|].
      destruct (_ || _)%bool; [injection H as <- <-; lia|].
      assert (List.length (tl ts) <= List.length ts)%nat as Htl by (destruct ts; cbn; lia).
      destruct (_ && _)%bool; [injection H as <- <-; lia|].
      destruct (kind_eqb _ _).
      + apply bind_ok in H as ([a2 ts2] & E2 & H). apply bind_ok in H as (a3 & E3 & H).
        apply Expect_ok_cons in E2 as [E2 _]; [|discriminate]. rewrite E2 in Htl. cbn in Htl. apply IHe in H. lia.
      + apply bind_ok in H as ([a2 ts2] & E2 & H). apply bind_ok in H as (a3 & E3 & H).
        apply IHp in E2. apply IHe in H. lia.
  Qed.

  (** * Constructors never crash *)
  Definition nocrash {A} (r : outcome A) : Prop := forall w, r <> Crash w.
  Lemma nocrash_bind {A B} (x : outcome A) (f : A -> outcome B) : nocrash x -> (forall a, nocrash (f a)) -> nocrash (bind x f).
  Proof. intros Hx Hf w. destruct x; cbn; [apply Hf|discriminate|]. intros [= ->]. now apply (Hx w). Qed.
  Lemma nocrash_ok {A} (a : A) : nocrash (Ok a).
  Proof. intros w. discriminate. Qed.
  Lemma nocrash_err {A} c m : nocrash (Err (A := A) c m).
  Proof. intros w. discriminate. Qed.
  Lemma nocrash_check b m : nocrash (ret_check b m).
  Proof. intros w. unfold ret_check. destruct b; discriminate. Qed.
  Lemma nocrash_numeral t : nocrash (ConvertNumeral t).
  Proof. intros w. unfold ConvertNumeral. destruct (t_kind t); try discriminate; destruct (mpz_set_str _ _); discriminate. Qed.
  Lemma nocrash_push n conv ss b : (forall s, nocrash (conv s)) -> nocrash (push_bytes n conv ss b).
  Proof.
    intros Hc. revert b. induction ss as [|x ss IH]; intros b; cbn; [apply nocrash_ok|]. apply nocrash_bind; auto.
  Qed.
  Lemma nocrash_base10 a : nocrash (Base10StringToByte a).
  Proof.
    unfold Base10StringToByte. destruct (_ || _)%bool; [apply nocrash_err|]. apply nocrash_bind.
    - generalize 0%N. generalize a at 2. intros s. induction s as [|c s IH]; intros acc; cbn [base10_loop]; [apply nocrash_ok|].
      destruct (is_digit c); [apply IH|apply nocrash_err].
    - intros n. destruct (_ <? _)%N; [apply nocrash_err|apply nocrash_ok].
  Qed.
  Lemma nocrash_base16 a : nocrash (Base16StringToByte a).
  Proof.
    unfold Base16StringToByte. destruct (_ || _)%bool; [apply nocrash_err|]. apply nocrash_bind; [|intros; apply nocrash_ok].
    generalize 0%N. generalize a at 2. intros s. induction s as [|c s IH]; intros acc; cbn [base16_loop]; [apply nocrash_ok|].
    destruct (is_hex c); [apply IH|apply nocrash_err].
  Qed.
  Lemma nocrash_addr a b s e : nocrash (MakeNetworkAddressIntegerConstant pton a b s e).
  Proof.
    unfold MakeNetworkAddressIntegerConstant. apply nocrash_bind; [|intros; apply nocrash_bind; [apply nocrash_numeral|intros; apply nocrash_ok]].
    destruct (String.eqb a "ipv4"); [|destruct (String.eqb a "ipv6"); [|destruct (String.eqb a "mac"); [|apply nocrash_err]]].
    - unfold Ipv4StringToByteString. destruct (negb _); [apply nocrash_err|]. apply nocrash_bind; [apply nocrash_push, nocrash_base10|intros; apply nocrash_ok].
    - unfold Ipv6StringToByteString. destruct (pton _); [apply nocrash_ok|apply nocrash_err].
    - unfold MacStringToByteString. destruct (negb _); [apply nocrash_err|]. apply nocrash_bind; [apply nocrash_push, nocrash_base16|intros; apply nocrash_ok].
  Qed.
  Lemma nocrash_mk : (forall t, nocrash (MakeBooleanConstant t)) /\ (forall t, nocrash (MakeIntegerConstant t)) /\
    (forall l, nocrash (MakeVariable l ck)) /\ (forall a b, nocrash (MakeAttributeAccess a b)) /\ (forall t e, nocrash (MakeBooleanNegation t e)) /\
    (forall t e, nocrash (MakeArithmeticNegation t e)) /\ (forall t a b, nocrash (MakeBinaryExpression t a b)) /\
    (forall a t, nocrash (MakeFieldAccess a t)).
  Proof.
    repeat split; intros.
    - unfold MakeBooleanConstant. apply nocrash_bind; [apply nocrash_check|intros; apply nocrash_ok].
    - unfold MakeIntegerConstant. apply nocrash_bind; [apply nocrash_numeral|intros; apply nocrash_ok].
    - unfold MakeVariable. destruct l; [apply nocrash_err|]. apply nocrash_bind; [apply nocrash_check|]. intros _. destruct ck; apply nocrash_ok.
    - apply nocrash_ok.
    - unfold MakeBooleanNegation. apply nocrash_bind; [apply nocrash_check|intros; apply nocrash_ok].
    - unfold MakeArithmeticNegation. apply nocrash_bind; [apply nocrash_check|intros; apply nocrash_ok].
    - unfold MakeBinaryExpression. apply nocrash_bind; [|intros; apply nocrash_ok]. unfold ConvertBinaryOperator. destruct (t_kind t); (apply nocrash_ok || apply nocrash_err).
    - unfold MakeFieldAccess. apply nocrash_bind; [apply nocrash_check|intros; apply nocrash_ok].
  Qed.

  (** * Enough fuel *)
  Definition fueled {A} (r : outcome A) : Prop := r <> Crash ModelOutOfFuel.
  Lemma fueled_bind {A B} (x : outcome A) (f : A -> outcome B) : fueled x -> (forall a, x = Ok a -> fueled (f a)) -> fueled (bind x f).
  Proof. intros Hx Hf H. apply bind_fuel in H as [H|(a & E & H)]; [auto|]. now apply (Hf a). Qed.
  Lemma fueled_nocrash {A} (r : outcome A) : nocrash r -> fueled r.
  Proof. intros H. apply H. Qed.
  Lemma fueled_expect k ts : fueled (Expect k ts).
  Proof. unfold ExpectTokenKind. destruct (kind_eqb _ _); [discriminate|]. apply bad_not_fuel, Unexpected_bad. Qed.
  Lemma fueled_ids n : forall ts, (List.length ts <= n)%nat -> fueled (parse_ids src eof ts).
  Proof.
    induction n as [|n IH]; intros ts Hn.
    - destruct ts; [discriminate|cbn in Hn; lia].
    - destruct ts as [|t ts]; [discriminate|]. cbn [parse_ids]. destruct (kind_eqb _ _); [|discriminate].
      destruct ts as [|id ts]; [apply bad_not_fuel, Unexpected_bad|]. destruct (kind_eqb _ _); [|apply bad_not_fuel, Unexpected_bad].
      apply fueled_bind; [apply IH; cbn in Hn; lia|]. intros [? ?] _. discriminate.
  Qed.
  Lemma enough f : (forall ts ctx, (List.length ts < f)%nat -> fueled (PA f ts ctx)) /\
    (forall ast ts ctx, (List.length ts < f)%nat -> fueled (EX f ast ts ctx)).
  Proof.
    destruct nocrash_mk as (M1 & M2 & M3 & M4 & M5 & M6 & M7 & M8).
    induction f as [|f [IHp IHe]]; [split; intros; lia|]. split.
    - intros ts ctx Hl. rewrite PA_S.
      destruct ts as [|t ts].
      { assert (initial f [] = Unexpected (Peek eof []) initial_kinds src) as -> by reflexivity.
        apply fueled_bind; [apply bad_not_fuel, Unexpected_bad|]. intros a E. exfalso. revert E. apply bad_not_ok, Unexpected_bad. }
      cbn [List.length] in Hl. apply fueled_bind.
      + unfold initial. cbn [Peek tl]. destruct (t_kind t); try (apply bad_not_fuel, Unexpected_bad);
          try (apply fueled_bind; [apply fueled_nocrash; auto|discriminate]);
          try (apply fueled_bind; [apply IHp; lia|]; intros [a2 ts2] E2; apply fueled_bind; [apply fueled_nocrash; auto|discriminate]).
        * apply fueled_bind; [apply fueled_expect|]. intros [? ?] _. discriminate.
        * apply fueled_bind; [apply IHp; lia|]. intros [? ?] _. apply fueled_bind; [apply fueled_expect|]. intros [? ?] _. discriminate.
        * destruct (kind_eqb _ _).
          -- apply fueled_bind; [apply fueled_expect|]. intros [? ?] _. apply fueled_bind; [apply fueled_expect|]. intros [? ?] _.
             apply fueled_bind; [apply fueled_nocrash, nocrash_addr|discriminate].
          -- apply fueled_bind; [apply (fueled_ids _ _ (le_n _))|]. intros [? ?] _. apply fueled_bind; [apply fueled_nocrash; auto|discriminate].
      + intros [a1 ts1] E. apply IHe.
        pose proof (initial_len f (proj1 (consume f)) _ _ _ _ E). lia.
    - intros ast ts ctx Hl. rewrite EX_S. cbn zeta.
      destruct (stop_kind (pk ts)) eqn:Es; [discriminate|]. destruct (ext_kind _); [|apply bad_not_fuel, Unexpected_bad].
      destruct (_ && _)%bool; [apply bad_not_fuel, ParseErrorAt_bad|]. destruct (_ || _)%bool; [discriminate|].
      destruct ts as [|t ts]; [discriminate Es|]. cbn [tl List.length] in *.
      destruct (_ && _)%bool; [discriminate|]. destruct (kind_eqb _ _).
      + apply fueled_bind; [apply fueled_expect|]. intros [a2 ts2] E2. apply Expect_ok_cons in E2 as [-> _]; [|discriminate].
        apply fueled_bind; [apply fueled_nocrash; auto|]. intros a3 _. apply IHe. cbn in Hl. lia.
      + apply fueled_bind; [apply IHp; lia|]. intros [a2 ts2] E2. apply (proj1 (consume f)) in E2.
        apply fueled_bind; [apply fueled_nocrash; auto|]. intros a3 _. apply IHe. lia.
  Qed.
End Facts.
