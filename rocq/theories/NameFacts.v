(** Sources may be exchanged and lines shifted: lexer, parser, type checker, evaluator and explainer do the same to constraints with other locations, up to a crash when quoting several lines. *)
From Coq Require Import String Ascii List ZArith NArith Bool Lia.
From Verif Require Import Base Num Token Ast Regex Lexer AstConstructors Parser Quote Info TypeChecker ConstraintInfo Interpreter Z3 Symbolic SpecNames.
Import ListNotations.
Open Scope string_scope.

(** Outcomes that agree but for texts, and, if [P] holds, but for crashes when a part of a constraint is quoted. *)
Definition near (P : Prop) {A B} (R : A -> B -> Prop) (o : outcome A) (o' : outcome B) : Prop :=
  match o, o' with
  | Ok a, Ok a' => R a a'
  | Err c _, Err c' _ => c = c'
  | Crash w, Crash w' => w = w' \/ P /\ (w = LengthError \/ w' = LengthError)
  | Crash w, _ => P /\ w = LengthError
  | _, Crash w' => P /\ w' = LengthError
  | _, _ => False
  end.
Lemma near_iff P {A B} (R : A -> B -> Prop) o o' : near P R o o' <-> similar R o o' \/ P /\ (o = Crash LengthError \/ o' = Crash LengthError).
Proof.
  destruct o, o'; cbn [near similar]; intuition congruence.
Qed.
Lemma near_similar {A B} (R : A -> B -> Prop) o o' : near False R o o' -> similar R o o'.
Proof. rewrite near_iff. tauto. Qed.
Lemma sim_bind {A A' B B' P} (R : A -> A' -> Prop) (S : B -> B' -> Prop) o o' f f' : near P R o o' -> (forall a a', R a a' -> near P S (f a) (f' a')) -> near P S (bind o f) (bind o' f').
Proof.
  destruct o as [a|c m|w], o' as [a'|c' m'|w']; cbn [near bind]; intros H1 H2; try tauto; [exact (H2 _ _ H1)|destruct H1 as [H1 ->]; destruct (f a); cbn [near]; tauto|destruct H1 as [H1 ->]; destruct (f' a'); cbn [near]; tauto].
Qed.
Lemma sim_refl {A P} (R : A -> A -> Prop) o : (forall a, R a a) -> near P R o o.
Proof. intros H. destruct o; cbn; auto. Qed.
Lemma sim_eq {A P} (o : outcome A) : near P eq o o.
Proof. apply sim_refl. reflexivity. Qed.
Lemma sim_annotate {A B P} (R : A -> B -> Prop) o o' s s' : near P R o o' -> near P R (annotate o s) (annotate o' s').
Proof. destruct o, o'; cbn; auto. Qed.
Lemma sim_mono {A B P} (R S : A -> B -> Prop) o o' : (forall a b, R a b -> S a b) -> near P R o o' -> near P S o o'.
Proof. intros H. destruct o, o'; cbn; auto. Qed.

(** * Exchanging sources *)
Record exchange (f : source -> source) : Prop := mkExchange { ex_eqb : forall a b, source_eqb (f a) (f b) = source_eqb a b; ex_none : f SrcNone = SrcNone; ex_some : forall a, a <> SrcNone -> f a <> SrcNone }.

Section Exchange.
  Variable f : source -> source.
  Hypothesis Hf : exchange f.
  Variable d : Z.
  Variable P : Prop.
  Hypothesis Hd : d = 0%Z \/ P.
  Definition xl (l : loc) : loc := mkLoc (l_line l + d) (l_col l) (f (l_src l)).
  Definition xt (t : token) : token := mkTok (t_kind t) (t_text t) (xl (t_start t)) (xl (t_end t)).
  Definition xm (m : meta) : meta := mkMeta (xl (m_start m)) (xl (m_end m)) (m_type m).
  Fixpoint xe (e : expr) : expr :=
    match e with
    | EBool m b => EBool (xm m) b
    | EInt m s => EInt (xm m) s
    | EKey m n => EKey (xm m) n
    | EParam m n => EParam (xm m) n
    | ENot m a => ENot (xm m) (xe a)
    | ENeg m a => ENeg (xm m) (xe a)
    | ECast m a => ECast (xm m) (xe a)
    | EBin m o l r => EBin (xm m) o (xe l) (xe r)
    | EField m g a => EField (xm m) g (xe a)
    | EAttr m n => EAttr (xm m) n
    | ENotSet m => ENotSet (xm m)
    end.
  Definition xc (c : csource) : csource := mkCSource (cs_string c) (xl (cs_loc c)).
  Lemma x_start e : e_start (xe e) = xl (e_start e).
  Proof. destruct e; reflexivity. Qed.
  Lemma x_end e : e_end (xe e) = xl (e_end e).
  Proof. destruct e; reflexivity. Qed.
  Lemma x_type e : e_type (xe e) = e_type e.
  Proof. destruct e; reflexivity. Qed.
  Lemma x_key e : e_key (xe e) = e_key e.
  Proof. destruct e; reflexivity. Qed.
  Lemma x_set t e : set_type t (xe e) = xe (set_type t e).
  Proof. destruct e; reflexivity. Qed.

  (** * Lexer *)
  Lemma x_col n l : add_col n (xl l) = xl (add_col n l).
  Proof. reflexivity. Qed.
  Lemma x_line l : next_line (xl l) = xl (next_line l).
  Proof. unfold next_line, xl. cbn [l_line l_col l_src]. f_equal. lia. Qed.
  Lemma x_swallow fuel : forall input l, SwallowMultiLineComment fuel input (xl l) = (fst (SwallowMultiLineComment fuel input l), xl (snd (SwallowMultiLineComment fuel input l))).
  Proof.
    induction fuel as [|fuel IH]; intros input l; cbn [SwallowMultiLineComment]; [reflexivity|]. destruct (first_match kCommentRegexp input) as [h|]; [|reflexivity]. cbv zeta.
    destruct (negb _); [reflexivity|]. destruct (negb _); [rewrite x_col; apply IH|]. destruct (negb _); [rewrite x_line; apply IH|apply IH].
  Qed.
  Lemma x_loop fuel : forall input l, tokenize_loop fuel input (xl l) = (map xt (fst (fst (tokenize_loop fuel input l))), snd (fst (tokenize_loop fuel input l)), xl (snd (tokenize_loop fuel input l))).
  Proof.
    induction fuel as [|fuel IH]; intros input l; cbn [tokenize_loop]; [reflexivity|]. destruct (first_match kTokenPattern input) as [h|]; [|reflexivity]. cbv zeta. rewrite ?x_col.
    destruct (_ || _)%bool; [apply IH|]. destruct (nonempty (capture "newline" h)); [rewrite x_line; apply IH|]. destruct (nonempty (capture "begin_multiline_comment" h)).
    - rewrite x_swallow. destruct (SwallowMultiLineComment _ _ _) as [r l']. cbn [fst snd]. apply IH.
    - destruct (if nonempty (capture "keyword" h) then _ else _) as [k text]. rewrite IH. destruct (tokenize_loop fuel _ _) as [[ts rem] l']. reflexivity.
  Qed.
  Lemma x_tokens c : Tokenize (xc c) = map xt (Tokenize c).
  Proof.
    unfold Tokenize. cbn [xc cs_string cs_loc]. rewrite x_loop. destruct (tokenize_loop _ _ _) as [[ts rem] l]. cbn [fst snd]. rewrite map_app. f_equal. destruct rem; reflexivity.
  Qed.

  (** * Quoting *)
  Lemma x_same a b : HaveSameSource (xl a) (xl b) = HaveSameSource a b.
  Proof. unfold HaveSameSource. cbn [xl l_src]. apply (ex_eqb _ Hf). Qed.
  Lemma x_equal a b : loc_proto_equal (xl a) (xl b) = loc_proto_equal a b.
  Proof. unfold loc_proto_equal. cbn [xl l_src l_line l_col]. rewrite (ex_eqb _ Hf). f_equal. f_equal. destruct (Z.eqb_spec (l_line a) (l_line b)), (Z.eqb_spec (l_line a + d) (l_line b + d)); lia. Qed.
  Lemma x_fill n c n' c' : (n = n' \/ P) -> near P (fun _ _ => True) (std_string_fill n c) (std_string_fill n' c').
  Proof. unfold std_string_fill. intros [<-|H]; [destruct (n <? 0)%Z; cbn; auto|]. destruct (n <? 0)%Z, (n' <? 0)%Z; cbn; auto. Qed.
  Lemma x_quote c a b : near P (fun _ _ => True) (Quote c a b) (Quote (xc c) (xl a) (xl b)).
  Proof.
    unfold Quote. rewrite x_equal. destruct (loc_proto_equal a b); [exact I|]. cbv zeta. cbn [xc cs_string cs_loc xl l_line l_col].
    replace (l_line a + d =? l_line (cs_loc c) + d)%Z with (l_line a =? l_line (cs_loc c))%Z by (destruct (Z.eqb_spec (l_line a) (l_line (cs_loc c))), (Z.eqb_spec (l_line a + d) (l_line (cs_loc c) + d)); lia).
    set (before := if (l_line a =? l_line (cs_loc c))%Z then 0%Z else 1%Z). set (ls := getlines (cs_string c)).
    replace (l_line a + d - before - (l_line (cs_loc c) + d))%Z with (l_line a - before - l_line (cs_loc c))%Z by lia. set (ns := Z.to_nat (l_line a - before - l_line (cs_loc c))).
    destruct (Nat.ltb (List.length ls) ns); [reflexivity|]. replace (l_line a + d - (l_line (cs_loc c) + d + Z.of_nat ns))%Z with (l_line a - (l_line (cs_loc c) + Z.of_nat ns))%Z by lia. set (nc := Z.to_nat (l_line a - (l_line (cs_loc c) + Z.of_nat ns))).
    destruct (Nat.ltb _ nc); [reflexivity|]. destruct (skipn nc (skipn ns ls)) as [|line rest]; [reflexivity|].
    replace (l_line a + d =? l_line b + d)%Z with (l_line a =? l_line b)%Z by (destruct (Z.eqb_spec (l_line a) (l_line b)), (Z.eqb_spec (l_line a + d) (l_line b + d)); lia).
    apply (sim_bind eq); [apply sim_eq|]. intros blanks ? <-. apply (sim_bind (fun _ _ => True)); [|intros; exact I]. apply x_fill.
    destruct (l_line a =? l_line b)%Z; [now left|]. destruct Hd as [-> |H]; [left; now rewrite Z.add_0_r|now right].
  Qed.
  Lemma x_explain a b : near P (fun _ _ => True) (Explain a b) (Explain (xl a) (xl b)).
  Proof.
    unfold Explain. cbn [xl l_src]. destruct (l_src a) as [|x|x|x] eqn:E; [rewrite (ex_none _ Hf); reflexivity|..];
      (pose proof (ex_some _ Hf (l_src a)) as H; rewrite E in H; destruct (f _) as [|y|y|y]; [exfalso; apply H; [discriminate|reflexivity]|exact I..]).
  Qed.
  Lemma x_sub c a b : near P (fun _ _ => True) (QuoteSubConstraint c a b) (QuoteSubConstraint (xc c) (xl a) (xl b)).
  Proof.
    unfold QuoteSubConstraint. change (cs_loc (xc c)) with (xl (cs_loc c)). rewrite !x_same. destruct (_ || _ || _)%bool; [reflexivity|]. apply (sim_bind (fun _ _ => True)); [apply x_explain|]. intros ex ex' _.
    apply (sim_bind (fun _ _ => True)); [apply x_quote|]. intros q q' _. exact I.
  Qed.
  Lemma x_parse_error {A B} (R : A -> B -> Prop) c a b text text' : near P R (ParseErrorAt c a b text) (ParseErrorAt (xc c) (xl a) (xl b) text').
  Proof. unfold ParseErrorAt. pose proof (x_sub c a b) as H. destruct (QuoteSubConstraint c a b), (QuoteSubConstraint (xc c) _ _); cbn in *; auto; contradiction. Qed.
  Lemma x_quoted {A B} (R : A -> B -> Prop) k lb lb' c a b text text' : near P R (QuotedError k lb c a b text) (QuotedError k lb' (xc c) (xl a) (xl b) text').
  Proof. unfold QuotedError. pose proof (x_sub c a b) as H. destruct (QuoteSubConstraint c a b), (QuoteSubConstraint (xc c) _ _); cbn in *; auto; contradiction. Qed.
  Lemma x_static {A B} (R : A -> B -> Prop) c a b text text' : near P R (StaticTypeError c a b text) (StaticTypeError (xc c) (xl a) (xl b) text').
  Proof. apply x_quoted. Qed.
  Lemma x_runtime {A B} (R : A -> B -> Prop) c e text text' : near P R (RuntimeTypeError c e text) (RuntimeTypeError (xc c) (xe e) text').
  Proof. unfold RuntimeTypeError. rewrite x_start, x_end. apply x_quoted. Qed.
  Lemma x_unexpected {A B} (R : A -> B -> Prop) t ex c : near P R (Unexpected t ex c) (Unexpected (xt t) ex (xc c)).
  Proof. unfold Unexpected. cbn [xt t_kind]. destruct (kind_eqb _ _); apply x_parse_error. Qed.

  (** * Parser *)
  Definition xp (r r' : expr * list token) : Prop := r' = (xe (fst r), map xt (snd r)).
  Definition xk (r r' : token * list token) : Prop := r' = (xt (fst r), map xt (snd r)).
  Definition xx (e e' : expr) : Prop := e' = xe e.
  Section Parsing.
    Variable pton : inet_pton6.
    Variable ck : constraint_kind.
    Variable src : csource.
    Variable eof : loc.
    Lemma x_peek ts : Peek (xl eof) (map xt ts) = xt (Peek eof ts).
    Proof. destruct ts; reflexivity. Qed.
    Lemma x_tl ts : tl (map xt ts) = map xt (tl ts).
    Proof. destruct ts; reflexivity. Qed.
    Lemma x_expect k ts : near P xk (ExpectTokenKind src eof k ts) (ExpectTokenKind (xc src) (xl eof) k (map xt ts)).
    Proof. unfold ExpectTokenKind. rewrite x_peek, x_tl. change (t_kind (xt (Peek eof ts))) with (t_kind (Peek eof ts)). destruct (kind_eqb _ _); [reflexivity|apply x_unexpected]. Qed.
    Lemma x_ids_le n : forall ts, (List.length ts <= n)%nat -> near P (fun r r' => r' = (map xt (fst r), map xt (snd r))) (parse_ids src eof ts) (parse_ids (xc src) (xl eof) (map xt ts)).
    Proof.
      induction n as [|n IH]; intros [|t [|u ts]] Hn; cbn [List.length] in Hn; try lia; cbn [map parse_ids]; try reflexivity.
      - change (t_kind (xt t)) with (t_kind t). destruct (kind_eqb _ _); [|reflexivity]. apply (x_unexpected _ (mkTok END_OF_INPUT "" eof eof)).
      - change (t_kind (xt t)) with (t_kind t). change (t_kind (xt u)) with (t_kind u). destruct (kind_eqb (t_kind t) DOT); [|reflexivity]. destruct (kind_eqb (t_kind u) ID); [|apply x_unexpected].
        apply (sim_bind (fun r r' => r' = (map xt (fst r), map xt (snd r)))); [apply IH; lia|]. intros [ids rest] ? ->. reflexivity.
    Qed.
    Lemma x_ids ts : near P (fun r r' => r' = (map xt (fst r), map xt (snd r))) (parse_ids src eof ts) (parse_ids (xc src) (xl eof) (map xt ts)).
    Proof. exact (x_ids_le _ ts (le_n _)). Qed.
    Lemma x_numeral t : ConvertNumeral (xt t) = ConvertNumeral t.
    Proof. reflexivity. Qed.
    Lemma x_address ty ad s e : near P xx (MakeNetworkAddressIntegerConstant pton ty ad s e) (MakeNetworkAddressIntegerConstant pton ty ad (xl s) (xl e)).
    Proof. unfold MakeNetworkAddressIntegerConstant. apply (sim_bind eq); [apply sim_eq|]. intros bits ? <-. apply (sim_bind eq); [apply sim_eq|]. intros n ? <-. reflexivity. Qed.
    Lemma x_last t ids : last (map xt ids) (xt t) = xt (last ids t).
    Proof. induction ids as [|a [|b ids] IH]; [reflexivity..|]. cbn [map] in *. exact IH. Qed.
    Lemma x_variable t ids : near P xx (MakeVariable (t :: ids) ck) (MakeVariable (xt t :: map xt ids) ck).
    Proof.
      unfold MakeVariable. assert (forallb (fun t => kind_eqb (t_kind t) ID) (xt t :: map xt ids) = forallb (fun t => kind_eqb (t_kind t) ID) (t :: ids)) as ->.
      { cbn [forallb]. f_equal. induction ids as [|a ids IH]; [reflexivity|]. cbn [map forallb]. f_equal. exact IH. }
      apply (sim_bind eq); [apply sim_eq|]. intros _ _ _. assert (map t_text (xt t :: map xt ids) = map t_text (t :: ids)) as -> by (cbn [map]; f_equal; rewrite map_map; reflexivity).
      change (xt t :: map xt ids) with (map xt (t :: ids)). rewrite x_last. destruct ck; reflexivity.
    Qed.
    Lemma x_above : forall fuel, (forall ts ctx, near P xp (parse_above pton ck src eof fuel ts ctx) (parse_above pton ck (xc src) (xl eof) fuel (map xt ts) ctx)) /\
      (forall ast ts ctx, near P xp (extend pton ck src eof fuel ast ts ctx) (extend pton ck (xc src) (xl eof) fuel (xe ast) (map xt ts) ctx)).
    Proof.
      induction fuel as [|fuel [IHp IHe]]; [split; intros; now left|]. split.
      - intros ts ctx. cbn [parse_above]. cbv zeta. rewrite x_peek, x_tl. set (t := Peek eof ts). set (us := tl ts). change (t_kind (xt t)) with (t_kind t).
        apply (sim_bind xp); [|intros [ast ts2] ? ->; apply IHe].
        assert (forall a, near P xp (bind a (fun a => Ok (a, us))) (bind a (fun a => Ok (xe a, map xt us)))) as _H by (intros a; apply (sim_bind eq); [apply sim_eq|intros x ? <-; reflexivity]).
        destruct (t_kind t) eqn:Ek; try apply x_unexpected.
        + apply (sim_bind xx); [|intros a ? ->; reflexivity]. unfold MakeBooleanConstant. change (t_kind (xt t)) with (t_kind t). apply (sim_bind eq); [apply sim_eq|]. intros; reflexivity.
        + apply (sim_bind xx); [|intros a ? ->; reflexivity]. unfold MakeBooleanConstant. change (t_kind (xt t)) with (t_kind t). apply (sim_bind eq); [apply sim_eq|]. intros; reflexivity.
        + apply (sim_bind xp); [apply IHp|]. intros [a ts3] ? ->. cbn [fst snd]. apply (sim_bind xx); [|intros b ? ->; reflexivity]. unfold MakeBooleanNegation. change (t_kind (xt t)) with (t_kind t). apply (sim_bind eq); [apply sim_eq|]. intros _ _ _. rewrite x_end. reflexivity.
        + apply (sim_bind xp); [apply IHp|]. intros [a ts3] ? ->. cbn [fst snd]. apply (sim_bind xx); [|intros b ? ->; reflexivity]. unfold MakeArithmeticNegation. change (t_kind (xt t)) with (t_kind t). apply (sim_bind eq); [apply sim_eq|]. intros _ _ _. rewrite x_end. reflexivity.
        + apply (sim_bind xk); [apply x_expect|]. intros [n ts3] ? ->. cbn [fst snd]. apply (sim_bind xx); [reflexivity|]. intros b ? ->. reflexivity.
        + apply (sim_bind xp); [apply IHp|]. intros [a ts3] ? ->. cbn [fst snd]. apply (sim_bind xk); [apply x_expect|]. intros [n ts4] ? ->. reflexivity.
        + rewrite x_peek. change (t_kind (xt (Peek eof us))) with (t_kind (Peek eof us)). destruct (kind_eqb _ LPAR).
          * rewrite x_tl. apply (sim_bind xk); [apply x_expect|]. intros [st ts3] ? ->. cbn [fst snd]. apply (sim_bind xk); [apply x_expect|]. intros [rp ts4] ? ->. cbn [fst snd]. apply (sim_bind xx); [exact (x_address (t_text t) (t_text st) (t_start t) (t_end rp))|]. intros b ? ->. reflexivity.
          * apply (sim_bind (fun r r' => r' = (map xt (fst r), map xt (snd r)))); [apply x_ids|]. intros [ids ts3] ? ->. cbn [fst snd]. apply (sim_bind xx); [apply x_variable|]. intros b ? ->. reflexivity.
        + apply (sim_bind xx); [|intros a ? ->; reflexivity]. unfold MakeIntegerConstant. rewrite x_numeral. apply (sim_bind eq); [apply sim_eq|]. intros s ? <-. reflexivity.
        + apply (sim_bind xx); [|intros a ? ->; reflexivity]. unfold MakeIntegerConstant. rewrite x_numeral. apply (sim_bind eq); [apply sim_eq|]. intros s ? <-. reflexivity.
        + apply (sim_bind xx); [|intros a ? ->; reflexivity]. unfold MakeIntegerConstant. rewrite x_numeral. apply (sim_bind eq); [apply sim_eq|]. intros s ? <-. reflexivity.
        + apply (sim_bind xx); [|intros a ? ->; reflexivity]. unfold MakeIntegerConstant. rewrite x_numeral. apply (sim_bind eq); [apply sim_eq|]. intros s ? <-. reflexivity.
      - intros ast ts ctx. cbn [extend]. cbv zeta. rewrite x_peek, ?x_tl, ?x_peek. set (t := Peek eof ts). set (us := tl ts). change (t_kind (xt t)) with (t_kind t). change (t_kind (xt (Peek eof us))) with (t_kind (Peek eof us)).
        assert (near P xp
          (if (Nat.eqb ctx (TokenPrecedence (t_kind t)) && match TokenAssociativity (t_kind t) with ANONE => true | _ => false end)%bool then ParseError t src ("operator " ++ KindToKeyword (t_kind t) ++ " is non-associative; enclose expression to the left of the operator in '(' and ')' to disambiguate?")
           else if (Nat.ltb (TokenPrecedence (t_kind t)) ctx || (Nat.eqb ctx (TokenPrecedence (t_kind t)) && match TokenAssociativity (t_kind t) with ALEFT => true | _ => false end))%bool then Ok (ast, ts)
           else if (kind_eqb (t_kind t) SEMICOLON && (kind_eqb (t_kind (Peek eof us)) END_OF_INPUT || kind_eqb (t_kind (Peek eof us)) RPAR))%bool then Ok (ast, us)
           else if kind_eqb (t_kind t) DOUBLE_COLON then let* (field, ts) := ExpectTokenKind src eof ID us in let* ast := MakeFieldAccess ast field in extend pton ck src eof fuel ast ts ctx
           else let* (another, ts) := parse_above pton ck src eof fuel us (TokenPrecedence (t_kind t)) in let* ast := MakeBinaryExpression t ast another in extend pton ck src eof fuel ast ts ctx)
          (if (Nat.eqb ctx (TokenPrecedence (t_kind t)) && match TokenAssociativity (t_kind t) with ANONE => true | _ => false end)%bool then ParseError (xt t) (xc src) ("operator " ++ KindToKeyword (t_kind t) ++ " is non-associative; enclose expression to the left of the operator in '(' and ')' to disambiguate?")
           else if (Nat.ltb (TokenPrecedence (t_kind t)) ctx || (Nat.eqb ctx (TokenPrecedence (t_kind t)) && match TokenAssociativity (t_kind t) with ALEFT => true | _ => false end))%bool then Ok (xe ast, map xt ts)
           else if (kind_eqb (t_kind t) SEMICOLON && (kind_eqb (t_kind (Peek eof us)) END_OF_INPUT || kind_eqb (t_kind (Peek eof us)) RPAR))%bool then Ok (xe ast, map xt us)
           else if kind_eqb (t_kind t) DOUBLE_COLON then let* (field, ts) := ExpectTokenKind (xc src) (xl eof) ID (map xt us) in let* ast := MakeFieldAccess (xe ast) field in extend pton ck (xc src) (xl eof) fuel ast ts ctx
           else let* (another, ts) := parse_above pton ck (xc src) (xl eof) fuel (map xt us) (TokenPrecedence (t_kind t)) in let* ast := MakeBinaryExpression (xt t) (xe ast) another in extend pton ck (xc src) (xl eof) fuel ast ts ctx)) as HX.
        { destruct (_ && _)%bool; [apply x_parse_error|]. destruct (_ || _)%bool; [reflexivity|]. destruct (_ && _)%bool; [reflexivity|]. destruct (kind_eqb (t_kind t) DOUBLE_COLON).
          - apply (sim_bind xk); [apply x_expect|]. intros [fd ts3] ? ->. cbn [fst snd]. apply (sim_bind xx); [|intros b ? ->; apply IHe]. unfold MakeFieldAccess. change (t_kind (xt fd)) with (t_kind fd). apply (sim_bind eq); [apply sim_eq|]. intros _ _ _. rewrite x_start. reflexivity.
          - apply (sim_bind xp); [apply IHp|]. intros [a ts3] ? ->. cbn [fst snd]. apply (sim_bind xx); [|intros b ? ->; apply IHe]. unfold MakeBinaryExpression. change (t_kind (xt t)) with (t_kind t). apply (sim_bind eq); [apply sim_eq|]. intros b ? <-. rewrite x_start, x_end. reflexivity. }
        destruct (t_kind t) eqn:Ek; try exact HX; try apply x_unexpected; reflexivity.
    Qed.
  End Parsing.
  Lemma tokens_some c : Tokenize c <> [].
  Proof. unfold Tokenize. destruct (tokenize_loop _ _ _) as [[ts rem] l]. intros H. apply app_eq_nil in H as [_ H]. destruct rem; discriminate H. Qed.
  Lemma x_eof ts : ts <> [] -> eof_location (map xt ts) = xl (eof_location ts).
  Proof. intros H. unfold eof_location. rewrite <- map_rev. destruct (rev ts) as [|t l] eqn:E; [|reflexivity]. elim H. rewrite <- (rev_involutive ts), E. reflexivity. Qed.
  Lemma x_parse pton ck c : near P xx (ParseConstraint pton ck c) (ParseConstraint pton ck (xc c)).
  Proof.
    unfold ParseConstraint, ParseTokens. rewrite x_tokens, x_eof by apply tokens_some. unfold parse_fuel. rewrite map_length. cbv zeta. apply (sim_bind xp); [apply x_above|]. intros [ast rest] ? ->. cbn [fst snd]. apply (sim_bind xk); [apply x_expect|]. intros [a b] ? ->. reflexivity.
  Qed.
End Exchange.
