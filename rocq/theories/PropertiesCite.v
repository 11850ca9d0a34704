(** The whole text of a quotation (C49). *)
From Coq Require Import String Ascii List ZArith NArith Bool Lia.
From Verif Require Import Base Num Token Ast Lexer Quote SpecLexer SpecGrammar SpecParser SpecQuote SpecCite StrFacts NumFacts LiteralFacts QuoteFacts QuoteFacts2.
Import ListNotations.
Open Scope string_scope.

Lemma explained a b h : Explain a b = Ok h <-> heading a b h.
Proof.
  unfold Explain, explain_verbose. split.
  - intros H. destruct (l_src a) as [|path|name|name] eqn:Es; [discriminate|..]; apply Ok_inj in H; subst h; destruct (Z.ltb_spec (l_line a) (l_line b)); [|destruct (Z.ltb_spec (l_col a + 1) (l_col b))| |destruct (Z.ltb_spec (l_col a + 1) (l_col b))| |destruct (Z.ltb_spec (l_col a + 1) (l_col b))].
    + pose proof (hd_file a b path _ Es (fs_lines a b ltac:(assumption))) as Hx. rewrite ?sapp_assoc in Hx |- *. exact Hx.
    + pose proof (hd_file a b path _ Es (fs_columns a b ltac:(assumption) ltac:(assumption))) as Hx. rewrite ?sapp_assoc in Hx |- *. exact Hx.
    + pose proof (hd_file a b path _ Es (fs_column a b ltac:(assumption) ltac:(assumption))) as Hx. rewrite ?sapp_assoc in Hx |- *. exact Hx.
    + pose proof (hd_table a b name _ Es (ns_lines a b ltac:(assumption))) as Hx. rewrite ?sapp_assoc in Hx |- *. exact Hx.
    + pose proof (hd_table a b name _ Es (ns_columns a b ltac:(assumption) ltac:(assumption))) as Hx. rewrite ?sapp_assoc in Hx |- *. exact Hx.
    + pose proof (hd_table a b name _ Es (ns_column a b ltac:(assumption) ltac:(assumption))) as Hx. rewrite ?sapp_assoc in Hx |- *. exact Hx.
    + pose proof (hd_action a b name _ Es (ns_lines a b ltac:(assumption))) as Hx. rewrite ?sapp_assoc in Hx |- *. exact Hx.
    + pose proof (hd_action a b name _ Es (ns_columns a b ltac:(assumption) ltac:(assumption))) as Hx. rewrite ?sapp_assoc in Hx |- *. exact Hx.
    + pose proof (hd_action a b name _ Es (ns_column a b ltac:(assumption) ltac:(assumption))) as Hx. rewrite ?sapp_assoc in Hx |- *. exact Hx.
  - assert (forall x y, (x < y)%Z -> (x <? y)%Z = true) as Ht by (intros; now apply Z.ltb_lt). assert (forall x y, (y <= x)%Z -> (x <? y)%Z = false) as Hf by (intros; now apply Z.ltb_ge).
    intros [path s Es [H|H1 H2|H1 H2]|name s Es [H|H1 H2|H1 H2]|name s Es [H|H1 H2|H1 H2]]; rewrite Es; rewrite ?(Ht _ _ H), ?(Hf _ _ H1), ?(Ht _ _ H2), ?(Hf _ _ H2); f_equal; rewrite ?sapp_assoc; reflexivity.
Qed.
Lemma excerpts c a b x : (l_line (cs_loc c) <= l_line a)%Z -> (Quote c a b = Ok x <-> excerpt c a b x).
Proof.
  intros Hle. destruct (loc_proto_equal a b) eqn:Eq.
  { pose proof Eq as E. apply loc_proto_equal_iff in E. unfold Quote. rewrite Eq. split; [intros [= <-]; now apply ex_empty|intros [H|k line prev from len out Hne _]; [reflexivity|contradiction]]. }
  assert (a <> b) as Hne by (intros E; apply loc_proto_equal_iff in E; congruence).
  destruct (nth_error (getlines (cs_string c)) (Z.to_nat (l_line a - l_line (cs_loc c)))) as [line|] eqn:En.
  - rewrite (Quote_key c a b line Eq En). unfold std_string_fill. set (K := Z.to_nat (l_line a - l_line (cs_loc c))) in *.
    assert (forall k, l_line a = (l_line (cs_loc c) + Z.of_nat k)%Z -> k = K) as HKu by (intros k Hk; unfold K; lia).
    assert (l_line a = (l_line (cs_loc c) + Z.of_nat K)%Z) as HK by (unfold K; lia). clearbody K.
    assert (forall prev from len, match K with O => prev = None | S k' => exists p, prev = Some p /\ LineOf (cs_string c) k' p end -> forall out, Shown prev (dec (l_line a + 1)) line from (from + len) out <->
      out = context_of (getlines (cs_string c)) K (repeat_char (String.length (dec (l_line a + 1))) " ") ++ (dec (l_line a + 1) ++ " | " ++ line ++ nl) ++ (repeat_char (String.length (dec (l_line a + 1))) " " ++ " | " ++ repeat_char from " ") ++ repeat_char len "^" ++ nl) as HS.
    { intros prev from len Hprev out. unfold Shown. replace (from + len - from)%nat with len by lia. split.
      - intros (gap & skip & mark & H1 & H2 & H3 & ->). apply Times_repeat in H1, H2, H3. subst. unfold context_of. destruct K as [|k].
        + subst prev. cbn [append]. rewrite ?sapp_assoc. reflexivity.
        + destruct Hprev as (p & -> & Hp). apply LineOf_nth in Hp. rewrite (nth_error_nth _ _ "" Hp). rewrite ?sapp_assoc. reflexivity.
      - intros ->. eexists _, _, _. split; [apply Times_repeat; reflexivity|]. split; [apply Times_repeat; reflexivity|]. split; [apply Times_repeat; reflexivity|]. unfold context_of. destruct K as [|k].
        + subst prev. cbn [append]. rewrite ?sapp_assoc. reflexivity.
        + destruct Hprev as (p & -> & Hp). apply LineOf_nth in Hp. rewrite (nth_error_nth _ _ "" Hp). rewrite ?sapp_assoc. reflexivity. }
    assert (exists prev, match K with O => prev = None | S k' => exists p, prev = Some p /\ LineOf (cs_string c) k' p end) as [prev0 Hprev0].
    { destruct K as [|k]; [eauto|]. assert (k < List.length (getlines (cs_string c)))%nat as Hk by (enough (S k < List.length (getlines (cs_string c)))%nat by lia; apply nth_error_Some; congruence).
      eexists. eexists. split; [reflexivity|]. apply nth_LineOf. apply (nth_error_nth' _ "" Hk). }
    pose proof (nth_LineOf _ _ _ En) as HL.
    split.
    + destruct (Z.ltb_spec (l_col a) 0) as [H0|H0]; cbn [bind]; [discriminate|]. rewrite !slen_length, !slength_app, !repeat_length. cbn [String.length].
      match goal with |- context [(?u <? 0)%Z] => set (n := u); destruct (Z.ltb_spec n 0) as [H1|H1] end; cbn [bind]; [discriminate|]. intros H. apply Ok_inj in H.
      apply (ex_line c a b K line prev0 (Z.to_nat (l_col a)) (Z.to_nat n) x Hne HK HL Hprev0); [lia|..].
      * intros El. unfold n in *. rewrite El, Z.eqb_refl in *. lia.
      * intros El. apply Z.eqb_neq in El. unfold n in *. rewrite El in *. lia.
      * apply HS; [exact Hprev0|]. rewrite <- H. reflexivity.
    + intros [H|k line' prev from len out _ Hk HL' Hprev Hfrom H1 H2 Hsh]; [contradiction|]. apply HKu in Hk. subst k. apply LineOf_nth in HL'. assert (line' = line) as -> by congruence.
      apply (HS prev from len Hprev) in Hsh. subst out. rewrite Hfrom. replace (Z.of_nat from <? 0)%Z with false by lia. cbn [bind]. rewrite !slen_length, !slength_app, !repeat_length. cbn [String.length]. rewrite Nat2Z.id.
      match goal with |- context [(?u <? 0)%Z] => assert (u = Z.of_nat len) as -> end.
      { destruct (Z.eqb_spec (l_line a) (l_line b)) as [El|El]; [rewrite (H1 El); lia|]. rewrite (H2 El). lia. }
      replace (Z.of_nat len <? 0)%Z with false by lia. cbn [bind]. rewrite Nat2Z.id. reflexivity.
  - destruct (Quote_nokey c a b Eq En) as [m ->]. split; [discriminate|]. intros [H|k line' prev from len out _ Hk HL' _]; [contradiction|]. apply LineOf_nth in HL'. replace (Z.to_nat (l_line a - l_line (cs_loc c))) with k in En by lia. congruence.
Qed.
(** * C49 *)
(** Quoting an interval that does not start before the constraint succeeds exactly if the text of
    the specification exists, and gives this text. *)
Theorem C49_cited : forall c a b text, (l_line (cs_loc c) <= l_line a)%Z -> (QuoteSubConstraint c a b = Ok text <-> Cited c a b text).
Proof.
  intros c a b text Hle. unfold QuoteSubConstraint, Cited, HaveSameSource.
  assert (forall s t, source_eqb s t = true <-> s = t) as Hs by (intros s t; destruct s, t; cbn; try rewrite String.eqb_eq; split; congruence).
  destruct (source_eqb (l_src (cs_loc c)) (l_src a)) eqn:E1; cbn [negb orb].
  - destruct (source_eqb (l_src (cs_loc c)) (l_src b)) eqn:E2; cbn [negb orb].
    + apply Hs in E1, E2. rewrite <- E1, <- E2. assert (source_eqb (l_src (cs_loc c)) (l_src (cs_loc c)) = true) as -> by now apply Hs. cbn [negb]. split.
      * intros H. destruct (Explain a b) as [h| |] eqn:Eh; cbn [bind] in H; try discriminate. destruct (Quote c a b) as [x| |] eqn:Ex; cbn [bind] in H; try discriminate. apply Ok_inj in H.
        split; [reflexivity|]. split; [reflexivity|]. exists h, x. split; [now apply explained|]. split; [now apply excerpts|]. congruence.
      * intros (_ & _ & h & x & Hh & Hx & ->). apply explained in Hh. apply (excerpts c a b x Hle) in Hx. rewrite Hh, Hx. reflexivity.
    + split; [discriminate|]. intros (_ & H & _). symmetry in H. apply Hs in H. congruence.
  - split; [discriminate|]. intros (H & _). symmetry in H. apply Hs in H. congruence.
Qed.
Print Assumptions C49_cited.
Example C49_cited_case : Cited (mkCSource ("a == 1;" ++ nl ++ "bc == 2 &&" ++ nl ++ " d == 3") (mkLoc 4 0 (SrcFile "f.p4"))) (mkLoc 5 0 (SrcFile "f.p4")) (mkLoc 6 7 (SrcFile "f.p4"))
  ("f.p4:6:1-7:7:" ++ nl ++ "  | a == 1;" ++ nl ++ "6 | bc == 2 &&" ++ nl ++ "  | ^^^^^^" ++ nl).
Proof. apply C49_cited; [cbn; lia|]. vm_compute. reflexivity. Qed.
