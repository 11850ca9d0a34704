(** Facts behind C56 and C57. *)
From Coq Require Import String Ascii List ZArith NArith Bool Lia.
From Verif Require Import Base Num Token Ast Lexer Quote AstConstructors Parser Info TypeChecker ConstraintInfo Interpreter SpecLexer SpecGrammar SpecParser SpecTyping SpecSemantics SpecInfo SpecMisc SpecLaws
  StrFacts NumFacts LexerFacts LexerFacts5 LexerFacts6 LiteralFacts ParserFacts4 TypeFacts EvalFacts SemFacts SemFacts2 EntryFacts InterpFacts InterpFacts2 LawFacts.
Import ListNotations.
Open Scope string_scope.

(** * Texts *)
Lemma kts_fixed sp k x : Next sp sp (Tok k sp) "" -> starts_gap x -> kts (sp ++ x) = (k, sp) :: kts x.
Proof. intros H Hx. apply (next_tok_extend _ _ _ _ _ _ H) in Hx. cbn [append] in Hx. exact (kts_tok _ _ _ _ _ Hx). Qed.
Lemma blank_gap x : starts_gap (" " ++ x).
Proof. exists " "%char, x. split; [reflexivity|]. left. now left. Qed.
Lemma kts_space x : kts (" " ++ x) = kts x.
Proof. apply kts_blank. now left. Qed.
Lemma next_single k sp : In (k, sp) [(LPAR, "("); (RPAR, ")"); (AND, "&&"); (OR, "||"); (IMPLIES, "->"); (SEMICOLON, ";"); (BANG, "!")] -> Next sp sp (Tok k sp) "".
Proof.
  intros H. cbn [In] in H.
  repeat (destruct H as [H|H]; [injection H as <- <-; apply (next_R _ 4); [vm_compute; reflexivity|]; intros m Hm; do 4 (destruct m as [|m]; [vm_compute; reflexivity|]); lia|]). destruct H.
Qed.
Lemma kts_combined op k a b ia ib : In (k, op) [(AND, "&&"); (OR, "||"); (IMPLIES, "->"); (SEMICOLON, ";")] ->
  kts a = (ia ++ [(END_OF_INPUT, "")])%list -> kts b = (ib ++ [(END_OF_INPUT, "")])%list -> ~ ends_in_comment a -> ~ ends_in_comment b ->
  kts (combined op a b) = ((LPAR, "(") :: ia ++ (RPAR, ")") :: (k, op) :: (LPAR, "(") :: ib ++ [(RPAR, ")"); (END_OF_INPUT, "")])%list.
Proof.
  intros Hk Ha Hb Na Nb. unfold combined.
  change ("( " ++ a ++ " ) " ++ op ++ " ( " ++ b ++ " )") with ("(" ++ " " ++ a ++ " " ++ ")" ++ " " ++ op ++ " " ++ "(" ++ " " ++ b ++ " " ++ ")").
  rewrite (kts_fixed "(" LPAR); [|apply next_single; cbn; tauto|apply blank_gap]. f_equal. rewrite kts_space, (kts_app a ia); [|assumption|assumption|apply blank_gap]. f_equal.
  rewrite kts_space, (kts_fixed ")" RPAR); [|apply next_single; cbn; tauto|apply blank_gap]. f_equal. rewrite kts_space.
  rewrite (kts_fixed op k); [|apply next_single; cbn in *; tauto|apply blank_gap]. f_equal.
  rewrite kts_space, (kts_fixed "(" LPAR); [|apply next_single; cbn; tauto|apply blank_gap]. f_equal. rewrite kts_space, (kts_app b ib); [|assumption|assumption|apply blank_gap]. f_equal.
Qed.
Lemma kts_negated a ia : kts a = (ia ++ [(END_OF_INPUT, "")])%list -> ~ ends_in_comment a ->
  kts (negated a) = ((BANG, "!") :: (LPAR, "(") :: ia ++ [(RPAR, ")"); (END_OF_INPUT, "")])%list.
Proof.
  intros Ha Na. unfold negated. change ("! ( " ++ a ++ " )") with ("!" ++ " " ++ "(" ++ " " ++ a ++ " " ++ ")").
  rewrite (kts_fixed "!" BANG); [|apply next_single; cbn; tauto|apply blank_gap]. f_equal. rewrite kts_space, (kts_fixed "(" LPAR); [|apply next_single; cbn; tauto|apply blank_gap]. f_equal.
  rewrite kts_space, (kts_app a ia); [|assumption|assumption|apply blank_gap]. f_equal.
Qed.
Lemma reads_kts pton ck s l e : reads_as pton ck (mkCSource s l) e -> exists w, D pton ck 0 w e /\ kts s = (map kt w ++ [(END_OF_INPUT, "")])%list.
Proof.
  intros (w & t & E & Ht & Hd). exists w. split; [exact Hd|]. pose proof (kts_loc (mkCSource s l)) as K. cbn [cs_string] in K. rewrite E, map_app in K. cbn [map] in K. unfold kt at 2 in K. rewrite Ht in K.
  destruct (kts_Tiles s) as (chunks & rest & _ & E'). rewrite <- K in E'. apply app_inj_tail in E' as [_ E']. destruct rest; [|discriminate]. injection E' as E'. rewrite E' in K. now rewrite <- K.
Qed.
Lemma D_low pton ck n m w e : (n <= m)%nat -> D pton ck m w e -> D pton ck n w e.
Proof. induction 1; auto using D_up. Qed.
Lemma combined_reads pton ck op o a b la lb l ea eb : connects op o -> ~ ends_in_comment a -> ~ ends_in_comment b ->
  reads_as pton ck (mkCSource a la) ea -> reads_as pton ck (mkCSource b lb) eb ->
  exists m ea' eb', reads_as pton ck (mkCSource (combined op a b) l) (EBin m o ea' eb') /\ Alike ea ea' /\ Alike eb eb'.
Proof.
  intros Hop Na Nb Ha Hb. apply reads_kts in Ha as (wa & Da & Ka). apply reads_kts in Hb as (wb & Db & Kb).
  assert (exists k n c, In (k, op) [(AND, "&&"); (OR, "||"); (IMPLIES, "->"); (SEMICOLON, ";")] /\ binary k n c o) as (k & n & c & Hk & Hbin) by (destruct Hop; eexists _, _, _; (split; [cbn; eauto|constructor])).
  pose proof (kts_combined op k a b _ _ Hk Ka Kb Na Nb) as K. pose proof (kts_loc (mkCSource (combined op a b) l)) as KL. cbn [cs_string] in KL. rewrite <- KL in K. clear KL.
  destruct (Tokenize (mkCSource (combined op a b) l)) as [|t1 r] eqn:ET; [discriminate|]. injection K as K1 _ K.
  apply map_eq_app in K as (wa' & r2 & -> & Ea & K). destruct r2 as [|t2 [|t3 [|t4 r2]]]; try discriminate. injection K as K2 _ K3 _ K4 _ K.
  apply map_eq_app in K as (wb' & r3 & -> & Eb & K). destruct r3 as [|t5 [|t6 [|? ?]]]; try discriminate. injection K as K5 _ K6 _.
  destruct (D_alike _ _ _ _ _ Da wa' (eq_sym Ea)) as (ea' & Da' & Aa). destruct (D_alike _ _ _ _ _ Db wb' (eq_sym Eb)) as (eb' & Db' & Ab).
  exists (at_ (e_start ea') (e_end eb')), ea', eb'. split; [|auto].
  exists ((t1 :: wa' ++ [t2]) ++ t3 :: t4 :: wb' ++ [t5])%list, t6. split; [|split; [exact K6|]].
  - rewrite ET. cbn [app]. rewrite <- !app_assoc. cbn [app]. rewrite <- !app_assoc. reflexivity.
  - assert (D pton ck 8 (t1 :: wa' ++ [t2]) ea') as P1 by (now apply D_paren). assert (D pton ck 8 (t4 :: wb' ++ [t5]) eb') as P2 by (now apply D_paren).
    rewrite <- K3 in Hbin. destruct c.
    + apply (D_low _ _ 0 n); [lia|]. apply D_chain; [exact Hbin|apply (D_low _ _ n 8)|apply (D_low _ _ (S n) 8)]; auto; inversion Hbin; lia.
    + apply (D_low _ _ 0 n); [lia|]. apply D_single; [exact Hbin|apply (D_low _ _ (S n) 8)|apply (D_low _ _ (S n) 8)]; auto; inversion Hbin; lia.
Qed.
Lemma negated_reads pton ck a la l ea : ~ ends_in_comment a -> reads_as pton ck (mkCSource a la) ea ->
  exists m ea', reads_as pton ck (mkCSource (negated a) l) (ENot m ea') /\ Alike ea ea'.
Proof.
  intros Na Ha. apply reads_kts in Ha as (wa & Da & Ka).
  pose proof (kts_negated a _ Ka Na) as K. pose proof (kts_loc (mkCSource (negated a) l)) as KL. cbn [cs_string] in KL. rewrite <- KL in K. clear KL.
  destruct (Tokenize (mkCSource (negated a) l)) as [|t1 [|t2 r]] eqn:ET; try discriminate. injection K as K1 _ K2 _ K.
  apply map_eq_app in K as (wa' & r2 & -> & Ea & K). destruct r2 as [|t5 [|t6 [|? ?]]]; try discriminate. injection K as K5 _ K6 _.
  destruct (D_alike _ _ _ _ _ Da wa' (eq_sym Ea)) as (ea' & Da' & Aa).
  exists (at_ (t_start t1) (e_end ea')), ea'. split; [|auto].
  exists (t1 :: t2 :: wa' ++ [t5])%list, t6. split; [|split; [exact K6|]].
  - rewrite ET. cbn [app]. rewrite <- !app_assoc. reflexivity.
  - apply (D_low _ _ 0 6); [lia|]. apply D_not; [exact K1|]. apply (D_low _ _ 6 8); [lia|]. now apply D_paren.
Qed.
(** Texts without slashes do not end in a comment. *)
Lemma no_slash s : ~ In "/"%char (chars s) -> ~ ends_in_comment s.
Proof.
  intros H (chunks & lx & HT & Hlx). apply Tiles_app in HT. apply H. rewrite HT, sapp_nil_r, map_app.
  assert (forall l, concat_strings (l ++ [lx]) = concat_strings l ++ lx) as E.
  { induction l as [|x l IH]; cbn; [now rewrite sapp_nil_r|now rewrite IH, sapp_assoc]. }
  cbn [map fst]. rewrite E. rewrite chars_app. apply in_or_app. right. destruct Hlx as [[t ->]|[t [-> _]]]; left; reflexivity.
Qed.

(** * Environments of entries *)
Lemma entry_env_ok ks entry key : NoDup (map k_id ks) -> NoDup (map k_name ks) -> consistent ks (pe_match entry) -> (forall k w, In k ks -> width (k_type k) w -> (0 <= w)%Z) ->
  (forall n v, key n = Some v <-> Assigned ks (pe_match entry) n v) -> env_ok (key_scope ks) (TableEnv key (pe_priority entry)).
Proof.
  intros N1 N2 Hc Hw Hk. set (t := mkTable 0 "" None default_csource (map (fun k => (k_id k, k)) ks) (map (fun k => (k_name k, k)) ks)).
  assert (table_keys t ks) as HK. { split; cbn; try assumption; try (intros x; reflexivity); now rewrite map_map. }
  destruct (entry_total t ks HK entry Hc) as [ctx Hctx]. pose proof (entry_env_eq t ks entry ctx key HK Hctx Hk) as HE.
  assert (env_ok (key_scope ks) (env_of ctx)) as HO.
  { apply (entry_env t ks HK entry ctx Hctx). intros n k w Hi. cbn in Hi. apply in_map_iff in Hi as (k' & E & Hi). injection E as <- <-. now apply Hw. }
  inversion HO as [keys k0 p0 H1 H2 E1 E2|]; subst. rewrite <- E2 in HE. cbn in HE. destruct HE as [-> HE]. constructor; [|exact H2]. intros n ty Hd Hu. destruct (H1 n ty Hd Hu) as (v & Hv & Hty). exists v. split; [now rewrite <- HE|exact Hty].
Qed.
(** Rewriting preserves types and meaning. *)
Lemma rewrites_sound keys r e f : NoDup (map fst keys) -> env_ok (InTable keys) r -> Rewrites (InTable keys) e f ->
  (forall t, Typed (InTable keys) e t <-> Typed (InTable keys) f t) /\ (forall v, Den (InTable keys) r e v <-> Den (InTable keys) r f v).
Proof.
  intros HN HR H. induction H as [a b HL Ta Tb La Lb|a b HA|a b H IH|a b c H1 IH1 H2 IH2|m n a b H IH|m n o a b c d H1 IH1 H2 IH2].
  - split.
    + intros t. split; intros Ht.
      * rewrite (typed_fun _ _ _ (scope_witness keys HN) _ _ _ Ht Ta). exact Tb.
      * rewrite (typed_fun _ _ _ (scope_witness keys HN) _ _ _ Ht Tb). exact Ta.
    + destruct (law_sound keys HN r HR a b HL Ta Tb La Lb) as (x & Hx & Hy). intros v. split; intros Hv.
      * rewrite (den_unique keys HN r _ _ _ Hv Hx). exact Hy.
      * rewrite (den_unique keys HN r _ _ _ Hv Hy). exact Hx.
  - pose proof (alike_sym _ _ HA) as HA'. split; intros; split; eauto using typed_alike, den_alike.
  - destruct IH as [I1 I2]. split; intros; symmetry; auto.
  - destruct IH1 as [I1 I2], IH2 as [J1 J2]. split; intros; [rewrite I1|rewrite I2]; auto.
  - destruct IH as [I1 I2]. split; intros x; split; intros Hx; inversion Hx; subst; constructor; first [now apply I1|now apply I2].
  - destruct IH1 as [I1 I2], IH2 as [J1 J2]. split; intros x; split; intros Hx; inversion Hx; subst.
    all: try solve [econstructor; try eassumption; first [now apply I1|now apply J1]].
    all: try solve [eapply sem_left; try eassumption; now apply I2].
    all: try solve [apply sem_both; try assumption; first [now apply I2|now apply J2]].
    all: try (eapply sem_compare; try eassumption; first [now apply I1|now apply J1|now apply I2|now apply J2]).
Qed.
