(** Where parsing fails, in terms of the grammar. *)
From Coq Require Import String Ascii List ZArith NArith Bool Lia.
From Verif Require Import Base Num Token Ast Lexer Quote AstConstructors Parser SpecLexer SpecGrammar SpecParser SpecBlame StrFacts NumFacts LiteralFacts LexerFacts4 LexerFacts5 LexerFacts7
  ParserFacts ParserFacts2 ParserFacts3 ParserFacts4 ParserFacts7 ShapeFacts ShapeFacts2 BlameFacts.
Import ListNotations.
Open Scope string_scope.
Opaque parse_above extend.

(** A token of the given kind that is never at fault. *)
Definition tok (k : kind) : token :=
  mkTok k (match k with ID => "ipv4" | STRING => "0.0.0.0" | BINARY | OCTARY | DECIMAL | HEXADEC => "0" | _ => "" end) default_loc default_loc.
Lemma tok_kinds ks : kinds (map tok ks) = ks.
Proof. rewrite map_map. cbn. apply map_id. Qed.
Lemma Reads_0 b : (0 < b)%N -> Reads b "0" 0.
Proof. intros H. apply (reads_one b "0"%char 0); [apply (dchar_digit "0"%char); unfold between; cbn; lia|cbn; lia]. Qed.
Lemma tok_numeral ks : Forall numeral_text (map tok ks).
Proof.
  apply Forall_forall. intros t Ht. apply in_map_iff in Ht as (k & <- & _).
  destruct k; try exact I; cbn; exists 0%N; apply Reads_0; lia.
Qed.
Lemma tok_address pton : Address pton "ipv4" "0.0.0.0" 0.
Proof.
  assert (dec_byte "0" 0) as H by (split; [apply Reads_0; lia|split; [lia|cbn; lia]]).
  apply (addr_ipv4 pton ["0"; "0"; "0"; "0"] [0; 0; 0; 0]%N); [repeat (apply Forall2_cons; [exact H|]); constructor|reflexivity].
Qed.
Lemma D_numeral pton ck n w e : D pton ck n w e -> Forall numeral_text w.
Proof.
  assert (forall k t, t_kind t = k -> base k 2 \/ base k 8 \/ base k 10 \/ base k 16 \/ numeral_text t) as Hk.
  { intros k t <-. unfold numeral_text. destruct (t_kind t); auto 6 using base2, base8, base10, base16. }
  assert (forall k t, t_kind t = k -> k <> BINARY -> k <> OCTARY -> k <> DECIMAL -> k <> HEXADEC -> numeral_text t) as Hs.
  { intros k t E ? ? ? ?. unfold numeral_text. rewrite E. destruct k; congruence || exact I. }
  assert (forall w ids, Dots w ids -> Forall numeral_text w) as Hd.
  { induction 1; constructor; [eapply Hs; eauto; discriminate|]. constructor; [eapply Hs; eauto; discriminate|assumption]. }
  induction 1; repeat match goal with
    | |- Forall _ (_ :: _) => apply Forall_cons
    | |- Forall _ (_ ++ _) => apply Forall_app; split
    | |- Forall _ [] => apply Forall_nil
    end; try assumption.
  all: try (eapply Hd; eassumption).
  all: try (eapply Hs; [eassumption|discriminate..]).
  all: try (unfold numeral_text; match goal with H : base ?k _ |- _ => solve [destruct H; eauto] end).
  all: match goal with H : binary _ _ _ _ |- _ => inversion H end; (eapply Hs; [symmetry; eassumption|discriminate..]).
Qed.

Section Top.
  Variable pton : inet_pton6.
  Hypothesis Hpton : pton_ok pton.
  Variable ck : constraint_kind.
  Notation clean := (addresses_ok pton).
  Notation hint_right := (hint_right pton ck).

  Lemma finished_iff ks : finished pton ck ks <-> Par 0 ks (SOk []).
  Proof.
    split.
    - intros (w & e & HD & <-). destruct (proj2 (complete pton Hpton ck default_csource default_loc 0 w e HD) []) as [N HN]; [reflexivity|]. specialize (HN N (le_n _)). rewrite app_nil_r in HN.
      pose proof (proj1 (sim_all pton Hpton ck default_csource default_loc N) w 0%nat ltac:(lia) (D_numeral _ _ _ _ _ HD)) as H. rewrite HN in H. destruct H as (? & _ & _ & _ & H). exact H.
    - intros H. set (ts := map tok ks). pose proof (proj1 (sim_all pton Hpton ck default_csource default_loc (parse_fuel ts)) ts 0%nat ltac:(lia) (tok_numeral ks)) as Hs.
      pose proof (proj1 (enough pton ck default_csource default_loc (parse_fuel ts)) ts 0%nat (parse_fuel_enough ts)) as Hf.
      assert (~ blame pton default_csource default_loc (Par 0) ts (parse_above pton ck default_csource default_loc (parse_fuel ts) ts 0)) as Hnb.
      { intros [(w & a & h & text & _ & _ & HR & _)|(u & id & lp & st & rp & a & m & E & Hk & _ & Ha & _)].
        - unfold ts in HR. rewrite tok_kinds in HR. pose proof (proj2 (proj2 shape_fun) _ _ _ H _ HR). discriminate.
        - unfold ts in E. assert (forall k t, In t (map tok ks) -> t_kind t = k -> t = tok k) as Ht.
          { intros k t Hi <-. apply in_map_iff in Hi as (k & <- & _). reflexivity. }
          injection Hk as K1 _ K3 _. assert (id = tok ID) as Eid by (apply Ht; [rewrite E; apply in_or_app; right; cbn; tauto|exact K1]).
          assert (st = tok STRING) as Est by (apply Ht; [rewrite E; apply in_or_app; right; cbn; tauto|exact K3]). apply (proj1 Ha 0%N). rewrite Eid, Est. apply tok_address. }
      destruct (parse_above pton ck default_csource default_loc (parse_fuel ts) ts 0) as [[e rest]|c m|c] eqn:E; [|destruct Hs; [discriminate|contradiction]|destruct Hs; [congruence|contradiction]].
      destruct Hs as (w & Ew & _ & _ & HP). unfold ts in HP at 1. rewrite tok_kinds in HP. pose proof (proj2 (proj2 shape_fun) _ _ _ H _ HP) as E2. injection E2 as E2. destruct rest; [|discriminate].
      apply (proj1 (sound pton Hpton ck default_csource default_loc _)) in E as (w' & Ew' & Hr); [|lia|apply tok_numeral].
      rewrite app_nil_r in Ew'. exists w', e. split; [|rewrite <- Ew'; apply tok_kinds].
      destruct Hr as [(n & Hn1 & _ & HD & _)|(_ & HD & _)]; [apply (D_down _ _ _ n); [exact HD|lia]|exact HD].
  Qed.
  Lemma viable_iff ks : viable pton ck ks <-> exists more, Par 0 (ks ++ more) (SOk []).
  Proof.
    split.
    - intros (w & e & more & HD & E). exists more. apply finished_iff. exists w, e. auto.
    - intros [more H]. apply finished_iff in H as (w & e & HD & E). exists w, e, more. auto.
  Qed.
  Lemma viable_no_end ks k : viable pton ck ks -> In k ks -> ~ sentinel k.
  Proof.
    intros (w & e & more & HD & E) Hk. assert (In k (kinds w)) as Hi by (rewrite E; apply in_or_app; now left). apply in_map_iff in Hi as (t & <- & Ht).
    pose proof (D_no_end _ _ _ _ _ HD) as H. rewrite Forall_forall in H. now apply H.
  Qed.
  (** Stuck: either reading failed, or something follows that closes nothing. *)
  Definition stuck (ks : list kind) (h : hint) (a : list kind) : Prop :=
    Par 0 ks (SBad h a) \/ (Par 0 ks (SOk a) /\ hk a = RPAR /\ h = HOne END_OF_INPUT).
  Lemma stuck_prefix u a h : stuck (u ++ a) h a -> viable pton ck u.
  Proof.
    intros [H|(H & _ & _)].
    - destruct (proj2 (proj2 shape_completable) _ _ _ H _ _ eq_refl) as (u' & E & (s & Hs) & _). apply app_inv_tail in E as <-. apply viable_iff. exists s. specialize (Hs [] eq_refl). now rewrite app_nil_r in Hs.
    - destruct (proj2 (proj2 shape_local) _ _ _ H) as (u' & E & Hl). cbn in *. apply app_inv_tail in E as <-. apply viable_iff. exists []. apply Hl. right. split; reflexivity.
  Qed.
  Lemma stuck_swap u a h a' : stuck (u ++ a) h a -> hk a' = hk a -> stuck (u ++ a') h a'.
  Proof.
    intros [H|(H & E & Eh)] Ha; [left|right].
    - destruct (proj2 (proj2 shape_local) _ _ _ H) as (u' & E & Hl). cbn in *. apply app_inv_tail in E as <-. exact (Hl a' (or_introl Ha)).
    - destruct (proj2 (proj2 shape_local) _ _ _ H) as (u' & E' & Hl). cbn in *. apply app_inv_tail in E' as <-. split; [exact (Hl a' (or_introl Ha))|]. split; congruence.
  Qed.
  Lemma stuck_not_finished ks h a : stuck ks h a -> Par 0 ks (SOk []) -> False.
  Proof. intros [H|(H & E & _)] H'; pose proof (proj2 (proj2 shape_fun) _ _ _ H' _ H) as Ex; [discriminate|]. injection Ex as <-. discriminate. Qed.
  Lemma stuck_blocked u a h k : stuck (u ++ a) h a -> hk a = k -> ~ follows pton ck u k.
  Proof.
    intros H Hk [Hv|[E Hf]].
    - apply viable_iff in Hv as [more Hv]. rewrite <- app_assoc in Hv. cbn in Hv. apply (stuck_not_finished _ _ _ (stuck_swap u a h (k :: more) H (eq_sym Hk)) Hv).
    - apply finished_iff in Hf. apply (stuck_not_finished u h []); [|exact Hf]. rewrite <- (app_nil_r u) at 1. apply (stuck_swap u a); [exact H|]. cbn. congruence.
  Qed.
  Lemma stuck_hint u a h k : stuck (u ++ a) h a -> hinted h k -> follows pton ck u k.
  Proof.
    intros [H|(H & _ & ->)] Hh.
    - left. destruct (proj2 (proj2 shape_completable) _ _ _ H _ _ eq_refl) as (u' & E & _ & Hs). apply app_inv_tail in E as <-. destruct (Hs k Hh) as [s Hc]. apply viable_iff. exists s. specialize (Hc [] eq_refl). rewrite app_nil_r in Hc.
      now rewrite <- app_assoc.
    - cbn in Hh. right. split; [exact Hh|]. destruct (proj2 (proj2 shape_local) _ _ _ H) as (u' & E & Hl). cbn in *. apply app_inv_tail in E as <-. apply finished_iff. specialize (Hl [] (or_intror (conj eq_refl eq_refl))). now rewrite app_nil_r in Hl.
  Qed.
  (** After an expression: some operators fit in any case; and either the constraint may be over or a parenthesis is open. *)
  Lemma stuck_operators u a h k : h = HExt \/ h = HNon -> stuck (u ++ a) h a -> always k = true -> (k = RPAR /\ finished pton ck u) \/ viable pton ck (u ++ [k]).
  Proof.
    intros Hh [H|(_ & _ & ->)] Hk; [|destruct Hh; discriminate]. assert (onward (Par 0) u k) as Hg.
    { destruct Hh as [-> | ->].
      - destruct (proj2 (proj2 shape_goes) _ _ _ H _ eq_refl) as (u' & E & Hg). apply app_inv_tail in E as <-. now apply Hg.
      - destruct (proj2 (proj2 shape_chains) _ _ _ H _ eq_refl) as (u' & E & _ & Hg). apply app_inv_tail in E as <-. now apply Hg. }
    destruct Hg as [[s Hs]|Hs].
    - right. apply viable_iff. exists s. specialize (Hs [] eq_refl). rewrite app_nil_r in Hs. now rewrite <- app_assoc.
    - specialize (Hs [k] eq_refl). pose proof (Par_0_stop _ _ Hs) as Hst. cbn in Hst. left. split; [destruct k; try discriminate; reflexivity|].
      destruct (proj2 (proj2 shape_local) _ _ _ Hs) as (u' & E & Hl). cbn in *. apply app_inv_tail in E as <-. apply finished_iff. specialize (Hl [] (or_intror (conj eq_refl eq_refl))). now rewrite app_nil_r in Hl.
  Qed.
  Lemma over_or_open ks : finished pton ck ks -> ~ viable pton ck (ks ++ [RPAR]).
  Proof.
    intros Hf Hv. apply finished_iff in Hf. apply viable_iff in Hv as [more Hv]. destruct (proj2 (proj2 shape_local) _ _ _ Hf) as (u & E & Hl). cbn in *. rewrite app_nil_r in E. subst u.
    specialize (Hl (RPAR :: more) (or_intror (conj eq_refl eq_refl))). rewrite <- app_assoc in Hv. pose proof (proj2 (proj2 shape_fun) _ _ _ Hv _ Hl). discriminate.
  Qed.
  Lemma Ext_0_rest c ks x : Ext c ks x -> c = 0%nat -> forall a, x = SOk a -> stop_kind (hk a) = true.
  Proof.
    induction 1; intros Hc a E; try discriminate E; try (injection E as <-; assumption); eauto.
    injection E as <-. apply ext_prec in H as [H _]. lia.
  Qed.
  Lemma Par_0_rest ks a : Par 0 ks (SOk a) -> stop_kind (hk a) = true.
  Proof. intros H. inversion H; subst. eapply Ext_0_rest; [eassumption|reflexivity|reflexivity]. Qed.

  Lemma parse_sim ts src : Forall numeral_text ts ->
    let eof := eof_location ts in
    (exists e, ParseTokens pton ck ts src = Ok e) \/
    (exists w a h text, ts = (w ++ a)%list /\ clean w /\ stuck (kinds ts) h (kinds a) /\ complaint (Peek eof a) h text /\ ParseTokens pton ck ts src = parse_error src (Peek eof a) text) \/
    (exists u id lp st rp a m, ts = (u ++ [id; lp; st; rp] ++ a)%list /\ kinds [id; lp; st; rp] = literal_kinds /\ clean u /\ no_address pton id st m /\
       Par 0 (kinds (u ++ [id; lp; st; rp]) ++ [UNEXPECTED_CHAR])%list (SBad HExt [UNEXPECTED_CHAR]) /\ ParseTokens pton ck ts src = Err InvalidArgument m).
  Proof.
    intros Hn eof. pose proof (proj1 (sim_all pton Hpton ck src eof (parse_fuel ts)) ts 0%nat ltac:(lia) Hn) as Hs.
    pose proof (proj1 (enough pton ck src eof (parse_fuel ts)) ts 0%nat (parse_fuel_enough ts)) as Hf.
    unfold ParseTokens. cbn zeta. fold eof. destruct (parse_above pton ck src eof (parse_fuel ts) ts 0) as [[e rest]|c m|c] eqn:E; cbn [bind].
    2,3: destruct Hs as [Hs|Hs]; [congruence|]; right; apply (blame_bind (B := expr) _ _ _ _ _ _ (fun _ => Crash ModelOutOfFuel)) in Hs; cbn [bind] in Hs;
      destruct Hs as [(w & a & h & text & E1 & E2 & E3 & E4 & E5)|Hs]; [left; exists w, a, h, text; unfold stuck; auto 6|right; exact Hs].
    destruct Hs as (w & Ew & Hw & _ & HP). unfold ExpectTokenKind. destruct (kind_eqb_spec (t_kind (Peek eof rest)) END_OF_INPUT) as [Ek|Ek]; [left; eexists; reflexivity|right; left].
    pose proof (Par_0_rest _ _ HP) as Hst. assert (hk (kinds rest) = RPAR) as Hr.
    { rewrite (hk_peek eof) in *. destruct (t_kind (Peek eof rest)); try discriminate; congruence. }
    destruct (@unexpected_says (token * list token) (Peek eof rest) (HOne END_OF_INPUT) src) as (text & E1 & Hc); [eauto|]. cbn [kinds_of] in E1. rewrite E1, parse_error_bind.
    exists w, rest, (HOne END_OF_INPUT), text. split; [exact Ew|]. split; [exact Hw|]. split; [right; auto|]. split; [exact Hc|]. unfold parse_error, ParseErrorAt. destruct (QuoteSubConstraint _ _ _); reflexivity.
  Qed.
  Lemma hint_kinds h k : h = HStart \/ (exists k', h = HOne k') -> In k (kinds_of h) -> hinted h k.
  Proof. intros [->|[k' ->]] Hk; cbn in *; [repeat (destruct Hk as [<-|Hk]; [reflexivity|]); destruct Hk|destruct Hk as [<-|[]]; reflexivity]. Qed.
  Lemma no_end_viable u k : sentinel k -> ~ viable pton ck (u ++ [k]).
  Proof. intros Hk Hv. eapply viable_no_end; [exact Hv| |exact Hk]. apply in_or_app. right. now left. Qed.
  Lemma stuck_hints u a h : stuck (u ++ a) h a -> hint_right u h.
  Proof.
    intros H. assert (h = HExt \/ h = HNon -> hint_right u HExt) as Hx.
    { intros Hh. split.
      + intros k Hk. left. destruct (stuck_operators u a h k Hh H) as [[-> _]|Hv]; [repeat (destruct Hk as [<-|Hk]; [reflexivity|]); destruct Hk| |exact Hv].
        repeat (destruct Hk as [Hk|Hk]; [discriminate Hk|]). destruct Hk.
      + destruct (stuck_operators u a h RPAR Hh H eq_refl) as [[_ Hf]|Hv]; [left|right].
        * split; [right; auto|]. intros [Hv|[E _]]; [|discriminate E]. eapply over_or_open; eassumption.
        * split; [now left|]. intros [Hv'|[_ Hf]]; [eapply no_end_viable; [|exact Hv']; now left|eapply over_or_open; eassumption]. }
    destruct h as [|k'| |]; cbn [hint_right]; [| |apply Hx; auto|apply Hx; auto].
    - intros k Hk. eapply stuck_hint; [exact H|]. apply hint_kinds; auto.
    - intros k Hk. eapply stuck_hint; [exact H|]. apply hint_kinds; eauto.
  Qed.
  (** For token sequences that end in a token that occurs in no constraint. *)
  Lemma parse_blames ts src t0 ts0 : Forall numeral_text ts -> ts = (ts0 ++ [t0])%list -> sentinel (t_kind t0) ->
    (exists e, ParseTokens pton ck ts src = Ok e) \/
    (exists u t h text, stuck_at pton ck ts u t /\ complaint t h text /\ hint_right (kinds u) h /\ ParseTokens pton ck ts src = parse_error src t text) \/
    (exists u id st m, bad_address_at pton ck ts u id st /\ no_address pton id st m /\ ParseTokens pton ck ts src = Err InvalidArgument m).
  Proof.
    intros Hn Ets H0. destruct (parse_sim ts src Hn) as [H|[(w & a & h & text & E & Hw & Hs & Hc & Hr)|(u & id & lp & st & rp & a & m & E & Hk & Hu & Ha & Hp & Hr)]]; [now left|right; left|right; right].
    - rewrite E, map_app in Hs. destruct a as [|t a].
      { exfalso. apply stuck_prefix in Hs as Hv. rewrite app_nil_r in E. subst w. eapply viable_no_end; [exact Hv| |exact H0]. rewrite Ets, map_app. apply in_or_app. right. now left. }
      exists w, t, h, text. split; [|split; [exact Hc|split; [eapply stuck_hints; exact Hs|exact Hr]]].
      split; [exists a; exact E|]. split; [eapply stuck_prefix; exact Hs|]. split; [exact Hw|]. eapply stuck_blocked; [exact Hs|reflexivity].
    - exists u, id, st, m. split; [|split; [exact Ha|exact Hr]]. exists lp, rp, a. split; [exact E|]. split; [exact Hk|]. split; [|split; [exact Hu|exact (proj1 Ha)]].
      eapply stuck_prefix. left. exact Hp.
  Qed.
  (** At most one place is at fault, and none in a constraint. *)
  Lemma viable_prefix ks ks' : viable pton ck (ks ++ ks') -> viable pton ck ks.
  Proof. intros (w & e & more & HD & E). exists w, e, (ks' ++ more)%list. split; [exact HD|]. now rewrite app_assoc. Qed.
  Lemma stuck_unique ts u t u' t' : stuck_at pton ck ts u t -> stuck_at pton ck ts u' t' -> u = u' /\ t = t'.
  Proof.
    assert (forall u t u' t', stuck_at pton ck ts u t -> stuck_at pton ck ts u' t' -> forall c, u' = (u ++ c)%list -> c = []) as Hle.
    { intros u1 t1 u2 t2 ((r1 & E1) & _ & _ & Hn) ((r2 & E2) & Hv & _ & _) c ->. destruct c as [|x c]; [reflexivity|exfalso]. rewrite E1, <- app_assoc in E2. apply app_inv_head in E2. injection E2 as <- _.
      apply Hn. left. rewrite map_app in Hv. cbn in Hv. apply (viable_prefix _ (kinds c)). now rewrite <- app_assoc. }
    intros H H'. pose proof H as ((r1 & E1) & _). pose proof H' as ((r2 & E2) & _). assert (u = u') as ->.
    { assert (u ++ t :: r1 = u' ++ t' :: r2)%list as E by congruence. apply split_app in E as [(c & E & _)|(c & E & _)].
      - pose proof (Hle u' t' u t H' H c E) as ->. now rewrite app_nil_r in E.
      - pose proof (Hle u t u' t' H H' c E) as ->. now rewrite app_nil_r in E. }
    split; [reflexivity|]. rewrite E1 in E2. apply app_inv_head in E2. congruence.
  Qed.
  Lemma stuck_or_address ts u t u' id st : stuck_at pton ck ts u t -> bad_address_at pton ck ts u' id st -> False.
  Proof.
    intros ((r & E) & _ & Ha & Hn) (lp & rp & r' & E' & Hk & Hv & _ & Hbad). rewrite E, app_assoc in E'. apply split_app in E' as [(c & E1 & _)|(c & E1 & E2)].
    - destruct (Ha u' id lp st rp c) as [n Hx]; [now rewrite <- app_assoc in E1|exact Hk|]. now apply (Hbad n).
    - destruct c as [|x c].
      + rewrite app_nil_r in E1. destruct (Ha u' id lp st rp []) as [n Hx]; [now rewrite app_nil_r|exact Hk|]. now apply (Hbad n).
      + injection E2 as <- _. apply Hn. left. rewrite E1, map_app in Hv. cbn in Hv. apply (viable_prefix _ (kinds c)). now rewrite <- app_assoc.
  Qed.
  Lemma address_unique ts u id st u' id' st' : bad_address_at pton ck ts u id st -> bad_address_at pton ck ts u' id' st' -> u = u' /\ id = id' /\ st = st'.
  Proof.
    assert (forall u id st u' id' st', bad_address_at pton ck ts u id st -> bad_address_at pton ck ts u' id' st' -> forall c, u' = (u ++ c)%list -> c = []) as Hle.
    { intros u1 i1 s1 u2 i2 s2 (l1 & p1 & r1 & E1 & K1 & _ & _ & B1) (l2 & p2 & r2 & E2 & K2 & _ & A2 & _) c ->. rewrite E1, <- app_assoc in E2. apply app_inv_head in E2. injection K1 as K11 K12 K13 K14. injection K2 as K21 K22 K23 K24.
      destruct c as [|x c]; [reflexivity|exfalso]. injection E2 as <- E2. destruct c as [|x c]; [injection E2 as <- _; congruence|]. injection E2 as <- E2. destruct c as [|x c]; [injection E2 as <- _; congruence|]. injection E2 as <- E2.
      destruct c as [|x c]; [injection E2 as <- _; congruence|]. injection E2 as <- E2.
      destruct (A2 u1 i1 l1 s1 p1 c) as [n Hx]; [reflexivity|unfold literal_kinds; cbn; congruence|]. now apply (B1 n). }
    intros H H'. pose proof H as (l1 & p1 & r1 & E1 & _). pose proof H' as (l2 & p2 & r2 & E2 & _). assert (u = u') as ->.
    { assert (u ++ [id; l1; st; p1] ++ r1 = u' ++ [id'; l2; st'; p2] ++ r2)%list as E by congruence. apply split_app in E as [(c & E & _)|(c & E & _)].
      - pose proof (Hle _ _ _ _ _ _ H' H c E) as ->. now rewrite app_nil_r in E.
      - pose proof (Hle _ _ _ _ _ _ H H' c E) as ->. now rewrite app_nil_r in E. }
    split; [reflexivity|]. rewrite E1 in E2. apply app_inv_head in E2. injection E2 as -> _ -> _ _. auto.
  Qed.
  Lemma D_clean n w e : D pton ck n w e -> clean w.
  Proof.
    intros HD. assert (D pton ck 0 w e) as H0 by (apply (D_down _ _ _ n); [exact HD|lia]).
    destruct (proj2 (complete pton Hpton ck default_csource default_loc 0 w e H0) []) as [N HN]; [reflexivity|]. specialize (HN N (le_n _)). rewrite app_nil_r in HN.
    pose proof (proj1 (sim_all pton Hpton ck default_csource default_loc N) w 0%nat ltac:(lia) (D_numeral _ _ _ _ _ HD)) as H. rewrite HN in H. destruct H as (w' & E & Hc & _). rewrite app_nil_r in E. now subst.
  Qed.
  Lemma whole_not_stuck w t0 e u t : D pton ck 0 w e -> t_kind t0 = END_OF_INPUT -> ~ stuck_at pton ck (w ++ [t0]) u t.
  Proof.
    intros HD H0 ((r & E) & _ & _ & Hn). apply Hn. destruct r as [|x r] using rev_ind.
    - apply app_inj_tail in E as [<- <-]. right. split; [exact H0|]. exists w, e. auto.
    - change (t :: r ++ [x])%list with ((t :: r) ++ [x])%list in E. rewrite app_assoc in E. apply app_inj_tail in E as [-> _]. left. exists (u ++ t :: r)%list, e, (kinds r). split; [exact HD|]. rewrite map_app, <- app_assoc. reflexivity.
  Qed.
  Lemma whole_no_address w t0 e u id st : D pton ck 0 w e -> t_kind t0 = END_OF_INPUT -> ~ bad_address_at pton ck (w ++ [t0]) u id st.
  Proof.
    intros HD H0 (lp & rp & r & E & Hk & _ & _ & Hbad). destruct r as [|x r] using rev_ind.
    - change ([id; lp; st; rp] ++ [])%list with ([id; lp; st] ++ [rp])%list in E. rewrite app_assoc in E. apply app_inj_tail in E as [_ <-]. injection Hk. congruence.
    - rewrite !app_assoc in E. apply app_inj_tail in E as [-> _]. destruct (D_clean _ _ _ HD u id lp st rp r) as [n Hx]; [now rewrite <- app_assoc|exact Hk|]. now apply (Hbad n).
  Qed.
End Top.
