(** Encoding of arbitrary constraint trees. *)
From Coq Require Import String List ZArith Bool Lia.
From Verif Require Import Base Num Token Ast Quote Info TypeChecker Interpreter Z3 Symbolic LiteralFacts SpecLexer SpecTyping SpecInfo SpecSemantics SpecSolver SpecSymbolic SpecSorts EntryFacts InfoFacts SymFacts SymFacts2 SymKeys SymState SymMeaning.
Import ListNotations.
Open Scope string_scope.

Definition sorting_of (r : sym_result) : sorting :=
  match r with
  | RTerm t => One (sort_of t)
  | RKey (SymExact v) => Exactly (sort_of v)
  | RKey (SymTernary v m) => Masked (sort_of v) (sort_of m)
  | RKey (SymLpm v p) => Prefixed (sort_of v) (sort_of p)
  end.
(** Operators on Z3 expressions. *)
Lemma bin_terms_cases a o b :
  (compatible o (sort_of a) (sort_of b) /\ exists u, bin_terms a o b = Ok u /\ sort_of u = SBool) \/
  (o = UNKNOWN_OPERATOR /\ exists m, bin_terms a o b = Err InvalidArgument m) \/
  (o <> UNKNOWN_OPERATOR /\ ~ compatible o (sort_of a) (sort_of b) /\ bin_terms a o b = Crash Z3Exception).
Proof.
  assert (forall c, (In c [OLT; OLE; OGT; OGE] -> compatible c (sort_of a) (sort_of b) /\ forall i, exists u, z3_cmp i a b = Ok u /\ sort_of u = SBool) \/
     (In c [OLT; OLE; OGT; OGE] -> ~ compatible c (sort_of a) (sort_of b) /\ forall i, z3_cmp i a b = Crash Z3Exception)) as HC.
  { intros c. unfold z3_cmp. destruct (sort_of a) as [| |v], (sort_of b) as [| |w];
      try (right; intros Hc; split; [intros H; inversion H; subst; cbn in *; intuition congruence|reflexivity]).
    - left. intros Hc. split; [apply cp_int; exact Hc|]. intros i. eexists. split; reflexivity.
    - destruct (Z.eqb_spec v w) as [->|E]; [left|right]; intros Hc; (split; [|intros i; first [reflexivity|eexists; split; reflexivity]]); [now constructor|].
      intros H. inversion H; subst; cbn in *; first [intuition congruence|now destruct E]. }
  assert (forall c (f : term -> term -> outcome term) (g : term -> term -> term), In c [OAND; OOR; OIMPLIES] -> (f a b = if is_sbool a && is_sbool b then Ok (g a b) else sort_error) -> sort_of (g a b) = SBool ->
     (compatible c (sort_of a) (sort_of b) /\ exists u, f a b = Ok u /\ sort_of u = SBool) \/ (~ compatible c (sort_of a) (sort_of b) /\ f a b = Crash Z3Exception)) as HB.
  { intros c f g Hc -> Hg. unfold is_sbool. destruct (sort_of a) as [| |v], (sort_of b) as [| |w]; cbn [sort_eqb andb];
      try (right; split; [intros H; inversion H; subst; cbn in *; intuition congruence|reflexivity]). left. split; [now constructor|eauto]. }
  destruct o; cbn [bin_terms].
  - right. left. eauto.
  - unfold z3_eq. destruct (sort_eqb (sort_of a) (sort_of b)) eqn:E.
    + left. apply sort_eqb_eq in E. rewrite E. split; [constructor|eexists; split; reflexivity].
    + right. right. split; [discriminate|]. split; [|reflexivity]. intros H. assert (sort_of a = sort_of b) as E' by (inversion H; subst; cbn in *; intuition congruence). apply sort_eqb_eq in E'. congruence.
  - unfold z3_ne. destruct (sort_eqb (sort_of a) (sort_of b)) eqn:E.
    + left. apply sort_eqb_eq in E. rewrite E. split; [constructor|eexists; split; reflexivity].
    + right. right. split; [discriminate|]. split; [|reflexivity]. intros H. assert (sort_of a = sort_of b) as E' by (inversion H; subst; cbn in *; intuition congruence). apply sort_eqb_eq in E'. congruence.
  - destruct (HC OGT) as [H|H]; (destruct H as [H1 H2]; [cbn; auto|]); [left; auto|right; right; split; [discriminate|auto]].
  - destruct (HC OGE) as [H|H]; (destruct H as [H1 H2]; [cbn; auto|]); [left; auto|right; right; split; [discriminate|auto]].
  - destruct (HC OLT) as [H|H]; (destruct H as [H1 H2]; [cbn; auto|]); [left; auto|right; right; split; [discriminate|auto]].
  - destruct (HC OLE) as [H|H]; (destruct H as [H1 H2]; [cbn; auto|]); [left; auto|right; right; split; [discriminate|auto]].
  - destruct (HB OAND z3_and ZAnd) as [H|[H1 H2]]; [cbn; auto|reflexivity|reflexivity|left; auto|right; right; split; [discriminate|auto]].
  - destruct (HB OOR z3_or ZOr) as [H|[H1 H2]]; [cbn; auto|reflexivity|reflexivity|left; auto|right; right; split; [discriminate|auto]].
  - destruct (HB OIMPLIES z3_implies ZImplies) as [H|[H1 H2]]; [cbn; auto|reflexivity|reflexivity|left; auto|right; right; split; [discriminate|auto]].
Qed.
Lemma compatible_eq o a b : o = OEQ \/ o = ONE -> compatible o a b -> a = b.
Proof. intros [-> | ->] H; inversion H; subst; cbn in *; intuition congruence. Qed.
Lemma eq_compatible o a : o = OEQ \/ o = ONE -> compatible o a a.
Proof. intros [-> | ->]; constructor. Qed.
Lemma pair_cases a1 a2 o b1 b2 :
  ((o = OEQ \/ o = ONE) /\ (sort_of a1, sort_of a2) = (sort_of b1, sort_of b2) /\ exists u, bin_pair a1 a2 o b1 b2 = Ok u /\ sort_of u = SBool) \/
  ((o = OEQ \/ o = ONE) /\ (sort_of a1, sort_of a2) <> (sort_of b1, sort_of b2) /\ bin_pair a1 a2 o b1 b2 = Crash Z3Exception) \/
  (~ (o = OEQ \/ o = ONE) /\ exists m, bin_pair a1 a2 o b1 b2 = Err InvalidArgument m).
Proof.
  assert (o = OEQ \/ o = ONE \/ ~ (o = OEQ \/ o = ONE)) as Ho by (destruct o; auto; right; right; intros [H|H]; discriminate).
  assert ((o = OEQ \/ o = ONE) \/ ~ (o = OEQ \/ o = ONE)) as [Hq|Hn] by tauto; clear Ho.
  - unfold bin_pair. assert (eq_or_ne o = Ok tt) as -> by (destruct Hq as [-> | ->]; reflexivity). cbn [bind].
    destruct (bin_terms_cases a1 o b1) as [(Hc & x & -> & Hx)|[[-> _]|(_ & Hc & ->)]]; [|destruct Hq; discriminate|].
    + apply compatible_eq in Hc; [|exact Hq]. cbn [bind].
      destruct (bin_terms_cases a2 o b2) as [(Hc2 & y & -> & Hy)|[[-> _]|(_ & Hc2 & ->)]]; [|destruct Hq; discriminate|].
      * apply compatible_eq in Hc2; [|exact Hq]. left. split; [exact Hq|]. split; [congruence|]. cbn [bind]. apply is_sbool_eq in Hx, Hy. unfold z3_or, z3_and. rewrite Hx, Hy. destruct Hq as [-> | ->]; eexists; split; reflexivity.
      * right. left. split; [exact Hq|]. split; [|reflexivity]. intros [= _ E]. apply Hc2. rewrite E. now apply eq_compatible.
    + right. left. split; [exact Hq|]. split; [|reflexivity]. intros [= E _]. apply Hc. rewrite E. now apply eq_compatible.
  - right. right. split; [exact Hn|]. unfold bin_pair. destruct o; cbn; eauto; destruct Hn; auto.
Qed.
Lemma results_cases l o r :
  (combines o (sorting_of l) (sorting_of r) /\ exists u, bin_results l o r = Ok u /\ sort_of u = SBool) \/
  (clash o (sorting_of l) (sorting_of r) /\ bin_results l o r = Crash Z3Exception) \/
  (~ combines o (sorting_of l) (sorting_of r) /\ ~ clash o (sorting_of l) (sorting_of r) /\ exists m, bin_results l o r = Err InvalidArgument m).
Proof.
  assert (forall s u, (forall a b, (s, u) <> (One a, One b)) -> (forall a b, (s, u) <> (Exactly a, Exactly b)) -> (forall a m b n, (s, u) <> (Masked a m, Masked b n)) -> (forall a p b q, (s, u) <> (Prefixed a p, Prefixed b q)) ->
    ~ combines o s u /\ ~ clash o s u) as HX.
  { intros s u H1 H2 H3 H4. split; intros H; inversion H; subst; [eapply H1|eapply H2|eapply H3|eapply H4|eapply H1|eapply H2|eapply H3|eapply H4]; reflexivity. }
  destruct l as [[a|a m|a p]|a], r as [[b|b n|b q]|b]; cbn [sorting_of bin_results bin_keys];
    try (right; right; match goal with |- ~ combines _ ?s ?u /\ _ => destruct (HX s u) as [? ?]; [intros; discriminate..|] end; split; [assumption|]; split; [assumption|]; eexists; reflexivity).
  - destruct (bin_terms_cases a o b) as [(Hc & Hu)|[[-> Hm]|(Hn & Hc & Hu)]].
    + left. split; [now constructor|exact Hu].
    + right. right. split; [intros H; inversion H as [|? ? ? H'| |]; subst; inversion H'; subst; cbn in *; intuition congruence|]. split; [intros H; inversion H; contradiction|exact Hm].
    + right. left. split; [now constructor|exact Hu].
  - destruct (pair_cases a m o b n) as [(Hq & E & Hu)|[(Hq & E & Hu)|(Hq & Hu)]].
    + left. split; [injection E as E1 E2; rewrite E1, E2; now constructor|exact Hu].
    + right. left. split; [now constructor|exact Hu].
    + right. right. split; [intros H; inversion H; contradiction|]. split; [intros H; inversion H; contradiction|exact Hu].
  - destruct (pair_cases a p o b q) as [(Hq & E & Hu)|[(Hq & E & Hu)|(Hq & Hu)]].
    + left. split; [injection E as E1 E2; rewrite E1, E2; now constructor|exact Hu].
    + right. left. split; [now constructor|exact Hu].
    + right. right. split; [intros H; inversion H; contradiction|]. split; [intros H; inversion H; contradiction|exact Hu].
  - destruct (bin_terms_cases a o b) as [(Hc & Hu)|[[-> Hm]|(Hn & Hc & Hu)]].
    + left. split; [now constructor|exact Hu].
    + right. right. split; [intros H; inversion H as [? ? ? H'| | |]; subst; inversion H'; subst; cbn in *; intuition congruence|]. split; [intros H; inversion H; contradiction|exact Hm].
    + right. left. split; [now constructor|exact Hu].
Qed.

Section Encode.
  Variable ks : list key_info.
  Variable skip : string -> outcome bool.
  Variables (env : sym_env) (base : list term).
  Hypothesis HB : built ks skip env base.
  Variable src : csource.
  Notation sym := (EvalSymbolically env src).
  Lemma key_sorted k sk a : AddSymbolicKey k = Ok (sk, a) -> key_sorting (k_type k) (sorting_of (RKey sk)).
  Proof. intros H. apply add_key_cases in H as (w & Hw & [(-> & -> & _)|[(-> & -> & _)|[(-> & -> & _)|(-> & -> & _)]]]); constructor. Qed.
  Lemma key_sorting_fun ty s s' : key_sorting ty s -> key_sorting ty s' -> s = s'.
  Proof. intros H1 H2. inversion H1; subst; inversion H2; now subst. Qed.
  Lemma key_at_env n s : key_at ks skip n s <-> exists sk, assoc_find String.eqb n (se_keys env) = Some sk /\ s = sorting_of (RKey sk).
  Proof.
    split.
    - intros (k & Hk & Hl & <- & Hs). destruct (proj2 (add_key_iff k) (b_repr _ _ _ _ HB k Hk Hl)) as ([sk a] & Ha). exists sk. split; [apply (b_keys _ _ _ _ HB); exists k, a; auto|]. exact (key_sorting_fun _ _ _ Hs (key_sorted _ _ _ Ha)).
    - intros (sk & Hf & ->). apply (b_keys _ _ _ _ HB) in Hf as (k & a & Hk & Hn & Hl & Ha). exists k. split; [exact Hk|]. split; [exact Hl|]. split; [exact Hn|]. exact (key_sorted _ _ _ Ha).
  Qed.
  Lemma find_status {V} (l : list (string * V)) n : (exists x, assoc_find String.eqb n l = Some x /\ FindPtrOrStatus l n = Ok x) \/ (assoc_find String.eqb n l = None /\ exists m, FindPtrOrStatus l n = Err NotFound m).
  Proof. unfold FindPtrOrStatus. destruct (assoc_find String.eqb n l) as [x|]; [left; eauto|right; eauto]. Qed.
  Lemma field_cases sk f : (exists u, GetFieldAccess sk f = Ok u /\ component (sorting_of (RKey sk)) f (sort_of u)) \/
    ((forall c, ~ component (sorting_of (RKey sk)) f c) /\ exists m, GetFieldAccess sk f = Err InvalidArgument m).
  Proof.
    destruct sk as [v|v m|v p]; cbn [GetFieldAccess sorting_of];
      (destruct (String.eqb_spec f "value") as [->|N1]; [left; eexists; split; [reflexivity|constructor]|]).
    - right. split; [intros c H; inversion H; subst; contradiction|eauto].
    - destruct (String.eqb_spec f "mask") as [->|N2]; [left; eexists; split; [reflexivity|constructor]|]. right. split; [intros c H; inversion H; subst; contradiction|eauto].
    - destruct (String.eqb_spec f "prefix_length") as [->|N2]; [left; eexists; split; [reflexivity|constructor]|]. right. split; [intros c H; inversion H; subst; contradiction|eauto].
  Qed.
  Lemma component_fun s f c c' : component s f c -> component s f c' -> c = c'.
  Proof. intros H1 H2. inversion H1; subst; inversion H2; now subst. Qed.
  Lemma key_at_fun n s s' : key_at ks skip n s -> key_at ks skip n s' -> s = s'.
  Proof. intros H1 H2. apply key_at_env in H1 as (k1 & E1 & ->), H2 as (k2 & E2 & ->). congruence. Qed.
  Lemma converted_fun s ty c c' : converted s ty c -> converted s ty c' -> c = c'.
  Proof. intros H1 H2. inversion H1; subst; inversion H2; now subst. Qed.
  Lemma sorts_fun e s : Sorts ks skip e s -> forall s', Sorts ks skip e s' -> s = s'.
  Proof.
    induction 1 as [m b|m s n E|m n s Hk|m Hp|m e _ IH|m e _ IH|m e w _ IH|m e s c _ IH Hc|m f e s c Hk Hc|m o a b s u _ _ _ _ _]; intros s' H'; inversion H'; subst; auto.
    - eapply key_at_fun; eauto.
    - specialize (IH _ ltac:(eassumption)). injection IH as <-. eapply converted_fun; eauto.
    - match goal with H : key_at _ _ _ ?x |- _ => pose proof (key_at_fun _ _ _ Hk H) end. subst. f_equal. eapply component_fun; eauto.
  Qed.
  Lemma single_of r : single (sorting_of r) -> exists u, r = RTerm u.
  Proof. intros [a E]. destruct r as [[v|v m|v p]|u]; try discriminate E. eauto. Qed.
  (** The encoding of an expression that is in order, and of one that is not. *)
  Definition verdict (e : expr) : Prop := (exists r, sym e = Ok r /\ Sorts ks skip e (sorting_of r)) \/ exists w, FirstWrong ks skip e w /\ seen src w (sym e).
  Lemma seen_bind {A B} w (o : outcome A) (f : A -> outcome B) : seen src w o -> (forall a, o <> Ok a) /\ seen src w (bind o f).
  Proof.
    destruct w as [| | | |x]; cbn [seen].
    - intros ->. split; [discriminate|reflexivity].
    - intros [m ->]. split; [discriminate|cbn; eauto].
    - intros [m ->]. split; [discriminate|cbn; eauto].
    - intros [m ->]. split; [discriminate|cbn; eauto].
    - intros ->. unfold RuntimeTypeError, QuotedError. destruct (QuoteSubConstraint src (e_start x) (e_end x)); (split; [discriminate|reflexivity]).
  Qed.
  Lemma misused_seen {B} e r (f : term -> outcome B) : (forall u, r <> RTerm u) -> seen src (Misused e) (bind (to_term src e r) f).
  Proof. intros H. destruct r as [k|u]; [|now destruct (H u)]. cbn [to_term]. apply (seen_bind (Misused e)). reflexivity. Qed.
  Lemma not_single r : (forall u, r <> RTerm u) -> ~ single (sorting_of r).
  Proof. intros H Hs. apply single_of in Hs as [u ->]. now apply (H u). Qed.
  Lemma encode_verdict e : verdict e.
  Proof.
    induction e as [m b|m s|m n|m n|m e IH|m e IH|m e IH|m o a IHa b IHb|m f e IH|m n|m]; unfold verdict in *; cbn [EvalSymbolically].
    - left. eexists. split; [reflexivity|constructor].
    - unfold z3_int_val. destruct (mpz_set_str s 10) as [z|] eqn:E; cbn [bind].
      + left. eexists. split; [reflexivity|]. econstructor; eassumption.
      + right. exists NoSuchOperation. split; [apply fw_here; now constructor|reflexivity].
    - destruct (find_status (se_keys env) n) as [(sk & Hf & ->)|(Hf & mm & ->)]; cbn [bind].
      + left. eexists. split; [reflexivity|]. apply so_key. apply key_at_env. eauto.
      + right. exists Missing. split; [|cbn [seen]; eauto]. apply fw_here. apply wr_key. intros s Hs. apply key_at_env in Hs as (sk & E & _). congruence.
    - right. exists Unsupported. split; [apply fw_here; constructor|cbn [seen]; eauto].
    - destruct IH as [(r & Hr & Hs)|(w & Hw & Hsn)].
      + rewrite Hr. cbn [bind]. destruct r as [k|u].
        * right. exists (Misused e). split; [|apply misused_seen; discriminate]. apply fw_here. eapply wr_not_match; [exact Hs|]. apply not_single. discriminate.
        * cbn [to_term bind sorting_of] in *. unfold z3_not. destruct (is_sbool u) eqn:Eb; cbn [bind].
          -- left. eexists. split; [reflexivity|]. apply is_sbool_eq in Eb. rewrite Eb in Hs. cbn [sorting_of sort_of]. now constructor.
          -- right. exists NoSuchOperation. split; [|reflexivity]. apply fw_here. eapply wr_not; [exact Hs|]. intros E. apply is_sbool_eq in E. congruence.
      + right. exists w. split; [now apply fw_not|]. now apply seen_bind.
    - destruct IH as [(r & Hr & Hs)|(w & Hw & Hsn)].
      + rewrite Hr. cbn [bind]. destruct r as [k|u].
        * right. exists (Misused e). split; [|apply misused_seen; discriminate]. apply fw_here. eapply wr_neg_match; [exact Hs|]. apply not_single. discriminate.
        * cbn [to_term bind sorting_of] in *. unfold z3_minus. destruct (sort_of u) as [| |w] eqn:Eb; cbn [bind].
          -- right. exists NoSuchOperation. split; [|reflexivity]. apply fw_here. now apply wr_neg.
          -- left. eexists. split; [reflexivity|]. cbn [sorting_of sort_of]. now constructor.
          -- left. eexists. split; [reflexivity|]. cbn [sorting_of sort_of]. rewrite Eb. now apply so_neg_bits.
      + right. exists w. split; [now apply fw_neg|]. now apply seen_bind.
    - destruct IH as [(r & Hr & Hs)|(w & Hw & Hsn)].
      + rewrite Hr. cbn [bind]. destruct r as [k|u].
        * right. exists (Misused e). split; [|apply misused_seen; discriminate]. apply fw_here. eapply wr_cast_match; [exact Hs|]. apply not_single. discriminate.
        * cbn [to_term bind sorting_of] in *. unfold EvalTypeCast, TypeBitwidthOrStatus. destruct (TypeBitwidth (m_type m)) as [w|] eqn:Ew.
          2: { right. exists Invalid. split; [apply fw_here; eapply wr_cast; eassumption|]. cbn [annotate bind seen]. eauto. }
          cbn [annotate bind]. destruct (m_type m) as [| | | |w'|w'|w'|w'|w'|w'|] eqn:Et; cbn [TypeBitwidth] in Ew; try discriminate Ew; injection Ew as ->.
          -- unfold z3_int2bv. destruct (Z.ltb_spec 0 w) as [Hw|Hw]; cbn [andb].
             ++ destruct (sort_eqb (sort_of u) SInt) eqn:E; cbn [bind].
                ** left. eexists. split; [reflexivity|]. apply sort_eqb_eq in E. rewrite E in Hs. cbn [sorting_of sort_of]. eapply so_cast; [exact Hs|]. rewrite Et. now constructor.
                ** right. exists NoSuchOperation. split; [|reflexivity]. apply fw_here. eapply wr_cast_bit; [exact Hs|exact Et|]. left. intros E'. apply sort_eqb_eq in E'. congruence.
             ++ right. exists NoSuchOperation. split; [|reflexivity]. apply fw_here. eapply wr_cast_bit; [exact Hs|exact Et|]. right. exact Hw.
          -- left. eexists. split; [reflexivity|]. cbn [sorting_of]. eapply so_cast; [exact Hs|]. rewrite Et. constructor.
          -- unfold z3_bv_val. destruct (Z.ltb_spec 0 w) as [Hw|Hw]; cbn [bind].
             ++ left. eexists. split; [reflexivity|]. cbn [sorting_of sort_of]. eapply so_cast; [exact Hs|]. rewrite Et. now constructor.
             ++ right. exists NoSuchOperation. split; [|reflexivity]. apply fw_here. eapply wr_cast_mask; [exact Hs|eauto|exact Hw].
          -- left. eexists. split; [reflexivity|]. cbn [sorting_of sort_of]. eapply so_cast; [exact Hs|]. rewrite Et. constructor.
          -- right. exists Unsupported. split; [|cbn [seen]; eauto]. apply fw_here. eapply wr_cast_range; eassumption.
          -- unfold z3_bv_val. destruct (Z.ltb_spec 0 w) as [Hw|Hw]; cbn [bind].
             ++ left. eexists. split; [reflexivity|]. cbn [sorting_of sort_of]. eapply so_cast; [exact Hs|]. rewrite Et. now constructor.
             ++ right. exists NoSuchOperation. split; [|reflexivity]. apply fw_here. eapply wr_cast_mask; [exact Hs|eauto|exact Hw].
      + right. exists w. split; [now apply fw_cast|]. now apply seen_bind.
    - destruct IHa as [(ra & Hra & Hsa)|(w & Hw & Hsn)].
      + rewrite Hra. cbn [bind]. destruct IHb as [(rb & Hrb & Hsb)|(w & Hw & Hsn)].
        * rewrite Hrb. cbn [bind]. destruct (results_cases ra o rb) as [(Hc & u & -> & Hu)|[(Hc & ->)|(Hc & Hl & mm & ->)]]; cbn [bind].
          -- left. eexists. split; [reflexivity|]. cbn [sorting_of]. rewrite Hu. econstructor; eassumption.
          -- right. exists NoSuchOperation. split; [|reflexivity]. apply fw_here. eapply wr_bin; eassumption.
          -- right. exists Invalid. split; [|cbn [seen]; eauto]. apply fw_here. eapply wr_bin_form; eassumption.
        * right. exists w. split; [eapply fw_right; eassumption|]. now apply seen_bind.
      + right. exists w. split; [now apply fw_left|]. now apply seen_bind.
    - change (e_key e) with (name_of e). destruct (find_status (se_keys env) (name_of e)) as [(sk & Hf & ->)|(Hf & mm & ->)]; cbn [bind].
      + destruct (field_cases sk f) as [(u & -> & Hc)|(Hc & mm & ->)]; cbn [bind].
        * left. eexists. split; [reflexivity|]. cbn [sorting_of]. eapply so_field; [|exact Hc]. apply key_at_env. eauto.
        * right. exists Invalid. split; [|cbn [seen]; eauto]. apply fw_here. eapply wr_field; [apply key_at_env; eauto|exact Hc].
      + right. exists Missing. split; [|cbn [seen]; eauto]. apply fw_here. apply wr_field_key. intros s Hs. apply key_at_env in Hs as (sk & E & _). congruence.
    - destruct (find_status (se_attrs env) n) as [(u & Hf & ->)|(Hf & mm & ->)]; cbn [bind].
      + left. exists (RTerm u). split; [reflexivity|]. destruct (SymMeaning.prio_dec ks) as [HP|HP].
        * rewrite (b_prio _ _ _ _ HB HP) in Hf. cbn [assoc_find] in Hf. destruct (String.eqb_spec n "priority") as [->|]; [|discriminate]. injection Hf as <-. now constructor.
        * rewrite (b_noprio _ _ _ _ HB HP) in Hf. discriminate.
      + right. exists Missing. split; [|cbn [seen]; eauto]. apply fw_here. apply wr_attr. destruct (SymMeaning.prio_dec ks) as [HP|HP]; [|now right]. left.
        rewrite (b_prio _ _ _ _ HB HP) in Hf. intros ->. discriminate.
    - right. exists Invalid. split; [apply fw_here; constructor|cbn [seen]; eauto].
  Qed.
  Ltac same := repeat match goal with
    | H1 : Sorts ks skip ?e ?a, H2 : Sorts ks skip ?e ?b |- _ => first [constr_eq a b; clear H2|
        let E := fresh "E" in pose proof (sorts_fun _ _ H1 _ H2) as E; first [discriminate E|injection E as E; subst|subst]; try clear H2]
    | H1 : key_at ks skip ?n ?a, H2 : key_at ks skip ?n ?b |- _ => first [constr_eq a b; clear H2|
        let E := fresh "E" in pose proof (key_at_fun _ _ _ H1 H2) as E; subst; try clear H2]
    end.
  Lemma wrong_sorts e r s : wrong ks skip e r -> ~ Sorts ks skip e s.
  Proof.
    intros Hw Hs. inversion Hw; subst; inversion Hs; subst; same; try congruence;
      try (match goal with H : forall s, ~ key_at _ _ _ s, H' : key_at _ _ _ _ |- _ => exact (H _ H') end);
      try (match goal with H : ~ single (One _) |- _ => destruct H; eexists; reflexivity end).
    - match goal with H : _ <> _ \/ ~ prioritized _ |- _ => destruct H; [congruence|contradiction] end.
    - match goal with E : m_type _ = _, H : converted _ _ _ |- _ => rewrite E in H; inversion H; subst end. intuition (try congruence; try lia).
    - match goal with H : converted _ _ _, E : m_type _ = _ \/ _ |- _ => destruct E as [E|E]; rewrite E in H; inversion H; subst; lia end.
    - match goal with E : m_type _ = _, H : converted _ _ _ |- _ => rewrite E in H; inversion H end.
    - match goal with H : converted _ (m_type ?m) _, E : TypeBitwidth _ = None |- _ => destruct (m_type m); inversion H; subst; discriminate E end.
    - match goal with H : forall c, ~ component _ _ c, H' : component _ _ _ |- _ => exact (H _ H') end.
    - match goal with H : combines _ _ _, H' : clash _ _ _ |- _ => inversion H; subst; inversion H'; subst; first [contradiction|congruence] end.
  Qed.
  Lemma first_sorts e r : FirstWrong ks skip e r -> forall s, ~ Sorts ks skip e s.
  Proof.
    induction 1 as [e r Hw|m e r _ IH|m e r _ IH|m e r _ IH|m o a b r _ IH|m o a b s0 r _ _ IH]; intros s Hs; [exact (wrong_sorts _ _ _ Hw Hs)|inversion Hs; subst; eapply IH; eassumption..].
  Qed.
  Ltac fs := match goal with H : FirstWrong _ _ ?x _, H' : Sorts _ _ ?x _ |- _ => exact (first_sorts _ _ H _ H') end.
  Lemma wrong_fun e r r' : wrong ks skip e r -> wrong ks skip e r' -> r = r'.
  Proof.
    intros Hw Hw'. inversion Hw; subst; inversion Hw'; subst; same; try reflexivity; try congruence;
      try (match goal with H : forall s, ~ key_at _ _ _ s, H' : key_at _ _ _ _ |- _ => destruct (H _ H') end);
      try (match goal with H : ~ single (One _) |- _ => destruct H; eexists; reflexivity end);
      try (match goal with H : clash ?o ?s ?u, H' : ~ clash ?o ?s ?u |- _ => destruct (H' H) end);
      try (repeat match goal with H : m_type _ = _ \/ _ |- _ => destruct H as [H|H] end; match goal with E : m_type ?m = _, E' : m_type ?m = _ |- _ => rewrite E in E'; discriminate E' end);
      try (repeat match goal with H : m_type _ = _ \/ _ |- _ => destruct H as [H|H] end; match goal with E : m_type ?m = _, E' : TypeBitwidth (m_type ?m) = None |- _ => rewrite E in E'; discriminate E' end).
  Qed.
  Lemma first_fun e r : FirstWrong ks skip e r -> forall r', FirstWrong ks skip e r' -> r = r'.
  Proof.
    assert (forall e r, wrong ks skip e r -> forall r', FirstWrong ks skip e r' -> wrong ks skip e r') as Hin.
    { intros e0 r0 Hw r' HF. inversion HF; subst; [assumption|exfalso; inversion Hw; subst; fs..]. }
    induction 1 as [e r Hw|m e r Hf IH|m e r Hf IH|m e r Hf IH|m o a b r Hf IH|m o a b s0 r Hs Hf IH]; intros r' HF.
    - exact (wrong_fun _ _ _ Hw (Hin _ _ Hw _ HF)).
    - inversion HF; subst; [exfalso; match goal with H : wrong _ _ _ _ |- _ => inversion H; subst end; fs|auto].
    - inversion HF; subst; [exfalso; match goal with H : wrong _ _ _ _ |- _ => inversion H; subst end; fs|auto].
    - inversion HF; subst; [exfalso; match goal with H : wrong _ _ _ _ |- _ => inversion H; subst end; fs|auto].
    - inversion HF; subst; [exfalso; match goal with H : wrong _ _ _ _ |- _ => inversion H; subst end; fs|auto|exfalso; fs].
    - inversion HF; subst; [exfalso; match goal with H : wrong _ _ _ _ |- _ => inversion H; subst end; match goal with H : Sorts _ _ b _ |- _ => exact (first_sorts _ _ Hf _ H) end|exfalso; fs|auto].
  Qed.
  (** Constraints. *)
  Lemma constraint_verdict e : (constrains ks skip e /\ exists u, EvaluateConstraintSymbolically env src e = Ok u /\ sort_of u = SBool) \/
    exists w, Flaw ks skip e w /\ (seen src w (EvaluateConstraintSymbolically env src e) \/ w = NoSuchOperation /\ exists u, EvaluateConstraintSymbolically env src e = Ok u /\ sort_of u <> SBool).
  Proof.
    unfold EvaluateConstraintSymbolically. destruct (is_bool_type (e_type e)) eqn:Eb; cbn [negb].
    - assert (e_type e = TBool) as Et by (destruct (e_type e); try discriminate Eb; reflexivity).
      destruct (encode_verdict e) as [(r & Hr & Hs)|(w & Hw & Hsn)].
      + rewrite Hr. cbn [bind]. destruct r as [k|u].
        * right. exists (Misused e). split; [eapply fl_match; [exact Et|exact Hs|apply not_single; discriminate]|]. left. reflexivity.
        * cbn [to_term sorting_of] in *. destruct (is_sbool u) eqn:Es.
          -- apply is_sbool_eq in Es. left. split; [split; [exact Et|now rewrite <- Es]|]. eauto.
          -- assert (sort_of u <> SBool) as Hn by (intros E; apply is_sbool_eq in E; congruence). right. exists NoSuchOperation. split; [eapply fl_sort; [exact Et|exact Hs|exact Hn]|]. right. eauto.
      + right. exists w. split; [now apply fl_in|]. left. now apply seen_bind.
    - right. exists Invalid. split; [apply fl_type; intros E; rewrite E in Eb; discriminate|]. left. cbn [seen]. eauto.
  Qed.
  Lemma flaw_fun e r r' : Flaw ks skip e r -> Flaw ks skip e r' -> r = r'.
  Proof.
    intros H1 H2. inversion H1; subst; inversion H2; subst; try reflexivity; try contradiction; same; try reflexivity;
      try (match goal with H : ~ single (One _) |- _ => destruct H; eexists; reflexivity end).
    - eapply first_fun; eassumption.
    - exfalso; fs.
    - exfalso; fs.
    - exfalso; fs.
    - exfalso; fs.
  Qed.
  Lemma flaw_constrains e r : Flaw ks skip e r -> ~ constrains ks skip e.
  Proof.
    intros H [Et Hs]. inversion H; subst; try contradiction.
    - fs.
    - same. match goal with H : ~ single (One _) |- _ => destruct H; eexists; reflexivity end.
    - same. congruence.
  Qed.
End Encode.
