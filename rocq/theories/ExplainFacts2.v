(** Explanations: the written subexpression that is blamed, and what the text contains. *)
From Coq Require Import String Ascii List ZArith NArith Bool Lia Permutation.
From Verif Require Import Base Num Token Ast Lexer Quote AstConstructors Parser Info TypeChecker ConstraintInfo Interpreter SpecLexer SpecGrammar SpecParser SpecTyping SpecSemantics SpecInfo SpecQuote SpecExplain
  StrFacts NumFacts LiteralFacts ParserFacts4 TypeFacts EvalFacts SemFacts SemFacts2 EntryFacts ExplainFacts VerdictFacts InfoFacts InfoFacts2 InterpFacts InterpFacts2 QuoteFacts QuoteFacts2 QuoteFacts3.
Import ListNotations.
Open Scope string_scope.

(** * Written subexpressions *)
Lemma sub_bare s e : sub s e -> sub (bare s) (bare e).
Proof. induction 1; cbn [bare]; try assumption; solve [constructor; assumption]. Qed.
Lemma bare_sub e : forall x, sub x (bare e) -> exists s, sub s e /\ bare s = x /\ (forall m a, s <> ECast m a).
Proof.
  induction e as [m b|m s|m n|m n|m e IH|m e IH|m e IH|m o l IHl r IHr|m f e IH|m n|m]; intros x H; cbn [bare] in H.
  all: try (inversion H; subst; eexists; split; [apply sub_refl|split; [reflexivity|discriminate]]).
  - inversion H as [| ? ? ? H'| | | | |]; subst; [eexists; split; [apply sub_refl|split; [reflexivity|discriminate]]|]. destruct (IH _ H') as (s & Hs & E). exists s. split; [now constructor|exact E].
  - inversion H as [| |? ? ? H' | | | |]; subst; [eexists; split; [apply sub_refl|split; [reflexivity|discriminate]]|]. destruct (IH _ H') as (s & Hs & E). exists s. split; [now constructor|exact E].
  - destruct (IH _ H) as (s & Hs & E). exists s. split; [now constructor|exact E].
  - inversion H as [| | | |? ? ? ? ? H'|? ? ? ? ? H'|]; subst; [eexists; split; [apply sub_refl|split; [reflexivity|discriminate]]| |].
    + destruct (IHl _ H') as (s & Hs & E). exists s. split; [now constructor|exact E].
    + destruct (IHr _ H') as (s & Hs & E). exists s. split; [now apply sub_right|exact E].
  - inversion H as [| | | | | |? ? ? ? H']; subst; [eexists; split; [apply sub_refl|split; [reflexivity|discriminate]]|]. destruct (IH _ H') as (s & Hs & E). exists s. split; [now constructor|exact E].
Qed.
Lemma at_sub e q s : At e q s -> sub s e.
Proof. induction 1 as [e|e d e' q s Hc H IH]; [constructor|]. destruct Hc; solve [constructor; assumption]. Qed.
Lemma bare_span e : (forall m a, e <> ECast m a) -> e_start (bare e) = e_start e /\ e_end (bare e) = e_end e.
Proof. destruct e; cbn; intros H; auto. now destruct (H m e). Qed.
Lemma bare_mentions e n : mentions (bare e) n <-> mentions e n.
Proof.
  induction e as [m b|m s|m k|m k|m e IH|m e IH|m e IH|m o l IHl r IHr|m f e IH|m k|m]; cbn [bare].
  all: try solve [split; intros H; inversion H; subst; constructor].
  all: try solve [split; intros H; inversion H; subst; constructor; now apply IH].
  - rewrite IH. split; [now constructor|intros H; now inversion H].
  - split; intros H; inversion H; subst; (constructor; now apply IHl) || (apply me_right; now apply IHr).
Qed.
Lemma blamed_no_cast h e q s : Blamable h e q s -> forall m a, s <> ECast m a.
Proof. induction 1; try discriminate; assumption. Qed.
(** What the type checker annotated, as written. *)
Lemma written e e' q s : bare e' = bare e -> At e' q s -> (forall m a, s <> ECast m a) ->
  exists s0, sub s0 e /\ e_start s0 = e_start s /\ e_end s0 = e_end s /\ bare s0 = bare s /\ (forall n, mentions s0 n <-> mentions s n).
Proof.
  intros E H Hc. apply at_sub, sub_bare in H. rewrite E in H. destruct (bare_sub _ _ H) as (s0 & Hs & E0 & Hc0). exists s0. split; [exact Hs|].
  destruct (bare_span _ Hc) as [A B], (bare_span _ Hc0) as [A0 B0]. rewrite E0 in A0, B0. split; [congruence|]. split; [congruence|]. split; [exact E0|]. intros n. rewrite <- bare_mentions, E0. apply bare_mentions.
Qed.

(** * Text *)
Lemma contains_l p a b : contains p a -> contains p (a ++ b).
Proof. intros (x & y & ->). exists x, (y ++ b). now rewrite !sapp_assoc. Qed.
Lemma contains_r p a b : contains p b -> contains p (a ++ b).
Proof. intros (x & y & ->). exists (a ++ x), y. now rewrite !sapp_assoc. Qed.
Lemma contains_here p b : contains p (p ++ b).
Proof. now exists "", b. Qed.
Lemma contains_list p l : In p l -> contains p (concat_strings l).
Proof.
  induction l as [|x l IH]; [intros []|]. intros [->|H].
  - exists "", (concat_strings l). reflexivity.
  - change (concat_strings (x :: l)) with (x ++ concat_strings l). apply contains_r. auto.
Qed.
Definition field_line (n : string) (v : value) : string := "Field: " ++ dq ++ n ++ dq ++ " -> Value: " ++ EvalResultToString v ++ nl.
Definition param_line (n : string) (z : Z) : string := "Param name: " ++ dq ++ n ++ dq ++ " -> Value: " ++ dec z ++ nl.
Lemma table_text ctx name prio keys s b r : ec_ctx ctx = CtxTable name prio keys ->
  contains ("Table Name: " ++ dq ++ name ++ dq ++ nl) (violation_text ctx s b r) /\
  contains ("Priority:" ++ dec prio ++ nl) (violation_text ctx s b r) /\
  (forall n v, mentions s n -> In (n, v) keys -> contains (field_line n v) (violation_text ctx s b r)).
Proof.
  intros E. unfold violation_text. rewrite E. split; [|split].
  - do 3 apply contains_r. exists "", ("Priority:" ++ dec prio ++ nl ++ concat_strings (map (fun kv : string * value => if mem_string (fst kv) (GetVariables s) then "Field: " ++ dq ++ fst kv ++ dq ++ " -> Value: " ++ EvalResultToString (snd kv) ++ nl else "") (Ordered keys))).
    rewrite !sapp_assoc. reflexivity.
  - do 8 apply contains_r. exists "", (concat_strings (map (fun kv : string * value => if mem_string (fst kv) (GetVariables s) then "Field: " ++ dq ++ fst kv ++ dq ++ " -> Value: " ++ EvalResultToString (snd kv) ++ nl else "") (Ordered keys))).
    rewrite !sapp_assoc. reflexivity.
  - intros n v Hn Hi. do 11 apply contains_r. apply contains_list. apply in_map_iff. exists (n, v). cbn [fst snd]. split; [|now apply ordered_in].
    assert (mem_string n (GetVariables s) = true) as -> by (apply mem_string_in, GetVariables_in, Hn). reflexivity.
Qed.
Lemma action_text ctx id name params s b r : ec_ctx ctx = CtxAction id name params ->
  contains ("Action Name: " ++ dq ++ name ++ dq ++ nl) (violation_text ctx s b r) /\
  (forall n z, mentions s n -> In (n, z) params -> contains (param_line n z) (violation_text ctx s b r)).
Proof.
  intros E. unfold violation_text. rewrite E. split.
  - do 3 apply contains_r. exists "", (concat_strings (map (fun kv : string * Z => if mem_string (fst kv) (GetVariables s) then "Param name: " ++ dq ++ fst kv ++ dq ++ " -> Value: " ++ dec (snd kv) ++ nl else "") (Ordered params))).
    rewrite !sapp_assoc. reflexivity.
  - intros n v Hn Hi. do 8 apply contains_r. apply contains_list. apply in_map_iff. exists (n, v). cbn [fst snd]. split; [|now apply ordered_in].
    assert (mem_string n (GetVariables s) = true) as -> by (apply mem_string_in, GetVariables_in, Hn). reflexivity.
Qed.

(** * Explanations without sizes *)
Section S.
  Variables (ai : option action_info) (ti : option table_info) (G : scope).
  Hypothesis HG : in_scope ai ti G.
  Variable ctx : eval_context.
  Hypothesis HE : env_ok G (env_of ctx).
  Lemma minimal_uncontested : no_bool G -> forall e e', Infer ai ti e = Ok e' -> e_type e' = TBool -> sound G e -> ~ contested (holds ctx) e' -> forall p, exists sq, minimal ctx e' p = Ok sq.
  Proof.
    intros Hnb. unfold no_bool in Hnb. induction e as [m b|m s|m n|m n|m e IH|m e IH|m e IH|m o l IHl r IHr|m f e IH|m n|m]; intros e' Hi Ht Hs Hct p;
      destruct (infer_ok ai ti G HG _ e' Hi) as (_ & Han & _); pose proof (inv_atom ai ti G HG _ _ Hi) as Ha; cbn beta iota in Ha.
    - subst e'. cbn. eauto.
    - subst e'. discriminate Ht.
    - destruct Ha as [t ->]. cbn in Ht. subst t. inversion Han as [| |keys' ? ? HGk Hd Hu| | | | | | | | |]; subst. exfalso. exact (Hnb _ Hd).
    - destruct Ha as [t ->]. cbn in Ht. subst t. inversion Han as [| | |keys' ? ? HGk Hd Hu| | | | | | | |]; subst. exfalso. exact (Hnb _ Hd).
    - apply (inv_not ai ti G HG) in Hi as (x & Hx & Hxt & ->). cbn [set_type minimal]. apply (IH x Hx Hxt); [eapply sound_not; exact Hs|]. intros Hc. apply Hct. now constructor.
    - apply (inv_neg ai ti G HG) in Hi as (x & Hx & Hxt & ->). discriminate Ht.
    - destruct Ha.
    - apply (inv_bin ai ti G HG) in Hi as (x & y & Hx & Hy & [(Hc & Htx & Hty & ->)|(t & Hco & Ho & ->)]).
      + cbn [set_type minimal]. cbn [set_type] in Han, Hct. destruct (sound_bin _ _ _ _ _ Hs) as [Hsl Hsr].
        destruct (ev_bool_total ai ti G HG ctx HE _ _ Hx Htx Hsl) as [bl Hbl]. destruct (ev_bool_total ai ti G HG ctx HE _ _ Hy Hty Hsr) as [br Hbr].
        pose proof (decides_l o bl Hc) as Dl. pose proof (decides_r o br Hc) as Dr.
        assert ((let* bl := ev_bool ctx x in let* br := ev_bool ctx y in
            match match o with OOR => bl | _ => negb bl end, match o with OAND => negb br | _ => br end with
            | false, false => Ok (EBin (mkMeta (m_start m) (m_end m) TBool) o x y, p)
            | true, false => minimal ctx x (false :: p)
            | false, true => minimal ctx y (true :: p)
            | true, true =>
                let* s0 := minimal ctx x (false :: p) in
                let* s1 := minimal ctx y (true :: p) in
                let* n0 := size (fst s0) in
                let* n1 := size (fst s1) in
                Ok (if Z.leb n0 n1 then s0 else s1)
            end) = minimal ctx (EBin (mkMeta (m_start m) (m_end m) TBool) o x y) p) as E by (destruct Hc; reflexivity).
        cbn [minimal] in E. rewrite <- E. rewrite Hbl; cbn [bind]; rewrite Hbr; cbn [bind].
        destruct (match o with OOR => bl | _ => negb bl end), (match o with OAND => negb br | _ => br end).
        * exfalso. apply Hct. eapply ct_here; [exact Hc|exact Hbl|exact Hbr|now apply Dl|now apply Dr].
        * apply (IHl x Hx Htx Hsl). intros Hl. apply Hct. eapply ct_left; [exact Hc|exact Hbl|now apply Dl|exact Hl].
        * apply (IHr y Hy Hty Hsr). intros Hr. apply Hct. eapply ct_right; [exact Hc|exact Hbr|now apply Dr|exact Hr].
        * eauto.
      + cbn [set_type minimal]. destruct Ho as [Ho|[Ho _]]; destruct Ho; eauto.
    - apply (inv_field ai ti G HG) in Hi as (x & t & Hx & Hf & ->). rewrite type_set in Ht. subst t. inversion Hf.
    - destruct Ha as [-> ->]. discriminate Ht.
    - destruct Ha.
  Qed.
  (** A false constraint is explained if all its parts can be quoted. *)
  Lemma explained e e' : bare e' = bare e -> e_type e' = TBool -> ev_bool ctx e' = Ok false -> (exists sq, minimal ctx e' [] = Ok sq) ->
    (forall s, sub s e -> exists r, QuoteSubConstraint (ec_src ctx) (e_start s) (e_end s) = Ok r) ->
    exists s s0 q b r, best ctx e' q s /\ sub s0 e /\ bare s0 = bare s /\ (forall n, mentions s0 n <-> mentions s n) /\ ev_bool ctx s = Ok b /\
      QuoteSubConstraint (ec_src ctx) (e_start s0) (e_end s0) = Ok r /\ check ctx e' = Ok (violation_text ctx s b r).
  Proof.
    intros Hb Ht Hf ([s q] & Hm) Hq. pose proof (minimal_best ctx e' _ _ _ Hm) as (q' & _ & HB). pose proof (Blamable_At _ _ _ _ (proj1 HB)) as Hat.
    destruct (written e e' q' s Hb Hat (blamed_no_cast _ _ _ _ (proj1 HB))) as (s0 & Hs & E1 & E2 & E3 & E4). destruct (Hq s0 Hs) as [r Hr].
    assert (exists b, ev_bool ctx s = Ok b) as [b Hbs] by (destruct (sufficient ctx e' q' s (proj1 HB) false Hf) as (b & Hbs & _); eauto).
    exists s, s0, q', b, r. split; [exact HB|]. split; [exact Hs|]. split; [exact E3|]. split; [exact E4|]. split; [exact Hbs|]. split; [exact Hr|].
    unfold check. rewrite Hf. cbn [bind]. unfold explain. rewrite Hm. cbn [bind]. rewrite Hbs. cbn [bind]. rewrite <- E1, <- E2, Hr. reflexivity.
  Qed.
  Lemma explained_any e e' : bare e' = bare e -> e_type e' = TBool -> ev_bool ctx e' = Ok false -> (exists sq, minimal ctx e' [] = Ok sq) ->
    exists s s0 q b, best ctx e' q s /\ sub s0 e /\ bare s0 = bare s /\ (forall n, mentions s0 n <-> mentions s n) /\ ev_bool ctx s = Ok b /\
      check ctx e' = bind (QuoteSubConstraint (ec_src ctx) (e_start s0) (e_end s0)) (fun r => Ok (violation_text ctx s b r)).
  Proof.
    intros Hb Ht Hf ([s q] & Hm). pose proof (minimal_best ctx e' _ _ _ Hm) as (q' & _ & HB). pose proof (Blamable_At _ _ _ _ (proj1 HB)) as Hat.
    destruct (written e e' q' s Hb Hat (blamed_no_cast _ _ _ _ (proj1 HB))) as (s0 & Hs & E1 & E2 & E3 & E4).
    assert (exists b, ev_bool ctx s = Ok b) as [b Hbs] by (destruct (sufficient ctx e' q' s (proj1 HB) false Hf) as (b & Hbs & _); eauto).
    exists s, s0, q', b. split; [exact HB|]. split; [exact Hs|]. split; [exact E3|]. split; [exact E4|]. split; [exact Hbs|].
    unfold check. rewrite Hf. cbn [bind]. unfold explain. rewrite Hm. cbn [bind]. rewrite Hbs. cbn [bind]. rewrite <- E1, <- E2. reflexivity.
  Qed.
End S.
(** * Contested constraints, as written *)
Lemma contested_mono (h h' : expr -> bool -> Prop) e : (forall s b, h s b -> h' s b) -> contested h e -> contested h' e.
Proof. intros Hh H. induction H; [eapply ct_here|apply ct_not|eapply ct_left|eapply ct_right]; eauto. Qed.
Lemma contested_written ai ti G ctx : in_scope ai ti G -> forall e e', Infer ai ti e = Ok e' -> literals e -> contested (holds ctx) e' ->
  contested (fun s b => Den G (env_of ctx) s (VBool b)) e.
Proof.
  intros HG. induction e as [m b|m s|m n|m n|m e IH|m e IH|m e IH|m o l IHl r IHr|m f e IH|m n|m]; intros e' Hi Hl Hc;
    pose proof (inv_atom ai ti G HG _ _ Hi) as Ha; cbn beta iota in Ha.
  - subst e'. inversion Hc.
  - subst e'. inversion Hc.
  - destruct Ha as [t ->]. inversion Hc.
  - destruct Ha as [t ->]. inversion Hc.
  - apply (inv_not ai ti G HG) in Hi as (x & Hx & Hxt & ->). cbn [set_type] in Hc. apply ct_not. apply (IH x Hx Hl). inversion Hc; assumption.
  - apply (inv_neg ai ti G HG) in Hi as (x & Hx & Hxt & ->). inversion Hc.
  - destruct Ha.
  - destruct Hl as [Hll Hlr]. apply (inv_bin ai ti G HG) in Hi as (x & y & Hx & Hy & [(Ho & Htx & Hty & ->)|(t & Hco & Ho & ->)]); cbn [set_type] in Hc.
    + assert (forall b, holds ctx x b -> Den G (env_of ctx) l (VBool b)) as Hdl by (intros b Hb; apply (ev_sound ai ti G HG ctx l x _ Hx Hll); now apply ev_bool_ok).
      assert (forall b, holds ctx y b -> Den G (env_of ctx) r (VBool b)) as Hdr by (intros b Hb; apply (ev_sound ai ti G HG ctx r y _ Hy Hlr); now apply ev_bool_ok).
      inversion Hc; subst; [eapply ct_here|eapply ct_left|eapply ct_right]; eauto.
    + exfalso. inversion Hc; subst; match goal with H : connective ?o |- _ => destruct Ho as [Ho|[Ho _]]; destruct H; inversion Ho end.
  - apply (inv_field ai ti G HG) in Hi as (x & t & Hx & Hf & ->). inversion Hc.
  - destruct Ha as [-> ->]. inversion Hc.
  - destruct Ha.
Qed.
Lemma no_bool_keys t ks fs : table_keys t ks -> Forall2 key_decl fs ks -> no_bool (InTable (ti_keys_by_name t)).
Proof.
  intros HK Hf n (k & Hk & E). apply (by_name t ks HK) in Hk as [Hk _]. clear HK. induction Hf as [|f k' l m (_ & _ & Ht) Hf IH]; [contradiction|]. destruct Hk as [->|Hk]; [|now apply IH]. rewrite E in Ht. inversion Ht.
Qed.
Lemma no_bool_params a ps qs : action_params a ps -> Forall2 param_decl qs ps -> no_bool (InAction (ai_params_by_name a)).
Proof.
  intros HK Hf n (k & Hk & E). apply (param_by_name a ps HK) in Hk as [Hk _]. clear HK. induction Hf as [|f k' l m (_ & _ & Ht) Hf IH]; [contradiction|]. destruct Hk as [->|Hk]; [|now apply IH]. rewrite E in Ht. destruct Ht as [(_ & Ht)|(_ & Ht)]; discriminate.
Qed.
Lemma parts_quoted pton ck pre cs e : pton_ok pton -> restricted ck pre cs -> reads_as pton ck cs e -> displayable cs e ->
  forall s, sub s e -> exists r, QuoteSubConstraint cs (e_start s) (e_end s) = Ok r.
Proof.
  intros Hp (r & f & n & ss & _ & _ & _ & _ & E) Hra [Hcr Haw] s Hs. apply (text_iff pton Hp) in Hra. eapply sub_quoted; eauto; rewrite E; cbn; [|lia].
  destruct (String.eqb f ""), ck; discriminate.
Qed.
