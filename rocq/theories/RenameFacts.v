(** Facts behind C62: renamed keys and parameters. *)
From Coq Require Import String Ascii List ZArith NArith Bool Lia.
From Verif Require Import Base Num Token Ast Lexer Quote AstConstructors Parser Info TypeChecker ConstraintInfo Interpreter SpecLexer SpecGrammar SpecParser SpecTyping SpecSemantics SpecInfo SpecMisc SpecLaws SpecReading SpecRobust
  StrFacts NumFacts LiteralFacts ParserFacts4 TypeFacts EvalFacts SemFacts SemFacts2 EntryFacts ExplainFacts VerdictFacts InfoFacts InfoFacts2 InterpFacts InterpFacts2 LawFacts RetoldFacts ReadingFacts ReadingFacts2 ReadingFacts3 LoadFacts.
Import ListNotations.
Open Scope string_scope.

Lemma renamed_mono (R S : string -> string -> Prop) e e' : (forall n n', R n n' -> S n n') -> Renamed R e e' -> Renamed S e e'.
Proof. intros H. induction 1; constructor; auto. Qed.
Lemma renamed_flip R e e' : Renamed R e e' -> Renamed (fun a b => R b a) e' e.
Proof. induction 1; constructor; auto. Qed.
Section Tree.
  Variables (R : string -> string -> Prop) (G G' : scope).
  Hypothesis TK : forall m m' n n' t, R n n' -> Typed G (EKey m n) t -> Typed G' (EKey m' n') t.
  Hypothesis TP : forall m m' n n' t, R n n' -> Typed G (EParam m n) t -> Typed G' (EParam m' n') t.
  Lemma renamed_typed e e' : Renamed R e e' -> forall t, Typed G e t -> Typed G' e' t.
  Proof.
    induction 1; intros t Ht; try solve [eauto]; inversion Ht; subst; solve [econstructor; eauto].
  Qed.
  Variables (cmp : ty -> binop -> value -> value -> bool -> Prop) (r r' : env).
  Hypothesis MK : forall m m' n n' v, R n n' -> Meant cmp G r (EKey m n) v -> Meant cmp G' r' (EKey m' n') v.
  Hypothesis MP : forall m m' n n' v, R n n' -> Meant cmp G r (EParam m n) v -> Meant cmp G' r' (EParam m' n') v.
  Hypothesis MA : forall m m' n v, Meant cmp G r (EAttr m n) v -> Meant cmp G' r' (EAttr m' n) v.
  Lemma renamed_meant e e' : Renamed R e e' -> forall v, Meant cmp G r e v -> Meant cmp G' r' e' v.
  Proof.
    induction 1; intros v Hv; try solve [eauto]; inversion Hv; subst; try solve [econstructor; eauto using renamed_typed].
  Qed.
End Tree.

(** * Names of declared keys *)
Section Names.
  Context {F : Type}.
  Variables (id : F -> N) (name : F -> string) (decl : F -> key_info -> Prop) (type : F -> ty -> Prop).
  Hypothesis Hdecl : forall f k, decl f k <-> k_id k = id f /\ k_name k = name f /\ type f (k_type k).
  Hypothesis type_fun : forall f t t', type f t -> type f t' -> t = t'.
  Variables (fs fs' : list F).
  Hypothesis Hfs : Forall2 (fun f f' => id f = id f' /\ forall t, type f t -> type f' t) fs fs'.
  Definition pairs (n n' : string) : Prop := exists f f', In (f, f') (combine fs fs') /\ name f = n /\ name f' = n'.
  Lemma renamed_decls ks : Forall2 decl fs ks -> exists ks', Forall2 decl fs' ks' /\ Forall2 (fun k k' => k_id k = k_id k' /\ k_type k = k_type k') ks ks'.
  Proof.
    intros H. revert fs' Hfs. induction H as [|f k l ks Hd H IH]; intros l' Hl; inversion Hl as [|? f' ? l2 [Ei Et] Hl2]; subst; [exists []; split; constructor|].
    destruct (IH l2 Hl2) as (ks' & H1 & H2). apply Hdecl in Hd as (D1 & D2 & D3). exists (mkKey (k_id k) (name f') (k_type k) :: ks'). split; (constructor; [|assumption]); [|cbn; auto].
    apply Hdecl. cbn. split; [congruence|]. auto.
  Qed.
  Lemma renamed_key ks ks' n n' k : NoDup (map name fs) -> Forall2 decl fs ks -> Forall2 decl fs' ks' -> pairs n n' -> In k ks -> k_name k = n ->
    exists k', In k' ks' /\ k_name k' = n' /\ k_id k' = k_id k /\ k_type k' = k_type k.
  Proof.
    intros HN H H' (f & f' & Hi & En & En') Hk Ek. rewrite <- Ek in En. clear Ek n. revert fs' ks' Hfs H' Hi. induction H as [|g kg l ks Hd H IH]; intros l' ks' Hl H' Hi; inversion Hl as [|? g' ? l2 [Ei Et] Hl2]; subst; [destruct Hk|].
    inversion H' as [|? kg' ? ks2 Hd' H2]; subst. cbn in Hi, HN. inversion HN as [|? ? Hn HN2]. subst. pose proof (proj1 (Hdecl _ _) Hd) as (D1 & D2 & D3). pose proof (proj1 (Hdecl _ _) Hd') as (D1' & D2' & D3').
    destruct Hi as [[= -> ->]|Hi].
    - destruct Hk as [->|Hk]. { exists kg'. split; [now left|]. split; [congruence|]. split; [congruence|]. eapply type_fun; eauto. }
      exfalso. apply Hn. destruct (forall2_other _ _ _ _ H Hk) as (x & Hx & Hdx). apply Hdecl in Hdx as (_ & E & _). rewrite En, E. now apply in_map.
    - destruct Hk as [->|Hk].
      + exfalso. apply Hn. rewrite <- D2, <- En. apply in_map. exact (in_combine_l _ _ _ _ Hi).
      + destruct (IH HN2 Hk l2 ks2 Hl2 H2 Hi) as (k' & ? & ?). exists k'. split; [now right|auto].
  Qed.
End Names.
Lemma forall2_and {A B} (P Q : A -> B -> Prop) l m : Forall2 P l m -> Forall2 Q l m -> Forall2 (fun a b => P a b /\ Q a b) l m.
Proof. intros H. induction H; intros H'; inversion H'; subst; constructor; auto. Qed.
Lemma f2_left {A B} (R : A -> B -> Prop) l m x : Forall2 R l m -> In x l -> exists y, In y m /\ R x y.
Proof. induction 1 as [|a b l m Hab _ IH]; cbn; intros Hi; [easy|]. destruct Hi as [->|Hi]; [exists b; split; [now left|auto]|]. destruct (IH Hi) as (y & ? & ?). exists y. split; [now right|auto]. Qed.
Lemma same_ids_consistent ks ks' l : Forall2 (fun k k' => k_id k = k_id k' /\ k_type k = k_type k') ks ks' -> consistent ks l -> consistent ks' l.
Proof.
  intros H [C1 C2 C3]. split; [|exact C2|].
  - intros f Hf. destruct (C1 f Hf) as (k & v & Hk & Hid & Hv). destruct (f2_left _ _ _ _ H Hk) as (k' & Hk' & E1 & E2). exists k', v. split; [exact Hk'|]. split; [congruence|]. now rewrite <- E2.
  - intros k' Hk' Ho. destruct (forall2_other _ _ _ _ H Hk') as (k & Hk & E1 & E2). rewrite <- E2. apply C3; [exact Hk|]. intros f Hf. rewrite E1. now apply Ho.
Qed.
Lemma same_ids_acceptable ks ks' l : Forall2 (fun k k' => k_id k = k_id k' /\ k_type k = k_type k') ks ks' -> acceptable ks l -> acceptable ks' l.
Proof.
  intros H [C1 C2]. split; [|exact C2]. intros id s Hi. destruct (C1 id s Hi) as (k & Hk & Hid). destruct (f2_left _ _ _ _ H Hk) as (k' & Hk' & E1 & E2). exists k'. split; [exact Hk'|congruence].
Qed.

(** * Tables and actions *)
Lemma f2_impl {A B} (P Q : A -> B -> Prop) l m : (forall a b, P a b -> Q a b) -> Forall2 P l m -> Forall2 Q l m.
Proof. intros H. induction 1; constructor; auto. Qed.
Lemma param_type_fun f t t' : param_type f t -> param_type f t' -> t = t'.
Proof. intros [(E & ->)|(E & ->)] [(E' & ->)|(E' & ->)]; congruence. Qed.
Lemma key_type_fun f t t' : key_type f t -> key_type f t' -> t = t'.
Proof. intros H H'. destruct H; now inversion H'. Qed.
Lemma key_type_other f f' t : mf_bitwidth f = mf_bitwidth f' -> mf_match f = mf_match f' -> key_type f t -> key_type f' t.
Proof. intros E1 E2 H. destruct f' as [i n w m]. cbn in *. destruct H; cbn in *; subst; constructor. Qed.
Lemma param_type_other f f' t : ap_bitwidth f = ap_bitwidth f' -> ap_type_name f = ap_type_name f' -> param_type f t -> param_type f' t.
Proof. unfold param_type. intros -> ->. auto. Qed.
Lemma combine_flip {A B} (l : list A) (m : list B) a b : In (a, b) (combine l m) -> In (b, a) (combine m l).
Proof. revert m. induction l as [|x l IH]; intros [|y m]; cbn; auto. intros [[= -> ->]|H]; auto. Qed.
Lemma renamed_restriction_sym pton ck (R : string -> string -> Prop) pre pre' (S : string -> string -> Prop) : (forall n n', R n n' -> S n' n) -> renamed_restriction pton ck R pre pre' -> renamed_restriction pton ck S pre' pre.
Proof.
  intros HS H. destruct H as [H1 H2|cs cs' e e' H1 H2 H3 H4 H5]; [now apply rr_none|]. eapply rr_some; eauto. eapply renamed_mono; [|apply renamed_flip; exact H5]. cbn. auto.
Qed.
Lemma renamed_table_sym pton d d' : renamed_table pton d d' -> renamed_table pton d' d.
Proof.
  intros (H1 & H2 & H3). split; [auto|]. split; [eapply forall2_sym; [|exact H2]; cbn; intuition congruence|]. eapply renamed_restriction_sym; [|exact H3].
  cbn. intros n n' (f & f' & Hi & E1 & E2). exists f', f. split; [now apply combine_flip|auto].
Qed.
Lemma renamed_action_sym pton d d' : renamed_action pton d d' -> renamed_action pton d' d.
Proof.
  intros (H1 & H2 & H3). split; [auto|]. split; [eapply forall2_sym; [|exact H2]; cbn; intuition congruence|]. eapply renamed_restriction_sym; [|exact H3].
  cbn. intros n n' (f & f' & Hi & E1 & E2). exists f', f. split; [now apply combine_flip|auto].
Qed.
Lemma reads_as_fun pton ck cs e e' : pton_ok pton -> reads_as pton ck cs e -> reads_as pton ck cs e' -> e = e'.
Proof. intros Hp H H'. apply (text_iff pton Hp) in H. apply (text_iff pton Hp) in H'. congruence. Qed.
Lemma declared_in (ks : list key_info) n t : declared (map (fun k => (k_name k, k)) ks) n t <-> exists k, In k ks /\ k_name k = n /\ k_type k = t.
Proof.
  unfold declared. split; [intros (k & Hi & E); apply in_map_iff in Hi as (k' & [= E1 ->] & Hk); eauto|]. intros (k & Hk & <- & <-). exists k. split; [|reflexivity]. apply in_map_iff. eauto.
Qed.
Lemma same_fields d d' : Forall2 (fun f f' => mf_id f = mf_id f' /\ mf_bitwidth f = mf_bitwidth f' /\ mf_match f = mf_match f') (pt_match_fields d) (pt_match_fields d') ->
  Forall2 (fun f f' => mf_id f = mf_id f' /\ forall t, key_type f t -> key_type f' t) (pt_match_fields d) (pt_match_fields d').
Proof. apply f2_impl. intros f f' (E1 & E2 & E3). split; [exact E1|]. intros t. now apply key_type_other. Qed.
Lemma same_params d d' : Forall2 (fun f f' => ap_id f = ap_id f' /\ ap_bitwidth f = ap_bitwidth f' /\ ap_type_name f = ap_type_name f') (pad_params d) (pad_params d') ->
  Forall2 (fun f f' => ap_id f = ap_id f' /\ forall t, param_type f t -> param_type f' t) (pad_params d) (pad_params d').
Proof. apply f2_impl. intros f f' (E1 & E2 & E3). split; [exact E1|]. intros t. now apply param_type_other. Qed.
Lemma table_says_renamed pton d d' entry x : pton_ok pton -> renamed_table pton d d' -> NoDup (map mf_id (pt_match_fields d)) -> NoDup (map mf_name (pt_match_fields d)) -> NoDup (map mf_name (pt_match_fields d')) ->
  table_says pton d entry x -> table_says pton d' entry x.
Proof.
  intros Hp (_ & Hfs & HR) Ni N1 N2 (ks & cs & e & key & Hks & Hr & Hra & Hco & Hkey & Hty & HM). apply same_fields in Hfs.
  destruct HR as [Hu Hu'|cs1 cs' e1 e' Hr1 Hr' Hra1 Hra' HRn]; [exfalso; exact (restricted_not _ _ _ Hu Hr)|]. rewrite (restricted_fun _ _ _ _ Hr1 Hr) in Hra1. rewrite (reads_as_fun _ _ _ _ _ Hp Hra1 Hra) in HRn.
  assert (forall f k, key_decl f k <-> k_id k = mf_id f /\ k_name k = mf_name f /\ key_type f (k_type k)) as HD by (intros; reflexivity).
  destruct (renamed_decls mf_id mf_name key_decl key_type HD _ _ Hfs ks Hks) as (ks' & Hks' & Hkk). pose proof (same_ids_consistent _ _ _ Hkk Hco) as Hco'.
  assert (map k_id ks' = map k_id ks) as Ei by (symmetry; clear -Hkk; induction Hkk as [|? ? ? ? [E _]]; cbn; congruence).
  destruct (key_function ks' (pe_match entry)) as (key' & Hkey'); [rewrite Ei, (decl_ids_k _ _ Hks); exact Ni|rewrite (decl_names_k _ _ Hks'); exact N2|exact Hco'|].
  pose proof (renamed_key mf_id mf_name key_decl key_type HD key_type_fun _ _ Hfs ks ks') as HRK.
  set (R := fun n n' : string => exists f f', In (f, f') (combine (pt_match_fields d) (pt_match_fields d')) /\ mf_name f = n /\ mf_name f' = n') in *.
  assert (forall m m' n n' t, R n n' -> Typed (key_scope ks) (EKey m n) t -> Typed (key_scope ks') (EKey m' n') t) as TK.
  { intros m m' n n' t HRn' Ht. inversion Ht as [| |keys ? ? ? EG Hd Hus| | | | | | | |]; subst. injection EG as <-. apply declared_in in Hd as (k & Hk & En & Et). destruct (HRK n n' k N1 Hks Hks' HRn' Hk En) as (k' & Hk' & En' & _ & Et').
    econstructor; [reflexivity|apply declared_in; exists k'; split; [exact Hk'|]; split; [exact En'|congruence]|exact Hus]. }
  assert (forall m m' n n' t, R n n' -> Typed (key_scope ks) (EParam m n) t -> Typed (key_scope ks') (EParam m' n') t) as TP.
  { intros m m' n n' t _ Ht. inversion Ht. discriminate. }
  exists ks', cs', e', key'. split; [exact Hks'|]. split; [exact Hr'|]. split; [exact Hra'|]. split; [exact Hco'|]. split; [exact Hkey'|]. split; [eapply renamed_typed; eauto|].
  eapply (renamed_meant R (key_scope ks) (key_scope ks') TK TP unordered_exact (TableEnv key (pe_priority entry)) (TableEnv key' (pe_priority entry))); [| | |exact HRn|exact HM].
  - intros m m' n n' v HRn' Hv. inversion Hv as [| |k0 p0 ? ? ? Er Ek| | | | | | | |]; subst. injection Er as <- <-. econstructor; [reflexivity|]. apply Hkey'. apply Hkey in Ek.
    inversion Ek as [k f v' Hk Hf Hid Hfv|k v' Hk Ho Hw]; subst; destruct (HRK _ n' k N1 Hks Hks' HRn' Hk eq_refl) as (k' & Hk' & En' & Eid & Et); rewrite <- En'.
    + eapply as_present; [exact Hk'|exact Hf|congruence|now rewrite Et].
    + apply as_omitted; [exact Hk'|intros f Hf; rewrite Eid; now apply Ho|now rewrite Et].
  - intros m m' n n' v _ Hv. inversion Hv. discriminate.
  - intros m m' n v Hv. inversion Hv as [| | | |k0 p0 ? Er| | | | | |]; subst. injection Er as <- <-. econstructor. reflexivity.
Qed.
Lemma param_function ps l : NoDup (map k_id ps) -> NoDup (map k_name ps) -> acceptable ps l -> exists param, forall n z, param n = Some z <-> Passed ps l n z.
Proof.
  intros H1 H2 Hc. set (a := mkAction 0 "" None default_csource (map (fun k => (k_id k, k)) ps) (map (fun k => (k_name k, k)) ps)).
  assert (action_params a ps) as HK. { split; [exact H1|exact H2|intros x; reflexivity|intros x; reflexivity| |]; cbn; rewrite map_map; cbn; assumption. }
  destruct (action_total a ps HK (mkP4Action 0 l) Hc) as [ctx Hp].
  destruct (action_ok a ps HK _ ctx Hp) as (_ & keys & _ & HN & HA). exists (fun n => assoc_find String.eqb n keys). intros n v. rewrite (afind_iff String.eqb String.eqb_eq) by exact HN. apply HA.
Qed.
Lemma action_says_renamed pton d d' a x : pton_ok pton -> renamed_action pton d d' -> NoDup (map ap_id (pad_params d)) -> NoDup (map ap_name (pad_params d)) -> NoDup (map ap_name (pad_params d')) ->
  action_says pton d a x -> action_says pton d' a x.
Proof.
  intros Hp (_ & Hfs & HR) Ni N1 N2 (ks & cs & e & key & Hks & Hr & Hra & Hco & Hkey & Hty & HM). apply same_params in Hfs.
  destruct HR as [Hu Hu'|cs1 cs' e1 e' Hr1 Hr' Hra1 Hra' HRn]; [exfalso; exact (restricted_not _ _ _ Hu Hr)|]. rewrite (restricted_fun _ _ _ _ Hr1 Hr) in Hra1. rewrite (reads_as_fun _ _ _ _ _ Hp Hra1 Hra) in HRn.
  assert (forall f k, param_decl f k <-> k_id k = ap_id f /\ k_name k = ap_name f /\ param_type f (k_type k)) as HD by (intros; reflexivity).
  destruct (renamed_decls ap_id ap_name param_decl param_type HD _ _ Hfs ks Hks) as (ks' & Hks' & Hkk). pose proof (same_ids_acceptable _ _ _ Hkk Hco) as Hco'.
  assert (map k_id ks' = map k_id ks) as Ei by (symmetry; clear -Hkk; induction Hkk as [|? ? ? ? [E _]]; cbn; congruence).
  destruct (param_function ks' (pa_params a)) as (key' & Hkey'); [rewrite Ei, (decl_ids_p _ _ Hks); exact Ni|rewrite (decl_names_p _ _ Hks'); exact N2|exact Hco'|].
  pose proof (renamed_key ap_id ap_name param_decl param_type HD param_type_fun _ _ Hfs ks ks') as HRK.
  set (R := fun n n' : string => exists f f', In (f, f') (combine (pad_params d) (pad_params d')) /\ ap_name f = n /\ ap_name f' = n') in *.
  assert (forall m m' n n' t, R n n' -> Typed (param_scope ks) (EParam m n) t -> Typed (param_scope ks') (EParam m' n') t) as TP.
  { intros m m' n n' t HRn' Ht. inversion Ht as [| | |keys ? ? ? EG Hd Hus| | | | | | |]; subst. injection EG as <-. apply declared_in in Hd as (k & Hk & En & Et). destruct (HRK n n' k N1 Hks Hks' HRn' Hk En) as (k' & Hk' & En' & _ & Et').
    econstructor; [reflexivity|apply declared_in; exists k'; split; [exact Hk'|]; split; [exact En'|congruence]|exact Hus]. }
  assert (forall m m' n n' t, R n n' -> Typed (param_scope ks) (EKey m n) t -> Typed (param_scope ks') (EKey m' n') t) as TK.
  { intros m m' n n' t _ Ht. inversion Ht. discriminate. }
  exists ks', cs', e', key'. split; [exact Hks'|]. split; [exact Hr'|]. split; [exact Hra'|]. split; [exact Hco'|]. split; [exact Hkey'|]. split; [eapply renamed_typed; eauto|].
  eapply (renamed_meant R (param_scope ks) (param_scope ks') TK TP unordered_exact (ActionEnv key) (ActionEnv key')); [| | |exact HRn|exact HM].
  - intros m m' n n' v _ Hv. inversion Hv. discriminate.
  - intros m m' n n' v HRn' Hv. inversion Hv as [| | |p0 ? ? ? Er Ek| | | | | | |]; subst. injection Er as <-. econstructor; [reflexivity|]. apply Hkey'. apply Hkey in Ek.
    destruct Ek as (k & s & Hk & Hi & -> & ->). destruct (HRK _ n' k N1 Hks Hks' HRn' Hk eq_refl) as (k' & Hk' & En' & Eid & Et). exists k', s. rewrite Eid. auto.
  - intros m m' n v Hv. inversion Hv. discriminate.
Qed.

(** * Loading *)
Lemma renamed_load_table pton d d' : pton_ok pton -> renamed_table pton d d' -> NoDup (map mf_name (pt_match_fields d')) -> loadable_table pton d -> loadable_table pton d'.
Proof.
  intros Hp (_ & Hfs & HR) N2 (ks & Hks & Ni & N1 & Hc). assert (NoDup (map mf_id (pt_match_fields d'))) as Ni'. { erewrite <- (forall2_map_eq _ mf_id mf_id); [exact Ni| |exact Hfs]. cbn. tauto. }
  apply same_fields in Hfs.
  assert (forall f k, key_decl f k <-> k_id k = mf_id f /\ k_name k = mf_name f /\ key_type f (k_type k)) as HD by (intros; reflexivity).
  destruct (renamed_decls mf_id mf_name key_decl key_type HD _ _ Hfs ks Hks) as (ks' & Hks' & Hkk). exists ks'. split; [exact Hks'|]. split; [exact Ni'|]. split; [exact N2|].
  destruct HR as [Hu Hu'|cs1 cs' e1 e' Hr1 Hr' Hra1 Hra' HRn]; [now left|]. right. destruct Hc as [Hu|(cs & e & t & Hr & Hra & Hty)]; [exfalso; exact (restricted_not _ _ _ Hu Hr1)|].
  rewrite (restricted_fun _ _ _ _ Hr1 Hr) in Hra1. rewrite (reads_as_fun _ _ _ _ _ Hp Hra1 Hra) in HRn. exists cs', e', t. split; [exact Hr'|]. split; [exact Hra'|].
  pose proof (renamed_key mf_id mf_name key_decl key_type HD key_type_fun _ _ Hfs ks ks') as HRK.
  eapply renamed_typed; [| |exact HRn|exact Hty].
  - intros m m' n n' t' HRn' Ht. inversion Ht as [| |keys ? ? ? EG Hd Hus| | | | | | | |]; subst. injection EG as <-. apply declared_in in Hd as (k & Hk & En & Et). destruct (HRK n n' k N1 Hks Hks' HRn' Hk En) as (k' & Hk' & En' & _ & Et').
    econstructor; [reflexivity|apply declared_in; exists k'; split; [exact Hk'|]; split; [exact En'|congruence]|exact Hus].
  - intros m m' n n' t' _ Ht. inversion Ht. discriminate.
Qed.
Lemma renamed_load_action pton d d' : pton_ok pton -> renamed_action pton d d' -> NoDup (map ap_name (pad_params d')) -> loadable_action pton d -> loadable_action pton d'.
Proof.
  intros Hp (_ & Hfs & HR) N2 (ks & Hks & Ni & N1 & Hc). assert (NoDup (map ap_id (pad_params d'))) as Ni'. { erewrite <- (forall2_map_eq _ ap_id ap_id); [exact Ni| |exact Hfs]. cbn. tauto. }
  apply same_params in Hfs.
  assert (forall f k, param_decl f k <-> k_id k = ap_id f /\ k_name k = ap_name f /\ param_type f (k_type k)) as HD by (intros; reflexivity).
  destruct (renamed_decls ap_id ap_name param_decl param_type HD _ _ Hfs ks Hks) as (ks' & Hks' & Hkk). exists ks'. split; [exact Hks'|]. split; [exact Ni'|]. split; [exact N2|].
  destruct HR as [Hu Hu'|cs1 cs' e1 e' Hr1 Hr' Hra1 Hra' HRn]; [now left|]. right. destruct Hc as [Hu|(cs & e & t & Hr & Hra & Hty)]; [exfalso; exact (restricted_not _ _ _ Hu Hr1)|].
  rewrite (restricted_fun _ _ _ _ Hr1 Hr) in Hra1. rewrite (reads_as_fun _ _ _ _ _ Hp Hra1 Hra) in HRn. exists cs', e', t. split; [exact Hr'|]. split; [exact Hra'|].
  pose proof (renamed_key ap_id ap_name param_decl param_type HD param_type_fun _ _ Hfs ks ks') as HRK.
  eapply renamed_typed; [| |exact HRn|exact Hty].
  - intros m m' n n' t' _ Ht. inversion Ht. discriminate.
  - intros m m' n n' t' HRn' Ht. inversion Ht as [| | |keys ? ? ? EG Hd Hus| | | | | | |]; subst. injection EG as <-. apply declared_in in Hd as (k & Hk & En & Et). destruct (HRK n n' k N1 Hks Hks' HRn' Hk En) as (k' & Hk' & En' & _ & Et').
    econstructor; [reflexivity|apply declared_in; exists k'; split; [exact Hk'|]; split; [exact En'|congruence]|exact Hus].
Qed.
Lemma renamed_sym pton p p' : renamed pton p p' -> renamed pton p' p.
Proof. intros [H1 H2]. split; [revert H1|revert H2]; apply forall2_sym; [apply renamed_table_sym|apply renamed_action_sym]. Qed.
