(** Lineages with a joinSchema: what their schemas accept. *)
From Verif Require Import Prelude Version VersionProofs ValidateErr Split Lineage Search SearchProofs LineageProofs WalkProofs WalkFacts
  BindFacts.
From Verif Require Import CueFrag CueSem CueProofs Hydrate HydrateSem HydrateProofs HydrateFacts UnifyProofs
  CueEval CueEvalSem CueEvalProofs CueEvalFacts CueEvalBind CueEvalWitness CueKeepProofs.
From Verif Require Import Join JoinSem JoinProofs Traverse.
From Coq Require Import Sorting.Sorted.
Local Open Scope string_scope.
Local Open Scope list_scope.

Local Notation extends := CueEvalSem.extends.

Lemma known_extends : forall d r, extends d r -> forall u w, known u w r -> known u w d.
Proof.
  intros d. induction d as [a|l IH|l IH] using data_ind'; intros r E u w K.
  - constructor.
  - inversion E as [|l' m F|]; subst. constructor. intros i x Hx. rewrite Forall_forall in IH.
    assert (N : exists y, nth_error m i = Some y /\ extends x y).
    { clear - F Hx. revert i Hx. induction F as [|a b l m H F IHF]; intros i Hx; [destruct i; discriminate|].
      destruct i as [|i]; cbn in Hx |- *; [injection Hx as <-; eauto|auto]. }
    destruct N as [y [Hy Ey]]. apply (IH x (nth_error_In _ _ Hx) y Ey).
    apply (known_list_inv _ _ _ K i y Hy).
  - inversion E as [| |l' m F]; subst. apply known_struct_inv in K as [[-> ->]|K]; [constructor|].
    constructor. intros k x Hx. destruct (F k x Hx) as [y [Hy Ey]]. destruct (K k y Hy) as [K1 K2].
    split; [exact K1|]. rewrite Forall_forall in IH. apply (IH _ Hx y Ey). exact K2.
Qed.

Section J.
Variable errs : cval -> verr.
Notation ev := (cue_fragment errs).

(** Binding takes the schemas as declared. *)
Lemma bound_entries : forall id fv name ss ls opts l,
  BindLineage ev id fv CLinDef (Atom (CLin name ss ls)) opts = Ok l ->
  length (all_schemas l) = length ss /\
  forall i s, nth_error (all_schemas l) i = Some s ->
    exists a b def body, nth_error ss i = Some ((Some a, Some b), (def, body)) /\
      s_v s = (a, b) /\ sd_def (s_sd s) = CV def /\ sd_ref (s_sd s) = CEntry def body.
Proof.
  intros id fv name ss ls opts l B. pose proof (bind_shape_inv ev _ _ _ _ _ _ B) as A.
  assert (U : l_uni l = CLin name ss ls).
  { destruct A as [A _]. cbn in A. injection A as _ A. symmetry. exact A. }
  rewrite U in A.
  destruct (bind_schemas_rule ev id fv CLinDef (Atom (CLin name ss ls)) opts _ _
    (map (fun s => mkEntry (fst (fst s)) (snd (fst s)) (CEntry (fst (snd s)) (snd (snd s)))) ss) A eq_refl)
    as [R _].
  destruct (R l B) as [_ F]. split.
  { rewrite all_schemas_length. clear - F. apply Forall2_len in F. rewrite map_length in F. symmetry. exact F. }
  intros i s Hs. rewrite all_schemas_nth in Hs.
  destruct (nth_error (l_sch l) i) as [sd|] eqn:Hd; [|discriminate]. injection Hs as <-. cbn [s_sd].
  pose proof (forall2_nth _ _ _ F i) as Fi. rewrite nth_error_map, Hd in Fi.
  destruct (nth_error ss i) as [[[ma mb] [def body]]|] eqn:Hi; cbn in Fi; [|contradiction].
  destruct Fi as [F1 [F2 F3]]. unfold entry_v in F1. cbn in F1, F2, F3.
  destruct ma as [a|], mb as [b|]; try discriminate. exists a, b, def, body.
  split; [reflexivity|]. split; [unfold s_v; cbn; congruence|]. split; [exact F3|exact F2].
Qed.

Lemma join_entries : forall id fv name j ss ls opts l,
  BindLineage ev id fv CLinDef (Atom (join_lineage name j ss ls)) opts = Ok l ->
  length (all_schemas l) = length ss /\
  forall i s, nth_error (all_schemas l) i = Some s ->
    exists a b body, nth_error ss i = Some ((Some a, Some b), body) /\
      s_v s = (a, b) /\ sd_def (s_sd s) = CV (schema_handle j body) /\
      sd_ref (s_sd s) = CEntry (schema_handle j body) body.
Proof.
  intros id fv name j ss ls opts l B. unfold join_lineage in B. apply bound_entries in B as [L E].
  rewrite map_length in L. split; [exact L|]. intros i s Hs.
  destruct (E i s Hs) as [a [b [def [body [H1 [H2 [H3 H4]]]]]]]. rewrite nth_error_map in H1.
  destruct (nth_error ss i) as [[v body']|] eqn:N; [|discriminate]. cbn in H1. injection H1 as -> <- <-.
  exists a, b, body'. auto.
Qed.

Lemma validated : forall (s : schema cval) v d i, sd_def (s_sd s) = CV v -> CueSem.wf v -> dwf d ->
  validate ev s (CV (embed d)) = Ok i -> exists r, extends d r /\ inst v r = true.
Proof.
  intros s v d i E W D H. apply validate_ok in H as [H _]. apply (conforms_con errs s v (embed d) E) in H as [r H].
  pose proof (CueKeepProofs.wf_embed d D) as We.
  apply (eval_inst _ (CueKeepProofs.wf_unify v W (embed d) We)) in H.
  rewrite (inst_unify v W (embed d) We) in H. apply andb_true_iff in H as [H1 H2].
  exists r. split; [apply inst_embed_extends; assumption|exact H1].
Qed.

Lemma wf_handle : forall j body, CueSem.wf j -> CueSem.wf body -> CueSem.wf (schema_handle j body).
Proof.
  intros j body Wj Wb. unfold schema_handle. apply wf_close. apply CueKeepProofs.wf_unify; [|exact Wb].
  unfold join_of. destruct (is_bot j); [exact I|exact Wj].
Qed.

Lemma simple_handle : forall j body, simple j = true -> simple body = true -> simple (schema_handle j body) = true.
Proof.
  intros j body Sj Sb. unfold schema_handle. apply simple_close, simple_unify; [|exact Sb].
  unfold join_of. destruct (is_bot j); [reflexivity|exact Sj].
Qed.

(** What any schema of the lineage accepts is, completed, an instance of the
    joinSchema. *)
Lemma join_governs : forall id fv name j ss ls opts l,
  BindLineage ev id fv CLinDef (Atom (join_lineage name j ss ls)) opts = Ok l ->
  CueSem.wf j -> (forall v body, In (v, body) ss -> CueSem.wf body) -> j <> VBot ->
  forall k s, nth_error (all_schemas l) k = Some s ->
  exists a b body, nth_error ss k = Some ((Some a, Some b), body) /\ s_v s = (a, b) /\
    forall d i, dwf d -> validate ev s (CV (embed d)) = Ok i ->
      (exists r, extends d r /\ inst j r = true /\ inst body r = true) /\
      (simple j = true -> simple body = true -> known j body d).
Proof.
  intros id fv name j ss ls opts l B Wj Wss NB k s Hs.
  apply join_entries in B as [_ E]. destruct (E k s Hs) as [a [b [body [H1 [H2 [H3 _]]]]]].
  exists a, b, body. split; [exact H1|]. split; [exact H2|]. intros d i D V.
  assert (Wb : CueSem.wf body) by (apply (Wss _ _ (nth_error_In _ _ H1))).
  destruct (validated s _ d i H3 (wf_handle j body Wj Wb) D V) as [r [Er Ir]].
  assert (J : join_of j = j) by (unfold join_of; destruct j; try reflexivity; contradiction).
  split.
  - exists r. apply handle_inst in Ir as [I1 I2]; [|assumption|assumption]. rewrite J in I1. auto.
  - intros Sj Sb. apply handle_exact in Ir as [_ [_ K]]; try assumption. apply (known_extends d r Er). exact K.
Qed.

(** Complete data is accepted when it is an instance of both and all its fields are
    named. *)
Lemma join_accepts : forall id fv name j ss ls opts l,
  BindLineage ev id fv CLinDef (Atom (join_lineage name j ss ls)) opts = Ok l ->
  CueSem.wf j -> simple j = true -> (forall v body, In (v, body) ss -> CueSem.wf body /\ simple body = true) -> j <> VBot ->
  forall k s, nth_error (all_schemas l) k = Some s ->
  exists v body, nth_error ss k = Some (v, body) /\
    forall d, dwf d -> inst j d = true -> inst body d = true ->
      (known j body d -> validate ev s (CV (embed d)) = Ok (mkInst (CV (embed d)) "" s true)) /\
      (~ known j body d -> forall i, validate ev s (CV (embed d)) <> Ok i).
Proof.
  intros id fv name j ss ls opts l B Wj Sj Wss NB k s Hs.
  pose proof (join_governs id fv name j ss ls opts l B Wj (fun v b H => proj1 (Wss v b H)) NB k s Hs)
    as [a [b [body [H1 [_ G]]]]].
  apply join_entries in B as [_ E]. destruct (E k s Hs) as [a' [b' [body' [H1' [_ [H3 _]]]]]].
  rewrite H1 in H1'. injection H1' as <- <- <-.
  exists (Some a, Some b), body. split; [exact H1|]. intros d D Ij Ib.
  destruct (Wss _ _ (nth_error_In _ _ H1)) as [Wb Sb]. split.
  - intros K. apply (validate_exact errs s _ d H3 (wf_handle j body Wj Wb) D).
    exists d. apply inst_eval; [apply simple_handle; assumption|]. apply handle_exact; auto.
  - intros K i V. apply K. apply (G d i D V); assumption.
Qed.

(** Comparing two lineages looks at the bodies of their schemas only. *)
Lemma append_only_bodies : forall id1 fv1 n1 j1 ss1 ls1 o1 l1 id2 fv2 n2 j2 ss2 ls2 o2 l2
    id1' fv1' n1' j1' ls1' o1' l1' id2' fv2' n2' j2' ls2' o2' l2',
  BindLineage ev id1 fv1 CLinDef (Atom (join_lineage n1 j1 ss1 ls1)) o1 = Ok l1 ->
  BindLineage ev id2 fv2 CLinDef (Atom (join_lineage n2 j2 ss2 ls2)) o2 = Ok l2 ->
  BindLineage ev id1' fv1' CLinDef (Atom (join_lineage n1' j1' ss1 ls1')) o1' = Ok l1' ->
  BindLineage ev id2' fv2' CLinDef (Atom (join_lineage n2' j2' ss2 ls2')) o2' = Ok l2' ->
  isAppendOnly ev l1 l2 = Ok tt -> isAppendOnly ev l1' l2' = Ok tt.
Proof.
  intros id1 fv1 n1 j1 ss1 ls1 o1 l1 id2 fv2 n2 j2 ss2 ls2 o2 l2
    id1' fv1' n1' j1' ls1' o1' l1' id2' fv2' n2' j2' ls2' o2' l2' B1 B2 B1' B2' H.
  apply join_entries in B1 as [L1 E1]. apply join_entries in B2 as [L2 E2].
  apply join_entries in B1' as [L1' E1']. apply join_entries in B2' as [L2' E2'].
  apply append_only_spec in H as [H1 H2]. apply append_only_spec. split; [congruence|].
  intros i o n Ho Hn.
  destruct (E1' i o Ho) as [a [b [body [Q1 [_ [_ R1]]]]]]. destruct (E2' i n Hn) as [a' [b' [body' [Q2 [_ [_ R2]]]]]].
  assert (Lo : i < length (all_schemas l1)) by (rewrite L1; apply nth_error_Some; congruence).
  assert (Ln : i < length (all_schemas l2)) by (rewrite L2; apply nth_error_Some; congruence).
  apply nth_error_Some in Lo. apply nth_error_Some in Ln.
  destruct (nth_error (all_schemas l1) i) as [o'|] eqn:Ho'; [|congruence].
  destruct (nth_error (all_schemas l2) i) as [n'|] eqn:Hn'; [|congruence].
  specialize (H2 i o' n' Ho' Hn').
  destruct (E1 i o' Ho') as [c [e [b1 [T1 [_ [_ U1]]]]]]. destruct (E2 i n' Hn') as [c' [e' [b2 [T2 [_ [_ U2]]]]]].
  rewrite Q1 in T1. injection T1 as <- <- <-. rewrite Q2 in T2. injection T2 as <- <- <-.
  unfold same_schema in *. rewrite R1, R2. rewrite U1, U2 in H2. cbn in *. exact H2.
Qed.

(** *** Searching in CUE *)

Lemma filter_first : forall {A} (f : A -> bool) l,
  match filter f l with
  | [] => forall x, In x l -> f x = false
  | x :: _ => exists i, nth_error l i = Some x /\ f x = true /\
      forall k y, k < i -> nth_error l k = Some y -> f y = false
  end.
Proof.
  intros A f l. induction l as [|a l IH]; [intros x []|]. cbn [filter]. destruct (f a) eqn:E.
  - exists 0. split; [reflexivity|]. split; [exact E|]. intros k y Hk. lia.
  - destruct (filter f l) as [|x r].
    + intros x [<-|Hx]; auto.
    + destruct IH as [i [H1 [H2 H3]]]. exists (S i). split; [exact H1|]. split; [exact H2|].
      intros [|k] y Hk Hy; [injection Hy as <-; exact E|]. apply (H3 k y); [lia|exact Hy].
Qed.

Lemma valid_for_first : forall lin v,
  match valid_for lin v with
  | Some ver => exists i def, nth_error (cue_schemas lin) i = Some (ver, def) /\
      eval (unify def v) None <> Bot /\
      forall k ver' def', k < i -> nth_error (cue_schemas lin) k = Some (ver', def') ->
        eval (unify def' v) None = Bot
  | None => forall ver def, In (ver, def) (cue_schemas lin) -> eval (unify def v) None = Bot
  end.
Proof.
  intros lin v. unfold valid_for.
  pose proof (filter_first (fun s => not_bottom (unify (snd s) v)) (cue_schemas lin)) as F.
  assert (NB : forall x, not_bottom x = false <-> eval x None = Bot).
  { intros x. unfold not_bottom. destruct (eval x None); cbn; split; congruence. }
  destruct (filter _ _) as [|[ver def] r].
  - intros ver def H. apply NB. exact (F _ H).
  - destruct F as [i [H1 [H2 H3]]]. exists i, def. split; [exact H1|]. split.
    + intros E. apply NB in E. cbn in H2. congruence.
    + intros k ver' def' Hk Hn. apply NB. exact (H3 k _ Hk Hn).
Qed.

(** The schema found in CUE is at or before every one that validates. *)
Lemma valid_for_before : forall id fv name ss ls opts l,
  BindLineage ev id fv CLinDef (Atom (CLin name ss ls)) opts = Ok l ->
  forall k s d i, nth_error (all_schemas l) k = Some s -> validate ev s (CV (embed d)) = Ok i ->
  exists m t, m <= k /\ nth_error (all_schemas l) m = Some t /\
    valid_for (CLin name ss ls) (embed d) = Some (Some (fst (s_v t)), Some (snd (s_v t))) /\
    vle (s_v t) (s_v s).
Proof.
  intros id fv name ss ls opts l B k s d i Hs V.
  assert (W : LineageProofs.wf l) by (apply (bound_wf ev); unfold bound; eauto 6).
  apply bound_entries in B as [L E].
  destruct (E k s Hs) as [a [b [def [body [H1 [H2 [H3 _]]]]]]].
  apply validate_ok in V as [V _]. apply (conforms_con errs s def (embed d) H3) in V as [r V].
  pose proof (valid_for_first (CLin name ss ls) (embed d)) as F.
  assert (Ck : nth_error (cue_schemas (CLin name ss ls)) k = Some ((Some a, Some b), def))
    by (cbn; rewrite nth_error_map, H1; reflexivity).
  destruct (valid_for (CLin name ss ls) (embed d)) as [ver|].
  - destruct F as [m [def' [F1 [F2 F3]]]].
    assert (Hm : m <= k).
    { destruct (Nat.le_gt_cases m k) as [Q|Q]; [exact Q|]. pose proof (F3 k _ _ Q Ck). congruence. }
    assert (Lm : m < length (all_schemas l)).
    { assert (k < length (all_schemas l)) by (apply nth_error_Some; congruence). lia. }
    apply nth_error_Some in Lm. destruct (nth_error (all_schemas l) m) as [t|] eqn:Ht; [|congruence].
    exists m, t. split; [exact Hm|]. split; [exact Ht|].
    destruct (E m t Ht) as [a' [b' [def'' [body' [Q1 [Q2 _]]]]]].
    cbn [cue_schemas] in F1. rewrite nth_error_map, Q1 in F1. cbn in F1. injection F1 as <- <-. split; [rewrite Q2; reflexivity|].
    apply (sorted_nth _ (wf_sorted l W) m k); [exact Hm| |]; apply sch_at_v; auto; apply all_schemas_at; assumption.
  - specialize (F _ _ (nth_error_In _ _ Ck)). congruence.
Qed.

(** [#SearchAndValidate] picks the same version, and returns its schema. *)
Lemma search_same : forall lin v,
  match search_and_validate lin v with
  | Some (ver, out) => valid_for lin v = Some ver /\
      exists i, nth_error (cue_schemas lin) i = Some (ver, out) /\ eval (unify out v) None <> Bot /\
      forall k ver' def', k < i -> nth_error (cue_schemas lin) k = Some (ver', def') ->
        eval (unify def' v) None = Bot
  | None => valid_for lin v = None
  end.
Proof.
  intros lin v. unfold search_and_validate, valid_for.
  pose proof (filter_first (fun s => not_bottom (unify (snd s) v)) (cue_schemas lin)) as F.
  destruct (filter _ _) as [|[ver out] r]; [reflexivity|]. cbn [fst snd]. split; [reflexivity|].
  assert (NB : forall x, not_bottom x = false <-> eval x None = Bot).
  { intros x. unfold not_bottom. destruct (eval x None); cbn; split; congruence. }
  destruct F as [i [H1 [H2 H3]]]. exists i. split; [exact H1|]. split.
  - intros E. apply NB in E. cbn in H2. congruence.
  - intros k ver' def' Hk Hn. apply NB. exact (H3 k _ Hk Hn).
Qed.

(** [ValidateAny] finds the same schema exactly when the data has all that the schema
    found in CUE wants. *)
Lemma search_agrees : forall id fv name ss ls opts l d fuel,
  BindLineage ev id fv CLinDef (Atom (CLin name ss ls)) opts = Ok l ->
  StronglySorted vlt (map s_v (all_schemas l)) ->
  (forall s, In s (all_schemas l) -> validate ev s (CV (embed d)) <> Panic) ->
  length (all_schemas l) <= fuel ->
  match search_and_validate (CLin name ss ls) (embed d) with
  | Some (ver, def) =>
      eval (unify def (embed d)) None <> Inc <->
      exists i, validateAny ev fuel l (CV (embed d)) = Ok (Some i) /\
        ver = (Some (fst (s_v (i_sch i))), Some (snd (s_v (i_sch i))))
  | None => validateAny ev fuel l (CV (embed d)) = Ok None
  end.
Proof.
  intros id fv name ss ls opts l d fuel B St R Hf.
  assert (Bd : bound ev l) by (unfold bound; eauto 6).
  pose proof (validate_any_spec ev l (CV (embed d)) fuel Bd St R Hf) as V.
  apply bound_entries in B as [L E].
  assert (At : forall k s, nth_error (all_schemas l) k = Some s -> exists def,
     nth_error (cue_schemas (CLin name ss ls)) k = Some ((Some (fst (s_v s)), Some (snd (s_v s))), def) /\
     (conforms ev s (CV (embed d)) <-> con (eval (unify def (embed d)) None))).
  { intros k s Hk. destruct (E k s Hk) as [a [b [def [body [H1 [H2 [H3 _]]]]]]]. exists def. split.
    - cbn. rewrite nth_error_map, H1. cbn. rewrite H2. reflexivity.
    - apply conforms_con. exact H3. }
  pose proof (search_same (CLin name ss ls) (embed d)) as F.
  destruct (search_and_validate (CLin name ss ls) (embed d)) as [[ver def]|].
  - destruct F as [_ [i [F1 [F2 F3]]]].
    assert (Li : i < length (all_schemas l)).
    { rewrite L. assert (i < length (cue_schemas (CLin name ss ls))) as Q by (apply nth_error_Some; congruence).
      cbn in Q. rewrite map_length in Q. exact Q. }
    apply nth_error_Some in Li. destruct (nth_error (all_schemas l) i) as [s|] eqn:Hs; [|congruence]. clear Li.
    destruct (At i s Hs) as [def' [G1 G2]]. rewrite F1 in G1. injection G1 as -> ->. rename def' into def.
    split.
    + intros N. assert (C : conforms ev s (CV (embed d))).
      { apply G2. unfold con. destruct (eval (unify def (embed d)) None); [congruence|congruence|eauto]. }
      destruct V as [[_ V]|[t [j [V1 [V2 [V3 [V4 [V5 [V6 V7]]]]]]]]].
      { destruct (V s (nth_error_In _ _ Hs)) as [e V']. assert (K := proj2 (validate_ok ev s (CV (embed d)) _) (conj C eq_refl)). congruence. }
      exists j. split; [exact V7|]. rewrite V4.
      assert (K : vle (s_v t) (s_v s)).
      { apply (V6 s (mkInst (CV (embed d)) "" s true)); [exact (nth_error_In _ _ Hs)|]. apply validate_ok. auto. }
      apply In_nth_error in V1 as [k Hk].
      destruct (Nat.lt_trichotomy k i) as [Q|[->|Q]].
      * destruct (At k t Hk) as [dk [K1 K2]]. apply validate_ok in V2 as [V2 _]. apply K2 in V2 as [x V2].
        rewrite (F3 k _ _ Q K1) in V2. discriminate.
      * rewrite Hs in Hk. injection Hk as <-. reflexivity.
      * exfalso. assert (Z : vlt (s_v s) (s_v t)).
        { apply (strict_nth _ St i k); [exact Q| |]; rewrite nth_error_map; [rewrite Hs|rewrite Hk]; reflexivity. }
        destruct K as [K|K]; [revert Z K|revert Z; rewrite K]; unfold vlt; lia.
    + intros [j [V7 Ej]] N. destruct V as [[V _]|[t [j' [V1 [V2 [V3 [V4 [V5 [V6 V8]]]]]]]]]; [congruence|].
      rewrite V7 in V8. injection V8 as <-. rewrite V4 in Ej. injection Ej as E1 E2.
      assert (Ev : s_v t = s_v s) by (rewrite (surjective_pairing (s_v t)), (surjective_pairing (s_v s)); congruence).
      apply In_nth_error in V1 as [k Hk].
      assert (k = i).
      { destruct (Nat.lt_trichotomy k i) as [Q|[Q|Q]]; [|exact Q|]; exfalso.
        - assert (Z : vlt (s_v t) (s_v s)).
          { apply (strict_nth _ St k i); [exact Q| |]; rewrite nth_error_map; [rewrite Hk|rewrite Hs]; reflexivity. }
          rewrite Ev in Z. revert Z. unfold vlt. lia.
        - assert (Z : vlt (s_v s) (s_v t)).
          { apply (strict_nth _ St i k); [exact Q| |]; rewrite nth_error_map; [rewrite Hs|rewrite Hk]; reflexivity. }
          rewrite Ev in Z. revert Z. unfold vlt. lia. }
      subst k. rewrite Hs in Hk. injection Hk as <-. apply validate_ok in V2 as [V2 _]. apply G2 in V2 as [x V2]. congruence.
  - pose proof (valid_for_first (CLin name ss ls) (embed d)) as G. rewrite F in G.
    destruct V as [[V _]|[t [j [V1 [V2 _]]]]]; [exact V|]. exfalso.
    apply In_nth_error in V1 as [k Hk]. destruct (At k t Hk) as [dk [K1 K2]].
    apply validate_ok in V2 as [V2 _]. apply K2 in V2 as [x V2].
    rewrite (G _ _ (nth_error_In _ _ K1)) in V2. discriminate.
Qed.
End J.
