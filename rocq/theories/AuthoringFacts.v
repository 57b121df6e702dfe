(** The statements of C114 from the lemmas of AuthoringProofs.v. *)
From Verif Require Import Prelude Version VersionProofs ValidateErr Native Split Lineage LineageProofs BindFacts.
From Verif Require Import CueFrag CueSem CueProofs HydrateSem CueEval CueEvalSem CueEvalWitness
  Authoring AuthoringProofs AuthoringWitness.
Local Open Scope string_scope.
Local Open Scope list_scope.

Section P.
Variable errs : cval -> verr.
Notation ev := (cue_fragment errs).

Lemma bound_allv : forall id fv name ss ls opts l,
  BindLineage ev id fv CLinDef (Atom (CLin name ss ls)) opts = Ok l ->
  entry_versions (map centry ss) = Some (l_allv l).
Proof.
  intros id fv name ss ls opts l B. pose proof (bind_shape_inv ev _ _ _ _ _ _ B) as A.
  assert (U : l_raw l = CLin name ss ls /\ l_uni l = CLin name ss ls).
  { destruct A as [A _]. cbn in A. injection A as A1 A2. auto. }
  destruct U as [U1 U2]. rewrite U1, U2 in A.
  rewrite (bind_shape ev id fv CLinDef _ opts _ _ A) in B. cbv zeta in B.
  change (checkGoValidity ev (make_cfg fv opts) (CLin name ss ls))
    with (check_schemas ev (make_cfg fv opts) None (map centry ss)) in B.
  destruct (check_schemas ev (make_cfg fv opts) None (map centry ss)) as [sl|y| |] eqn:E; cbn [bind] in B; try discriminate.
  destruct (checkLensesOrder ev _ _ _) as [lm|y| |]; cbn [bind] in B; try discriminate.
  injection B as <-. cbn. eapply checked_versions. exact E.
Qed.

Lemma next_allv : forall id fv name ss ls opts l a b def body a' b' def' body' l',
  BindLineage ev id fv CLinDef (Atom (CLin name (ss ++ [((Some a, Some b), (def, body))]) ls)) opts = Ok l ->
  BindLineage ev id fv CLinDef
    (Atom (CLin name (ss ++ [((Some a, Some b), (def, body)); ((Some a', Some b'), (def', body'))]) ls)) opts = Ok l' ->
  l_allv l' = l_allv l ++ [(a', b')].
Proof.
  intros id fv name ss ls opts l a b def body a' b' def' body' l' B B'.
  apply bound_allv in B. apply bound_allv in B'.
  change [(Some a, Some b, (def, body)); (Some a', Some b', (def', body'))]
    with ([(Some a, Some b, (def, body))] ++ [(Some a', Some b', (def', body'))]) in B'.
  rewrite app_assoc, map_app in B'. cbn [map] in B'.
  rewrite (entry_versions_app _ _ (centry (Some a', Some b', (def', body'))) a' b' B eq_refl eq_refl) in B'. injection B' as <-. reflexivity.
Qed.

Lemma publish_compatible : forall id fv name ss ls opts l a b def body a' b' def' body',
  BindLineage ev id fv CLinDef (Atom (CLin name (ss ++ [((Some a, Some b), (def, body))]) ls)) opts = Ok l ->
  negb fv && existsb is_skip opts = false -> flat_map lenses_of opts = [] ->
  vle (a, b) (a', b') -> counts_ok (l_allv l ++ [(a', b')]) = true -> widens def def' ->
  let again := BindLineage ev id fv CLinDef
    (Atom (CLin name (ss ++ [((Some a, Some b), (def, body)); ((Some a', Some b'), (def', body'))]) ls)) opts in
  (b' <> 0%N -> exists l', again = Ok l' /\ l_allv l' = l_allv l ++ [(a', b')]) /\
  (b' = 0%N -> again = Err (mkErr [ErrInvalidLineage] (major_text (a', b') (a, b)))).
Proof.
  intros id fv name ss ls opts l a b def body a' b' def' body' B Sk Hl Hv Hc W again.
  destruct (publish_one errs id fv name ss ls opts l a b def body a' b' def' body' B Sk Hl Hv Hc) as [K1 [K2 _]].
  fold again in K1, K2. apply widens_subs in W. split.
  - intros Hb. destruct K1 as [l' K1].
    + rewrite W. apply N.eqb_neq in Hb. rewrite Hb. reflexivity.
    + exists l'. split; [exact K1|]. eapply next_allv; [exact B|exact K1].
  - intros Hb. apply K2; assumption.
Qed.

Lemma publish_breaking : forall id fv name ss ls opts l a b def body a' b' def' body',
  BindLineage ev id fv CLinDef (Atom (CLin name (ss ++ [((Some a, Some b), (def, body))]) ls)) opts = Ok l ->
  negb fv && existsb is_skip opts = false -> flat_map lenses_of opts = [] ->
  vle (a, b) (a', b') -> counts_ok (l_allv l ++ [(a', b')]) = true -> breaks def def' ->
  let again := BindLineage ev id fv CLinDef
    (Atom (CLin name (ss ++ [((Some a, Some b), (def, body)); ((Some a', Some b'), (def', body'))]) ls)) opts in
  (b' = 0%N -> exists l', again = Ok l' /\ l_allv l' = l_allv l ++ [(a', b')]) /\
  (b' <> 0%N -> again = Err (mkErr [ErrInvalidLineage] (minor_text (a', b') (a, b)))).
Proof.
  intros id fv name ss ls opts l a b def body a' b' def' body' B Sk Hl Hv Hc W again.
  destruct (publish_one errs id fv name ss ls opts l a b def body a' b' def' body' B Sk Hl Hv Hc) as [K1 [_ K2]].
  fold again in K1, K2. apply breaks_subs in W. split.
  - intros ->. destruct K1 as [l' K1]; [rewrite W; reflexivity|].
    exists l'. split; [exact K1|]. eapply next_allv; [exact B|exact K1].
  - intros Hb. apply K2; assumption.
Qed.
End P.

Lemma kinds_disjoint : forall v v', widens v v' ->
  ~ breaks v v' /\ (forall d, inst v d = true -> inst v' d = true).
Proof.
  intros v v' W. apply widens_subs in W. split.
  - intros B. apply breaks_subs in B. congruence.
  - intros d. apply subs_sound. exact W.
Qed.

Lemma default_added : forall name fs body l v body' errs id x,
  ~ has_field l fs -> eval v None = Con x ->
  let with_default ma mi := BindLineage (cue_fragment errs) id false CLinDef
    (Atom (CLin name [((Some 0, Some 0), (VStruct fs None, body));
                      ((Some ma, Some mi), (VStruct (fs ++ [(l, false, v)]) None, body'))]%N [])) [] in
  (forall d, valid (VStruct fs None) d -> valid (VStruct (fs ++ [(l, false, v)]) None) d) /\
  with_default 0%N 1%N = Err (mkErr [ErrInvalidLineage] (minor_text (0, 1) (0, 0))%N) /\
  exists r, with_default 1%N 0%N = Ok r.
Proof.
  intros name fs body l v body' errs id x Hl Ev with_default. split.
  - intros d. apply (added_default_valid fs l v x d Hl Ev).
  - exact (default_not_compatible name fs body l v body' errs id Hl).
Qed.

Lemma guide_optional : widens first_only (second true (VType TInt)).
Proof.
  apply w_struct; [repeat (constructor; [cbn; intuition discriminate|]); constructor|].
  apply fw_field; [auto|apply w_same; exact I|]. apply fw_added. apply fw_nil.
Qed.

Lemma guide_required : breaks first_only (second false (VType TInt)).
Proof.
  apply (b_added "secondfield" (VType TInt)); [intros [o [w [K|[]]]]; discriminate|]. right. left. reflexivity.
Qed.
