(** The advice in the errors of [BindLineage]. *)
From Verif Require Import Prelude Strings Version VersionProofs Search SearchProofs ValidateErr Native NativeProofs
  Split Lineage LineageProofs GoLensProofs BindFacts BindErrorProofs.
From Verif Require Import CueFrag CueSem CueProofs HydrateSem CueEval CueEvalSem CueEvalWitness
  Authoring AuthoringProofs AuthoringWitness AuthoringFacts.
From Coq Require Import ZArith Lia.
Local Open Scope string_scope.
Local Open Scope list_scope.

(** *** One more schema of the same major version *)

Lemma last_from {A} (l : list A) : forall x d, last (x :: l) d = last l x.
Proof.
  induction l as [|y l IH]; intros x d; [reflexivity|].
  change (last (y :: l) d = last (y :: l) x). rewrite !IH. reflexivity.
Qed.

Lemma pos_from_same i : forall prev rest (w : version), fst w = fst (last rest prev) ->
  pos_from i prev (rest ++ [w]) = pos_from i prev rest.
Proof.
  intros prev rest. revert i prev. induction rest as [|v rest IH]; intros i prev w H; cbn [app pos_from].
  - cbn in H. rewrite H, N.ltb_irrefl. reflexivity.
  - f_equal. apply IH. rewrite last_from in H. exact H.
Qed.

Lemma pos_from_ge i : forall prev rest p, In p (pos_from i prev rest) -> (i < p)%Z.
Proof.
  intros prev rest. revert i prev. induction rest as [|v rest IH]; intros i prev p H; [destruct H|].
  cbn [pos_from] in H. apply in_app_or in H as [H|H].
  - destruct (_ <? _)%N in H; [destruct H as [<-|[]]; lia|destruct H].
  - specialize (IH _ _ _ H). lia.
Qed.

Definition in64 (c : Z) : bool := ((0 <=? c) && (c <=? max64))%Z.

Lemma counts_from_more rest : forall seen total last,
  (forall p, In p rest -> (0 <= p)%Z) -> (0 <= last)%Z -> (total < max64)%Z ->
  forallb in64 (counts_from seen rest total last) = true ->
  forallb in64 (counts_from seen rest (total + 1) last) = true.
Proof.
  induction rest as [|p rest IH]; intros seen total last Hp Hl Ht H; cbn [counts_from forallb] in *.
  - rewrite andb_true_r in *. unfold in64 in *. apply andb_prop in H as [H1 H2].
    apply Z.leb_le in H1, H2. apply andb_true_intro. split; apply Z.leb_le; lia.
  - apply andb_prop in H as [H1 H2]. rewrite H1. cbn [andb]. apply IH; auto.
    + intros q Hq. apply Hp. right. exact Hq.
    + apply Hp. left. reflexivity.
Qed.

Lemma counts_next vs (a b c : N) : (Z.of_nat (length vs) < max64)%Z ->
  counts_ok (vs ++ [(a, b)]) = true -> (Z.of_nat (length (vs ++ [(a, b)])) < max64)%Z ->
  counts_ok (vs ++ [(a, b); (a, c)]) = true.
Proof.
  intros Hn H Hm. unfold counts_ok in *. fold in64 in *.
  change (fun c => ((0 <=? c) && (c <=? max64))%Z) with in64 in *.
  destruct vs as [|v vs].
  - cbn. rewrite N.ltb_irrefl. reflexivity.
  - cbn [app] in *. unfold counts in *.
    assert (E1 : exists x r, vs ++ [(a, b)] = x :: r) by (destruct vs; cbn; eauto). destruct E1 as (x & r & E1).
    assert (E2 : exists x r, vs ++ [(a, b); (a, c)] = x :: r) by (destruct vs; cbn; eauto). destruct E2 as (x2 & r2 & E2).
    rewrite E1 in H, Hm. rewrite E2. rewrite <- E1 in H, Hm. rewrite <- E2.
    replace (vs ++ [(a, b); (a, c)]) with ((vs ++ [(a, b)]) ++ [(a, c)]) by (rewrite <- app_assoc; reflexivity).
    rewrite pos_from_same by (rewrite last_last; reflexivity).
    match goal with |- context [counts_from 0 _ ?t 0] =>
      assert (L : t = (Z.of_nat (length (v :: vs ++ [(a, b)])) + 1)%Z)
        by (cbn [length]; rewrite !app_length; cbn [length]; lia) end.
    rewrite L.
    apply counts_from_more; auto; [|lia].
    intros p Hp. apply pos_from_ge in Hp. lia.
Qed.

Lemma entry_versions_snoc : forall es e vs, @entry_versions cval (es ++ [e]) = Some vs ->
  exists vs' a b, se_major e = Some a /\ se_minor e = Some b /\ vs = vs' ++ [(a, b)].
Proof.
  induction es as [|f es IH]; intros e vs H; cbn [app entry_versions] in H.
  - destruct (se_major e) as [a|], (se_minor e) as [b|]; try discriminate. injection H as <-.
    exists [], a, b. auto.
  - destruct (se_major f) as [a|], (se_minor f) as [b|]; try discriminate.
    destruct (entry_versions (es ++ [e])) as [ws|] eqn:E; [|discriminate]. injection H as <-.
    destruct (IH _ _ E) as (vs' & a' & b' & H1 & H2 & ->). exists ((a, b) :: vs'), a', b'. auto.
Qed.

Lemma bound_counts errs : forall id fv name ss ls opts l,
  BindLineage (cue_fragment errs) id fv CLinDef (Atom (CLin name ss ls)) opts = Ok l ->
  counts_ok (l_allv l) = true.
Proof.
  intros id fv name ss ls opts l B. pose proof (bound_allv errs _ _ _ _ _ _ _ B) as V.
  pose proof (bind_shape_inv _ _ _ _ _ _ _ B) as A.
  assert (U : l_uni l = CLin name ss ls).
  { destruct A as [A _]. cbn in A. injection A as A1 A2. auto. }
  destruct A as [_ [_ [A _]]]. rewrite U in A. unfold checkLineageShape in A.
  destruct (check_fields _ _ _); cbn [bind] in A; try discriminate.
  destruct (ev_final _ _ && native_ok (cue_fragment errs) (CLin name ss ls)) eqn:N in A; [|discriminate].
  apply andb_prop in N as [_ N]. unfold native_ok in N.
  change (ev_schemas (cue_fragment errs) (CLin name ss ls)) with (Some (map centry ss)) in N.
  destruct (map centry ss) as [|e es]; [discriminate|]. rewrite V in N. exact N.
Qed.

(** A schema that was rejected as the first of a new major version, for any
    reason, is accepted under the version that the error proposes. *)
Lemma redeclare errs : forall id fv name ss ls opts l a b def body c def' body' x,
  BindLineage (cue_fragment errs) id fv CLinDef
    (Atom (CLin name (ss ++ [((Some a, Some b), (def, body))]) ls)) opts = Ok l ->
  negb fv && existsb is_skip opts = false -> flat_map lenses_of opts = [] ->
  (Z.of_nat (length (l_allv l)) < max64)%Z ->
  vle (a, b) (c, 0%N) -> counts_ok (l_allv l ++ [(c, 0%N)]) = true ->
  BindLineage (cue_fragment errs) id fv CLinDef
    (Atom (CLin name (ss ++ [((Some a, Some b), (def, body)); ((Some c, Some 0%N), (def', body'))]) ls)) opts = Err x ->
  x = mkErr [ErrInvalidLineage]
        ("schema " ++ vstring (c, 0%N) ++ " must be backwards incompatible with schema " ++ vstring (a, b) ++
         ": introduce a breaking change, or redeclare as version " ++ vstring (a, b + 1)%N)%string /\
  exists l', BindLineage (cue_fragment errs) id fv CLinDef
    (Atom (CLin name (ss ++ [((Some a, Some b), (def, body)); ((Some a, Some (b + 1)%N), (def', body'))]) ls)) opts = Ok l' /\
    l_allv l' = l_allv l ++ [(a, b + 1)%N].
Proof.
  intros id fv name ss ls opts l a b def body c def' body' x B Sk Hl Hn Hv Hc F.
  destruct (publish_one errs id fv name ss ls opts l a b def body c 0 def' body' B Sk Hl Hv Hc) as [K1 [K2 _]].
  assert (SU : subs def' def = true).
  { destruct (subs def' def) eqn:E; [reflexivity|]. destruct (K1 eq_refl) as [l' K]. congruence. }
  split; [rewrite (K2 eq_refl SU) in F; injection F as <-; reflexivity|].
  assert (AL : exists vs, l_allv l = vs ++ [(a, b)]).
  { pose proof (bound_allv _ _ _ _ _ _ _ _ B) as A. rewrite map_app in A. cbn [map] in A.
    apply entry_versions_snoc in A as (vs & a' & b' & H1 & H2 & ->). cbn in H1, H2. injection H1 as <-.
    injection H2 as <-. eauto. }
  destruct AL as [vs AL].
  assert (CL : counts_ok (l_allv l) = true) by (eapply bound_counts; exact B).
  destruct (publish_one errs id fv name ss ls opts l a b def body a (b + 1) def' body' B Sk Hl) as [K _].
  - left. unfold vlt. cbn. lia.
  - rewrite AL in *. rewrite <- app_assoc. cbn [app]. apply counts_next; auto.
    rewrite app_length in Hn. cbn in Hn. lia.
  - destruct K as [l' K].
    + rewrite SU. destruct (N.eqb_spec (b + 1) 0); [lia|reflexivity].
    + exists l'. split; [exact K|]. eapply next_allv; [exact B|exact K].
Qed.
