(** Lemmas closing [PropertiesWalk.v]. *)
From Verif Require Import Prelude Version VersionProofs Search SearchProofs
  ValidateErr Native Split Lineage LineageProofs WalkProofs GoLensProofs BindFacts Toy.
From Coq Require Import Sorting.Sorted Arith ZifyBool ZifyN ZifyNat.
Local Open Scope string_scope.
Local Open Scope list_scope.

Section W.
Context {V : Type}.
Variable ev : evaluator V.

(** *** C11 *)
Lemma neighbours l : bound ev l -> strict_from_zero l ->
  (forall i s, nth_error (all_schemas l) i = Some s ->
     successor s = Ok (nth_error (all_schemas l) (S i)) /\
     predecessor s = Ok (match i with 0 => None | S j => nth_error (all_schemas l) j end)) /\
  (forall s t, In s (all_schemas l) -> In t (all_schemas l) ->
     (successor s = Ok (Some t) <-> predecessor t = Ok (Some s))) /\
  (exists f, first l = Ok f /\ forall fuel, length (all_schemas l) <= fuel ->
     follow successor fuel (Some f) = Ok (all_schemas l)) /\
  (exists t, latest l = Ok t /\ forall fuel, length (all_schemas l) <= fuel ->
     follow predecessor fuel (Some t) = Ok (rev (all_schemas l))).
Proof.
  intros B SZ. apply bound_wf in B as W.
  pose proof (sfz_strict l W SZ) as St. pose proof (sfz_zero l W SZ) as Z.
  assert (N : forall i s, nth_error (all_schemas l) i = Some s ->
     successor s = Ok (nth_error (all_schemas l) (S i)) /\
     predecessor s = Ok (match i with 0 => None | S j => nth_error (all_schemas l) j end)).
  { intros i s Hs. apply all_schemas_at in Hs as Hi. split.
    - rewrite (successor_strict l W St i s Hi).
      destruct (Nat.eqb_spec (i + 1) (length (l_sch l))) as [E|E].
      + f_equal. symmetry. apply nth_error_None. rewrite all_schemas_length. lia.
      + assert (Hlt : i < length (all_schemas l)) by (apply nth_error_Some; congruence).
        rewrite all_schemas_length in Hlt.
        destruct (sch_at_total l (i + 1) ltac:(lia)) as [n [Hn _]]. rewrite Hn. cbn [bind].
        apply all_schemas_at in Hn. rewrite Nat.add_1_r in Hn. rewrite Hn. reflexivity.
    - rewrite (predecessor_strict l W St Z i s Hi). destruct i as [|j]; [reflexivity|].
      assert (Hlt : S j < length (all_schemas l)) by (apply nth_error_Some; congruence).
      rewrite all_schemas_length in Hlt.
      destruct (sch_at_total l j ltac:(lia)) as [n [Hn _]]. rewrite Hn. cbn [bind].
      apply all_schemas_at in Hn. rewrite Hn. reflexivity. }
  split; [exact N|]. split; [|split].
  - intros s t Hs Ht. apply In_nth_error in Hs as [i Hi]. apply In_nth_error in Ht as [j Hj].
    destruct (N i s Hi) as [Si _]. destruct (N j t Hj) as [_ Pj]. rewrite Si, Pj.
    assert (Inj : forall a b x, nth_error (all_schemas l) a = Some x -> nth_error (all_schemas l) b = Some x -> a = b).
    { intros a b x Ha Hb. rewrite all_schemas_nth in Ha, Hb.
      destruct (nth_error (l_sch l) a); [|discriminate]. destruct (nth_error (l_sch l) b); [|discriminate].
      injection Ha as Ha. injection Hb as Hb. subst x. injection Hb as ->. congruence. }
    split; intros H; injection H as H.
    + assert (j = S i) by (eapply Inj; eauto). subst j. rewrite Hi. reflexivity.
    + destruct j as [|j]; [discriminate|]. assert (i = j) by (eapply Inj; eauto). subst j.
      rewrite Hj. reflexivity.
  - destruct (first_ok l W) as [f [F1 F2]]. exists f. split; [exact F1|]. intros fuel Hf.
    rewrite all_schemas_length in Hf.
    rewrite (follow_succ_from l W St (length (l_sch l)) 0 f fuel F1 ltac:(lia) Hf). reflexivity.
  - destruct (latest_ok l W) as [t [T1 T2]]. exists t. split; [exact T1|]. intros fuel Hf.
    apply all_schemas_at in T2. pose proof (wf_pos l W) as P.
    rewrite (follow_pred_from l W St Z _ t fuel T2) by (rewrite all_schemas_length in *; lia).
    rewrite firstn_all2; [reflexivity|]. lia.
Qed.

(** *** C12, what holds for all bound lineages *)
Lemma in_all_version (l : lineage V) s : wf l -> In s (all_schemas l) -> In (s_v s) (l_allv l) /\ s_lin s = l.
Proof.
  intros W H. split; [apply allv_in; [exact W|]; eauto|].
  apply In_nth_error in H as [i H]. apply all_schemas_at, sch_at_ok in H as [sd [_ ->]]. reflexivity.
Qed.

Lemma successor_total l s : bound ev l -> In s (all_schemas l) ->
  exists o, successor s = Ok o /\
    (forall t, o = Some t -> In t (all_schemas l)) /\
    (o = None <-> forall t, In t (all_schemas l) -> vle (s_v t) (s_v s)).
Proof.
  intros B Hin. apply bound_wf in B as W. destruct (in_all_version l s W Hin) as [Hv Hl].
  pose proof (wf_sorted l W) as Hs. pose proof (wf_pos l W) as P. pose proof (wf_length l W) as L.
  unfold successor. rewrite Hl.
  replace (Z.of_nat (length (l_allv l)) - 1)%Z with (Z.of_nat (length (l_allv l) - 1)) by lia.
  rewrite indexZ_nat. unfold index at 1.
  destruct (nth_error (l_allv l) (length (l_allv l) - 1)) as [last|] eqn:E.
  2:{ apply nth_error_None in E. lia. }
  cbn [bind].
  assert (Hmax : forall v, In v (l_allv l) -> vle v last).
  { intros v Hv'. apply In_nth_error in Hv' as [j Hj].
    assert (j < length (l_allv l)) by (apply nth_error_Some; congruence).
    apply (sorted_nth _ Hs j (length (l_allv l) - 1)); auto. lia. }
  destruct (veqb last (s_v s)) eqn:Q.
  - apply veqb_spec in Q. subst last. exists None. split; [reflexivity|]. split; [discriminate|].
    split; [|reflexivity]. intros _ t Ht. apply Hmax. apply (in_all_version l t W Ht).
  - apply veqb_false in Q.
    rewrite searchSynv_rank by exact Hs. cbn [bind].
    pose proof (rank_in _ _ Hs Hv) as R.
    assert (Hlt : rank (l_allv l) (s_v s) < length (l_allv l) - 1).
    { assert (rank (l_allv l) (s_v s) < length (l_allv l)) by (apply nth_error_Some; congruence).
      assert (rank (l_allv l) (s_v s) <> length (l_allv l) - 1); [|lia].
      intros K. rewrite K in R. congruence. }
    unfold index. destruct (nth_error (l_allv l) (rank (l_allv l) (s_v s) + 1)) as [sv|] eqn:N.
    2:{ apply nth_error_None in N. lia. }
    cbn [bind]. destruct (schema_v_in l W sv (nth_error_In _ _ N)) as [n [H1 [H2 [H3 [H4 H5]]]]].
    rewrite H1. cbn [bind]. exists (Some n). split; [reflexivity|]. split.
    + intros t Ht. injection Ht as <-. apply all_schemas_at in H5. eapply nth_error_In; eauto.
    + split; [discriminate|]. intros K. exfalso. apply Q.
      destruct (proj1 (allv_in l W last) (nth_error_In _ _ E)) as [t [Ht1 Ht2]].
      apply vle_antisym; [rewrite <- Ht2; apply K; exact Ht1|apply Hmax; exact Hv].
Qed.

Lemma predecessor_total l s : bound ev l -> In s (all_schemas l) ->
  match predecessor s with
  | Ok None => s_v s = synv0
  | Ok (Some t) => In t (all_schemas l) /\ vlt (s_v t) (s_v s) /\
      forall u, In u (all_schemas l) -> vlt (s_v u) (s_v s) -> vle (s_v u) (s_v t)
  | Panic => s_v s <> synv0 /\ forall u, In u (all_schemas l) -> vle (s_v s) (s_v u)
  | _ => False
  end.
Proof.
  intros B Hin. apply bound_wf in B as W. destruct (in_all_version l s W Hin) as [Hv Hl].
  pose proof (wf_sorted l W) as Hs. unfold predecessor. rewrite Hl.
  destruct (veqb (s_v s) synv0) eqn:Q; [apply veqb_spec in Q; exact Q|]. apply veqb_false in Q.
  rewrite searchSynv_rank by exact Hs. cbn [bind].
  pose proof (rank_in _ _ Hs Hv) as R.
  destruct (rank (l_allv l) (s_v s)) as [|j] eqn:Rk.
  - cbn. split; [exact Q|]. intros u Hu. destruct (in_all_version l u W Hu) as [Hu' _].
    apply In_nth_error in Hu' as [i Hi]. apply (sorted_nth _ Hs 0 i); auto. lia.
  - replace (Z.of_nat (S j) - 1)%Z with (Z.of_nat j) by lia. rewrite indexZ_nat. unfold index.
    destruct (nth_error (l_allv l) j) as [pv|] eqn:N.
    2:{ apply nth_error_None in N. assert (S j < length (l_allv l)) by (apply nth_error_Some; congruence). lia. }
    cbn [bind]. destruct (schema_v_in l W pv (nth_error_In _ _ N)) as [n [H1 [H2 [H3 [H4 H5]]]]].
    rewrite H1. cbn [bind]. split; [apply all_schemas_at in H5; eapply nth_error_In; eauto|].
    rewrite H2. assert (Hlt : vless pv (s_v s) = true) by (apply (rank_split _ Hs (s_v s) j pv N); lia).
    apply vless_spec in Hlt. split; [exact Hlt|].
    intros u Hu Lu. destruct (in_all_version l u W Hu) as [Hu' _].
    apply In_nth_error in Hu' as [i Hi].
    assert (i < rank (l_allv l) (s_v s)) by (apply (rank_split _ Hs (s_v s) i (s_v u) Hi), vless_spec; exact Lu).
    apply (sorted_nth _ Hs i j); auto. lia.
Qed.

(** *** C13 exact behaviour *)
Lemma latest_in_major_exact l s : bound ev l -> In s (all_schemas l) ->
  (fst (s_v s) + 1 < 2 ^ 64)%N ->
  match latestInMajor s with
  | Ok t => In t (all_schemas l) /\ (fst (s_v s) < fst (s_v t))%N /\
      forall u, In u (all_schemas l) -> (fst (s_v s) < fst (s_v u))%N -> vle (s_v t) (s_v u)
  | Panic => forall u, In u (all_schemas l) -> (fst (s_v u) <= fst (s_v s))%N
  | _ => False
  end.
Proof.
  intros B Hin Hb. apply bound_wf in B as W. destruct (in_all_version l s W Hin) as [Hv Hl].
  pose proof (wf_sorted l W) as Hs. unfold latestInMajor. rewrite Hl.
  rewrite searchSynv_rank by exact Hs. cbn [bind].
  assert (Hw : wrap64 (fst (s_v s) + 1) = (fst (s_v s) + 1)%N).
  { unfold wrap64. apply N.mod_small. change (2 ^ 64)%N with 18446744073709551616%N in Hb. exact Hb. }
  rewrite Hw. set (tgt := (fst (s_v s) + 1, 0)%N). set (r := rank (l_allv l) tgt).
  assert (Key : forall v, vle tgt v <-> (fst (s_v s) < fst v)%N).
  { intros [a b]. unfold vle, vlt, tgt; cbn [fst snd]. split.
    - intros [H|H]; [lia|]. injection H as H1 H2. lia.
    - intros H. destruct (N.eq_dec a (fst (s_v s) + 1)) as [E|E]; [|left; lia].
      destruct (N.eq_dec b 0) as [E'|E']; [right; subst; reflexivity|left; lia]. }
  unfold sch_at, index. destruct (nth_error (l_sch l) r) as [sd|] eqn:N; cbn [bind].
  - assert (Hr : sch_at l r = Ok (mkSchema l r sd)) by (unfold sch_at, index; rewrite N; reflexivity).
    pose proof (sch_at_v l W _ _ Hr) as Hrv. apply all_schemas_at in Hr as Ha.
    split; [eapply nth_error_In; eauto|].
    assert (Hge : vle tgt (s_v (mkSchema l r sd))).
    { apply vless_false. destruct (vless (s_v (mkSchema l r sd)) tgt) eqn:E; [|reflexivity].
      apply (rank_split _ Hs tgt r _ Hrv) in E. unfold r in E. lia. }
    split; [apply Key; exact Hge|].
    intros u Hu Hlt. apply Key in Hlt. destruct (in_all_version l u W Hu) as [Hu' _].
    apply In_nth_error in Hu' as [i Hi].
    assert (~ i < r). { intros K. apply (rank_split _ Hs tgt i _ Hi) in K. apply vless_false in Hlt. congruence. }
    apply (sorted_nth _ Hs r i); auto. lia.
  - apply nth_error_None in N. intros u Hu. destruct (in_all_version l u W Hu) as [Hu' _].
    apply In_nth_error in Hu' as [i Hi].
    assert (i < length (l_allv l)) by (apply nth_error_Some; congruence).
    rewrite (wf_length l W) in H.
    assert (K : vless (s_v u) tgt = true) by (apply (rank_split _ Hs tgt i _ Hi); unfold r in N; lia).
    apply vless_spec in K. unfold vlt, tgt in K. cbn [fst snd] in K. lia.
Qed.

(** *** C15 *)
Lemma validate_any_spec l data fuel :
  bound ev l -> StronglySorted vlt (map s_v (all_schemas l)) ->
  (forall s, In s (all_schemas l) -> validate ev s data <> Panic) ->
  length (all_schemas l) <= fuel ->
  (validateAny ev fuel l data = Ok None /\
     forall s, In s (all_schemas l) -> exists e, validate ev s data = Err e) \/
  (exists s i, In s (all_schemas l) /\ validate ev s data = Ok i /\
     i_raw i = data /\ i_sch i = s /\ i_valid i = true /\
     (forall t j, In t (all_schemas l) -> validate ev t data = Ok j -> vle (s_v s) (s_v t)) /\
     validateAny ev fuel l data = Ok (Some i)).
Proof.
  intros B St R Hf. apply bound_wf in B as W. rewrite all_schemas_versions in St by exact W.
  destruct (validateAny_strict ev l data fuel W St R Hf) as [[H1 H2]|[s [H1 [H2 [H3 H4]]]]].
  - left. split; [exact H1|]. intros s Hs.
    destruct (validate ev s data) as [i|e| |] eqn:E; eauto.
    + apply validate_ok in E as [C _]. exfalso. exact (H2 s Hs C).
    + exfalso. exact (R s Hs E).
    + exfalso. exact (validate_no_fuel ev s data E).
  - right. exists s, (mkInst data "" s true). split; [exact H1|].
    split; [apply validate_ok; auto|]. repeat split; auto.
    intros t j Ht Hj. apply validate_ok in Hj as [C _]. apply H3; auto.
Qed.

(** *** C35 *)
Definition same_schema (a b : schema V) : Prop :=
  ev_subsumes_raw ev (ev_sch ev (sd_ref (s_sd a))) (ev_sch ev (sd_ref (s_sd b))) = true /\
  ev_subsumes_raw ev (ev_sch ev (sd_ref (s_sd b))) (ev_sch ev (sd_ref (s_sd a))) = true.

Definition extends (old new : lineage V) : Prop :=
  length (all_schemas old) <= length (all_schemas new) /\
  forall i o n, nth_error (all_schemas old) i = Some o -> nth_error (all_schemas new) i = Some n ->
    same_schema o n.

Lemma append_only_spec old new :
  (isAppendOnly ev old new = Ok tt <-> extends old new) /\
  (isAppendOnly ev old new = Ok tt \/ exists e, isAppendOnly ev old new = Err e).
Proof.
  unfold isAppendOnly, extends, same_schema.
  destruct (Nat.ltb_spec (length (all_schemas new)) (length (all_schemas old))) as [H|H].
  - split; [|eauto]. split; [discriminate|]. intros [K _]. lia.
  - split; [|apply append_only_no_panic; lia].
    rewrite append_only_loop_ok. unfold cue_equal. split; intros [K1 K2]; (split; [exact K1|]);
      intros i o n Ho Hn; specialize (K2 i o n Ho Hn); apply andb_true_iff; exact K2.
Qed.

Lemma extends_refl l : (forall v, ev_subsumes_raw ev v v = true) -> extends l l.
Proof.
  intros R. split; [lia|]. intros i o n Ho Hn. assert (o = n) by congruence. subst. split; apply R.
Qed.

Lemma extends_trans a b c :
  (forall x y z, ev_subsumes_raw ev x y = true -> ev_subsumes_raw ev y z = true -> ev_subsumes_raw ev x z = true) ->
  extends a b -> extends b c -> extends a c.
Proof.
  intros T [L1 E1] [L2 E2]. split; [lia|]. intros i o n Ho Hn.
  destruct (nth_error (all_schemas b) i) as [m|] eqn:Hm.
  - destruct (E1 _ _ _ Ho Hm) as [A1 A2]. destruct (E2 _ _ _ Hm Hn) as [B1 B2]. split; eapply T; eauto.
  - apply nth_error_None in Hm. assert (i < length (all_schemas a)) by (apply nth_error_Some; congruence). lia.
Qed.

Lemma extends_mutual a b : extends a b -> extends b a ->
  Forall2 same_schema (all_schemas a) (all_schemas b).
Proof.
  intros [L1 E1] [L2 _]. revert L1 E1 L2. generalize (all_schemas a) (all_schemas b).
  induction l as [|x l IH]; intros [|y l0] L1 E1 L2; cbn in *; try lia; constructor.
  - apply (E1 0); reflexivity.
  - apply IH; try lia. intros i o n Ho Hn. apply (E1 (S i)); assumption.
Qed.
End W.

(** *** Witnesses *)
Local Open Scope N_scope.

(** 0.0, 0.0 again, 0.1: the successor of 0.0 is 0.0. *)
Definition loop_lin : tv := tlin [(0, 0, [1]); (0, 0, [2]); (0, 1, [2; 3])] [].

Lemma loop_follow : exists (V : Type) (ev : evaluator V) (l : lineage V) f,
  bound ev l /\ first l = Ok f /\ forall fuel, follow successor fuel (Some f) = OutOfFuel.
Proof.
  destruct (tbind loop_lin []) as [l|e| |] eqn:E; try (vm_compute in E; discriminate).
  exists tv, toy, l. pose proof (tbind_bound _ _ _ E) as B. vm_compute in E. injection E as <-.
  eexists. split; [exact B|]. split; [reflexivity|].
  match goal with |- forall fuel, follow successor fuel (Some ?f) = _ => set (f0 := f) end.
  assert (S0 : successor f0 = Ok (Some f0)) by (vm_compute; reflexivity).
  induction fuel as [|fuel IH]; [reflexivity|]. cbn [follow]. rewrite S0. cbn [bind]. rewrite IH. reflexivity.
Qed.

Lemma pred_panics : exists (V : Type) (ev : evaluator V) (l : lineage V) f,
  bound ev l /\ first l = Ok f /\ predecessor f = Panic.
Proof.
  destruct (tbind (tlin [(1, 0, [1])] []) []) as [l|e| |] eqn:E; try (vm_compute in E; discriminate).
  exists tv, toy, l. pose proof (tbind_bound _ _ _ E) as B. vm_compute in E. injection E as <-.
  eexists. split; [exact B|]. split; [reflexivity|]. vm_compute. reflexivity.
Qed.

Lemma latest_in_major_wrong : exists (V : Type) (ev : evaluator V) (l : lineage V) s t u,
  bound ev l /\ strict_from_zero l /\
  In s (all_schemas l) /\ s_v s = (0, 0) /\ latestInMajor s = Ok t /\ s_v t = (1, 0) /\
  latestVersionInSequence l 0 = Ok (1, 0) /\ In (0, 1) (map s_v (all_schemas l)) /\
  In u (all_schemas l) /\ s_v u = (2, 0) /\ latestInMajor u = Panic /\
  latestVersionInSequence l 2 = Panic.
Proof.
  destruct (tbind (tlin ss4 []) []) as [l|e| |] eqn:E; try (vm_compute in E; discriminate).
  exists tv, toy, l. pose proof (tbind_bound _ _ _ E) as B. vm_compute in E. injection E as <-.
  do 3 eexists. split; [exact B|].
  split. { split; [cbn; solve_sorted|]. eexists. split; reflexivity. }
  split; [left; reflexivity|]. split; [reflexivity|]. split; [vm_compute; reflexivity|].
  split; [reflexivity|]. split; [vm_compute; reflexivity|]. split; [cbn; auto|].
  split; [do 3 right; left; reflexivity|]. split; [reflexivity|]. split; vm_compute; reflexivity.
Qed.

Lemma validate_any_loops : exists (V : Type) (ev : evaluator V) (l : lineage V) data s i,
  bound ev l /\ In s (all_schemas l) /\ validate ev s data = Ok i /\
  forall fuel, validateAny ev fuel l data = OutOfFuel.
Proof.
  destruct (tbind loop_lin []) as [l|e| |] eqn:E; try (vm_compute in E; discriminate).
  exists tv, toy, l, (TDat 3). pose proof (tbind_bound _ _ _ E) as B. vm_compute in E. injection E as <-.
  do 2 eexists. split; [exact B|]. split; [right; right; left; reflexivity|]. split; [vm_compute; reflexivity|].
  intros fuel. unfold validateAny.
  match goal with |- bind ?x _ = _ => destruct x as [f0|?| |] eqn:F; try (vm_compute in F; discriminate) end.
  cbn [bind]. vm_compute in F. injection F as <-.
  match goal with |- validateAny_loop _ _ (Some ?f) _ = _ => set (f0 := f) end.
  assert (S0 : successor f0 = Ok (Some f0)) by (vm_compute; reflexivity).
  assert (V0 : exists e, validate toy f0 (TDat 3) = Err e) by (eexists; vm_compute; reflexivity).
  destruct V0 as [e V0].
  induction fuel as [|fuel IH]; [reflexivity|]. cbn [validateAny_loop]. rewrite V0, S0. cbn [bind]. exact IH.
Qed.

Lemma validate_any_misses : exists (V : Type) (ev : evaluator V) (l : lineage V) data s i,
  bound ev l /\ In s (all_schemas l) /\ validate ev s data = Ok i /\
  forall fuel, (0 < fuel)%nat -> validateAny ev fuel l data = Ok None.
Proof.
  destruct (tbind (tlin [(0, 0, [1]); (0, 0, [2])] []) []) as [l|e| |] eqn:E; try (vm_compute in E; discriminate).
  exists tv, toy, l, (TDat 2). pose proof (tbind_bound _ _ _ E) as B. vm_compute in E. injection E as <-.
  do 2 eexists. split; [exact B|]. split; [right; left; reflexivity|]. split; [vm_compute; reflexivity|].
  intros [|fuel] H; [lia|]. vm_compute. destruct fuel; reflexivity.
Qed.

Lemma append_only_changes : exists (V : Type) (ev : evaluator V) (old new new' : lineage V),
  bound ev old /\ bound ev new /\ bound ev new' /\
  (* a version is renamed *)
  isAppendOnly ev old new = Ok tt /\ map s_v (all_schemas old) <> map s_v (all_schemas new) /\
  (* the effective schema changes: data valid before is rejected *)
  isAppendOnly ev old new' = Ok tt /\ map s_v (all_schemas old) = map s_v (all_schemas new') /\
  exists i o n data, nth_error (all_schemas old) i = Some o /\ nth_error (all_schemas new') i = Some n /\
    is_ok (validate ev o data) = true /\ is_ok (validate ev n data) = false.
Proof.
  destruct (tbind (tlin [(0, 0, [1; 2]); (1, 0, [2; 3])] []) []) as [l1|e| |] eqn:E1; try (vm_compute in E1; discriminate).
  destruct (tbind (tlin [(0, 0, [1; 2]); (2, 0, [2; 3])] []) []) as [l2|e| |] eqn:E2; try (vm_compute in E2; discriminate).
  destruct (tbind (TLin "toy" [((Some 0, Some 0), ([1; 2], [1; 3])); ((Some 1, Some 0), ([2; 3], [3]))] []) [])
    as [l3|e| |] eqn:E3; try (vm_compute in E3; discriminate).
  exists tv, toy, l1, l2, l3.
  pose proof (tbind_bound _ _ _ E1) as B1. pose proof (tbind_bound _ _ _ E2) as B2.
  pose proof (tbind_bound _ _ _ E3) as B3.
  vm_compute in E1, E2, E3. injection E1 as <-. injection E2 as <-. injection E3 as <-.
  split; [exact B1|]. split; [exact B2|]. split; [exact B3|].
  split; [vm_compute; reflexivity|]. split; [vm_compute; discriminate|].
  split; [vm_compute; reflexivity|]. split; [vm_compute; reflexivity|].
  exists 0%nat. do 2 eexists. exists (TDat 2). split; [reflexivity|]. split; [reflexivity|].
  split; vm_compute; reflexivity.
Qed.

Lemma append_only_order :
  forall (V : Type) (ev : evaluator V),
    (forall v, ev_subsumes_raw ev v v = true) ->
    (forall x y z, ev_subsumes_raw ev x y = true -> ev_subsumes_raw ev y z = true ->
       ev_subsumes_raw ev x z = true) ->
    (forall l, isAppendOnly ev l l = Ok tt) /\
    (forall a b c, isAppendOnly ev a b = Ok tt -> isAppendOnly ev b c = Ok tt ->
       isAppendOnly ev a c = Ok tt) /\
    (forall a b, isAppendOnly ev a b = Ok tt -> isAppendOnly ev b a = Ok tt ->
       Forall2 (same_schema ev) (all_schemas a) (all_schemas b)).
Proof.
  intros V ev R T. split; [|split].
  - intros l. apply append_only_spec. apply extends_refl; exact R.
  - intros a b c H1 H2. apply append_only_spec in H1, H2. apply append_only_spec.
    eapply extends_trans; eauto.
  - intros a b H1 H2. apply append_only_spec in H1, H2. apply extends_mutual; assumption.
Qed.
