(** A lineage and a longer version of it: closing lemmas for C112 and C113. *)
From Verif Require Import Prelude Version VersionProofs Search SearchProofs
  ValidateErr Native Split Lineage LineageProofs WalkProofs GoLensProofs BindFacts WalkFacts
  NativeProofs Translate TranslateGoProofs TranslateCueProofs TranslateFacts Vmux VmuxProofs Toy.
From Coq Require Import Sorting.Sorted Arith ZifyBool ZifyN ZifyNat.
Local Open Scope string_scope.
Local Open Scope list_scope.

Section G.
Context {V : Type}.

(** *** Specification *)

(** Schemas of two lineages with the same version and content. *)
Definition twin_schema (s s' : schema V) : Prop :=
  s_v s = s_v s' /\ sd_def (s_sd s) = sd_def (s_sd s').

(** [l'] has the schemas of [l], in the same places, and possibly more after
    them. *)
Definition grows (l l' : lineage V) : Prop :=
  l_name l = l_name l' /\
  forall k s, nth_error (all_schemas l) k = Some s ->
    exists s', nth_error (all_schemas l') k = Some s' /\ twin_schema s s'.

(** The same data under the same version. *)
Definition twin (i i' : instance V) : Prop :=
  i_raw i = i_raw i' /\ i_name i = i_name i' /\ i_valid i = i_valid i' /\ twin_schema (i_sch i) (i_sch i').

(** The same outcome, up to [R] on the results. *)
Definition alike {A} (R : A -> A -> Prop) (o o' : outcome A) : Prop :=
  match o, o' with
  | Ok x, Ok x' => R x x'
  | Err e, Err e' => e = e'
  | Panic, Panic => True
  | OutOfFuel, OutOfFuel => True
  | _, _ => False
  end.
Definition opt_twin (o o' : option (instance V)) : Prop :=
  match o, o' with
  | Some i, Some i' => twin i i'
  | None, None => True
  | _, _ => False
  end.
Definition twin_lac (p p' : instance V * list N) : Prop := twin (fst p) (fst p') /\ snd p = snd p'.

Variable ev : evaluator V.
Variable rm : N -> instance V -> schema V -> outcome (option (instance V)).

(** Go lenses do not look at which of the two lineages they are called for. *)
Definition mappers_alike (l l' : lineage V) : Prop :=
  forall mp i i' s s', twin i i' -> In s (all_schemas l) -> In s' (all_schemas l') -> twin_schema s s' ->
    alike opt_twin (rm mp i s) (rm mp i' s').

(** *** Facts *)
Lemma in_lin (l : lineage V) s : In s (all_schemas l) -> s_lin s = l.
Proof.
  intros H. apply In_nth_error in H as [k H]. apply all_schemas_at in H.
  apply sch_at_ok in H as [sd [_ ->]]. reflexivity.
Qed.

Lemma validate_twin s s' d : l_name (s_lin s) = l_name (s_lin s') -> twin_schema s s' ->
  alike twin (validate ev s d) (validate ev s' d).
Proof.
  intros N [Hv Hd]. unfold validate. rewrite <- Hd, <- Hv, <- N.
  destruct (ev_validate ev (ev_unify ev (sd_def (s_sd s)) d)) as [x|].
  - destruct (mungeValidateErr (l_name (s_lin s)) (s_v s) x); cbn; auto.
  - cbn. repeat split; assumption.
Qed.

Lemma alike_ok {A} (R : A -> A -> Prop) o o' x : alike R o o' -> o = Ok x -> exists x', o' = Ok x' /\ R x x'.
Proof. intros H ->. destruct o'; cbn in H; try contradiction. eauto. Qed.
Lemma alike_err {A} (R : A -> A -> Prop) o o' x : alike R o o' -> o = Err x -> o' = Err x.
Proof. intros H ->. destruct o'; cbn in H; try contradiction. congruence. Qed.

Section L.
Variables l l' : lineage V.
Hypothesis B : bound ev l.
Hypothesis B' : bound ev l'.
Hypothesis St : StronglySorted vlt (map s_v (all_schemas l)).
Hypothesis St' : StronglySorted vlt (map s_v (all_schemas l')).
Hypothesis G : grows l l'.

Let W : wf l := bound_wf ev l B.
Let W' : wf l' := bound_wf ev l' B'.

Lemma sv : strict_vs (l_allv l).
Proof. rewrite <- (all_schemas_versions l W). exact St. Qed.
Lemma sv' : strict_vs (l_allv l').
Proof. rewrite <- (all_schemas_versions l' W'). exact St'. Qed.

Lemma grow_nth k s : nth_error (all_schemas l) k = Some s ->
  exists s', nth_error (all_schemas l') k = Some s' /\ twin_schema s s'.
Proof. apply G. Qed.

Lemma grow_in s : In s (all_schemas l) -> exists s', In s' (all_schemas l') /\ twin_schema s s'.
Proof.
  intros H. apply In_nth_error in H as [k H]. apply grow_nth in H as [s' [H T]].
  exists s'. split; [eapply nth_error_In; exact H|exact T].
Qed.

Lemma grow_same k s s' : nth_error (all_schemas l) k = Some s -> In s' (all_schemas l') -> s_v s = s_v s' ->
  nth_error (all_schemas l') k = Some s' /\ twin_schema s s'.
Proof.
  intros H I E. apply grow_nth in H as [u [H T]]. apply In_nth_error in I as [j Hj].
  assert (j = k) by (apply (strict_idx l' j k s' u W' sv' Hj H); destruct T; congruence). subst j.
  assert (u = s') by congruence. subst u. split; assumption.
Qed.

(** [lin_schema] on the versions of a strictly ordered lineage. *)
Lemma schema_found (m : lineage V) (Wm : wf m) (Sm : strict_vs (l_allv m)) s :
  In s (all_schemas m) -> lin_schema m (s_v s) = Ok s.
Proof.
  intros I. apply In_nth_error in I as [k Hk]. apply all_schemas_at in Hk.
  unfold lin_schema.
  assert (Hin : In (s_v s) (l_allv m)) by (apply (nth_error_In _ k), (sch_at_v m Wm k s Hk)).
  destruct (lin_schema_in m Wm (s_v s) Hin) as [t [H1 [H2 [_ H3]]]].
  unfold lin_schema in H1. rewrite H1. f_equal.
  apply all_schemas_at in Hk. apply all_schemas_at in H3.
  assert (s_idx t = k) by exact (strict_idx m (s_idx t) k t s Wm Sm H3 Hk H2). congruence.
Qed.

Lemma grow_schema v s : lin_schema l v = Ok s -> exists s', lin_schema l' v = Ok s' /\ twin_schema s s'.
Proof.
  intros E. assert (Hin : In v (l_allv l)).
  { destruct (in_dec (fun a b : version => ltac:(decide equality; apply N.eq_dec)) v (l_allv l)) as [H|H]; [exact H|].
    apply (lin_schema_notin l W) in H. congruence. }
  destruct (lin_schema_in l W v Hin) as [t [H1 [H2 [_ H3]]]]. assert (t = s) by congruence. subst t.
  apply all_schemas_at, nth_error_In in H3.
  destruct (grow_in s H3) as [s' [I T]]. exists s'. split; [|exact T].
  rewrite <- H2, (proj1 T). apply schema_found; auto. exact sv'.
Qed.

Lemma grow_name s s' : In s (all_schemas l) -> In s' (all_schemas l') -> l_name (s_lin s) = l_name (s_lin s').
Proof. intros I I'. rewrite (in_lin l s I), (in_lin l' s' I'). apply G. Qed.

(** A version accepts the same data, with the same messages. *)
Lemma grow_validate s s' d : In s (all_schemas l) -> In s' (all_schemas l') -> s_v s = s_v s' ->
  alike twin (validate ev s d) (validate ev s' d).
Proof.
  intros I I' E. apply validate_twin; [apply grow_name; assumption|].
  apply In_nth_error in I as [k Hk]. apply (grow_same k s s' Hk I' E).
Qed.

Lemma sorted_nth_v (m : lineage V) (Wm : wf m) (Sm : strict_vs (l_allv m)) j k s t :
  nth_error (all_schemas m) j = Some s -> nth_error (all_schemas m) k = Some t -> vle (s_v s) (s_v t) -> j <= k.
Proof.
  intros Hj Hk L. destruct (Nat.le_gt_cases j k) as [K|K]; [exact K|].
  apply (strict_lt m k j t s Wm Sm Hk Hj), vless_spec in K. unfold vle, vlt in *.
  destruct L as [L|L]; [lia|]. rewrite L in K. lia.
Qed.

(** What [ValidateAny] found it still finds. *)
Lemma grow_any d fuel fuel' i :
  (forall s, In s (all_schemas l') -> validate ev s d <> Panic) ->
  length (all_schemas l) <= fuel -> length (all_schemas l') <= fuel' ->
  validateAny ev fuel l d = Ok (Some i) ->
  exists i', validateAny ev fuel' l' d = Ok (Some i') /\ twin i i'.
Proof.
  clear rm. intros R Hf Hf' E.
  assert (R0 : forall s, In s (all_schemas l) -> validate ev s d <> Panic).
  { intros s I K. destruct (grow_in s I) as [s' [I' T]]. apply (R s' I').
    pose proof (grow_validate s s' d I I' (proj1 T)) as A. rewrite K in A.
    destruct (validate ev s' d); cbn in A; try contradiction. reflexivity. }
  destruct (validate_any_spec ev l d fuel B St R0 Hf) as [[K _]|[s [i0 [I [Ev [_ [_ [_ [Mn K]]]]]]]]]; [congruence|].
  assert (i0 = i) by congruence. subst i0. clear K.
  destruct (validate_any_spec ev l' d fuel' B' St' R Hf') as [[_ K]|[t [j [It [Et [_ [_ [_ [Mn' K]]]]]]]]].
  - exfalso. destruct (grow_in s I) as [s' [I' T]].
    destruct (alike_ok _ _ _ _ (grow_validate s s' d I I' (proj1 T)) Ev) as [x [Ex _]].
    destruct (K s' I') as [y Ey]. congruence.
  - exists j. split; [exact K|]. apply In_nth_error in I as J. destruct J as [a Ha].
    destruct (grow_nth a s Ha) as [s' [Ha' T]]. assert (I' : In s' (all_schemas l')) by (eapply nth_error_In; exact Ha').
    destruct (alike_ok _ _ _ _ (grow_validate s s' d I I' (proj1 T)) Ev) as [x [Ex Tx]].
    apply In_nth_error in It as J. destruct J as [b Hb].
    assert (b <= a) by exact (sorted_nth_v l' W' sv' b a t s' Hb Ha' (Mn' _ _ I' Ex)).
    assert (La : a < length (all_schemas l)) by (apply nth_error_Some; congruence).
    destruct (nth_error (all_schemas l) b) as [u|] eqn:Hu; [|apply nth_error_None in Hu; lia].
    destruct (grow_nth b u Hu) as [u' [Hu' Tu]]. assert (u' = t) by congruence. subst u'.
    assert (Iu : In u (all_schemas l)) by (eapply nth_error_In; exact Hu).
    pose proof (grow_validate u t d Iu It (proj1 Tu)) as A. rewrite Et in A.
    destruct (validate ev u d) as [y|y| |] eqn:Eu; cbn in A; try contradiction.
    assert (a <= b) by exact (sorted_nth_v l W sv a b s u Ha Hu (Mn _ _ Iu Eu)).
    assert (a = b) by lia. subst b. assert (t = s') by congruence. subst t. assert (x = j) by congruence. subst x. exact Tx.
Qed.

(** *** Go lenses *)
Definition otwin (r r' : outcome (instance V)) : Prop := alike twin r r'.

Lemma go_grow ls ls' n (LS : incl ls ls') (MA : mappers_alike l l') :
  (forall k i r, go_trans rm l ls n k i r -> forall i', twin i i' ->
     exists r', go_trans rm l' ls' n k i' r' /\ otwin r r') /\
  (forall k s s0 o r, lens_run rm l ls n k s s0 o r -> forall s' s0' o', s_v s = s_v s' -> s_v s0 = s_v s0' ->
     alike opt_twin o o' -> exists r', lens_run rm l' ls' n k s' s0' o' r' /\ otwin r r').
Proof.
  apply go_lens_ind.
  - intros i i' T. exists (Ok i'). split; [constructor|exact T].
  - intros k i s s0 r Hk H1 H2 Hm _ IH i' T.
    destruct (grow_nth _ _ H1) as [s' [H1' T1]]. destruct (grow_nth _ _ H2) as [s0' [H2' T2]].
    destruct (IH (relabel i' s0')) as [r' [R1 R2]].
    { destruct T as [T3 [T4 [T5 T6]]]. split; [exact T3|]. split; [exact T4|]. split; [reflexivity|exact T2]. }
    exists r'. split; [|exact R2]. apply gt_minor with (s := s') (s' := s0'); auto.
    rewrite <- (proj1 T1), <- (proj1 T2). exact Hm.
  - intros k i s s0 il mp r Hk H1 H2 Hm H3 H4 H5 H6 _ IH i' T.
    destruct (grow_nth _ _ H1) as [s' [H1' T1]]. destruct (grow_nth _ _ H2) as [s0' [H2' T2]].
    destruct (IH s' s0' (rm mp i' s0') (proj1 T1) (proj1 T2)) as [r' [R1 R2]].
    { apply MA; auto; eapply nth_error_In; eassumption. }
    exists r'. split; [|exact R2].
    apply gt_lens with (s := s') (s' := s0') (il := il) (mp := mp); auto;
      rewrite <- ?(proj1 T1), <- ?(proj1 T2); auto.
  - intros k s s0 x r Hv Hs _ IH s' s0' o' E1 E2 A.
    destruct o' as [[x'|]| | |]; cbn in A; try contradiction.
    destruct (IH x' A) as [r' [R1 R2]]. exists r'. split; [|exact R2].
    destruct A as [_ [_ [A3 [A4 _]]]]. apply lr_ok; [congruence| |exact R1]. congruence.
  - intros k s s0 x Hv Hs s' s0' o' E1 E2 A.
    destruct o' as [[x'|]| | |]; cbn in A; try contradiction.
    destruct A as [_ [_ [A3 [A4 _]]]]. eexists. split; [apply lr_wrong; congruence|]. cbn [otwin alike]. rewrite E2, A4. reflexivity.
  - intros k s s0 s' s0' o' E1 E2 A. destruct o' as [[x'|]| | |]; cbn in A; try contradiction.
    eexists. split; [apply lr_nil|]. reflexivity.
  - intros k s s0 e s' s0' o' E1 E2 A. destruct o' as [[x'|]| | |]; cbn in A; try contradiction. subst.
    eexists. split; [apply lr_err|]. cbn [otwin alike]. rewrite E1, E2. reflexivity.
Qed.

End L.

(** *** Translation between the old versions *)
(** *** Positions do not depend on what comes after *)
Fixpoint bases (acc seen : Z) (ps : list Z) : list Z :=
  match ps with
  | [] => []
  | p :: r => (acc + (p - seen))%Z :: bases (acc + (p - seen)) (seen + p) r
  end.

Lemma basis_bases ps : forall acc seen total last, basis_from acc (counts_from seen ps total last) = bases acc seen ps.
Proof.
  induction ps as [|p r IH]; intros acc seen total last; [reflexivity|]. cbn [counts_from bases].
  destruct r as [|q r]; [reflexivity|].
  change (basis_from acc ((p - seen)%Z :: counts_from (seen + p) (q :: r) total p))
    with ((acc + (p - seen))%Z :: basis_from (acc + (p - seen)) (counts_from (seen + p) (q :: r) total p)).
  rewrite IH. reflexivity.
Qed.

Lemma basis_counts_of v r : basis (counts (v :: r)) = 0%Z :: bases 0 0 (pos_from 0 v r).
Proof. unfold basis. destruct r as [|w r]; [reflexivity|]. unfold counts. rewrite basis_bases. reflexivity. Qed.

Lemma pos_from_app r w : forall i v, exists q, pos_from i v (r ++ w) = pos_from i v r ++ q.
Proof.
  induction r as [|u r IH]; intros i v; [eexists; reflexivity|]. cbn [app pos_from].
  destruct (IH (i + 1)%Z u) as [q ->]. exists q. rewrite app_assoc. reflexivity.
Qed.

Lemma bases_app ps qs : forall acc seen, exists q, bases acc seen (ps ++ qs) = bases acc seen ps ++ q.
Proof.
  induction ps as [|p r IH]; intros acc seen; [eexists; reflexivity|]. cbn [app bases].
  destruct (IH (acc + (p - seen))%Z (seen + p)%Z) as [q ->]. exists q. reflexivity.
Qed.

Lemma nth_app_some {A} (l m : list A) k x : nth_error l k = Some x -> nth_error (l ++ m) k = Some x.
Proof. intros H. rewrite nth_error_app1; [exact H|]. apply nth_error_Some. congruence. Qed.

Lemma flatidx_app vs w v z : vs <> [] -> flatidx vs v = Some z -> flatidx (vs ++ w) v = Some z.
Proof.
  destruct vs as [|u r]; [congruence|]. intros _. unfold flatidx. cbn [app]. rewrite !basis_counts_of.
  destruct (pos_from_app r w 0 u) as [q ->]. destruct (bases_app (pos_from 0 u r) q 0 0) as [q' ->].
  destruct (nth_error (0%Z :: bases 0 0 (pos_from 0 u r)) (N.to_nat (fst v))) as [b|] eqn:E; [|discriminate].
  change (0%Z :: bases 0 0 (pos_from 0 u r) ++ q') with ((0%Z :: bases 0 0 (pos_from 0 u r)) ++ q').
  rewrite (nth_app_some _ q' _ _ E). auto.
Qed.

Lemma prefix_app {A} (l m : list A) : (forall k x, nth_error l k = Some x -> nth_error m k = Some x) ->
  exists w, m = l ++ w.
Proof.
  revert m. induction l as [|a l IH]; intros m H; [exists m; reflexivity|].
  pose proof (H 0 a eq_refl) as H0. destruct m as [|b m]; [discriminate|]. cbn in H0. injection H0 as ->.
  destruct (IH m) as [w ->]; [|exists w; reflexivity]. intros k x K. exact (H (S k) x K).
Qed.

(** *** The CUE library on both lineages *)
Section C.
Variables l l' : lineage V.
Hypothesis B : bound ev l.
Hypothesis B' : bound ev l'.
Hypothesis LM : l_lensmap l = [].
Hypothesis LM' : l_lensmap l' = [].
Hypothesis D : dense (map s_v (all_schemas l)).
Hypothesis D' : dense (map s_v (all_schemas l')).
Hypothesis X : exact_cue_lenses l.
Hypothesis X' : exact_cue_lenses l'.
Hypothesis G : grows l l'.
Hypothesis LS : incl (l_lenses l) (l_lenses l').

Let W : wf l := bound_wf ev l B.
Let W' : wf l' := bound_wf ev l' B'.

Lemma grow_allv : exists w, l_allv l' = l_allv l ++ w.
Proof.
  apply prefix_app. intros k v. rewrite <- (all_schemas_versions l W), <- (all_schemas_versions l' W'), !nth_error_map.
  destruct (nth_error (all_schemas l) k) as [s|] eqn:E; [|discriminate]. cbn. intros H. injection H as <-.
  destruct (grow_nth l l' G k s E) as [s' [-> T]]. cbn. rewrite (proj1 T). reflexivity.
Qed.

Lemma grow_flatidx v z : flatidx (l_allv l) v = Some z -> flatidx (l_allv l') v = Some z.
Proof.
  destruct grow_allv as [w ->]. apply flatidx_app. destruct W as [Wa [_ Wn]]. rewrite Wa.
  destruct (l_sch l); [congruence|discriminate].
Qed.

Lemma lens_same c c' : In c (l_lenses l) -> In c' (l_lenses l') -> cl_from c = cl_from c' -> cl_to c = cl_to c' -> c = c'.
Proof.
  intros I I' Ef Et. apply (nodup_map_inj (fun c => (cl_from c, cl_to c)) (l_lenses l')); auto.
  - apply X'.
  - congruence.
Qed.

(** Backward lens [k] of a lineage with more than [S k] schemas. *)
Lemma back_same z k s : nth_error (all_schemas l) (S k) = Some s -> (z <= Z.of_nat k)%Z ->
  list_at (backwardLenses l) z = list_at (backwardLenses l') z.
Proof.
  intros Hs Hz. destruct (Z.ltb_spec z 0) as [K|K].
  { unfold list_at. apply Z.ltb_lt in K. rewrite K. reflexivity. }
  replace z with (Z.of_nat (Z.to_nat z)) by lia. set (j := Z.to_nat z). assert (Lj : j <= k) by (unfold j; lia).
  clearbody j. clear K Hz z. rewrite !list_at_nat.
  assert (Lk : S k < length (all_schemas l)) by (apply nth_error_Some; congruence).
  destruct (nth_error (all_schemas l) j) as [a|] eqn:Ha; [|apply nth_error_None in Ha; lia].
  destruct (nth_error (all_schemas l) (S j)) as [b|] eqn:Hb; [|apply nth_error_None in Hb; lia].
  destruct (grow_nth l l' G _ _ Ha) as [a' [Ha' Ta]]. destruct (grow_nth l l' G _ _ Hb) as [b' [Hb' Tb]].
  destruct (back_lens ev l B LM D X j b a Ha Hb) as [c [-> [I1 [F1 T1]]]].
  destruct (back_lens ev l' B' LM' D' X' j b' a' Ha' Hb') as [c' [-> [I2 [F2 T2]]]].
  f_equal. apply lens_same; auto; rewrite ?F1, ?F2, ?T1, ?T2, ?(proj1 Ta), ?(proj1 Tb); reflexivity.
Qed.

(** Every major above 0 is entered somewhere. *)
Lemma entered k : forall s, nth_error (all_schemas l) k = Some s -> (0 < fst (s_v s))%N ->
  exists j a b, nth_error (all_schemas l) j = Some a /\ nth_error (all_schemas l) (S j) = Some b /\
    (fst (s_v a) < fst (s_v b))%N /\ fst (s_v b) = fst (s_v s).
Proof.
  induction k as [|k IH]; intros s Hs M.
  - destruct D as [D0 _]. rewrite nth_error_map, Hs in D0. cbn in D0. injection D0 as D0. rewrite D0 in M. cbn in M. lia.
  - assert (Lk : S k < length (all_schemas l)) by (apply nth_error_Some; congruence).
    destruct (nth_error (all_schemas l) k) as [a|] eqn:Ha; [|apply nth_error_None in Ha; lia].
    pose proof (vs_major l D k (S k) a s ltac:(lia) Ha Hs) as Le.
    destruct (N.eq_dec (fst (s_v a)) (fst (s_v s))) as [E|E].
    + destruct (IH a eq_refl ltac:(lia)) as [j [x [y [H1 [H2 [H3 H4]]]]]]. exists j, x, y. repeat split; auto. congruence.
    + exists k, a, s. repeat split; auto. lia.
Qed.

Lemma fwd_same k s : nth_error (all_schemas l) k = Some s -> (0 < fst (s_v s))%N ->
  list_at (forwardLenses l) (Z.of_N (fst (s_v s)) - 1) = list_at (forwardLenses l') (Z.of_N (fst (s_v s)) - 1).
Proof.
  intros Hs M. destruct (entered k s Hs M) as [j [a [b [Ha [Hb [Lt E]]]]]].
  destruct (grow_nth l l' G _ _ Ha) as [a' [Ha' Ta]]. destruct (grow_nth l l' G _ _ Hb) as [b' [Hb' Tb]].
  destruct (fwd_lens ev l B LM D X j a b Ha Hb Lt) as [c [Q1 [I1 [F1 T1]]]].
  assert (Lt' : (fst (s_v a') < fst (s_v b'))%N) by (rewrite <- (proj1 Ta), <- (proj1 Tb); exact Lt).
  destruct (fwd_lens ev l' B' LM' D' X' j a' b' Ha' Hb' Lt') as [c' [Q2 [I2 [F2 T2]]]].
  rewrite <- (proj1 Tb) in Q2. rewrite E in Q1, Q2. rewrite Q1, Q2. f_equal.
  apply lens_same; auto; rewrite ?F1, ?F2, ?T1, ?T2, ?(proj1 Ta), ?(proj1 Tb); reflexivity.
Qed.

Lemma grow_sch k sd : nth_error (l_sch l) k = Some sd ->
  exists sd', nth_error (l_sch l') k = Some sd' /\ sd_v sd = sd_v sd' /\ sd_def sd = sd_def sd'.
Proof.
  intros H. assert (Hs : nth_error (all_schemas l) k = Some (mkSchema l k sd)).
  { apply all_schemas_at. apply sch_at_ok. eauto. }
  destruct (grow_nth l l' G _ _ Hs) as [s' [Hs' T]]. apply nth_sch in Hs'. exists (s_sd s'). split; [exact Hs'|exact T].
Qed.

Lemma back_step_same k s d from pos : nth_error (all_schemas l) (S k) = Some s -> (pos <= Z.of_nat k)%Z ->
  back_step ev l d from pos = back_step ev l' d from pos.
Proof.
  intros Hs Hp. unfold back_step. destruct (Z.ltb_spec pos 0) as [K|K].
  { unfold list_at. apply Z.ltb_lt in K. rewrite K. reflexivity. }
  replace pos with (Z.of_nat (Z.to_nat pos)) by lia. set (j := Z.to_nat pos). assert (Lj : j <= k) by (unfold j; lia).
  clearbody j. clear K Hp pos. rewrite !list_at_nat.
  assert (Lk : S k < length (all_schemas l)) by (apply nth_error_Some; congruence).
  destruct (nth_error (all_schemas l) j) as [a|] eqn:Ha; [|apply nth_error_None in Ha; lia].
  destruct (vs_index ev l B D j a Ha) as [z [Fz [Z1 Z2]]]. apply nth_sch in Ha. rewrite Ha.
  destruct (grow_sch j (s_sd a) Ha) as [sd' [-> [E1 E2]]]. rewrite <- E1, <- E2.
  change (sd_v (s_sd a)) with (s_v a). rewrite Fz, (grow_flatidx _ _ Fz).
  rewrite (back_same z k s Hs); [reflexivity|].
  destruct (N.le_gt_cases (fst (s_v a)) 2) as [K|K]; [rewrite Z1 by exact K; lia|].
  specialize (Z2 ltac:(lia)). lia.
Qed.

Lemma run_same {A} (f g : V -> version -> A -> option (tstep (V:=V))) xs : forall d from,
  (forall x d from, In x xs -> f d from x = g d from x) -> run_steps f d from xs = run_steps g d from xs.
Proof.
  induction xs as [|x xs IH]; intros d from H; [reflexivity|]. cbn [run_steps].
  rewrite H by (left; reflexivity). destruct (g d from x) as [t|]; [|reflexivity].
  rewrite IH; [reflexivity|]. intros. apply H. right; assumption.
Qed.

Definition sd_twin (a b : schema_def V) : Prop := sd_v a = sd_v b /\ sd_def a = sd_def b.

Lemma fwd_run_same xs ys : Forall2 sd_twin xs ys -> incl xs (l_sch l) -> forall d from,
  run_steps (fwd_step ev l) d from xs = run_steps (fwd_step ev l') d from ys.
Proof.
  induction 1 as [|x y xs ys [T1 T2] F IH]; intros Hi d from; [reflexivity|]. cbn [run_steps].
  assert (E : fwd_step ev l d from x = fwd_step ev l' d from y).
  { unfold fwd_step. rewrite <- T1, <- T2. destruct (fst from =? fst (sd_v x))%N; [reflexivity|].
    destruct (N.ltb_spec (fst from) (fst (sd_v x))) as [K|K]; [|reflexivity].
    assert (Ix : In x (l_sch l)) by (apply Hi; left; reflexivity). apply In_nth_error in Ix as [k Hk].
    assert (Hs : nth_error (all_schemas l) k = Some (mkSchema l k x)) by (apply all_schemas_at, sch_at_ok; eauto).
    pose proof (fwd_same k _ Hs) as Q. unfold s_v in Q. cbn [s_sd] in Q. rewrite Q by lia. reflexivity. }
  rewrite E. destruct (fwd_step ev l' d from y) as [t|]; [|reflexivity].
  rewrite IH; [reflexivity|]. intros z Hz. apply Hi. right; exact Hz.
Qed.

Lemma slice_same i j : (j <= Z.of_nat (length (l_sch l)))%Z ->
  match list_slice (l_sch l) i j, list_slice (l_sch l') i j with
  | Some xs, Some ys => Forall2 sd_twin xs ys /\ incl xs (l_sch l)
  | None, None => True
  | _, _ => False
  end.
Proof.
  intros Hj. unfold list_slice.
  assert (Le : length (l_sch l) <= length (l_sch l')).
  { destruct (Nat.le_gt_cases (length (l_sch l)) (length (l_sch l'))) as [K|K]; [exact K|].
    destruct (nth_error (l_sch l) (length (l_sch l'))) as [x|] eqn:E; [|apply nth_error_None in E; lia].
    apply grow_sch in E as [y [E _]]. assert (length (l_sch l') < length (l_sch l')) by (apply nth_error_Some; congruence). lia. }
  destruct (Z.ltb_spec i 0); cbn [orb]; [exact I|]. destruct (Z.ltb_spec j i); cbn [orb]; [exact I|].
  destruct (Z.ltb_spec (Z.of_nat (length (l_sch l))) i); [lia|]. destruct (Z.ltb_spec (Z.of_nat (length (l_sch l))) j); [lia|].
  destruct (Z.ltb_spec (Z.of_nat (length (l_sch l'))) i); [lia|]. destruct (Z.ltb_spec (Z.of_nat (length (l_sch l'))) j); [lia|].
  cbn [orb]. split.
  - assert (M : Z.to_nat i + Z.to_nat (j - i) <= length (l_sch l)) by lia.
    generalize dependent (Z.to_nat (j - i)). generalize (Z.to_nat i). clear - G. intros a m.
    revert a. induction m as [|m IH]; intros a M; [constructor|].
    destruct (nth_error (l_sch l) a) as [x|] eqn:E; [|apply nth_error_None in E; lia].
    destruct (grow_sch a x E) as [y [E' T]].
    rewrite (skipn_nth _ _ _ E), (skipn_nth _ _ _ E'). cbn [firstn]. constructor; [exact T|]. apply (IH (S a)). lia.
  - intros x Hx. rewrite <- (firstn_skipn (Z.to_nat i) (l_sch l)). apply in_or_app. right.
    rewrite <- (firstn_skipn (Z.to_nat (j - i)) (skipn (Z.to_nat i) (l_sch l))). apply in_or_app. left. exact Hx.
Qed.

Lemma cue_steps_same s t d : In s (all_schemas l) -> In t (all_schemas l) ->
  cue_steps ev l d (s_v s) (s_v t) = cue_steps ev l' d (s_v s) (s_v t).
Proof.
  intros Is It. apply In_nth_error in Is as [k Hk]. apply In_nth_error in It as [n Hn].
  unfold cue_steps. destruct (cmpSV (s_v s) (s_v t)) as [c|]; [|reflexivity].
  destruct (vs_index ev l B D k s Hk) as [zk [Fk [Ek Lk]]]. destruct (vs_index ev l B D n t Hn) as [zn [Fn [En Ln]]].
  rewrite Fk, Fn, (grow_flatidx _ _ Fk), (grow_flatidx _ _ Fn).
  assert (Kk : (zk <= Z.of_nat k)%Z).
  { destruct (N.le_gt_cases (fst (s_v s)) 2) as [K|K]; [rewrite Ek by exact K; lia|]. specialize (Lk ltac:(lia)). lia. }
  assert (Kn : (zn <= Z.of_nat n)%Z).
  { destruct (N.le_gt_cases (fst (s_v t)) 2) as [K|K]; [rewrite En by exact K; lia|]. specialize (Ln ltac:(lia)). lia. }
  assert (Nn : n < length (l_sch l)) by (rewrite <- all_schemas_length; apply nth_error_Some; congruence).
  assert (Bk : match list_range_down (zk - 1) (zn - 1) with
               | Some ps => run_steps (back_step ev l) d (s_v s) ps
               | None => None
               end =
               match list_range_down (zk - 1) (zn - 1) with
               | Some ps => run_steps (back_step ev l') d (s_v s) ps
               | None => None
               end).
  { destruct (list_range_down (zk - 1) (zn - 1)) as [ps|] eqn:E; [|reflexivity].
    apply run_same. intros p d0 from Hp. unfold list_range_down in E.
    destruct (zk - 1 <? zn - 1)%Z; [discriminate|]. injection E as <-. apply in_map_iff in Hp as [q [<- _]].
    destruct k as [|k].
    - unfold back_step, list_at. destruct (Z.ltb_spec (zk - 1 - Z.of_nat q) 0); [reflexivity|lia].
    - apply (back_step_same k s); [exact Hk|lia]. }
  assert (Fw : match list_slice (l_sch l) (zk + 1) (zn + 1) with
               | Some sds => run_steps (fwd_step ev l) d (s_v s) sds
               | None => None
               end =
               match list_slice (l_sch l') (zk + 1) (zn + 1) with
               | Some sds => run_steps (fwd_step ev l') d (s_v s) sds
               | None => None
               end).
  { pose proof (slice_same (zk + 1) (zn + 1) ltac:(lia)) as Q.
    destruct (list_slice (l_sch l) (zk + 1) (zn + 1)), (list_slice (l_sch l') (zk + 1) (zn + 1)); try contradiction; [|reflexivity].
    destruct Q as [Q1 Q2]. apply fwd_run_same; assumption. }
  destruct c as [|[p|p|]|[p|p|]]; try reflexivity; assumption.
Qed.

Lemma cue_published i i' t fuel fuel' :
  i_valid i = true ->
  In (i_sch i) (all_schemas l) -> In (i_sch i') (all_schemas l') -> twin i i' -> In t (all_schemas l) ->
  alike twin_lac (translate ev rm (S fuel) i (s_v t)) (translate ev rm (S fuel') i' (s_v t)).
Proof.
  intros Hv Hi Hi' T Ht. destruct T as [T1 [T2 [T3 T4]]]. cbn [translate].
  rewrite <- T3, Hv. cbn [negb]. rewrite (in_lin l _ Hi), (in_lin l' _ Hi'), LM, LM'.
  unfold translateCUE. rewrite (in_lin l _ Hi), (in_lin l' _ Hi').
  pose proof (proj1 (dense_strict _ D)) as S1. pose proof (proj1 (dense_strict _ D')) as S1'.
  pose proof (schema_found l W (sv l B S1) t Ht) as Q.
  destruct (grow_schema l l' B B' S1' G (s_v t) t Q) as [t' [Q' Tt]]. rewrite Q, Q'.
  rewrite <- T1. destruct (ev_struct ev (i_raw i)); cbn [negb]; [|exact I].
  rewrite <- (proj1 T4), <- (cue_steps_same (i_sch i) t (i_raw i) Hi Ht).
  destruct (cue_steps ev l (i_raw i) (s_v (i_sch i)) (s_v t)) as [ts|]; [|reflexivity].
  destruct (ev_json_ok ev (ev_default ev (cue_result (i_raw i) ts))); cbn [negb]; [|reflexivity].
  assert (It' : In t' (all_schemas l')).
  { destruct (grow_in l l' G t Ht) as [u [Iu Tu]].
    pose proof (schema_found l' W' (sv l' B' S1') u Iu) as Q2.
    replace (s_v u) with (s_v t) in Q2 by apply Tu. congruence. }
  pose proof (grow_validate l l' B' S1' G t t' (ev_default ev (cue_result (i_raw i) ts)) Ht It' (proj1 Tt)) as A.
  destruct (validate ev t _), (validate ev t' _); cbn in A; try contradiction; try exact I.
  - split; [exact A|reflexivity].
  - subst. reflexivity.
Qed.
End C.

Lemma go_published l l' id fv lindef e opts id' fv' lindef' e' opts' :
  BindLineage ev id fv lindef e opts = Ok l -> BindLineage ev id' fv' lindef' e' opts' = Ok l' ->
  strict_from_zero l -> strict_from_zero l' -> flat_map lenses_of opts <> [] ->
  well_behaved rm l -> well_behaved rm l' -> mappers_alike l l' ->
  grows l l' -> incl (flat_map lenses_of opts) (flat_map lenses_of opts') ->
  forall i i' t fuel fuel',
    i_valid i = true -> In (i_sch i) (all_schemas l) -> In (i_sch i') (all_schemas l') -> twin i i' ->
    In t (all_schemas l) -> length (all_schemas l) < fuel -> length (all_schemas l') < fuel' ->
    alike twin_lac (translate ev rm fuel i (s_v t)) (translate ev rm fuel' i' (s_v t)).
Proof.
  intros B B' SZ SZ' NE WB WB' MA G LS i i' t fuel fuel' Hv Hi Hi' T Ht Hf Hf'.
  apply In_nth_error in Hi as [k Hk]. apply In_nth_error in Ht as Hn. destruct Hn as [n Hn].
  pose proof T as [T1 [T2 [T3 T4]]].
  assert (Bd : bound ev l) by (unfold bound; eauto 6).
  assert (Bd' : bound ev l') by (unfold bound; eauto 6).
  assert (NE' : flat_map lenses_of opts' <> []).
  { destruct (flat_map lenses_of opts) as [|x xs]; [congruence|]. specialize (LS x (or_introl eq_refl)).
    intros K. rewrite K in LS. destruct LS. }
  destruct (grow_same l l' Bd' (proj1 SZ') G k (i_sch i) (i_sch i') Hk Hi' (proj1 T4)) as [Hk' _].
  destruct (grow_nth l l' G n t Hn) as [t' [Hn' Tt]].
  destruct (go_translation ev rm _ _ _ _ _ _ B SZ NE WB i k n t fuel Hv Hk Hn Hf) as [r [G1 [_ C]]].
  destruct (proj1 (go_grow l l' G _ _ n LS MA) _ _ _ G1 i' T) as [r1 [G1' A]].
  destruct (go_translation ev rm _ _ _ _ _ _ B' SZ' NE' WB' i' k n t' fuel' ltac:(congruence) Hk' Hn' Hf') as [r' [_ [U' C']]].
  apply U' in G1'. subst r1. rewrite (proj1 Tt).
  rewrite <- (proj1 Tt) in C' |- *.
  destruct C as [[x [-> [Ex _]]]|[x [-> Ex]]], C' as [[x' [-> [Ex' _]]]|[x' [-> Ex']]];
    rewrite Ex, Ex'; cbn in A; try contradiction.
  - split; [exact A|reflexivity].
  - exact A.
Qed.

(** *** The mux *)
Context {Byt : Type}.
Variable dec : Byt -> outcome V.

(** A mux gives on the longer lineage what it gave on the shorter, if its own
    schema accepts the data or no schema beyond the shorter lineage does. *)
Lemma mux_published l l' :
  bound ev l -> bound ev l' -> strict_from_zero l -> strict_from_zero l' -> grows l l' ->
  forall t t' fuel fuel',
    In t (all_schemas l) -> In t' (all_schemas l') -> s_v t = s_v t' ->
    length (all_schemas l) < fuel -> length (all_schemas l') < fuel' ->
    (forall i i', i_valid i = true -> In (i_sch i) (all_schemas l) -> In (i_sch i') (all_schemas l') -> twin i i' ->
       alike twin_lac (translate ev rm fuel i (s_v t)) (translate ev rm fuel' i' (s_v t))) ->
    exists mux mux', newUntypedMux ev rm dec fuel t = Ok mux /\ newUntypedMux ev rm dec fuel' t' = Ok mux' /\
    forall b,
      (forall e, dec b = Err e -> mux b = Err e /\ mux' b = Err e) /\
      forall v s, dec b = Ok v -> (forall s, In s (all_schemas l') -> validate ev s v <> Panic) ->
        In s (all_schemas l) -> conforms ev s v ->
        conforms ev t v \/ (forall k u, nth_error (all_schemas l') k = Some u -> length (all_schemas l) <= k -> ~ conforms ev u v) ->
        alike twin_lac (mux b) (mux' b).
Proof.
  intros B B' SZ SZ' G t t' fuel fuel' It It' Et Hf Hf' TR.
  destruct (untyped_spec ev rm dec l t fuel B SZ It Hf) as [mux [E M]].
  destruct (untyped_spec ev rm dec l' t' fuel' B' SZ' It' Hf') as [mux' [E' M']].
  exists mux, mux'. split; [exact E|]. split; [exact E'|]. intros b.
  split; [intros x Hx; split; [apply M|apply M']; exact Hx|].
  intros v s Hd R Is Cs C. pose proof (bound_wf ev l B) as W. pose proof (bound_wf ev l' B') as W'.
  pose proof (sfz_strict l W SZ) as S1. pose proof (sfz_strict l' W' SZ') as S1'.
  pose proof (fun a a' I I' Ea => grow_validate l l' B' (proj1 SZ') G a a' v I I' Ea) as VT.
  assert (R0 : forall s, In s (all_schemas l) -> validate ev s v <> Panic).
  { intros u I K. destruct (grow_in l l' G u I) as [u' [I' T]]. apply (R u' I').
    pose proof (VT u u' I I' (proj1 T)) as A. rewrite K in A.
    destruct (validate ev u' v); cbn in A; try contradiction. reflexivity. }
  apply (proj2 (M b)) in Hd as Q; [|exact R0]. apply (proj2 (M' b)) in Hd as Q'; [|exact R].
  pose proof (VT t t' It It' Et) as At.
  inversion Q as [i0 E0 E1|e0 s1 i0 E0 I1 N1 E2 F1 E1|e0 E0 F1 E1]; subst.
  - destruct (alike_ok _ _ _ _ At E0) as [i1 [Ei Ti]].
    assert (Q2 : mux_spec ev l' t' (fun i => translate ev rm fuel' i (s_v t')) v (Ok (i1, []))) by (constructor; exact Ei).
    rewrite (mux_spec_fun ev _ _ _ _ _ _ B' SZ' Q' Q2). cbn. split; [exact Ti|reflexivity].
  - destruct C as [C|C].
    { assert (K : validate ev t v = Ok (mkInst v "" t true)) by (apply validate_ok; auto). congruence. }
    apply In_nth_error in I1 as J. destruct J as [j Hj].
    destruct (grow_nth l l' G j s1 Hj) as [s1' [Hj' T1]].
    assert (I1' : In s1' (all_schemas l')) by (eapply nth_error_In; exact Hj').
    destruct (alike_ok _ _ _ _ (VT s1 s1' I1 I1' (proj1 T1)) E2) as [i1 [Ei Ti]].
    assert (Q2 : mux_spec ev l' t' (fun i => translate ev rm fuel' i (s_v t')) v (translate ev rm fuel' i1 (s_v t'))).
    { apply (ms_other ev l' t' (fun i => translate ev rm fuel' i (s_v t')) v e0 s1' i1); auto.
      - apply (alike_err _ _ _ _ At E0).
      - intros ->. apply N1. apply In_nth_error in It as [n Hn].
        assert (n = j) by (apply (strict_idx l n j t s1 W S1 Hn Hj); rewrite Et; symmetry; apply T1).
        congruence.
      - intros u' Iu' Nu L. apply In_nth_error in Iu' as J. destruct J as [a Ha].
        destruct (Nat.le_gt_cases (length (all_schemas l)) a) as [K|K].
        + destruct (validate ev u' v) as [y|y| |] eqn:Eu; eauto.
          * exfalso. apply (C a u' Ha K). apply validate_ok in Eu. apply Eu.
          * exfalso. exact (R u' Iu' Eu).
          * exfalso. exact (validate_no_fuel ev u' v Eu).
        + destruct (nth_error (all_schemas l) a) as [u|] eqn:Hu; [|apply nth_error_None in Hu; lia].
          destruct (grow_nth l l' G a u Hu) as [w [Hw Tw]]. assert (w = u') by congruence. subst w.
          assert (Iu : In u (all_schemas l)) by (eapply nth_error_In; exact Hu).
          destruct (F1 u Iu) as [y Ey].
          * intros ->. apply Nu. apply In_nth_error in It' as [n Hn].
            assert (n = a) by (apply (strict_idx l' n a t' u' W' S1' Hn Ha); rewrite <- Et; apply Tw).
            congruence.
          * rewrite (proj1 T1), (proj1 Tw). exact L.
          * exists y. exact (alike_err _ _ _ _ (VT u u' Iu Iu' (proj1 Tw)) Ey). }
    rewrite (mux_spec_fun ev _ _ _ _ _ _ B' SZ' Q' Q2). rewrite <- Et.
    apply validate_ok in E2. destruct E2 as [_ ->]. apply validate_ok in Ei. destruct Ei as [_ ->].
    apply TR; auto.
  - exfalso. destruct (F1 s Is) as [y Ey].
    assert (K : validate ev s v = Ok (mkInst v "" s true)) by (apply validate_ok; auto). congruence.
Qed.

(** The cases in which the answer stays. *)
Definition undisturbed (l l' : lineage V) (t : schema V) (v : V) : Prop :=
  conforms ev t v \/
  forall k u, nth_error (all_schemas l') k = Some u -> length (all_schemas l) <= k -> ~ conforms ev u v.

Lemma mux_cue_published l l' :
  bound ev l -> bound ev l' -> l_lensmap l = [] -> l_lensmap l' = [] ->
  dense (map s_v (all_schemas l)) -> dense (map s_v (all_schemas l')) ->
  exact_cue_lenses l -> exact_cue_lenses l' -> grows l l' -> incl (l_lenses l) (l_lenses l') ->
  forall t t' fuel fuel',
    In t (all_schemas l) -> In t' (all_schemas l') -> s_v t = s_v t' ->
    length (all_schemas l) < fuel -> length (all_schemas l') < fuel' ->
    exists mux mux', newUntypedMux ev rm dec fuel t = Ok mux /\ newUntypedMux ev rm dec fuel' t' = Ok mux' /\
    forall b,
      (forall e, dec b = Err e -> mux b = Err e /\ mux' b = Err e) /\
      forall v s, dec b = Ok v -> (forall s, In s (all_schemas l') -> validate ev s v <> Panic) ->
        In s (all_schemas l) -> conforms ev s v -> undisturbed l l' t v -> alike twin_lac (mux b) (mux' b).
Proof.
  intros B B' LM LM' D D' X X' G LS t t' fuel fuel' It It' Et Hf Hf'.
  apply mux_published; auto; try (eapply vs_sfz; eassumption).
  intros i i' Hv Hi Hi' T. destruct fuel as [|fuel]; [lia|]. destruct fuel' as [|fuel']; [lia|].
  apply (cue_published l l'); assumption.
Qed.

Lemma mux_go_published l l' id fv lindef e opts id' fv' lindef' e' opts' :
  BindLineage ev id fv lindef e opts = Ok l -> BindLineage ev id' fv' lindef' e' opts' = Ok l' ->
  strict_from_zero l -> strict_from_zero l' -> flat_map lenses_of opts <> [] ->
  well_behaved rm l -> well_behaved rm l' -> mappers_alike l l' ->
  grows l l' -> incl (flat_map lenses_of opts) (flat_map lenses_of opts') ->
  forall t t' fuel fuel',
    In t (all_schemas l) -> In t' (all_schemas l') -> s_v t = s_v t' ->
    length (all_schemas l) < fuel -> length (all_schemas l') < fuel' ->
    exists mux mux', newUntypedMux ev rm dec fuel t = Ok mux /\ newUntypedMux ev rm dec fuel' t' = Ok mux' /\
    forall b,
      (forall e, dec b = Err e -> mux b = Err e /\ mux' b = Err e) /\
      forall v s, dec b = Ok v -> (forall s, In s (all_schemas l') -> validate ev s v <> Panic) ->
        In s (all_schemas l) -> conforms ev s v -> undisturbed l l' t v -> alike twin_lac (mux b) (mux' b).
Proof.
  intros B B' SZ SZ' NE WB WB' MA G LS t t' fuel fuel' It It' Et Hf Hf'.
  apply mux_published; auto; try (unfold bound; eauto 6; fail).
  intros i i' Hv Hi Hi' T.
  exact (go_published l l' _ _ _ _ _ _ _ _ _ _ B B' SZ SZ' NE WB WB' MA G LS i i' t fuel fuel' Hv Hi Hi' T It Hf Hf').
Qed.

(** *** Lookup *)
Lemma lookup_published l l' :
  bound ev l -> bound ev l' ->
  StronglySorted vlt (map s_v (all_schemas l')) -> grows l l' ->
  forall v s, lin_schema l v = Ok s ->
    exists s', lin_schema l' v = Ok s' /\ twin_schema s s' /\
      forall d, alike twin (validate ev s d) (validate ev s' d).
Proof.
  intros B B' St' G v s E. destruct (grow_schema l l' B B' St' G v s E) as [s' [E' T]].
  exists s'. split; [exact E'|]. split; [exact T|]. intros d. apply validate_twin; [|exact T].
  assert (Q : forall (m : lineage V) u, lin_schema m v = Ok u -> s_lin u = m).
  { intros m u. unfold lin_schema, schema_v, sch_at. intros H.
    apply bind_ok in H as [x [_ H]]. destruct x; [|discriminate]. cbn [negb] in H.
    apply bind_ok in H as [j [_ H]]. apply bind_ok in H as [sd [_ H]]. injection H as <-. reflexivity. }
  rewrite (Q l s E), (Q l' s' E'). apply G.
Qed.
End G.
