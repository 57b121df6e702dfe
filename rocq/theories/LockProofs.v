(** Proofs about the lock discipline. *)
From Verif Require Import Prelude Locks.
From Coq Require Import ZifyBool ZifyNat.
Local Open Scope list_scope.

(** *** Well-bracketed programs *)

Inductive hold := HNone | HR | HW.

Fixpoint wb (h : hold) (p : list act) : Prop :=
  match p with
  | [] => h = HNone
  | AUse _ :: p => wb h p
  | ARLock :: p => h = HNone /\ wb HR p
  | ARUnlock :: p => h = HR /\ wb HNone p
  | ALock :: p => h = HNone /\ wb HW p
  | AUnlock :: p => h = HW /\ wb HNone p
  end.

Lemma wb_uses h w n p : wb h p -> wb h (uses w n ++ p).
Proof. intros H. induction n as [|n IH]; [exact H|]. exact IH. Qed.

Lemma wb_app p q : forall h, wb h p -> wb HNone q -> wb h (p ++ q).
Proof.
  induction p as [|a p IH]; intros h H Q; cbn in *; [subst; exact Q|].
  destruct a; try (destruct H as [-> H]; split; [reflexivity|]); apply IH; auto.
Qed.

Lemma wb_uses0 w n : wb HNone (uses w n).
Proof. rewrite <- (app_nil_r (uses w n)). apply wb_uses. reflexivity. Qed.

Lemma runs_wb :
  (forall c p, runs c p -> wb HNone p) /\ (forall p, prog p -> wb HNone p).
Proof.
  apply runs_prog_ind.
  - intros n. cbn. split; [reflexivity|]. apply wb_uses. cbn. auto.
  - intros n. cbn. split; [reflexivity|]. apply wb_uses. cbn. auto.
  - reflexivity.
  - intros p q _ Hp _ Hq. apply wb_app; assumption.
  - intros n. cbn. split; [reflexivity|]. apply wb_uses. cbn. auto.
  - intros n. cbn. split; [reflexivity|]. apply wb_uses. cbn. auto.
  - auto.
  - intros p n _ H. apply wb_app; [exact H|apply wb_uses0].
  - intros p n _ H. apply wb_app; [exact H|apply wb_uses0].
  - intros n. cbn. split; [reflexivity|]. apply wb_uses. cbn. auto.
  - intros n m k. apply wb_app; [|apply wb_app; [|apply wb_uses0]].
    + cbn. split; [reflexivity|]. apply wb_uses. cbn. auto.
    + cbn. split; [reflexivity|]. apply wb_uses. cbn. auto.
  - intros n m k p _ H. apply wb_app; [|apply wb_app; [|apply wb_uses; exact H]].
    + cbn. split; [reflexivity|]. apply wb_uses. cbn. auto.
    + cbn. split; [reflexivity|]. apply wb_uses. cbn. auto.
  - auto.
  - intros n. apply wb_uses0.
  - intros n. apply wb_uses0.
  - intros n. apply wb_uses0.
  - intros n. apply wb_uses0.
  - intros n p _ H. apply wb_uses. exact H.
  - intros p q _ Hp _ Hq. apply wb_app; assumption.
  - intros p q _ Hp _ Hq. apply wb_app; assumption.
  - intros p q _ Hp _ Hq. apply wb_app; assumption.
  - intros p n _ H. apply wb_app; [exact H|apply wb_uses0].
  - intros n. apply wb_uses0.
  - reflexivity.
  - intros q _ H. exact H.
  - intros c p q _ Hp _ Hq. apply wb_app; assumption.
Qed.

(** *** Invariant *)

Definition thread_ok (t : thread) : Prop :=
  (t_r t = 0 /\ t_w t = false /\ wb HNone (t_prog t) /\
     (t_wait t = RWait -> exists p, t_prog t = ARLock :: p) /\
     (t_wait t = WWait -> exists p, t_prog t = ALock :: p)) \/
  (t_r t = 1 /\ t_w t = false /\ t_wait t = Ready /\ wb HR (t_prog t)) \/
  (t_r t = 0 /\ t_w t = true /\ t_wait t = Ready /\ wb HW (t_prog t)).

Definition nwriting (ts : list thread) : nat := length (filter writing ts).

Definition inv (ts : list thread) : Prop :=
  Forall thread_ok ts /\ nwriting ts <= 1 /\
  ((exists t, In t ts /\ t_w t = true) -> no_readers ts) /\
  ((exists t, In t ts /\ t_wait t = RWait) -> busy ts).

Lemma nw_app a t b : nwriting (a ++ t :: b) = nwriting (a ++ b) + (if writing t then 1 else 0).
Proof.
  unfold nwriting. rewrite !filter_app, !app_length. cbn. destruct (writing t); cbn; lia.
Qed.

Lemma busy_nw ts : busy ts <-> 0 < nwriting ts.
Proof.
  unfold busy, nwriting. split.
  - intros [t [H1 H2]]. assert (K : In t (filter writing ts)) by (apply filter_In; auto).
    destruct (filter writing ts); [destruct K|cbn; lia].
  - intros H. destruct (filter writing ts) as [|t r] eqn:E; [cbn in H; lia|].
    exists t. apply filter_In. rewrite E. left. reflexivity.
Qed.

Lemma in_mid {A} (x : A) a t b : In x (a ++ t :: b) <-> x = t \/ In x (a ++ b).
Proof. rewrite !in_app_iff. cbn. intuition congruence. Qed.

Lemma forall_mid {A} (P : A -> Prop) a t b : Forall P (a ++ t :: b) <-> P t /\ Forall P (a ++ b).
Proof. rewrite !Forall_forall. split; [intros H; split; [|intros x Hx]; apply H; apply in_mid; auto|].
  intros [H1 H2] x Hx. apply in_mid in Hx as [->|Hx]; auto. Qed.

Ltac ok_cases H := destruct H as [[?R [?W [?B [?C1 ?C2]]]]|[[?R [?W [?Q ?B]]]|[?R [?W [?Q ?B]]]]];
  cbn [t_r t_w t_wait t_prog] in *.

Lemma wake_writing t : thread_ok t -> writing (wake t) = writing t.
Proof.
  intros H. unfold wake, writing. destruct (t_wait t) eqn:E; rewrite ?E; try reflexivity.
  destruct (t_prog t) as [|[] p]; rewrite ?E; reflexivity.
Qed.

Lemma wake_ok t : thread_ok t -> thread_ok (wake t).
Proof.
  intros H. unfold wake. destruct (t_wait t) eqn:E; try exact H.
  destruct (t_prog t) as [|[] p] eqn:P; try exact H.
  ok_cases H; rewrite E in *; try discriminate. rewrite P in B. cbn in B.
  right. left. cbn. rewrite R, W. destruct B as [_ B]. auto.
Qed.

Lemma wake_no_rwait t : thread_ok t -> t_wait (wake t) <> RWait.
Proof.
  intros H. unfold wake. destruct (t_wait t) eqn:E; try congruence.
  ok_cases H; try congruence. destruct (C1 E) as [p P]. rewrite P. discriminate.
Qed.

Lemma filter_wake ts : Forall thread_ok ts -> nwriting (map wake ts) = nwriting ts.
Proof.
  unfold nwriting. induction 1 as [|t ts H F IH]; [reflexivity|]. cbn. rewrite (wake_writing t H).
  destruct (writing t); cbn; rewrite IH; reflexivity.
Qed.

Lemma step_inv ts ts' : inv ts -> step ts ts' -> inv ts'.
Proof.
  intros [F [N [X Y]]] St. destruct St as [a b u p r w|a b p r w NB|a b p r w NB|a b p r w|a b p r w NB|a b p r w NR|a b p r];
    apply forall_mid in F as [T F]; rewrite nw_app in N; cbn [writing t_w t_wait] in N.
  - (* use *)
    assert (T' : thread_ok (mkT p r w Ready)).
    { ok_cases T; cbn in B; [left|right; left|right; right]; cbn; repeat split; auto; try discriminate. }
    assert (Same : writing (mkT p r w Ready) = writing (mkT (AUse u :: p) r w Ready)) by reflexivity.
    repeat split.
    + apply forall_mid. auto.
    + rewrite nw_app, Same. exact N.
    + intros [t [H1 H2]] t' Ht'. apply in_mid in H1. apply in_mid in Ht'.
      assert (NR : no_readers (a ++ mkT (AUse u :: p) r w Ready :: b)).
      { apply X. destruct H1 as [->|H1].
        - exists (mkT (AUse u :: p) r w Ready). split; [apply in_mid; auto|exact H2].
        - exists t. split; [apply in_mid; auto|exact H2]. }
      destruct Ht' as [->|Ht']; [apply (NR (mkT (AUse u :: p) r w Ready)); apply in_mid; auto|].
      apply NR. apply in_mid. auto.
    + intros [t [H1 H2]]. apply in_mid in H1 as [->|H1]; [discriminate|].
      assert (Bz : busy (a ++ mkT (AUse u :: p) r w Ready :: b)).
      { apply Y. exists t. split; [apply in_mid; auto|exact H2]. }
      apply busy_nw. apply busy_nw in Bz. rewrite nw_app in *. rewrite Same. exact Bz.
  - (* rlock *)
    ok_cases T; cbn in B; try (destruct B as [B' _]; discriminate). subst r w.
    assert (NW : nwriting (a ++ b) = 0).
    { destruct (nwriting (a ++ b)) eqn:E; [reflexivity|]. exfalso. apply NB. apply busy_nw. rewrite nw_app. lia. }
    repeat split.
    + apply forall_mid. split; [|exact F]. right. left. cbn. repeat split; tauto.
    + rewrite nw_app, NW. cbn. lia.
    + intros [t [H1 H2]]. exfalso. apply in_mid in H1 as [->|H1]; [discriminate|].
      assert (K : busy (a ++ b)) by (exists t; split; [exact H1|unfold writing; rewrite H2; reflexivity]).
      apply busy_nw in K. lia.
    + intros [t [H1 H2]]. apply in_mid in H1 as [->|H1]; [discriminate|]. exfalso. apply NB. apply Y.
      exists t. split; [apply in_mid; auto|exact H2].
  - (* rwait *)
    ok_cases T; cbn in B; try (destruct B as [B' _]; discriminate). subst r w.
    apply busy_nw in NB. rewrite nw_app in NB. cbn in NB.
    repeat split.
    + apply forall_mid. split; [|exact F]. left. cbn. repeat split; eauto; try discriminate; tauto.
    + rewrite nw_app. cbn. lia.
    + intros [t [H1 H2]] t' Ht'. apply in_mid in H1 as [->|H1]; [discriminate|]. apply in_mid in Ht' as [->|Ht']; [reflexivity|].
      apply X; [exists t; split; [apply in_mid; auto|exact H2]|apply in_mid; auto].
    + intros _. apply busy_nw. rewrite nw_app. cbn. lia.
  - (* runlock *)
    ok_cases T; cbn in B; try lia. injection R as ->. subst w.
    repeat split.
    + apply forall_mid. split; [|exact F]. left. cbn. repeat split; try discriminate; tauto.
    + rewrite nw_app. cbn. cbn in N. lia.
    + intros [t [H1 H2]]. exfalso. apply in_mid in H1 as [->|H1]; [discriminate|].
      assert (K : t_r (mkT (ARUnlock :: p) 1 false Ready) = 0).
      { apply X; [exists t; split; [apply in_mid; auto|exact H2]|apply in_mid; auto]. }
      discriminate.
    + intros [t [H1 H2]]. apply in_mid in H1 as [->|H1]; [discriminate|].
      assert (Bz : busy (a ++ mkT (ARUnlock :: p) 1 false Ready :: b)).
      { apply Y. exists t. split; [apply in_mid; auto|exact H2]. }
      apply busy_nw in Bz. apply busy_nw. rewrite nw_app in *. exact Bz.
  - (* announce *)
    ok_cases T; cbn in B; try (destruct B as [B' _]; discriminate). subst r w.
    assert (NW : nwriting (a ++ b) = 0).
    { destruct (nwriting (a ++ b)) eqn:E; [reflexivity|]. exfalso. apply NB. apply busy_nw. rewrite nw_app. lia. }
    repeat split.
    + apply forall_mid. split; [|exact F]. left. cbn. repeat split; eauto; try discriminate; tauto.
    + rewrite nw_app, NW. cbn. lia.
    + intros [t [H1 H2]]. exfalso. apply in_mid in H1 as [->|H1]; [discriminate|].
      assert (K : busy (a ++ b)) by (exists t; split; [exact H1|unfold writing; rewrite H2; reflexivity]).
      apply busy_nw in K. lia.
    + intros _. apply busy_nw. rewrite nw_app. cbn. lia.
  - (* acquire *)
    ok_cases T; try discriminate. cbn in B. subst r w.
    repeat split.
    + apply forall_mid. split; [|exact F]. right. right. cbn. repeat split; tauto.
    + rewrite nw_app. cbn. cbn in N. exact N.
    + intros _ t Ht. apply in_mid in Ht as [->|Ht]; [reflexivity|]. apply NR. apply in_mid. auto.
    + intros _. apply busy_nw. rewrite nw_app. cbn. lia.
  - (* unlock *)
    ok_cases T; cbn in B; try discriminate. subst r. cbn in N.
    assert (NW : nwriting (a ++ b) = 0) by lia.
    assert (F' : Forall thread_ok (map wake (a ++ b))).
    { apply Forall_forall. intros t Ht. apply in_map_iff in Ht as [t0 [<- Ht]]. apply wake_ok.
      rewrite Forall_forall in F. apply F. exact Ht. }
    assert (NW' : nwriting (map wake (a ++ b)) = 0) by (rewrite filter_wake; assumption).
    rewrite map_app in F', NW'.
    repeat split.
    + apply forall_mid. split; [|exact F']. left. cbn. repeat split; try discriminate; tauto.
    + rewrite nw_app, NW'. cbn. lia.
    + intros [t [H1 H2]]. exfalso. apply in_mid in H1 as [->|H1]; [discriminate|].
      assert (K : busy (map wake a ++ map wake b)) by (exists t; split; [exact H1|unfold writing; rewrite H2; reflexivity]).
      apply busy_nw in K. lia.
    + intros [t [H1 H2]]. exfalso. apply in_mid in H1 as [->|H1]; [discriminate|]. rewrite <- map_app in H1.
      apply in_map_iff in H1 as [t0 [<- Ht]]. rewrite Forall_forall in F. apply (wake_no_rwait t0 (F t0 Ht) H2).
Qed.

Lemma start_inv ps : Forall (wb HNone) ps -> inv (map start ps).
Proof.
  intros W. repeat split.
  - apply Forall_forall. intros t Ht. apply in_map_iff in Ht as [p [<- Hp]]. rewrite Forall_forall in W.
    left. cbn. repeat split; try discriminate. apply W. exact Hp.
  - unfold nwriting. induction ps as [|p ps IH]; cbn; [lia|]. apply IH. inversion W; assumption.
  - intros [t [H1 H2]]. apply in_map_iff in H1 as [p [<- _]]. discriminate.
  - intros [t [H1 H2]]. apply in_map_iff in H1 as [p [<- _]]. discriminate.
Qed.

Lemma steps_inv ts ts' : inv ts -> steps ts ts' -> inv ts'.
Proof. intros I H. induction H as [|a b c H IH St]; [exact I|]. apply (step_inv b); [apply IH; exact I|exact St]. Qed.

(** Threads before a run of the given programs. *)
Definition reachable (ps : list (list act)) (ts : list thread) : Prop := steps (map start ps) ts.

Lemma reach_inv ps ts : Forall prog ps -> reachable ps ts -> inv ts.
Proof.
  intros P R. apply (steps_inv (map start ps)); [|exact R]. apply start_inv.
  apply Forall_forall. intros p Hp. rewrite Forall_forall in P. apply runs_wb. apply P. exact Hp.
Qed.

(** *** C42 *)

Lemma nth_split_mid {A} (l : list A) i x : nth_error l i = Some x ->
  exists a b, l = a ++ x :: b /\ length a = i.
Proof. apply nth_error_split. Qed.

Lemma exclusion ps ts : Forall prog ps -> reachable ps ts ->
  forall i j t u, i <> j -> nth_error ts i = Some t -> nth_error ts j = Some u ->
    t_w t = true -> ~ holds_any u.
Proof.
  intros P R i j t u N Ht Hu W K. destruct (reach_inv ps ts P R) as [F [Nw [X _]]].
  destruct (nth_split_mid ts i t Ht) as [a [b [E L]]]. subst ts.
  assert (Hu' : In u (a ++ b)).
  { destruct (Nat.lt_ge_cases j i) as [C|C].
    - rewrite nth_error_app1 in Hu by lia. apply in_or_app. left. eapply nth_error_In; eauto.
    - rewrite nth_error_app2 in Hu by lia. destruct (j - length a) as [|k] eqn:Ek; [lia|]. cbn in Hu.
      apply in_or_app. right. eapply nth_error_In; eauto. }
  destruct K as [K|K].
  - assert (K0 : t_r u = 0). { apply X; [exists t; split; [apply in_mid; auto|exact W]|apply in_mid; auto]. } lia.
  - rewrite nw_app in Nw. assert (Bz : 0 < nwriting (a ++ b)).
    { apply busy_nw. exists u. split; [exact Hu'|]. unfold writing. rewrite K. reflexivity. }
    unfold writing in Nw. rewrite W in Nw. cbn in Nw. lia.
Qed.

Lemma sane ps ts : Forall prog ps -> reachable ps ts -> forall t, In t ts ->
  ~ fatal t /\
  (forall p, t_prog t = ARLock :: p \/ t_prog t = ALock :: p -> ~ holds_any t) /\
  (finished t -> ~ holds_any t).
Proof.
  intros P R t Ht. destruct (reach_inv ps ts P R) as [F _]. rewrite Forall_forall in F. specialize (F t Ht).
  unfold fatal, holds_any, finished. ok_cases F.
  - split; [|split; [intros p _ [K|K]; [lia|congruence]|intros _ [K|K]; [lia|congruence]]].
    intros [_ [[p [E _]]|[p [E _]]]]; rewrite E in B; cbn in B; destruct B; discriminate.
  - split; [intros [_ [[p [_ E]]|[p [E _]]]]; [congruence|]; rewrite E in B; cbn in B; destruct B; discriminate|].
    split.
    + intros p [E|E]; rewrite E in B; cbn in B; destruct B; discriminate.
    + intros [E _]. rewrite E in B. discriminate.
  - split; [intros [_ [[p [E _]]|[p [_ E]]]]; [|congruence]; rewrite E in B; cbn in B; destruct B; discriminate|].
    split.
    + intros p [E|E]; rewrite E in B; cbn in B; destruct B; discriminate.
    + intros [E _]. rewrite E in B. discriminate.
Qed.

Lemma no_readers_dec ts : no_readers ts \/ exists t, In t ts /\ 0 < t_r t.
Proof.
  induction ts as [|t ts [IH|[u [H1 H2]]]].
  - left. intros t [].
  - destruct (t_r t) eqn:E; [left; intros u [<-|Hu]; auto|right; exists t; split; [left; reflexivity|lia]].
  - right. exists u. split; [right; exact H1|exact H2].
Qed.

Lemma inv_progress ts : inv ts -> Forall finished ts \/ exists ts', step ts ts'.
Proof.
  intros [F [N [X Y]]].
  assert (Run : forall t, In t ts -> (t_w t = true \/ 0 < t_r t) -> exists ts', step ts ts').
  { intros t Ht H. rewrite Forall_forall in F. pose proof (F t Ht) as T. apply in_split in Ht as [a [b ->]].
    destruct t as [p r w wt]. ok_cases T.
    - destruct H as [H|H]; [congruence|lia].
    - subst r w wt. destruct p as [|[] p]; cbn in B; try (destruct B; discriminate); try discriminate.
      + eexists. apply s_runlock.
      + eexists. apply s_use.
    - subst r w wt. destruct p as [|[] p]; cbn in B; try (destruct B; discriminate); try discriminate.
      + eexists. apply s_unlock.
      + eexists. apply s_use. }
  destruct (Nat.eq_dec (nwriting ts) 0) as [Z|Z].
  - assert (NB : ~ busy ts) by (rewrite busy_nw; lia).
    assert (D : Forall finished ts \/ exists t, In t ts /\ ~ finished t).
    { clear. induction ts as [|t ts [IH|[u [H1 H2]]]].
      - left. constructor.
      - destruct t as [p r w wt]. destruct p as [|x p]; [destruct wt|].
        + left. constructor; [split; reflexivity|exact IH].
        + right. eexists. split; [left; reflexivity|]. intros [_ K]. discriminate.
        + right. eexists. split; [left; reflexivity|]. intros [_ K]. discriminate.
        + right. eexists. split; [left; reflexivity|]. intros [K _]. discriminate.
      - right. exists u. split; [right; exact H1|exact H2]. }
    destruct D as [D|[t [Ht NF]]]; [left; exact D|right].
    rewrite Forall_forall in F. pose proof (F t Ht) as T. destruct t as [p r w wt]. unfold finished in NF. cbn in NF.
    assert (Wt : wt = Ready).
    { destruct wt; [reflexivity| |].
      - exfalso. apply NB, Y. exists (mkT p r w RWait). auto.
      - exfalso. apply NB. exists (mkT p r w WWait). split; [exact Ht|]. unfold writing. cbn. apply orb_true_r. }
    subst wt. pose proof Ht as Ht0. apply in_split in Ht as [a [b ->]]. destruct p as [|x p]; [exfalso; apply NF; auto|].
    destruct x.
    + eexists. apply s_rlock. exact NB.
    + ok_cases T; cbn in B; try (destruct B; discriminate). subst r. eexists. apply s_runlock.
    + eexists. apply s_announce. exact NB.
    + ok_cases T; cbn in B; try (destruct B; discriminate). subst w. eexists. apply s_unlock.
    + eexists. apply s_use.
  - right. assert (Bz : busy ts) by (apply busy_nw; lia). destruct Bz as [t [Ht W]].
    destruct (t_w t) eqn:Tw; [apply (Run t Ht); auto|].
    unfold writing in W. rewrite Tw in W. cbn in W. destruct (t_wait t) eqn:Wt; try discriminate.
    destruct (no_readers_dec ts) as [NR|[u [Hu Ru]]]; [|apply (Run u Hu); auto].
    rewrite Forall_forall in F. pose proof (F t Ht) as T. ok_cases T; try congruence.
    destruct (C2 Wt) as [p P]. apply in_split in Ht as [a [b ->]]. destruct t as [p' r w wt]. cbn in *. subst.
    eexists. apply s_acquire. exact NR.
Qed.

(** Steps are bounded, so that every run ends. *)
Definition weight (t : thread) : nat := 2 * length (t_prog t) + match t_wait t with Ready => 1 | _ => 0 end.
Definition weights (ts : list thread) : nat := fold_right (fun t n => weight t + n) 0 ts.

Lemma weights_mid a t b : weights (a ++ t :: b) = weight t + weights (a ++ b).
Proof. unfold weights. induction a as [|x a IH]; [reflexivity|]. cbn in *. lia. Qed.

Lemma wake_weight t : weight (wake t) <= weight t.
Proof.
  unfold wake, weight. destruct (t_wait t) eqn:E; rewrite ?E; try lia.
  destruct (t_prog t) as [|[] p] eqn:P; rewrite ?E, ?P; cbn; lia.
Qed.

Lemma wake_weights ts : weights (map wake ts) <= weights ts.
Proof.
  unfold weights in *. induction ts as [|t ts IH]; cbn [map fold_right]; [lia|]. pose proof (wake_weight t). lia.
Qed.

Lemma step_weight ts ts' : step ts ts' -> weights ts' < weights ts.
Proof.
  intros St. destruct St; rewrite !weights_mid; unfold weight at 1 2; cbn [t_prog t_wait length]; try lia.
  pose proof (wake_weights (a ++ b)) as K. rewrite map_app in K. unfold weight. cbn [t_prog t_wait length]. lia.
Qed.

Inductive nsteps : nat -> list thread -> list thread -> Prop :=
| ns_0 ts : nsteps 0 ts ts
| ns_S n a b c : nsteps n a b -> step b c -> nsteps (S n) a c.

Lemma nsteps_weight n ts ts' : nsteps n ts ts' -> n + weights ts' <= weights ts.
Proof. induction 1 as [|n a b c H IH S]; [lia|]. apply step_weight in S. lia. Qed.

Lemma all_finish ps : Forall prog ps ->
  (forall ts n, nsteps n (map start ps) ts -> n <= weights (map start ps)) /\
  (forall ts, reachable ps ts -> Forall finished ts \/ exists ts', step ts ts').
Proof.
  intros P. split.
  - intros ts n H. apply nsteps_weight in H. lia.
  - intros ts R. apply inv_progress. eapply reach_inv; eauto.
Qed.

(** A panicking decode in [newfn]. *)
Lemma panic_deadlock :
  exists ts, reachable [newt_panics 1; ALock :: uses true 1 ++ [AUnlock]] ts /\
    ~ (exists ts', step ts ts') /\ exists t, In t ts /\ ~ finished t.
Proof.
  exists [mkT [] 1 false Ready; mkT (ALock :: uses true 1 ++ [AUnlock]) 0 false WWait]. split; [|split].
  - unfold reachable. eapply ss_step; [eapply ss_step; [eapply ss_step; [apply ss_refl|]|]|].
    + apply (s_rlock [] [start (ALock :: uses true 1 ++ [AUnlock])]).
      intros [t [H1 H2]]. destruct H1 as [<-|[<-|[]]]; discriminate.
    + apply (s_use [] [start (ALock :: uses true 1 ++ [AUnlock])]).
    + apply (s_announce [mkT [] 1 false Ready] []). intros [t [H1 H2]]. destruct H1 as [<-|[<-|[]]]; discriminate.
  - intros [ts' St]. remember [_; _] as ts eqn:Hts. destruct St;
      match type of Hts with ?a ++ ?t :: ?b = _ =>
        assert (K : In t (a ++ t :: b)) by (apply in_mid; auto); pose proof K as K0; rewrite Hts in K;
        destruct K as [K|[K|[]]]; try discriminate K
      end.
    assert (K1 : t_r (mkT [] 1 false Ready) = 0) by (apply H; rewrite Hts; left; reflexivity). discriminate.
  - eexists. split; [right; left; reflexivity|]. intros [K _]. discriminate.
Qed.

(** *** C43 *)

(** A program that uses CUE values without holding the lock. *)
Inductive hold_after : hold -> list act -> hold -> Prop :=
| ha_nil h : hold_after h [] h
| ha_use h u p k : hold_after h p k -> hold_after h (AUse u :: p) k
| ha_rlock p k : hold_after HR p k -> hold_after HNone (ARLock :: p) k
| ha_runlock p k : hold_after HNone p k -> hold_after HR (ARUnlock :: p) k
| ha_lock p k : hold_after HW p k -> hold_after HNone (ALock :: p) k
| ha_unlock p k : hold_after HNone p k -> hold_after HW (AUnlock :: p) k.

Definition unguarded (p : list act) : Prop :=
  exists a u b, p = a ++ AUse u :: b /\ hold_after HNone a HNone.

Definition hr (h : hold) : nat := match h with HR => 1 | _ => 0 end.
Definition hw (h : hold) : bool := match h with HW => true | _ => false end.

Lemma steps_trans a b c : steps a b -> steps b c -> steps a c.
Proof. intros H K. induction K as [|x y z K IH St]; [exact H|]. eapply ss_step; [apply IH; exact H|exact St]. Qed.

Lemma steps_one a b : step a b -> steps a b.
Proof. intros H. eapply ss_step; [apply ss_refl|exact H]. Qed.

(** Alone beside a thread that has not started. *)
Lemma solo q p h k : hold_after h p k -> forall b,
  steps [mkT (p ++ b) (hr h) (hw h) Ready; start q] [mkT b (hr k) (hw k) Ready; start q].
Proof.
  induction 1 as [h|h u p k H IH|p k H IH|p k H IH|p k H IH|p k H IH]; intros b; cbn [app].
  - apply ss_refl.
  - eapply steps_trans; [apply steps_one; apply (s_use [] [start q])|apply IH].
  - eapply steps_trans; [apply steps_one; apply (s_rlock [] [start q])|apply IH].
    intros [t [K1 K2]]. destruct K1 as [<-|[<-|[]]]; discriminate.
  - eapply steps_trans; [apply steps_one; apply (s_runlock [] [start q])|apply IH].
  - eapply steps_trans; [apply steps_one; apply (s_announce [] [start q])|].
    + intros [t [K1 K2]]. destruct K1 as [<-|[<-|[]]]; discriminate.
    + eapply steps_trans; [apply steps_one; apply (s_acquire [] [start q])|apply IH].
      intros t [<-|[<-|[]]]; reflexivity.
  - eapply steps_trans; [apply steps_one; apply (s_unlock [] [start q])|apply IH].
Qed.

Definition bind_run : list act := ALock :: uses true 1 ++ [AUnlock].

(** Every unguarded use races with a [BindLineage] call. *)
Lemma unguarded_races p : unguarded p -> exists ts, reachable [p; bind_run] ts /\ race ts.
Proof.
  intros [a [u [b [-> H]]]].
  exists [mkT (AUse u :: b) 0 false Ready; mkT (uses true 1 ++ [AUnlock]) 0 true Ready]. split.
  - unfold reachable. eapply steps_trans; [apply (solo bind_run a HNone HNone H (AUse u :: b))|].
    eapply steps_trans; apply steps_one.
    + apply (s_announce [mkT (AUse u :: b) 0 false Ready] []).
      intros [t [K1 K2]]. destruct K1 as [<-|[<-|[]]]; discriminate.
    + apply (s_acquire [mkT (AUse u :: b) 0 false Ready] []). intros t [<-|[<-|[]]]; reflexivity.
  - exists 1, 0. do 2 eexists. exists u. split; [lia|]. split; [reflexivity|]. split; [reflexivity|].
    split; eexists; split; reflexivity.
Qed.

(** Uses only with the lock held, and writing uses only as the writer. *)
Fixpoint guarded (h : hold) (p : list act) : Prop :=
  match p with
  | [] => True
  | AUse true :: p => h = HW /\ guarded h p
  | AUse false :: p => h <> HNone /\ guarded h p
  | ARLock :: p => guarded HR p
  | ALock :: p => guarded HW p
  | ARUnlock :: p | AUnlock :: p => guarded HNone p
  end.

Lemma guarded_uses_w n p : guarded HW p -> guarded HW (uses true n ++ p).
Proof. intros H. induction n as [|n IH]; [exact H|]. cbn. auto. Qed.
Lemma guarded_uses_r n p : guarded HR p -> guarded HR (uses false n ++ p).
Proof. intros H. induction n as [|n IH]; [exact H|]. cbn. split; [discriminate|exact IH]. Qed.

Lemma guarded_app p q : forall h, wb h p -> guarded h p -> guarded HNone q -> guarded h (p ++ q).
Proof.
  induction p as [|x p IH]; intros h W G Q; cbn in *; [subst; exact Q|].
  destruct x as [| | | |[|]]; try (destruct W as [-> W]); try (destruct G as [G1 G]; split; [exact G1|]); apply IH; auto.
Qed.

Definition thread_guarded (t : thread) : Prop :=
  guarded (if t_w t then HW else if Nat.eqb (t_r t) 0 then HNone else HR) (t_prog t).

Lemma guarded_head h w p : guarded h (AUse w :: p) -> guarded h p.
Proof. destruct w; cbn; tauto. Qed.

Lemma wake_guarded t : thread_ok t -> thread_guarded t -> thread_guarded (wake t).
Proof.
  intros T G. unfold wake. destruct (t_wait t) eqn:E; try exact G. destruct (t_prog t) as [|[] p] eqn:P; try exact G.
  ok_cases T; try congruence. unfold thread_guarded in *. cbn. rewrite W, R, P in *. cbn in *. exact G.
Qed.

Lemma step_guarded ts ts' : inv ts -> Forall thread_guarded ts -> step ts ts' -> Forall thread_guarded ts'.
Proof.
  intros [F _] G St. destruct St; apply forall_mid in F as [T F]; apply forall_mid in G as [G0 G];
    unfold thread_guarded in G0; cbn [t_r t_w t_prog] in G0; apply forall_mid || idtac.
  - split; [|exact G]. unfold thread_guarded. cbn [t_r t_w t_prog]. eapply guarded_head. exact G0.
  - split; [|exact G]. ok_cases T; cbn in B; try (destruct B; discriminate). subst. exact G0.
  - split; [|exact G]. exact G0.
  - split; [|exact G]. ok_cases T; cbn in B; try lia. injection R as ->. subst. exact G0.
  - split; [|exact G]. exact G0.
  - split; [|exact G]. ok_cases T; try discriminate. subst. exact G0.
  - split.
    + ok_cases T; try discriminate. subst. exact G0.
    + rewrite <- map_app. apply Forall_forall. intros t Ht. apply in_map_iff in Ht as [t0 [<- Ht]].
      rewrite Forall_forall in F, G. apply wake_guarded; auto.
Qed.

Lemma guarded_no_race ps ts :
  Forall (fun p => wb HNone p /\ guarded HNone p) ps -> reachable ps ts -> ~ race ts.
Proof.
  intros P R.
  assert (I0 : inv (map start ps)).
  { apply start_inv. eapply Forall_impl; [|exact P]. intros p [H _]. exact H. }
  assert (G0 : Forall thread_guarded (map start ps)).
  { apply Forall_forall. intros t Ht. apply in_map_iff in Ht as [p [<- Hp]]. rewrite Forall_forall in P.
    destruct (P p Hp) as [_ H]. exact H. }
  assert (IG : inv ts /\ Forall thread_guarded ts).
  { unfold reachable in R. revert I0 G0. induction R as [|a b c R IH St]; intros I0 G0; [auto|].
    destruct (IH I0 G0) as [I1 G1]. split; [eapply step_inv; eauto|eapply step_guarded; eauto]. }
  destruct IG as [[F [N [X _]]] G]. intros [i [j [t [u [w [NE [Ht [Hu [[p [E1 _]] [q [E2 _]]]]]]]]]]].
  assert (Gt : thread_guarded t) by (rewrite Forall_forall in G; apply G; eapply nth_error_In; eauto).
  assert (Gu : thread_guarded u) by (rewrite Forall_forall in G; apply G; eapply nth_error_In; eauto).
  assert (Wt : t_w t = true).
  { unfold thread_guarded in Gt. rewrite E1 in Gt. cbn in Gt. destruct Gt as [K _].
    destruct (t_w t); [reflexivity|]. destruct (Nat.eqb (t_r t) 0); discriminate. }
  assert (Hu' : t_w u = true \/ 0 < t_r u).
  { unfold thread_guarded in Gu. rewrite E2 in Gu. destruct (t_w u); [auto|right].
    destruct (Nat.eqb_spec (t_r u) 0) as [Z|Z]; [|lia]. destruct w; cbn in Gu; destruct Gu as [K _]; [discriminate|contradiction]. }
  destruct (nth_split_mid ts i t Ht) as [a [b [E L]]]. subst ts.
  assert (Iu : In u (a ++ b)).
  { destruct (Nat.lt_ge_cases j i) as [C|C].
    - rewrite nth_error_app1 in Hu by lia. apply in_or_app. left. eapply nth_error_In; eauto.
    - rewrite nth_error_app2 in Hu by lia. destruct (j - length a) as [|k] eqn:Ek; [lia|]. cbn in Hu.
      apply in_or_app. right. eapply nth_error_In; eauto. }
  destruct Hu' as [K|K].
  - rewrite nw_app in N. unfold writing in N. rewrite Wt in N. cbn in N.
    assert (Bz : 0 < nwriting (a ++ b)).
    { apply busy_nw. exists u. split; [exact Iu|]. unfold writing. rewrite K. reflexivity. }
    lia.
  - assert (Z : t_r u = 0).
    { apply X; [exists t; split; [apply in_mid; auto|exact Wt]|apply in_mid; auto]. }
    lia.
Qed.

(** Calls that only use CUE values with the lock held. *)
Definition guarded_call (c : api) : Prop :=
  c = CBindLineage \/ c = CValidate \/ c = CValidateAny \/ c = CAssignableTo \/ c = CNewT.

Lemma guarded_calls c p : guarded_call c -> runs c p -> guarded HNone p.
Proof.
  intros G R. induction R; unfold guarded_call in G;
    try (exfalso; destruct G as [G|[G|[G|[G|G]]]]; discriminate).
  - cbn. apply guarded_uses_w. exact I.
  - cbn. apply guarded_uses_r. exact I.
  - exact I.
  - apply guarded_app; [apply (proj1 runs_wb CValidate); assumption|apply IHR1; unfold guarded_call; auto|].
    apply IHR2. unfold guarded_call. auto.
  - cbn. apply guarded_uses_r. exact I.
  - cbn. apply guarded_uses_r. exact I.
Qed.

(** Goroutines that make only such calls. *)
Inductive guarded_prog : list act -> Prop :=
| gp_nil : guarded_prog []
| gp_call c p q : guarded_call c -> runs c p -> guarded_prog q -> guarded_prog (p ++ q).

Lemma guarded_progs_no_race ps ts : Forall guarded_prog ps -> reachable ps ts -> ~ race ts.
Proof.
  intros P. apply guarded_no_race. eapply Forall_impl; [|exact P]. intros p G.
  induction G as [|c p q C R G [IH1 IH2]]; [split; [reflexivity|exact I]|].
  pose proof (proj1 runs_wb c p R) as Wp. split; [apply wb_app; assumption|].
  apply guarded_app; [exact Wp|eapply guarded_calls; eauto|exact IH2].
Qed.

Lemma ha_uses u n : hold_after HNone (uses u n) HNone.
Proof. induction n; cbn; constructor; assumption. Qed.

(** The other calls have unguarded runs. *)
Lemma unguarded_calls c : ~ guarded_call c -> exists p, runs c p /\ unguarded p.
Proof.
  intros N. 
  assert (RS : hold_after HNone (ARLock :: uses false 1 ++ [ARUnlock]) HNone) by (cbn; repeat constructor).
  destruct c; unfold guarded_call in N; try (exfalso; tauto).
  - exists ((ARLock :: uses false 1 ++ [ARUnlock]) ++ uses false 1). split; [apply r_bindtype; constructor|].
    exists (ARLock :: uses false 1 ++ [ARUnlock]), false, []. auto.
  - exists ((ARLock :: uses false 1 ++ [ARUnlock]) ++ uses false 1). split; [apply r_value; constructor|].
    exists (ARLock :: uses false 1 ++ [ARUnlock]), false, []. auto.
  - eexists. split; [apply (r_translate 1 1 1)|].
    exists ((ALock :: uses true 1 ++ [AUnlock]) ++ ARLock :: uses false 1 ++ [ARUnlock]), false, []. split; [reflexivity|].
    cbn. repeat constructor.
  - exists (uses false 1). split; [apply r_translatego; apply p_use; apply p_nil|].
    exists [], false, []. split; [reflexivity|constructor].
  - exists (uses false 1). split; [constructor|]. exists [], false, []. split; [reflexivity|constructor].
  - exists (uses false 1). split; [constructor|]. exists [], false, []. split; [reflexivity|constructor].
  - exists (uses false 1). split; [constructor|]. exists [], false, []. split; [reflexivity|constructor].
  - exists (uses false 1). split; [constructor|]. exists [], false, []. split; [reflexivity|constructor].
  - exists (uses true 1 ++ []). split; [apply r_mux; constructor|]. exists [], true, []. split; [reflexivity|constructor].
  - exists (uses true 1). split; [constructor|]. exists [], true, []. split; [reflexivity|constructor].
Qed.

(** Muxes and generators race with one another. *)
Lemma builders_race c d : (c = CMux \/ c = CGenerate) -> (d = CMux \/ d = CGenerate) ->
  exists p q ts, runs c p /\ runs d q /\ reachable [p; q] ts /\ race ts.
Proof.
  assert (B : forall c, c = CMux \/ c = CGenerate -> runs c (uses true 1)).
  { intros x [->| ->]; [|constructor]. change (uses true 1) with (uses true 1 ++ []). apply r_mux. constructor. }
  intros C D. exists (uses true 1), (uses true 1). eexists. split; [auto|]. split; [auto|]. split; [apply ss_refl|].
  exists 0, 1. do 2 eexists. exists true. split; [discriminate|]. split; [reflexivity|]. split; [reflexivity|]. split; eexists; split; reflexivity.
Qed.

Lemma every_other_call_races c : ~ guarded_call c ->
  exists p ts, runs c p /\ reachable [p; bind_run] ts /\ race ts.
Proof.
  intros N. destruct (unguarded_calls c N) as [p [R U]]. destruct (unguarded_races p U) as [ts [H1 H2]]. eauto.
Qed.
