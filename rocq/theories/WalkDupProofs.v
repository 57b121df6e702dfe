(** Walking and [ValidateAny] on every bound lineage, repeated versions included. *)
From Verif Require Import Prelude Version VersionProofs Search SearchProofs
  ValidateErr Native Split Lineage LineageProofs WalkProofs GoLensProofs BindFacts WalkFacts.
From Coq Require Import Sorting.Sorted Arith.
Local Open Scope string_scope.
Local Open Scope list_scope.

Section D.
Context {V : Type}.
Variable ev : evaluator V.

(** The first schema of its version; a version declared twice; the largest
    version; a repeated version that is not the largest. *)
Definition head (l : lineage V) (s : schema V) : Prop :=
  exists i, nth_error (all_schemas l) i = Some s /\
    forall j t, j < i -> nth_error (all_schemas l) j = Some t -> s_v t <> s_v s.
Definition repeated (l : lineage V) (s : schema V) : Prop :=
  exists i j t u, i <> j /\ nth_error (all_schemas l) i = Some t /\ nth_error (all_schemas l) j = Some u /\
    s_v t = s_v s /\ s_v u = s_v s.
Definition largest (l : lineage V) (s : schema V) : Prop :=
  forall t, In t (all_schemas l) -> vle (s_v t) (s_v s).
Definition stuck (l : lineage V) (s : schema V) : Prop := repeated l s /\ ~ largest l s.

Section L.
Variable l : lineage V.
Hypothesis W : wf l.

Lemma at_sorted i j s t : i <= j -> nth_error (all_schemas l) i = Some s -> nth_error (all_schemas l) j = Some t ->
  vle (s_v s) (s_v t).
Proof.
  intros H A B. apply all_schemas_at, (sch_at_v l W) in A. apply all_schemas_at, (sch_at_v l W) in B.
  exact (sorted_nth _ (wf_sorted l W) i j _ _ H A B).
Qed.

Lemma head_rank i s : nth_error (all_schemas l) i = Some s ->
  (forall j t, j < i -> nth_error (all_schemas l) j = Some t -> s_v t <> s_v s) -> rank (l_allv l) (s_v s) = i.
Proof.
  intros A F. pose proof A as A'. apply all_schemas_at, (sch_at_v l W) in A'.
  pose proof (wf_sorted l W) as Hs.
  assert (N : ~ i < rank (l_allv l) (s_v s)).
  { rewrite (rank_split _ Hs _ i _ A'). rewrite vless_spec. apply vlt_irrefl. }
  destruct (Nat.eq_dec (rank (l_allv l) (s_v s)) i) as [E|E]; [exact E|exfalso].
  assert (K : rank (l_allv l) (s_v s) < i) by lia.
  pose proof (rank_in _ _ Hs (nth_error_In _ _ A')) as R.
  assert (L : rank (l_allv l) (s_v s) < length (l_sch l)).
  { rewrite <- (wf_length l W). apply nth_error_Some. congruence. }
  destruct (sch_at_total l _ L) as (t & Ht & _). pose proof (sch_at_v l W _ _ Ht) as V'.
  apply all_schemas_at in Ht. apply (F _ _ K Ht). congruence.
Qed.

(** Where Successor leads from the first schema of a version. *)
Lemma successor_head i s : nth_error (all_schemas l) i = Some s ->
  (forall j t, j < i -> nth_error (all_schemas l) j = Some t -> s_v t <> s_v s) ->
  (largest l s /\ successor s = Ok None) \/
  (stuck l s /\ successor s = Ok (Some s)) \/
  (~ repeated l s /\ exists t, nth_error (all_schemas l) (S i) = Some t /\ vlt (s_v s) (s_v t) /\ successor s = Ok (Some t)).
Proof.
  intros A F. pose proof (head_rank i s A F) as R.
  pose proof (nth_error_In _ _ A) as Hin. destruct (in_all_version l s W Hin) as [Hv Hl].
  pose proof (wf_sorted l W) as Hs. pose proof (wf_pos l W) as P. pose proof (wf_length l W) as L.
  remember (successor s) as o eqn:Eo. unfold successor in Eo. rewrite Hl in Eo.
  replace (Z.of_nat (length (l_allv l)) - 1)%Z with (Z.of_nat (length (l_allv l) - 1)) in Eo by lia.
  rewrite indexZ_nat in Eo. unfold index at 1 in Eo.
  destruct (nth_error (l_allv l) (length (l_allv l) - 1)) as [last|] eqn:E.
  2:{ apply nth_error_None in E. lia. }
  cbn [bind] in Eo.
  assert (Hmax : forall v, In v (l_allv l) -> vle v last).
  { intros v Hv'. apply In_nth_error in Hv' as [j Hj].
    assert (j < length (l_allv l)) by (apply nth_error_Some; congruence).
    apply (sorted_nth _ Hs j (length (l_allv l) - 1)); auto. lia. }
  destruct (veqb last (s_v s)) eqn:Q.
  - apply veqb_spec in Q. subst last. left. split; [|exact Eo].
    intros t Ht. apply Hmax. apply (in_all_version l t W Ht).
  - right. apply veqb_false in Q. rewrite searchSynv_rank in Eo by exact Hs. cbn [bind] in Eo. rewrite R in Eo.
    assert (NL : ~ largest l s).
    { intros K. apply Q. destruct (proj1 (allv_in l W last) (nth_error_In _ _ E)) as [t [Ht1 Ht2]].
      apply vle_antisym; [rewrite <- Ht2; apply K; exact Ht1|apply Hmax; exact Hv]. }
    pose proof A as A'. apply all_schemas_at, (sch_at_v l W) in A'.
    assert (Hlt : i < length (l_allv l) - 1).
    { assert (i < length (l_allv l)) by (apply nth_error_Some; congruence).
      assert (i <> length (l_allv l) - 1); [|lia]. intros ->. congruence. }
    unfold index in Eo. replace (i + 1) with (S i) in Eo by lia.
    destruct (sch_at_total l (S i) ltac:(lia)) as (t & Ht & _). pose proof (sch_at_v l W _ _ Ht) as Vt.
    apply all_schemas_at in Ht. rewrite Vt in Eo. cbn [bind] in Eo.
    destruct (schema_v_in l W (s_v t) (nth_error_In _ _ Vt)) as (n & H1 & H2 & H3 & H4 & H5).
    rewrite H1 in Eo. cbn [bind] in Eo. apply all_schemas_at in H5. rewrite H4 in H5.
    destruct (at_sorted i (S i) s t ltac:(lia) A Ht) as [LT|EQ].
    + right. split.
      * intros (j & k & u & w & D & Hu & Hw & Eu & Ew).
        assert (X : forall m x, nth_error (all_schemas l) m = Some x -> s_v x = s_v s -> m = i).
        { intros m x Hm Ex. destruct (Nat.lt_trichotomy m i) as [C|[C|C]]; [|exact C|].
          - destruct (F m x C Hm Ex).
          - exfalso. pose proof (at_sorted (S i) m t x C Ht Hm) as Y. rewrite Ex in Y. exact (vle_not_vlt _ _ Y LT). }
        apply D. rewrite (X j u Hu Eu), (X k w Hw Ew). reflexivity.
      * exists t. split; [exact Ht|]. split; [exact LT|]. rewrite Eo; do 2 f_equal.
        assert (HR : rank (l_allv l) (s_v t) = S i).
        { apply head_rank; [exact Ht|]. intros j u Hj Hu Eu.
          pose proof (at_sorted j i u s ltac:(lia) Hu A) as Y. rewrite Eu in Y. exact (vle_not_vlt _ _ Y LT). }
        rewrite HR in H5. congruence.
    + left. split.
      * split; [|exact NL]. exists i, (S i), s, t. repeat split; auto.
      * rewrite Eo; do 2 f_equal. rewrite <- EQ, R in H5. congruence.
Qed.

Lemma head_unique s t : head l s -> head l t -> s_v s = s_v t -> s = t.
Proof.
  intros (i & A & F) (j & B & G) E. destruct (Nat.lt_trichotomy i j) as [C|[C|C]].
  - destruct (G i s C A E).
  - subst j. congruence.
  - destruct (F j t C B). symmetry. exact E.
Qed.

Lemma next_head i s t : nth_error (all_schemas l) i = Some s -> nth_error (all_schemas l) (S i) = Some t ->
  vlt (s_v s) (s_v t) -> forall j u, j < S i -> nth_error (all_schemas l) j = Some u -> s_v u <> s_v t.
Proof.
  intros A B LT j u Hj Hu E. pose proof (at_sorted j i u s ltac:(lia) Hu A) as Y. rewrite E in Y.
  exact (vle_not_vlt _ _ Y LT).
Qed.

(** *** ValidateAny *)
Definition passed (data : V) (s : schema V) : Prop :=
  forall t, head l t -> vlt (s_v t) (s_v s) -> ~ repeated l t /\ exists e, validate ev t data = Err e.

Lemma loop_from data (R : reportable ev l data) : forall k i s,
  nth_error (all_schemas l) i = Some s ->
  (forall j t, j < i -> nth_error (all_schemas l) j = Some t -> s_v t <> s_v s) ->
  k = length (all_schemas l) - i -> passed data s ->
  (exists t r, head l t /\ passed data t /\ validate ev t data = Ok r /\
     forall fuel, k <= fuel -> validateAny_loop ev fuel (Some s) data = Ok (Some r)) \/
  ((forall t, head l t -> ~ stuck l t /\ exists e, validate ev t data = Err e) /\
     forall fuel, k <= fuel -> validateAny_loop ev fuel (Some s) data = Ok None) \/
  (exists t, head l t /\ passed data t /\ stuck l t /\ (exists e, validate ev t data = Err e) /\
     forall fuel, validateAny_loop ev fuel (Some s) data = OutOfFuel).
Proof.
  induction k as [|k IH]; intros i s A F Hk Pa.
  { assert (i < length (all_schemas l)) by (apply nth_error_Some; congruence). lia. }
  assert (Hd : head l s) by (exists i; auto).
  assert (L1 : forall fuel, S k <= fuel -> exists f, fuel = S f /\ k <= f).
  { intros [|f] H; [lia|]. exists f. lia. }
  destruct (validate ev s data) as [r|e| |] eqn:Ev.
  - left. exists s, r. split; [exact Hd|]. split; [exact Pa|]. split; [exact Ev|]. intros fuel HH. destruct (L1 _ HH) as (f & -> & _).
    cbn [validateAny_loop]. rewrite Ev. reflexivity.
  - destruct (successor_head i s A F) as [[Lg Su]|[[St Su]|(NR & t & Ht & LT & Su)]].
    + right. left. split.
      * intros t Ht. destruct (vlt_total (s_v t) (s_v s)) as [C|[C|C]].
        -- destruct (Pa t Ht C) as [N X]. split; [|exact X]. intros [Y _]. exact (N Y).
        -- rewrite (head_unique t s Ht Hd C). split; [|eauto]. intros [_ Y]. exact (Y Lg).
        -- exfalso. destruct Ht as (j & Hj & _). pose proof (Lg t (nth_error_In _ _ Hj)) as Y.
           exact (vle_not_vlt _ _ Y C).
      * intros fuel H. destruct (L1 _ H) as (f & -> & _). cbn [validateAny_loop]. rewrite Ev, Su. cbn [bind].
        destruct f; reflexivity.
    + right. right. exists s. split; [exact Hd|]. split; [exact Pa|]. split; [exact St|]. split; [eauto|].
      induction fuel as [|f IHf]; cbn [validateAny_loop]; [reflexivity|]. rewrite Ev, Su. cbn [bind]. exact IHf.
    + assert (Pt : passed data t).
      { intros u Hu C. pose proof Hu as (j & Hj & Fj).
        destruct (vlt_total (s_v u) (s_v s)) as [D|[D|D]].
        - exact (Pa u Hu D).
        - rewrite (head_unique u s Hu Hd D). split; [exact NR|eauto].
        - exfalso. assert (j <= i \/ S i <= j) as [Y|Y] by lia.
          + pose proof (at_sorted j i u s Y Hj A) as Z. exact (vle_not_vlt _ _ Z D).
          + pose proof (at_sorted (S i) j t u Y Ht Hj) as Z. exact (vle_not_vlt _ _ Z C). }
      assert (St : forall fuel, validateAny_loop ev (S fuel) (Some s) data = validateAny_loop ev fuel (Some t) data).
      { intros fuel. cbn [validateAny_loop]. rewrite Ev, Su. reflexivity. }
      destruct (IH (S i) t Ht (next_head i s t A Ht LT) ltac:(lia) Pt)
        as [(u & r & H1 & H2 & H3 & H4)|[(H1 & H2)|(u & H1 & H2 & H3 & H4 & H5)]].
      * left. exists u, r. split; [exact H1|]. split; [exact H2|]. split; [exact H3|].
        intros fuel H. destruct (L1 _ H) as (f & -> & Hf). rewrite St. exact (H4 f Hf).
      * right. left. split; [exact H1|]. intros fuel H. destruct (L1 _ H) as (f & -> & Hf). rewrite St. exact (H2 f Hf).
      * right. right. exists u. split; [exact H1|]. split; [exact H2|]. split; [exact H3|]. split; [exact H4|].
        intros [|f]; [reflexivity|]. rewrite St. exact (H5 f).
  - exfalso. exact (R s (nth_error_In _ _ A) Ev).
  - exfalso. exact (validate_no_fuel _ _ _ Ev).
Qed.

(** *** Following Successor *)
Lemma follow_from : forall k i s,
  nth_error (all_schemas l) i = Some s ->
  (forall j t, j < i -> nth_error (all_schemas l) j = Some t -> s_v t <> s_v s) ->
  k = length (all_schemas l) - i ->
  ((exists t, head l t /\ vle (s_v s) (s_v t) /\ stuck l t) /\ forall fuel, follow successor fuel (Some s) = OutOfFuel) \/
  ((forall t, head l t -> vle (s_v s) (s_v t) -> ~ stuck l t) /\
   exists r, StronglySorted vlt (map s_v r) /\ (forall t, In t r <-> head l t /\ vle (s_v s) (s_v t)) /\
     forall fuel, k <= fuel -> follow successor fuel (Some s) = Ok r).
Proof.
  induction k as [|k IH]; intros i s A F Hk.
  { assert (i < length (all_schemas l)) by (apply nth_error_Some; congruence). lia. }
  assert (Hd : head l s) by (exists i; auto).
  assert (L1 : forall fuel, S k <= fuel -> exists f, fuel = S f /\ k <= f).
  { intros [|f] H; [lia|]. exists f. lia. }
  destruct (successor_head i s A F) as [[Lg Su]|[[St Su]|(NR & t & Ht & LT & Su)]].
  - right. assert (U : forall t, head l t -> vle (s_v s) (s_v t) -> t = s).
    { intros t Ht Le. apply head_unique; auto. destruct Ht as (j & Hj & _).
      apply vle_antisym; [exact (Lg t (nth_error_In _ _ Hj))|exact Le]. }
    split.
    + intros t Ht Le. rewrite (U t Ht Le). intros [_ Y]. exact (Y Lg).
    + exists [s]. split; [repeat constructor|]. split.
      * intros t. split; [intros [<-|[]]; split; [exact Hd|apply vle_refl]|].
        intros [Ht Le]. left. symmetry. apply U; auto.
      * intros fuel H. destruct (L1 _ H) as (f & -> & _). cbn [follow]. rewrite Su. cbn [bind]. destruct f; reflexivity.
  - left. split; [exists s; split; [exact Hd|]; split; [apply vle_refl|exact St]|].
    induction fuel as [|f IHf]; cbn [follow]; [reflexivity|]. rewrite Su. cbn [bind]. rewrite IHf. reflexivity.
  - assert (B : forall u, head l u -> vle (s_v s) (s_v u) -> u = s \/ vle (s_v t) (s_v u)).
    { intros u Hu Le. pose proof Hu as (j & Hj & Fj). assert (j <= i \/ S i <= j) as [Y|Y] by lia.
      - left. apply head_unique; auto. apply vle_antisym; [exact (at_sorted j i u s Y Hj A)|exact Le].
      - right. exact (at_sorted (S i) j t u Y Ht Hj). }
    destruct (IH (S i) t Ht (next_head i s t A Ht LT) ltac:(lia)) as [((u & H1 & H2 & H3) & H4)|(H1 & r & H2 & H3 & H4)].
    + left. split.
      * exists u. split; [exact H1|]. split; [|exact H3]. apply vlt_vle. exact (vlt_le_trans _ _ _ LT H2).
      * intros [|f]; cbn [follow]; [reflexivity|]. rewrite Su. cbn [bind]. rewrite H4. reflexivity.
    + right. split.
      * intros u Hu Le. destruct (B u Hu Le) as [-> |Y]; [|exact (H1 u Hu Y)]. intros [Y _]. exact (NR Y).
      * exists (s :: r). split.
        -- cbn [map]. constructor; [exact H2|]. apply Forall_forall. intros v Hv. apply in_map_iff in Hv as (u & <- & Hu).
           apply H3 in Hu as [_ Y]. exact (vlt_le_trans _ _ _ LT Y).
        -- split.
           ++ intros u. split.
              ** intros [<-|Hu]; [split; [exact Hd|apply vle_refl]|]. apply H3 in Hu as [Y Z]. split; [exact Y|].
                 apply vlt_vle. exact (vlt_le_trans _ _ _ LT Z).
              ** intros [Hu Le]. destruct (B u Hu Le) as [-> |Y]; [left; reflexivity|right; apply H3; auto].
           ++ intros fuel H. destruct (L1 _ H) as (f & -> & Hf). cbn [follow]. rewrite Su. cbn [bind]. rewrite (H4 f Hf). reflexivity.
Qed.
End L.

(** C16. *)
Lemma validate_any_every l data : bound ev l ->
  (forall s, In s (all_schemas l) -> validate ev s data <> Panic) ->
  (exists s i, head l s /\ passed l data s /\ validate ev s data = Ok i /\
     forall fuel, length (all_schemas l) <= fuel -> validateAny ev fuel l data = Ok (Some i)) \/
  ((forall s, head l s -> ~ stuck l s /\ exists e, validate ev s data = Err e) /\
     forall fuel, length (all_schemas l) <= fuel -> validateAny ev fuel l data = Ok None) \/
  (exists s, head l s /\ passed l data s /\ stuck l s /\ (exists e, validate ev s data = Err e) /\
     forall fuel, validateAny ev fuel l data = OutOfFuel).
Proof.
  intros B R. apply bound_wf in B as W. unfold validateAny. rewrite schema_v_zero by exact W.
  destruct (sch_at_total l 0 (wf_pos l W)) as [s [Hs _]]. rewrite Hs. cbn [bind].
  apply all_schemas_at in Hs.
  assert (F : forall j t, j < 0 -> nth_error (all_schemas l) j = Some t -> s_v t <> s_v s) by (intros; lia).
  assert (Pa : passed l data s).
  { intros t (j & Hj & _) C. exfalso. pose proof (at_sorted l W 0 j s t ltac:(lia) Hs Hj) as Y. exact (vle_not_vlt _ _ Y C). }
  exact (loop_from l W data R (length (all_schemas l)) 0 s Hs F ltac:(lia) Pa).
Qed.

(** C12. *)
Lemma walk_every l : bound ev l ->
  exists f, first l = Ok f /\
  (((exists s, head l s /\ stuck l s) /\ forall fuel, follow successor fuel (Some f) = OutOfFuel) \/
   ((forall s, head l s -> ~ stuck l s) /\
    exists r, StronglySorted vlt (map s_v r) /\ (forall t, In t r <-> head l t) /\
      forall fuel, length (all_schemas l) <= fuel -> follow successor fuel (Some f) = Ok r)).
Proof.
  intros B. apply bound_wf in B as W.
  destruct (sch_at_total l 0 (wf_pos l W)) as [s [Hs _]]. exists s. split; [exact Hs|].
  apply all_schemas_at in Hs.
  assert (F : forall j t, j < 0 -> nth_error (all_schemas l) j = Some t -> s_v t <> s_v s) by (intros; lia).
  assert (Mi : forall t, head l t -> vle (s_v s) (s_v t)).
  { intros t (j & Hj & _). exact (at_sorted l W 0 j s t ltac:(lia) Hs Hj). }
  destruct (follow_from l W (length (all_schemas l)) 0 s Hs F ltac:(lia)) as [((u & H1 & _ & H3) & H4)|(H1 & r & H2 & H3 & H4)].
  - left. split; [eauto|exact H4].
  - right. split; [intros t Ht; exact (H1 t Ht (Mi t Ht))|]. exists r. split; [exact H2|]. split; [|exact H4].
    intros t. rewrite H3. split; [intros [X _]; exact X|intros X; split; [exact X|exact (Mi t X)]].
Qed.
End D.
