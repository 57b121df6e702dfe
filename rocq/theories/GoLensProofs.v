(** The set of Go lenses accepted by [BindLineage]. *)
From Verif Require Import Prelude Version VersionProofs Search SearchProofs
  ValidateErr Native Split Lineage LineageProofs.
From Coq Require Import Sorting.Sorted Arith ListDec ZifyBool ZifyN ZifyNat.

Lemma lid_eqb_spec a b : lid_eqb a b = true <-> a = b.
Proof.
  unfold lid_eqb. rewrite andb_true_iff, !veqb_spec. destruct a, b; cbn. split.
  - intros [-> ->]; reflexivity.
  - intros H; inversion H; auto.
Qed.
Lemma lid_eqb_refl a : lid_eqb a a = true.
Proof. apply lid_eqb_spec; reflexivity. Qed.
Lemma lid_eqb_false a b : lid_eqb a b = false <-> a <> b.
Proof. rewrite <- lid_eqb_spec. destruct (lid_eqb a b); split; congruence. Qed.

Definition lid_dec (a b : lensID) : {a = b} + {a <> b}.
Proof.
  destruct (lid_eqb a b) eqn:E;
    [left; apply lid_eqb_spec; exact E|right; apply lid_eqb_false; exact E].
Defined.

Lemma mem_lid_spec id m : mem_lid id m = true <-> In id m.
Proof.
  unfold mem_lid. rewrite existsb_exists. split.
  - intros [x [H E]]. apply lid_eqb_spec in E. subst; exact H.
  - intros H. exists id. split; [exact H|apply lid_eqb_refl].
Qed.
Lemma mem_lid_false id m : mem_lid id m = false <-> ~ In id m.
Proof. rewrite <- mem_lid_spec. destruct (mem_lid id m); split; congruence. Qed.

Lemma delete_lid_in id m x : In x (delete_lid id m) <-> In x m /\ x <> id.
Proof.
  unfold delete_lid. rewrite filter_In, negb_true_iff, lid_eqb_false. intuition congruence.
Qed.

(** *** Specification: the lenses entailed by a list of versions *)
Definition entailed (vs : list version) (id : lensID) : Prop :=
  exists i a b, nth_error vs i = Some a /\ nth_error vs (S i) = Some b /\
    (id = (b, a) \/ (id = (a, b) /\ fst a <> fst b)).

(** The expected identifiers in the order the code visits them. *)
Fixpoint expected (prior : version) (vs : list version) : list lensID :=
  match vs with
  | [] => []
  | v :: r =>
      (v, prior) :: (if negb (fst v =? fst prior)%N then [(prior, v)] else []) ++ expected v r
  end.

Lemma expected_entailed vs : forall prior id,
  In id (expected prior vs) <-> entailed (prior :: vs) id.
Proof.
  induction vs as [|v r IH]; intros prior id; cbn [expected].
  - split; [intros []|]. intros [i [a [b [H1 [H2 _]]]]]. destruct i as [|[|i]]; discriminate.
  - cbn [In]. rewrite in_app_iff, IH. split.
    + intros [<-|[H|[i [a [b [H1 [H2 H3]]]]]]].
      * exists 0, prior, v. cbn. auto.
      * destruct (N.eqb_spec (fst v) (fst prior)) as [E|E]; cbn in H; [contradiction|].
        destruct H as [<-|[]]. exists 0, prior, v. cbn. repeat split; auto.
      * exists (S i), a, b. auto.
    + intros [i [a [b [H1 [H2 H3]]]]]. destruct i as [|i].
      * cbn in H1, H2. inversion H1; inversion H2; subst a b.
        destruct H3 as [->|[-> H3]]; [left; reflexivity|].
        right; left. destruct (N.eqb_spec (fst v) (fst prior)); cbn; [congruence|auto].
      * right; right. exists i, a, b. auto.
Qed.

Lemma expected_ge vs : forall prior id, strict_vs (prior :: vs) ->
  In id (expected prior vs) -> vle prior (fst id) /\ vle prior (snd id).
Proof.
  intros prior id Hs Hin. apply expected_entailed in Hin as [i [a [b [H1 [H2 H3]]]]].
  assert (Ha : vle prior a).
  { apply (sorted_nth _ (strict_sorted _ Hs) 0 i); auto. lia. }
  assert (Hb : vle prior b).
  { apply (sorted_nth _ (strict_sorted _ Hs) 0 (S i)); auto. lia. }
  destruct H3 as [->|[-> _]]; auto.
Qed.

Lemma expected_nodup vs : forall prior, strict_vs (prior :: vs) -> NoDup (expected prior vs).
Proof.
  induction vs as [|v r IH]; intros prior Hs; cbn [expected]; [constructor|].
  inversion Hs as [|? ? Hs' F]; subst.
  assert (Hpv : vlt prior v) by (inversion F; assumption).
  assert (G : forall id, In id (expected v r) -> id <> (v, prior) /\ id <> (prior, v)).
  { intros id Hin. destruct (expected_ge r v id Hs' Hin) as [G1 G2].
    split; intros ->; cbn in *; [apply (vle_not_vlt _ _ G2 Hpv)|apply (vle_not_vlt _ _ G1 Hpv)]. }
  assert (Hne : prior <> v) by (apply vlt_neq; exact Hpv).
  constructor.
  - rewrite in_app_iff. intros [H|H].
    + destruct (negb _); [|destruct H]. destruct H as [H|[]]. inversion H; congruence.
    + destruct (G _ H) as [K _]. congruence.
  - destruct (negb _); cbn [app]; [|apply IH; exact Hs'].
    constructor; [|apply IH; exact Hs']. intros H. destruct (G _ H) as [_ K]. congruence.
Qed.

(** *** Collecting *)
Lemma collect_ok ls : forall all r,
  collect_lenses all ls = Ok r <->
  r = rev (map il_id ls) ++ all /\
  NoDup (map il_id ls) /\ (forall l, In l ls -> ~ In (il_id l) all) /\
  (forall l, In l ls -> il_mapper l <> None).
Proof.
  induction ls as [|l ls IH]; intros all r; cbn [collect_lenses map rev].
  - split.
    + intros H; inversion H. repeat split; try constructor; intros ? [].
    + intros [-> _]. reflexivity.
  - destruct (mem_lid (il_id l) all) eqn:M.
    + split; [discriminate|]. intros [_ [_ [H _]]]. apply mem_lid_spec in M.
      exfalso. apply (H l); [left; reflexivity|exact M].
    + apply mem_lid_false in M. destruct (il_mapper l) as [m|] eqn:Hm.
      * rewrite IH. rewrite <- app_assoc. cbn [app]. split.
        -- intros [H1 [H2 [H3 H4]]]. split; [exact H1|]. split.
           ++ constructor; [|exact H2]. intros Hin. apply in_map_iff in Hin as [l' [E Hin]].
              apply (H3 l' Hin). left. symmetry; exact E.
           ++ split.
              ** intros l' [<-|Hin] K; [exact (M K)|]. apply (H3 l' Hin). right; exact K.
              ** intros l' [<-|Hin]; [congruence|]. apply H4; exact Hin.
        -- intros [H1 [H2 [H3 H4]]]. inversion H2 as [|? ? H5 H6]; subst. repeat split; auto.
           ++ intros l' Hin [K|K].
              ** apply H5. rewrite K. apply in_map; exact Hin.
              ** apply (H3 l'); [right; exact Hin|exact K].
           ++ intros l' Hin. apply H4; right; exact Hin.
      * split; [discriminate|]. intros [_ [_ [_ H]]]. exfalso. apply (H l); [left; reflexivity|exact Hm].
Qed.

Lemma collect_cases ls : forall all,
  (exists r, collect_lenses all ls = Ok r) \/ (exists t, collect_lenses all ls = Err (new_err t)).
Proof.
  induction ls as [|l ls IH]; intros all; cbn [collect_lenses]; [eauto|].
  destruct (mem_lid _ _); [eauto|]. destruct (il_mapper l); [apply IH|eauto].
Qed.

(** *** Matching against the expected set *)
Lemma filter_ext_in' {A} (f g : A -> bool) l :
  (forall x, In x l -> f x = g x) -> filter f l = filter g l.
Proof.
  induction l as [|x l IH]; intros H; [reflexivity|]. cbn.
  rewrite (H x) by (left; reflexivity). rewrite IH by (intros; apply H; right; assumption). reflexivity.
Qed.

Lemma mem_delete id x m : x <> id -> mem_lid x (delete_lid id m) = mem_lid x m.
Proof.
  intros H. destruct (mem_lid x m) eqn:E.
  - apply mem_lid_spec. apply delete_lid_in. apply mem_lid_spec in E. auto.
  - apply mem_lid_false. rewrite delete_lid_in. apply mem_lid_false in E. tauto.
Qed.

Lemma delete_notin id m : ~ In id m -> delete_lid id m = m.
Proof.
  induction m as [|x m IH]; intros H; [reflexivity|]. cbn.
  destruct (lid_eqb id x) eqn:E; cbn [negb].
  - apply lid_eqb_spec in E. subst. exfalso; apply H; left; reflexivity.
  - unfold delete_lid in IH. rewrite IH; [reflexivity|]. intros K; apply H; right; exact K.
Qed.

Lemma filter_delete (p : lensID -> bool) id m :
  filter p (delete_lid id m) = filter (fun x => negb (lid_eqb id x) && p x) m.
Proof.
  unfold delete_lid. induction m as [|x m IH]; [reflexivity|]. cbn.
  destruct (lid_eqb id x); cbn [negb andb filter]; [exact IH|].
  destruct (p x); rewrite IH; reflexivity.
Qed.

Lemma expect_ok vs : forall prior all missing, NoDup (expected prior vs) ->
  expect_lenses prior vs all missing =
  (missing ++ filter (fun id => negb (mem_lid id all)) (expected prior vs),
   filter (fun id => negb (mem_lid id (expected prior vs))) all).
Proof.
  induction vs as [|v r IH]; intros prior all missing ND; cbn [expect_lenses expected].
  - cbn. rewrite app_nil_r. f_equal.
    assert (H : forall A (l : list A), filter (fun _ => true) l = l).
    { intros A l; induction l as [|x l IHl]; [reflexivity|]. cbn; rewrite IHl; reflexivity. }
    rewrite H. reflexivity.
  - cbv zeta. unfold lid. cbn [expected] in ND.
    (* one deletion or one miss, for an identifier not occurring later *)
    assert (One : forall id E all missing, ~ In id E ->
      let '(m1, a1) := (if mem_lid id all then (missing, delete_lid id all) else (missing ++ [id], all)) in
      (m1 ++ filter (fun x => negb (mem_lid x a1)) E, filter (fun x => negb (mem_lid x E)) a1) =
      (missing ++ filter (fun x => negb (mem_lid x all)) (id :: E),
       filter (fun x => negb (mem_lid x (id :: E))) all)).
    { clear. intros id E all missing Hni. cbn [filter].
      destruct (mem_lid id all) eqn:M; cbn [negb].
      - f_equal.
        + f_equal. apply filter_ext_in'. intros x Hx. rewrite mem_delete by congruence. reflexivity.
        + rewrite filter_delete. apply filter_ext_in'. intros x Hx.
          unfold mem_lid at 2. cbn [existsb]. fold (mem_lid x E). rewrite negb_orb.
          f_equal. f_equal. destruct (lid_eqb id x) eqn:E1.
          * apply lid_eqb_spec in E1. subst. symmetry; apply lid_eqb_refl.
          * symmetry. apply lid_eqb_false. apply lid_eqb_false in E1. congruence.
      - rewrite <- app_assoc. cbn [app]. f_equal. apply filter_ext_in'. intros x Hx.
        unfold mem_lid at 2. cbn [existsb]. fold (mem_lid x E).
        assert (Q : lid_eqb x id = false).
        { apply lid_eqb_false. intros ->. apply mem_lid_false in M. exact (M Hx). }
        rewrite Q. reflexivity. }
    inversion ND as [|? ? N1 N2]; subst.
    destruct (negb (fst v =? fst prior)%N); cbn [app] in *.
    + inversion N2 as [|? ? N3 N4]; subst.
      pose proof (One (v, prior) ((prior, v) :: expected v r) all missing N1) as O1.
      destruct (if mem_lid (v, prior) all then _ else _) as [m1 a1].
      pose proof (One (prior, v) (expected v r) a1 m1 N3) as O2.
      destruct (if mem_lid (prior, v) a1 then _ else _) as [m2 a2].
      rewrite IH by exact N4. rewrite O2. exact O1.
    + pose proof (One (v, prior) (expected v r) all missing N1) as O1.
      destruct (if mem_lid (v, prior) all then _ else _) as [m1 a1].
      rewrite IH by exact N2. exact O1.
Qed.

Lemma filter_nil {A} (f : A -> bool) l : filter f l = [] <-> forall x, In x l -> f x = false.
Proof.
  induction l as [|x l IH]; cbn.
  - split; [intros _ ? []|reflexivity].
  - destruct (f x) eqn:E; split.
    + discriminate.
    + intros H. rewrite (H x) in E by auto. discriminate.
    + intros H y [<-|Hy]; [exact E|]. apply IH; auto.
    + intros H. apply IH. intros; apply H; auto.
Qed.

(** *** Explanations never panic *)
Lemma lens_reason_total allv l : sorted_vs allv -> exists r, lens_reason_of allv l = Ok r.
Proof.
  intros Hs. unfold lens_reason_of.
  destruct (synvExists_spec allv (il_to l) Hs) as [bt [Et Ht]]. rewrite Et. cbn [bind].
  destruct bt; cbn [negb]; [|eauto].
  destruct (synvExists_spec allv (il_from l) Hs) as [bf [Ef Hf]]. rewrite Ef. cbn [bind].
  destruct bf; cbn [negb]; [|eauto].
  destruct (veqb (il_to l) (il_from l)) eqn:E; [eauto|].
  assert (It : In (il_to l) allv) by (apply Ht; reflexivity).
  assert (If : In (il_from l) allv) by (apply Hf; reflexivity).
  pose proof (rank_in _ _ Hs It) as Rt. pose proof (rank_in _ _ Hs If) as Rf.
  destruct (vless (il_to l) (il_from l)) eqn:L.
  - rewrite searchSynv_rank by exact Hs. cbn [bind].
    assert (Hlt : rank allv (il_to l) < rank allv (il_from l)).
    { apply (rank_split allv Hs (il_from l) _ _ Rt). exact L. }
    replace (Z.of_nat (rank allv (il_from l)) - 1)%Z with (Z.of_nat (rank allv (il_from l) - 1)) by lia.
    rewrite indexZ_nat. unfold index.
    destruct (nth_error allv (rank allv (il_from l) - 1)) eqn:N; [cbn; eauto|].
    apply nth_error_None in N. assert (rank allv (il_from l) < length allv) by (apply nth_error_Some; congruence). lia.
  - destruct (negb _); [eauto|].
    rewrite searchSynv_rank by exact Hs. cbn [bind].
    assert (Hlt : rank allv (il_from l) < rank allv (il_to l)).
    { apply (rank_split allv Hs (il_to l) _ _ Rf).
      apply vless_false in L. destruct L as [L|L]; [apply vless_spec; exact L|].
      apply veqb_false in E. congruence. }
    unfold index.
    destruct (nth_error allv (rank allv (il_from l) + 1)) eqn:N; [cbn; eauto|].
    apply nth_error_None in N. assert (rank allv (il_to l) < length allv) by (apply nth_error_Some; congruence). lia.
Qed.

Lemma erroneous_total allv all ls : sorted_vs allv -> exists r, erroneous_reasons allv all ls = Ok r.
Proof.
  intros Hs. induction ls as [|l ls [r IH]]; cbn [erroneous_reasons]; [eauto|].
  destruct (mem_lid _ _); [|eauto]. destruct (lens_reason_total allv l Hs) as [x ->].
  cbn [bind]. rewrite IH. cbn. eauto.
Qed.

Lemma erroneous_in allv all ls rs : erroneous_reasons allv all ls = Ok rs ->
  forall id r, In (id, r) rs <->
    exists l, In l ls /\ il_id l = id /\ In id all /\ lens_reason_of allv l = Ok r.
Proof.
  revert rs. induction ls as [|l ls IH]; intros rs H id r; cbn [erroneous_reasons] in H.
  - inversion H; subst. split; [intros []|intros [l [[] _]]].
  - destruct (mem_lid (il_id l) all) eqn:M.
    + inv_bind H. inv_bind H. inversion H; subst rs; clear H. apply mem_lid_spec in M.
      specialize (IH _ H1 id r). cbn [In]. rewrite IH. split.
      * intros [E|[l' [K1 K2]]]; [inversion E; subst|].
        -- exists l. auto.
        -- exists l'. split; [right; exact K1|exact K2].
      * intros [l' [[<-|K1] [K2 [K3 K4]]]]; [left; congruence|right; eauto].
    + apply mem_lid_false in M. rewrite (IH _ H id r). split.
      * intros [l' [K1 K2]]. exists l'. split; [right; exact K1|exact K2].
      * intros [l' [[<-|K1] [K2 [K3 K4]]]]; [congruence|eauto].
Qed.

(** *** Main characterisation *)
Definition exact_lenses (vs : list version) (ls : list implens) : Prop :=
  NoDup (map il_id ls) /\ (forall l, In l ls -> il_mapper l <> None) /\
  (forall id, In id (map il_id ls) <-> entailed vs id).

(** The walk over an arbitrary bound lineage: [0.0] takes the place of the first
    version. *)
Lemma completeness_cases vs ls v0 rest :
  vs = v0 :: rest -> sorted_vs vs -> NoDup (expected synv0 rest) ->
  match checkGoLensCompleteness vs ls with
  | Ok lm => exact_lenses (synv0 :: rest) ls /\ lm = build_lensmap ls
  | Err e =>
      ((~ NoDup (map il_id ls) \/ exists l, In l ls /\ il_mapper l = None) /\ e_marks e = []) \/
      (NoDup (map il_id ls) /\ (forall l, In l ls -> il_mapper l <> None) /\
       (exists id, entailed (synv0 :: rest) id /\ ~ In id (map il_id ls)) /\
       e_marks e = [ErrMissingLenses] /\
       exists L, e_text e = missing_text L /\ NoDup L /\
         forall id, In id L <-> entailed (synv0 :: rest) id /\ ~ In id (map il_id ls)) \/
      (NoDup (map il_id ls) /\ (forall l, In l ls -> il_mapper l <> None) /\
       (forall id, entailed (synv0 :: rest) id -> In id (map il_id ls)) /\
       (exists id, In id (map il_id ls) /\ ~ entailed (synv0 :: rest) id) /\
       e_marks e = [ErrErroneousLenses] /\
       exists rs, e_text e = erroneous_text rs /\
         forall id r, In (id, r) rs <->
           exists l, In l ls /\ il_id l = id /\ ~ entailed (synv0 :: rest) id /\
             lens_reason_of vs l = Ok r)
  | _ => False
  end.
Proof.
  intros -> Hs ND. unfold checkGoLensCompleteness.
  destruct (collect_cases ls []) as [[r Hr]|[t Ht]].
  - rewrite Hr. cbn [bind]. apply collect_ok in Hr as [-> [D [_ M]]].
    rewrite app_nil_r. rewrite expect_ok by exact ND. cbn [app].
    destruct (filter (fun id => negb (mem_lid id (rev (map il_id ls)))) (expected synv0 rest)) as [|x xs] eqn:F1.
    + assert (All : forall id, entailed (synv0 :: rest) id -> In id (map il_id ls)).
      { intros id H. apply expected_entailed in H.
        apply (proj1 (filter_nil _ _) F1) in H. apply negb_false_iff, mem_lid_spec in H.
        apply in_rev in H. exact H. }
      destruct (filter (fun id => negb (mem_lid id (expected synv0 rest))) (rev (map il_id ls))) as [|y ys] eqn:F2.
      * split; [|reflexivity]. split; [exact D|]. split; [exact M|]. intros id. split; [|apply All].
        intros H. apply in_rev in H. apply (proj1 (filter_nil _ _) F2) in H.
        apply negb_false_iff, mem_lid_spec in H. apply expected_entailed; exact H.
      * destruct (erroneous_total (v0 :: rest) (y :: ys) ls Hs) as [r Hr]. rewrite Hr. cbn [bind].
        right; right. split; [exact D|]. split; [exact M|]. split; [exact All|].
        assert (G : forall id, In id (y :: ys) <-> In id (map il_id ls) /\ ~ entailed (synv0 :: rest) id).
        { intros id. rewrite <- F2, filter_In, <- in_rev, negb_true_iff, mem_lid_false, expected_entailed. reflexivity. }
        split; [|split; [reflexivity|]].
        2:{ exists r. split; [reflexivity|]. intros id r'. rewrite (erroneous_in _ _ _ _ Hr). split.
            - intros [l [K1 [K2 [K3 K4]]]]. exists l. apply G in K3. tauto.
            - intros [l [K1 [K2 [K3 K4]]]]. exists l. split; [exact K1|]. split; [exact K2|]. split; [|exact K4].
              apply G. split; [|exact K3]. rewrite <- K2. apply in_map; exact K1. }
        assert (Hy : In y (filter (fun id => negb (mem_lid id (expected synv0 rest))) (rev (map il_id ls))))
          by (rewrite F2; left; reflexivity).
        apply filter_In in Hy as [Hy1 Hy2]. apply in_rev in Hy1.
        apply negb_true_iff, mem_lid_false in Hy2. rewrite expected_entailed in Hy2. eauto.
    + right; left. split; [exact D|]. split; [exact M|].
      split; [|split; [reflexivity|]].
      2:{ exists (x :: xs). split; [reflexivity|]. rewrite <- F1. split.
          - apply NoDup_filter; exact ND.
          - intros id. rewrite filter_In, expected_entailed, negb_true_iff, mem_lid_false, <- in_rev. reflexivity. }
      assert (Hx : In x (filter (fun id => negb (mem_lid id (rev (map il_id ls)))) (expected synv0 rest)))
        by (rewrite F1; left; reflexivity).
      apply filter_In in Hx as [Hx1 Hx2]. apply expected_entailed in Hx1.
      apply negb_true_iff, mem_lid_false in Hx2. rewrite <- in_rev in Hx2. eauto.
  - rewrite Ht. cbn [bind]. left. split; [|reflexivity].
    assert (N : ~ exists r, collect_lenses [] ls = Ok r) by (intros [r K]; congruence).
    destruct (NoDup_dec lid_dec (map il_id ls)) as [D|D]; [|left; exact D].
    right. destruct (existsb (fun l => match il_mapper l with None => true | _ => false end) ls) eqn:X.
    + apply existsb_exists in X as [l [Hl Hm]]. exists l. split; [exact Hl|]. destruct (il_mapper l); [discriminate|reflexivity].
    + exfalso. apply N. eexists. apply collect_ok. repeat split; auto.
      intros l Hl K. assert (E : existsb (fun l => match il_mapper l with None => true | _ => false end) ls = true).
      { apply existsb_exists. exists l. rewrite K. auto. }
      congruence.
Qed.

Lemma completeness_ok vs ls lm :
  strict_vs vs -> nth_error vs 0 = Some synv0 ->
  (checkGoLensCompleteness vs ls = Ok lm <-> exact_lenses vs ls /\ lm = build_lensmap ls).
Proof.
  intros Hs H0. destruct vs as [|v0 rest]; [discriminate|]. cbn in H0. inversion H0; subst v0.
  pose proof (completeness_cases _ ls synv0 rest eq_refl (strict_sorted _ Hs) (expected_nodup rest synv0 Hs)) as C.
  split.
  - intros E. rewrite E in C. exact C.
  - intros [[D [M X]] ->]. destruct (checkGoLensCompleteness (synv0 :: rest) ls) as [lm|e| |].
    + destruct C as [_ ->]. reflexivity.
    + exfalso. destruct C as [[[C|[l [C1 C2]]] _]|[[_ [_ [[id [C1 C2]] _]]]|[_ [_ [_ [[id [C1 C2]] _]]]]]].
      * exact (C D).
      * exact (M l C1 C2).
      * apply C2, X, C1.
      * apply C2, X, C1.
    + destruct C.
    + destruct C.
Qed.

(** *** The lens map *)
Lemma build_lensmap_lookup ls : NoDup (map il_id ls) -> forall id,
  lens_lookup (build_lensmap ls) id =
  find (fun l => lid_eqb id (il_id l)) ls.
Proof.
  intros ND id. unfold build_lensmap.
  assert (G : forall ls m, NoDup (map il_id ls) ->
    lens_lookup (fold_left (fun m l => (il_id l, l) :: m) ls m) id =
    match find (fun l => lid_eqb id (il_id l)) ls with Some l => Some l | None => lens_lookup m id end).
  { clear. induction ls as [|l ls IH]; intros m ND; cbn; [reflexivity|].
    inversion ND as [|? ? H1 H2]; subst. rewrite IH by exact H2. cbn [lens_lookup].
    destruct (lid_eqb id (il_id l)) eqn:E.
    - destruct (find (fun l0 => lid_eqb id (il_id l0)) ls) as [x|] eqn:F; [|reflexivity].
      apply find_some in F as [F1 F2]. apply lid_eqb_spec in E, F2. exfalso. apply H1.
      rewrite <- E, F2. apply in_map; exact F1.
    - reflexivity. }
  rewrite G by exact ND. cbn. destruct (find _ ls); reflexivity.
Qed.

Lemma build_lensmap_in ls id l : NoDup (map il_id ls) ->
  (lens_lookup (build_lensmap ls) id = Some l <-> In l ls /\ il_id l = id).
Proof.
  intros ND. rewrite build_lensmap_lookup by exact ND. split.
  - intros H. apply find_some in H as [H1 H2]. apply lid_eqb_spec in H2. auto.
  - intros [H1 H2]. destruct (find (fun l => lid_eqb id (il_id l)) ls) as [x|] eqn:F.
    + apply find_some in F as [F1 F2]. apply lid_eqb_spec in F2. f_equal.
      assert (il_id x = il_id l) by congruence. clear F2 H2.
      induction ls as [|y ls IH]; [destruct H1|]. cbn in ND. inversion ND as [|? ? N1 N2]; subst.
      destruct H1 as [->|H1], F1 as [->|F1]; auto.
      * exfalso. apply N1. rewrite <- H. apply in_map; exact F1.
      * exfalso. apply N1. rewrite H. apply in_map; exact H1.
    + pose proof (find_none _ _ F l H1) as K. cbn in K. rewrite H2, lid_eqb_refl in K. discriminate.
Qed.
