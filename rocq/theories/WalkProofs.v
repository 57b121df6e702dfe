(** Walking lineages and [ValidateAny]. *)
From Verif Require Import Prelude Version VersionProofs Search SearchProofs
  ValidateErr Native Split Lineage LineageProofs.
From Coq Require Import Sorting.Sorted Arith ZifyBool ZifyN ZifyNat.

Section W.
Context {V : Type}.
Variable ev : evaluator V.

(** Repeatedly calling a neighbour function until nil, collecting the visited
    schemas. *)
Fixpoint follow (next : schema V -> outcome (option (schema V))) (fuel : nat)
    (s : option (schema V)) : outcome (list (schema V)) :=
  match s with
  | None => Ok []
  | Some x =>
      match fuel with
      | O => OutOfFuel
      | S f => n <- next x ;; r <- follow next f n ;; Ok (x :: r)
      end
  end.

(** Versions strictly increase from 0.0. *)
Definition strict_from_zero (l : lineage V) : Prop :=
  strict_vs (map s_v (all_schemas l)) /\
  exists s, first l = Ok s /\ s_v s = synv0.

Lemma map_snd_combine {A} (l : list A) k :
  map snd (combine (seq k (length l)) l) = l.
Proof.
  revert k; induction l as [|x l IH]; intros k; [reflexivity|]. cbn. rewrite IH. reflexivity.
Qed.

Lemma all_schemas_versions (l : lineage V) : wf l -> map s_v (all_schemas l) = l_allv l.
Proof.
  intros [H _]. rewrite H. unfold all_schemas. rewrite map_map.
  rewrite <- (map_snd_combine (l_sch l) 0) at 3. rewrite map_map.
  apply map_ext. intros; reflexivity.
Qed.

Lemma sfz_strict (l : lineage V) : wf l -> strict_from_zero l -> strict_vs (l_allv l).
Proof. intros W [H _]. rewrite all_schemas_versions in H by exact W. exact H. Qed.

Lemma sfz_zero (l : lineage V) : wf l -> strict_from_zero l -> nth_error (l_allv l) 0 = Some synv0.
Proof.
  intros W [_ [s [H E]]]. rewrite <- E. apply sch_at_v; [exact W|exact H].
Qed.

Lemma skipn_nth {A} (l : list A) i a : nth_error l i = Some a -> skipn i l = a :: skipn (S i) l.
Proof.
  revert i; induction l as [|x l IH]; intros i H; destruct i; try discriminate; cbn in *.
  - inversion H; reflexivity.
  - apply IH; exact H.
Qed.

Lemma follow_succ_from (l : lineage V) (W : wf l) (S : strict_vs (l_allv l)) : forall k i s fuel,
  sch_at l i = Ok s -> k = length (l_sch l) - i -> k <= fuel ->
  follow successor fuel (Some s) = Ok (skipn i (all_schemas l)).
Proof.
  induction k as [|k IH]; intros i s fuel H Hk Hf.
  - apply sch_at_ok in H as [sd [H _]]. assert (i < length (l_sch l)) by (apply nth_error_Some; congruence). lia.
  - destruct fuel as [|f]; [lia|]. cbn [follow].
    rewrite (successor_strict l W S i s H).
    assert (Hs : nth_error (all_schemas l) i = Some s) by (apply all_schemas_at; exact H).
    rewrite (skipn_nth _ _ _ Hs).
    destruct (Nat.eqb_spec (i + 1) (length (l_sch l))) as [E|E].
    + cbn [bind]. assert (F : follow successor f None = Ok []) by (destruct f; reflexivity).
      rewrite F. cbn [bind]. rewrite skipn_all2; [reflexivity|]. rewrite all_schemas_length. lia.
    + destruct (sch_at_total l (i + 1)) as [n [Hn _]].
      { assert (i < length (l_sch l)); [|lia].
        apply sch_at_ok in H as [sd [H _]]. apply nth_error_Some; congruence. }
      rewrite Hn. cbn [bind]. rewrite (IH (i + 1) n f Hn) by lia.
      cbn [bind]. rewrite Nat.add_1_r. reflexivity.
Qed.

Lemma follow_pred_from (l : lineage V) (W : wf l) (S : strict_vs (l_allv l))
  (Z : nth_error (l_allv l) 0 = Some synv0) : forall i s fuel,
  sch_at l i = Ok s -> i < fuel ->
  follow predecessor fuel (Some s) = Ok (rev (firstn (i + 1) (all_schemas l))).
Proof.
  induction i as [|i IH]; intros s fuel H Hf; (destruct fuel as [|f]; [lia|]); cbn [follow];
    rewrite (predecessor_strict l W S Z _ s H);
    assert (Hs := proj2 (all_schemas_at l _ s) H).
  - cbn [bind]. assert (F : follow predecessor f None = Ok []) by (destruct f; reflexivity).
    rewrite F. cbn [bind]. destruct (all_schemas l) as [|x xs]; [discriminate|].
    cbn in Hs. inversion Hs; subst. reflexivity.
  - destruct (sch_at_total l i) as [n [Hn _]].
    { apply sch_at_ok in H as [sd [H _]].
      assert (Datatypes.S i < length (l_sch l)) by (apply nth_error_Some; congruence). lia. }
    rewrite Hn. cbn [bind]. rewrite (IH n f Hn) by lia. cbn [bind].
    f_equal. replace (Datatypes.S i + 1) with (Datatypes.S (i + 1)) by lia.
    assert (Q : firstn (Datatypes.S (i + 1)) (all_schemas l) = firstn (i + 1) (all_schemas l) ++ [s]).
    { replace (i + 1) with (Datatypes.S i) in * by lia. clear -Hs.
      revert Hs. generalize (Datatypes.S i) as m. generalize (all_schemas l) as L.
      induction L as [|x L IH]; intros m Hs; destruct m; try discriminate; cbn in *.
      - inversion Hs; reflexivity.
      - f_equal. apply IH; exact Hs. }
    rewrite Q, rev_app_distr. reflexivity.
Qed.

(** *** Validation *)

(** The evaluator finds no error in the data unified with the schema. *)
Definition conforms (s : schema V) (data : V) : Prop :=
  ev_validate ev (ev_unify ev (sd_def (s_sd s)) data) = None.

Lemma validate_ok s data i :
  validate ev s data = Ok i <-> conforms s data /\ i = mkInst data "" s true.
Proof.
  unfold validate, conforms. destruct (ev_validate ev _) as [x|]; split.
  - intros H. exfalso. destruct (mungeValidateErr _ _ _); discriminate.
  - intros [H _]; discriminate.
  - intros H; inversion H; auto.
  - intros [_ ->]; reflexivity.
Qed.

Lemma validate_no_fuel s data : validate ev s data <> OutOfFuel.
Proof.
  unfold validate. destruct (ev_validate ev _) as [x|]; [|discriminate].
  unfold mungeValidateErr. destruct x as [es|e]; [|discriminate].
  assert (H : munge_all (l_name (s_lin s)) (s_v s) es <> OutOfFuel).
  { induction es as [|e es IH]; cbn [munge_all]; [discriminate|].
    assert (K : munge_one (l_name (s_lin s)) (s_v s) e <> OutOfFuel).
    { unfold munge_one. destruct (splitTokens (ce_pos e)).
      assert (T : trimThemaPath (ce_path e) <> OutOfFuel).
      { unfold trimThemaPath. generalize (ce_path e) at 2; intros P. generalize 0.
        induction (ce_path e) as [|x xs IHx]; intros n; cbn [trim_loop].
        - unfold slice_from. destruct (_ <? _); discriminate.
        - destruct (String.eqb x _); [|apply IHx]. unfold slice_from. destruct (_ <? _); discriminate. }
      destruct (trimThemaPath (ce_path e)); cbn [bind]; congruence. }
    destruct (munge_one _ _ e); cbn [bind]; try congruence.
    destruct (munge_all _ _ es); cbn [bind]; congruence. }
  destruct (munge_all _ _ es); cbn [bind]; congruence.
Qed.

(** Validating [data] does not crash while composing an error message. *)
Definition reportable (l : lineage V) (data : V) : Prop :=
  forall s, In s (all_schemas l) -> validate ev s data <> Panic.

Lemma validateAny_from l data (W : wf l) (S : strict_vs (l_allv l)) (R : reportable l data) :
  forall k i s fuel,
  sch_at l i = Ok s -> k = length (l_sch l) - i -> k <= fuel ->
  (validateAny_loop ev fuel (Some s) data = Ok None /\
     (forall j t, i <= j -> sch_at l j = Ok t -> ~ conforms t data)) \/
  (exists j t, i <= j /\ sch_at l j = Ok t /\ conforms t data /\
     (forall j' t', i <= j' < j -> sch_at l j' = Ok t' -> ~ conforms t' data) /\
     validateAny_loop ev fuel (Some s) data = Ok (Some (mkInst data "" t true))).
Proof.
  induction k as [|k IH]; intros i s fuel H Hk Hf.
  - apply sch_at_ok in H as [sd [H _]]. assert (i < length (l_sch l)) by (apply nth_error_Some; congruence). lia.
  - destruct fuel as [|f]; [lia|]. cbn [validateAny_loop].
    destruct (validate ev s data) as [inst|e| |] eqn:Ev.
    + apply validate_ok in Ev as [C ->]. right. exists i, s. repeat split; auto. intros; lia.
    + assert (NC : ~ conforms s data).
      { intros C. assert (K : validate ev s data = Ok (mkInst data "" s true)) by (apply validate_ok; auto). congruence. }
      rewrite (successor_strict l W S i s H).
      assert (Hi : i < length (l_sch l)).
      { apply sch_at_ok in H as [sd [H _]]. apply nth_error_Some; congruence. }
      destruct (Nat.eqb_spec (i + 1) (length (l_sch l))) as [E|E].
      * cbn [bind]. left. split; [destruct f; reflexivity|]. intros j t Hj Ht.
        assert (j < length (l_sch l)).
        { apply sch_at_ok in Ht as [sd [Ht _]]. apply nth_error_Some; congruence. }
        assert (j = i) by lia. subst j. congruence.
      * destruct (sch_at_total l (i + 1) ltac:(lia)) as [n [Hn _]].
        rewrite Hn. cbn [bind].
        destruct (IH (i + 1) n f Hn ltac:(lia) ltac:(lia)) as [[K1 K2]|[j [t [K1 [K2 [K3 [K4 K5]]]]]]].
        -- left. split; [exact K1|]. intros j t Hj Ht. destruct (Nat.eq_dec j i) as [->|].
           ++ congruence.
           ++ apply (K2 j t); [lia|exact Ht].
        -- right. exists j, t. repeat split; auto; [lia|]. intros j' t' Hj' Ht'.
           destruct (Nat.eq_dec j' i) as [->|]; [congruence|]. apply (K4 j' t'); [lia|exact Ht'].
    + exfalso. apply (R s); [|exact Ev]. apply (nth_error_In _ i). apply all_schemas_at; exact H.
    + exfalso. exact (validate_no_fuel _ _ Ev).
Qed.

Lemma validateAny_strict l data fuel :
  wf l -> strict_vs (l_allv l) -> reportable l data -> length (all_schemas l) <= fuel ->
  (validateAny ev fuel l data = Ok None /\
     forall s, In s (all_schemas l) -> ~ conforms s data) \/
  (exists s, In s (all_schemas l) /\ conforms s data /\
     (forall t, In t (all_schemas l) -> conforms t data -> vle (s_v s) (s_v t)) /\
     validateAny ev fuel l data = Ok (Some (mkInst data "" s true))).
Proof.
  intros W S R Hf. unfold validateAny. rewrite schema_v_zero by exact W.
  destruct (sch_at_total l 0 (wf_pos l W)) as [s [Hs _]]. rewrite Hs. cbn [bind].
  rewrite all_schemas_length in Hf.
  destruct (validateAny_from l data W S R (length (l_sch l)) 0 s fuel Hs ltac:(lia) Hf)
    as [[K1 K2]|[j [t [K1 [K2 [K3 [K4 K5]]]]]]].
  - left. split; [exact K1|]. intros t Ht. apply In_nth_error in Ht as [j Hj].
    apply all_schemas_at in Hj. apply (K2 j t); [lia|exact Hj].
  - right. exists t. split; [apply (nth_error_In _ j); apply all_schemas_at; exact K2|].
    split; [exact K3|]. split; [|exact K5]. intros t' Ht' C.
    apply In_nth_error in Ht' as [j' Hj']. apply all_schemas_at in Hj'.
    destruct (Nat.lt_ge_cases j' j) as [Hlt|Hge].
    + exfalso. apply (K4 j' t'); auto. lia.
    + apply (sorted_nth _ (wf_sorted l W) j j'); [exact Hge| |]; apply sch_at_v; auto.
Qed.

(** *** Compatibility along a major version *)
Lemma within_major_pred fv opts id lindef e l (P : schema V -> Prop) :
  BindLineage ev id fv lindef e opts = Ok l ->
  skipbuggychecks (make_cfg fv opts) = false ->
  strict_vs (l_allv l) ->
  (forall a b, In a (all_schemas l) -> In b (all_schemas l) ->
     ev_subsumes ev (sd_def (s_sd b)) (sd_def (s_sd a)) = true -> P a -> P b) ->
  forall s1 s2, In s1 (all_schemas l) -> In s2 (all_schemas l) ->
    fst (s_v s1) = fst (s_v s2) -> vle (s_v s1) (s_v s2) -> P s1 -> P s2.
Proof.
  intros B Hskip Hst Hsound s1 s2 H1 H2 Hmaj Hle C1.
  assert (W : wf l) by (apply (bound_wf ev); unfold bound; eauto 6).
  apply bind_inv in B. destruct B as [es [lm [_ [_ [_ [Hc _]]]]]].
  apply check_schemas_ok in Hc as [_ [Step _]]. rewrite Hskip in Step.
  apply In_nth_error in H1 as [i Hi]. apply In_nth_error in H2 as [j Hj].
  apply all_schemas_at in Hi, Hj.
  assert (Hij : i <= j).
  { pose proof (strict_rank l W Hst _ _ Hi) as R1. pose proof (strict_rank l W Hst _ _ Hj) as R2.
    destruct (Nat.le_gt_cases i j) as [K|K]; [exact K|exfalso].
    assert (vlt (s_v s2) (s_v s1)) by (apply (strict_nth _ Hst j i); [exact K| |]; apply sch_at_v; auto).
    apply (vle_not_vlt _ _ Hle H). }
  clear Hle. revert j s2 Hj Hmaj Hij.
  induction j as [|j IH]; intros s2 Hj Hmaj Hij.
  - assert (i = 0) by lia. subst i. replace s2 with s1 by congruence. exact C1.
  - destruct (Nat.eq_dec i (S j)) as [->|Hne].
    + replace s2 with s1 by congruence. exact C1.
    + destruct (sch_at_total l j) as [p [Hp _]].
      { apply sch_at_ok in Hj as [sd [Hj _]].
        assert (S j < length (l_sch l)) by (apply nth_error_Some; congruence). lia. }
      pose proof (sch_at_v l W _ _ Hi) as Vi. pose proof (sch_at_v l W _ _ Hp) as Vp.
      pose proof (sch_at_v l W _ _ Hj) as Vj.
      assert (L1 : vle (s_v s1) (s_v p)) by (apply (sorted_nth _ (wf_sorted l W) i j); auto; lia).
      assert (L2 : vlt (s_v p) (s_v s2)) by (apply (strict_nth _ Hst j (S j)); auto).
      assert (Mp : fst (s_v s1) = fst (s_v p)).
      { destruct L1 as [L1|L1]; [|rewrite L1; reflexivity]. unfold vlt in L1, L2. lia. }
      assert (Cp : P p) by (apply IH; [exact Hp|exact Mp|lia]).
      apply (Hsound p s2); [apply nth_error_In with j; apply all_schemas_at; exact Hp
                           |apply nth_error_In with (Datatypes.S j); apply all_schemas_at; exact Hj| |exact Cp].
      apply sch_at_ok in Hp as [sdp [Hp ->]]. apply sch_at_ok in Hj as [sdj [Hj ->]].
      specialize (Step j sdp sdj Hp Hj). destruct Step as [_ Step]. destruct (Step eq_refl) as [_ Step2].
      cbn in *. apply Step2.
      unfold vlt in L2. cbn in L2. cbn in Mp, Hmaj. unfold s_v in *; cbn in *. lia.
Qed.

Lemma within_major fv opts id lindef e l data :
  BindLineage ev id fv lindef e opts = Ok l ->
  skipbuggychecks (make_cfg fv opts) = false ->
  strict_vs (l_allv l) ->
  (forall a b, In a (all_schemas l) -> In b (all_schemas l) ->
     ev_subsumes ev (sd_def (s_sd b)) (sd_def (s_sd a)) = true ->
     conforms a data -> conforms b data) ->
  forall s1 s2, In s1 (all_schemas l) -> In s2 (all_schemas l) ->
    fst (s_v s1) = fst (s_v s2) -> vle (s_v s1) (s_v s2) ->
    conforms s1 data -> conforms s2 data.
Proof.
  intros B Sk St Hs. exact (within_major_pred fv opts id lindef e l (fun s => conforms s data) B Sk St Hs).
Qed.

(** *** IsAppendOnly *)
Lemma append_only_loop_ok olds : forall news,
  append_only_loop ev olds news = Ok tt <->
  length olds <= length news /\
  forall i o n, nth_error olds i = Some o -> nth_error news i = Some n ->
    cue_equal ev (ev_sch ev (sd_ref (s_sd o))) (ev_sch ev (sd_ref (s_sd n))) = true.
Proof.
  induction olds as [|o olds IH]; intros news; cbn [append_only_loop].
  - split; [intros _|reflexivity]. split; [cbn; lia|]. intros i o n H; destruct i; discriminate.
  - destruct news as [|n news].
    + split; [discriminate|]. intros [H _]. cbn in H. lia.
    + destruct (cue_equal ev _ _) eqn:E.
      * rewrite IH. split.
        -- intros [H1 H2]. split; [cbn; lia|]. intros i a b Ha Hb. destruct i; cbn in Ha, Hb.
           ++ inversion Ha; inversion Hb; subst; exact E.
           ++ eapply H2; eauto.
        -- intros [H1 H2]. split; [cbn in H1; lia|]. intros i a b Ha Hb. apply (H2 (Datatypes.S i)); assumption.
      * split; [discriminate|]. intros [_ H]. specialize (H 0 o n eq_refl eq_refl). congruence.
Qed.

Lemma append_only_no_panic olds : forall news,
  length olds <= length news ->
  append_only_loop ev olds news = Ok tt \/ exists e, append_only_loop ev olds news = Err e.
Proof.
  induction olds as [|o olds IH]; intros news H; cbn [append_only_loop]; [auto|].
  destruct news as [|n news]; [cbn in H; lia|].
  destruct (cue_equal ev _ _); [apply IH; cbn in H; lia|eauto].
Qed.
End W.
