(** Lemmas about binding and walking lineages. *)
From Verif Require Import Prelude Version VersionProofs Search SearchProofs
  ValidateErr Native Split Lineage.
From Coq Require Import Sorting.Sorted Arith ZifyBool ZifyN ZifyNat.

Lemma bind_ok {A B} (x : outcome A) (f : A -> outcome B) b :
  bind x f = Ok b -> exists a, x = Ok a /\ f a = Ok b.
Proof. destruct x; cbn; try discriminate. eauto. Qed.

Ltac inv_bind H :=
  let a := fresh "a" in let H1 := fresh H in
  apply bind_ok in H as [a [H1 H]].

Section L.
Context {V : Type}.
Variable ev : evaluator V.

(** *** Indexing *)
Lemma index_ok {A} (l : list A) i a : index l i = Ok a <-> nth_error l i = Some a.
Proof. unfold index. destruct (nth_error l i); split; intros H; inversion H; reflexivity. Qed.

Lemma indexZ_nat {A} (l : list A) i : indexZ l (Z.of_nat i) = index l i.
Proof.
  unfold indexZ. destruct (Z.ltb_spec (Z.of_nat i) 0); [lia|]. rewrite Nat2Z.id. reflexivity.
Qed.

Lemma sch_at_ok (l : lineage V) i s :
  sch_at l i = Ok s <-> exists sd, nth_error (l_sch l) i = Some sd /\ s = mkSchema l i sd.
Proof.
  unfold sch_at, index. destruct (nth_error (l_sch l) i) as [sd|]; cbn; split.
  - intros H; inversion H; eauto.
  - intros [sd' [H ->]]; inversion H; reflexivity.
  - discriminate.
  - intros [sd [H _]]; discriminate.
Qed.

Lemma all_schemas_length (l : lineage V) : length (all_schemas l) = length (l_sch l).
Proof. unfold all_schemas. rewrite map_length, combine_length, seq_length. lia. Qed.

Lemma nth_combine_seq {A} (l : list A) : forall k i,
  nth_error (combine (seq k (length l)) l) i =
  match nth_error l i with Some a => Some (k + i, a) | None => None end.
Proof.
  induction l as [|x l IH]; intros k i; cbn [length seq combine].
  - destruct i; reflexivity.
  - destruct i as [|i]; cbn [nth_error].
    + rewrite Nat.add_0_r; reflexivity.
    + rewrite IH. destruct (nth_error l i); [f_equal; f_equal; lia|reflexivity].
Qed.

Lemma all_schemas_nth (l : lineage V) i :
  nth_error (all_schemas l) i =
  match nth_error (l_sch l) i with Some sd => Some (mkSchema l i sd) | None => None end.
Proof.
  unfold all_schemas. rewrite nth_error_map, nth_combine_seq.
  destruct (nth_error (l_sch l) i); reflexivity.
Qed.

Lemma all_schemas_at (l : lineage V) i s :
  nth_error (all_schemas l) i = Some s <-> sch_at l i = Ok s.
Proof.
  rewrite all_schemas_nth, sch_at_ok. destruct (nth_error (l_sch l) i) as [sd|]; split.
  - intros H; inversion H; eauto.
  - intros [sd' [H ->]]; inversion H; reflexivity.
  - discriminate.
  - intros [sd [H _]]; discriminate.
Qed.

(** *** Characterisation of [check_schemas] *)

(** The declared version of an entry, if concrete. *)
Definition entry_v (e : schema_entry V) : option version :=
  match se_major e, se_minor e with
  | Some a, Some b => Some (a, b)
  | _, _ => None
  end.

(** The rule between a schema and its predecessor: not smaller; unless checks
    are skipped, a schema with minor number 0 does not subsume its predecessor and
    any other does. *)
Definition step_ok (skip : bool) (v1 : version) (d1 : V) (v2 : version) (d2 : V) : Prop :=
  vle v1 v2 /\
  (skip = false ->
     (snd v2 = 0%N -> ev_subsumes ev d2 d1 = false) /\
     (snd v2 <> 0%N -> ev_subsumes ev d2 d1 = true)).

Definition schemas_rule (skip : bool) (es : list (schema_entry V)) : Prop :=
  (forall e, In e es -> entry_v e <> None) /\
  (forall i e1 e2 v1 v2,
     nth_error es i = Some e1 -> nth_error es (S i) = Some e2 ->
     entry_v e1 = Some v1 -> entry_v e2 = Some v2 ->
     step_ok skip v1 (ev_schdef ev (se_val e1)) v2 (ev_schdef ev (se_val e2))).

Definition entry_def (e : schema_entry V) (sd : schema_def V) : Prop :=
  entry_v e = Some (sd_v sd) /\ sd_ref sd = se_val e /\ sd_def sd = ev_schdef ev (se_val e).

Lemma check_one_ok cfg prev e sd :
  check_one ev cfg prev e = Ok sd <->
  entry_def e sd /\
  match prev with
  | None => True
  | Some p => step_ok (skipbuggychecks cfg) (sd_v p) (sd_def p) (sd_v sd) (sd_def sd)
  end.
Proof.
  unfold check_one, entry_def, entry_v, step_ok, themaCompatible.
  destruct (se_major e) as [a|]; [|split; [discriminate|intros [[H _] _]; discriminate]].
  destruct (se_minor e) as [b|]; [|split; [discriminate|intros [[H _] _]; discriminate]].
  destruct prev as [p|]; cbn [checkSchemasOrder].
  - destruct (vless (a, b) (sd_v p)) eqn:E; cbn [bind].
    + split; [discriminate|]. intros [[H1 _] [H2 _]]. inversion H1 as [H3].
      rewrite <- H3 in H2. apply vless_false in H2. congruence.
    + apply vless_false in E. cbn [sd_def snd].
      destruct (skipbuggychecks cfg); cbn [negb].
      * split.
        -- intros H; inversion H; subst; cbn. split; [auto|split; [exact E|discriminate]].
        -- intros [[H1 [H2 H3]] _]. destruct sd as [v r d]; cbn in *. inversion H1; subst. reflexivity.
      * destruct (N.eqb_spec b 0) as [->|Hb]; cbn [andb negb].
        -- destruct (ev_subsumes ev (ev_schdef ev (se_val e)) (sd_def p)) eqn:S; split.
           ++ discriminate.
           ++ intros [[H1 [H2 H3]] [_ H4]]. destruct sd as [v r d]; cbn in *. inversion H1; subst.
              destruct (H4 eq_refl) as [H5 _]. specialize (H5 eq_refl). congruence.
           ++ intros H; inversion H; subst; cbn. repeat split; auto; congruence.
           ++ intros [[H1 [H2 H3]] _]. destruct sd as [v r d]; cbn in *. inversion H1; subst. reflexivity.
        -- destruct (ev_subsumes ev (ev_schdef ev (se_val e)) (sd_def p)) eqn:S; cbn [negb]; split.
           ++ intros H; inversion H; subst; cbn. repeat split; auto; congruence.
           ++ intros [[H1 [H2 H3]] _]. destruct sd as [v r d]; cbn in *. inversion H1; subst. reflexivity.
           ++ discriminate.
           ++ intros [[H1 [H2 H3]] [_ H4]]. destruct sd as [v r d]; cbn in *. inversion H1; subst.
              destruct (H4 eq_refl) as [_ H5]. specialize (H5 Hb). congruence.
  - cbn [bind]. split.
    + intros H; inversion H; subst; cbn. auto.
    + intros [[H1 [H2 H3]] _]. destruct sd as [v r d]; cbn in *. inversion H1; subst. reflexivity.
Qed.

Lemma entry_def_fun e a b : entry_def e a -> entry_def e b -> a = b.
Proof.
  intros [H1 [H2 H3]] [K1 [K2 K3]]. destruct a, b; cbn in *. subst. congruence.
Qed.

Lemma check_schemas_ok cfg es : forall prev l,
  check_schemas ev cfg prev es = Ok l <->
  Forall2 entry_def es l /\
  (forall i s1 s2, nth_error l i = Some s1 -> nth_error l (S i) = Some s2 ->
     step_ok (skipbuggychecks cfg) (sd_v s1) (sd_def s1) (sd_v s2) (sd_def s2)) /\
  match prev, l with
  | Some p, s :: _ => step_ok (skipbuggychecks cfg) (sd_v p) (sd_def p) (sd_v s) (sd_def s)
  | _, _ => True
  end.
Proof.
  induction es as [|e r IH]; intros prev l; cbn [check_schemas].
  - split.
    + intros H; inversion H; subst. split; [constructor|]. split.
      * intros i s1 s2 H1; destruct i; discriminate.
      * destruct prev; exact I.
    + intros [H _]. inversion H; reflexivity.
  - split.
    + intros H. inv_bind H. inv_bind H. inversion H; subst l; clear H.
      apply check_one_ok in H0 as [D O]. apply IH in H1 as [F [S T]].
      split; [constructor; assumption|]. split.
      * intros i s1 s2 N1 N2. destruct i as [|i].
        -- cbn in N1, N2. inversion N1; subst s1. destruct a0 as [|x xs]; [discriminate|].
           cbn in N2. inversion N2; subst s2. exact T.
        -- cbn in N1, N2. eapply S; eauto.
      * destruct prev; exact O || exact I.
    + intros [F [S T]]. inversion F as [|? s ? l' D F' E1 E2]; subst.
      rewrite (proj2 (check_one_ok cfg prev e s)) by (split; [assumption|destruct prev; auto]).
      cbn [bind].
      rewrite (proj2 (IH (Some s) l')).
      * reflexivity.
      * split; [exact F'|]. split.
        -- intros i s1 s2 N1 N2. apply (S (Datatypes.S i)); assumption.
        -- destruct l' as [|x xs]; [exact I|]. apply (S 0 s x); reflexivity.
Qed.

Lemma forall2_nth {A B} (P : A -> B -> Prop) l1 l2 : Forall2 P l1 l2 -> forall i,
  match nth_error l1 i, nth_error l2 i with
  | Some a, Some b => P a b
  | None, None => True
  | _, _ => False
  end.
Proof.
  induction 1 as [|a b l1 l2 H F IH]; intros i; destruct i; cbn; auto. apply IH.
Qed.

Lemma check_schemas_rule cfg es :
  (exists l, check_schemas ev cfg None es = Ok l) <-> schemas_rule (skipbuggychecks cfg) es.
Proof.
  split.
  - intros [l H]. apply check_schemas_ok in H as [F [S _]]. split.
    + intros e Hin. apply In_nth_error in Hin as [i Hi].
      pose proof (forall2_nth _ _ _ F i) as Q. rewrite Hi in Q.
      destruct (nth_error l i); [|contradiction]. destruct Q as [Q _]. congruence.
    + intros i e1 e2 v1 v2 N1 N2 E1 E2.
      pose proof (forall2_nth _ _ _ F i) as Q1. rewrite N1 in Q1.
      pose proof (forall2_nth _ _ _ F (Datatypes.S i)) as Q2. rewrite N2 in Q2.
      destruct (nth_error l i) as [s1|] eqn:L1; [|contradiction].
      destruct (nth_error l (Datatypes.S i)) as [s2|] eqn:L2; [|contradiction].
      specialize (S i s1 s2 L1 L2). destruct Q1 as [A1 [_ B1]], Q2 as [A2 [_ B2]].
      rewrite <- B1, <- B2. replace v1 with (sd_v s1) by congruence.
      replace v2 with (sd_v s2) by congruence. exact S.
  - intros [C R].
    assert (Hl : exists l, Forall2 entry_def es l).
    { clear R. induction es as [|e r IH]; [exists []; constructor|].
      destruct IH as [l Hl]; [intros; apply C; right; assumption|].
      destruct (entry_v e) as [v|] eqn:Ev; [|exfalso; apply (C e); [left; reflexivity|exact Ev]].
      exists (mkSch v (se_val e) (ev_schdef ev (se_val e)) :: l). constructor; [|exact Hl].
      repeat split; cbn; auto. }
    destruct Hl as [l F]. exists l. apply check_schemas_ok. split; [exact F|]. split.
    + intros i s1 s2 N1 N2.
      pose proof (forall2_nth _ _ _ F i) as Q1. rewrite N1 in Q1.
      pose proof (forall2_nth _ _ _ F (Datatypes.S i)) as Q2. rewrite N2 in Q2.
      destruct (nth_error es i) as [e1|] eqn:L1; [|contradiction].
      destruct (nth_error es (Datatypes.S i)) as [e2|] eqn:L2; [|contradiction].
      destruct Q1 as [A1 [_ B1]], Q2 as [A2 [_ B2]]. rewrite B1, B2.
      eapply R; eauto.
    + destruct l; exact I.
Qed.

Lemma check_one_err cfg prev e :
  match check_one ev cfg prev e with
  | Ok _ => True
  | Err x => err_is x ErrInvalidLineage = true \/ err_is x ErrInvalidSchemasOrder = true
  | _ => False
  end.
Proof.
  unfold check_one. destruct (se_major e); [|left; reflexivity].
  destruct (se_minor e); [|left; reflexivity].
  destruct prev as [p|]; cbn [checkSchemasOrder bind]; [|exact I].
  destruct (vless _ _); cbn [bind]; [right; reflexivity|].
  destruct (negb (skipbuggychecks cfg)); [|exact I].
  destruct (_ && _); [left; reflexivity|]. destruct (_ && _); [left; reflexivity|exact I].
Qed.

Lemma check_schemas_err cfg es : forall prev,
  match check_schemas ev cfg prev es with
  | Ok _ => True
  | Err x => err_is x ErrInvalidLineage = true \/ err_is x ErrInvalidSchemasOrder = true
  | _ => False
  end.
Proof.
  induction es as [|e r IH]; intros prev; cbn [check_schemas]; [exact I|].
  pose proof (check_one_err cfg prev e) as H. destruct (check_one ev cfg prev e); cbn [bind]; auto.
  specialize (IH (Some a)). destruct (check_schemas ev cfg (Some a) r); cbn [bind]; auto.
Qed.

(** An error of the order kind is reported exactly when the first offence is an
    order offence. *)
Lemma check_one_order_err cfg prev e x :
  check_one ev cfg prev e = Err x ->
  (err_is x ErrInvalidSchemasOrder = true <->
   exists p v, prev = Some p /\ entry_v e = Some v /\ vlt v (sd_v p)).
Proof.
  unfold check_one, entry_v. destruct (se_major e) as [a|]; [destruct (se_minor e) as [b|]|].
  - destruct prev as [p|]; cbn [checkSchemasOrder bind].
    + destruct (vless (a, b) (sd_v p)) eqn:E; cbn [bind].
      * intros H; inversion H; subst. split; [|reflexivity]. intros _.
        exists p, (a, b). repeat split; auto. apply vless_spec; exact E.
      * intros H. split.
        -- intros K. exfalso. revert H.
           destruct (negb (skipbuggychecks cfg)); [|discriminate].
           destruct (_ && _); [intros H; inversion H; subst; discriminate|].
           destruct (_ && _); [intros H; inversion H; subst; discriminate|discriminate].
        -- intros [p' [v [H1 [H2 H3]]]]. inversion H1; inversion H2; subst.
           apply vless_spec in H3. congruence.
    + discriminate.
  - intros H; inversion H; subst. split; [discriminate|]. intros [p [v [_ [K _]]]]; discriminate.
  - intros H; inversion H; subst. split; [discriminate|]. intros [p [v [_ [K _]]]]; discriminate.
Qed.

(** *** Invariants of bound lineages *)

(** What every lineage returned by [BindLineage] satisfies. *)
Definition wf (l : lineage V) : Prop :=
  l_allv l = map sd_v (l_sch l) /\ sorted_vs (l_allv l) /\ l_sch l <> [].

(** Lineages returned by [BindLineage]. *)
Definition bound (l : lineage V) : Prop :=
  exists id fv lindef e opts, BindLineage ev id fv lindef e opts = Ok l.

Lemma bind_inv id fv lindef e opts l :
  BindLineage ev id fv lindef e opts = Ok l ->
  let cfg := make_cfg fv opts in
  exists es lm,
    raw_uni ev lindef e = Ok (l_raw l, l_uni l) /\
    ev_schemas ev (l_uni l) = Some es /\ es <> [] /\
    check_schemas ev cfg None es = Ok (l_sch l) /\
    l_allv l = map sd_v (l_sch l) /\
    counts_ok (l_allv l) = true /\
    checkLensesOrder ev cfg (l_uni l) (l_allv l) = Ok lm /\
    l_lensmap l = lm /\
    l_lenses l = (match ev_lenses ev (l_uni l) with Some ls => ls | None => [] end) /\
    l_id l = id /\ l_name l = ev_name ev (cval e).
Proof.
  unfold BindLineage. cbv zeta. intros H.
  inv_bind H. destruct a as [raw uni]. inv_bind H. inv_bind H. inv_bind H. inv_bind H. inv_bind H.
  inversion H; subst l; clear H. cbn.
  unfold checkGoValidity in H4. destruct (ev_schemas ev uni) as [es|] eqn:Es; [|discriminate].
  exists es, a3. split; [exact H0|]. split; [reflexivity|].
  unfold checkLineageShape in H2. inv_bind H2.
  destruct (ev_final ev uni && native_ok ev uni) eqn:Nat; [|discriminate].
  apply andb_true_iff in Nat as [_ Nat]. unfold native_ok in Nat. rewrite Es in Nat.
  assert (Hev : forall l, Forall2 entry_def es l -> entry_versions es = Some (map sd_v l)).
  { clear. induction es as [|e r IH]; intros l F; inversion F; subst; [reflexivity|].
    cbn [entry_versions map]. rewrite (IH _ H3). destruct H1 as [Q _]. unfold entry_v in Q.
    destruct (se_major e), (se_minor e); try discriminate. inversion Q. reflexivity. }
  split; [destruct es; [discriminate|congruence]|]. split; [exact H4|].
  split; [reflexivity|]. split.
  - destruct es as [|e0 es]; [discriminate|].
    apply check_schemas_ok in H4 as [F _]. rewrite (Hev _ F) in Nat. exact Nat.
  - repeat split; auto.
Qed.

Lemma sorted_of_steps vs :
  (forall i a b, nth_error vs i = Some a -> nth_error vs (S i) = Some b -> vle a b) ->
  sorted_vs vs.
Proof.
  intros H. apply Sorted_StronglySorted; [intros a b c; apply vle_trans|].
  induction vs as [|v vs IH]; constructor.
  - apply IH. intros i a b Ha Hb. apply (H (S i)); assumption.
  - destruct vs as [|w vs]; constructor. apply (H 0); reflexivity.
Qed.

Lemma bound_wf l : bound l -> wf l.
Proof.
  intros [id [fv [lindef [e [opts H]]]]]. apply bind_inv in H.
  destruct H as [es [lm [H1 [H2 [H3 [H4 [H5 _]]]]]]].
  split; [exact H5|]. apply check_schemas_ok in H4 as [F [S _]]. split.
  - rewrite H5. apply sorted_of_steps. intros i a b Ha Hb.
    rewrite nth_error_map in Ha, Hb.
    destruct (nth_error (l_sch l) i) as [s1|] eqn:E1; [|discriminate].
    destruct (nth_error (l_sch l) (Datatypes.S i)) as [s2|] eqn:E2; [|discriminate].
    cbn in Ha, Hb. inversion Ha; inversion Hb; subst. exact (proj1 (S i s1 s2 E1 E2)).
  - intros E. rewrite E in F. inversion F; subst. congruence.
Qed.

(** *** Lookups on well-formed lineages *)
Section W.
Variable l : lineage V.
Hypothesis W : wf l.

Lemma wf_allv_nth i : nth_error (l_allv l) i = option_map sd_v (nth_error (l_sch l) i).
Proof. destruct W as [H _]. rewrite H. apply nth_error_map. Qed.

Lemma wf_sorted : sorted_vs (l_allv l). Proof. apply W. Qed.

Lemma wf_length : length (l_allv l) = length (l_sch l).
Proof. destruct W as [H _]. rewrite H. apply map_length. Qed.

Lemma wf_pos : 0 < length (l_sch l).
Proof. destruct W as [_ [_ H]]. destruct (l_sch l); [congruence|cbn; lia]. Qed.

Lemma schema_v_in v : In v (l_allv l) ->
  exists s, schema_v l v = Ok s /\ s_v s = v /\ s_lin s = l /\ s_idx s = rank (l_allv l) v /\
            sch_at l (s_idx s) = Ok s.
Proof.
  intros Hin. unfold schema_v. rewrite searchSynv_rank by apply wf_sorted. cbn [bind].
  pose proof (rank_in _ _ wf_sorted Hin) as R. rewrite wf_allv_nth in R.
  destruct (nth_error (l_sch l) (rank (l_allv l) v)) as [sd|] eqn:E; [|discriminate].
  cbn in R. injection R as R'.
  exists (mkSchema l (rank (l_allv l) v) sd). cbn. unfold sch_at, index. rewrite E. cbn.
  repeat split; auto.
Qed.

Lemma lin_schema_in v : In v (l_allv l) ->
  exists s, lin_schema l v = Ok s /\ s_v s = v /\ s_lin s = l /\ sch_at l (s_idx s) = Ok s.
Proof.
  intros Hin. unfold lin_schema. rewrite (proj2 (synvExists_true _ _ wf_sorted) Hin).
  cbn [bind negb]. destruct (schema_v_in v Hin) as [s [H1 [H2 [H3 [_ H4]]]]]. eauto 6.
Qed.

Lemma lin_schema_notin v : ~ In v (l_allv l) ->
  lin_schema l v = Err (mkErr [ErrVersionNotExist] "").
Proof.
  intros Hin. unfold lin_schema. rewrite (proj2 (synvExists_false _ _ wf_sorted) Hin). reflexivity.
Qed.

Lemma allv_in v : In v (l_allv l) <-> exists s, In s (all_schemas l) /\ s_v s = v.
Proof.
  split.
  - intros H. destruct (schema_v_in v H) as [s [_ [H2 [_ [_ H4]]]]].
    apply all_schemas_at in H4. apply nth_error_In in H4. eauto.
  - intros [s [H <-]]. apply In_nth_error in H as [i Hi]. rewrite all_schemas_nth in Hi.
    destruct (nth_error (l_sch l) i) as [sd|] eqn:E; [|discriminate]. inversion Hi; subst. cbn.
    apply (nth_error_In _ i). rewrite wf_allv_nth, E. reflexivity.
Qed.

Lemma schema_v_zero : schema_v l synv0 = sch_at l 0.
Proof.
  unfold schema_v. rewrite searchSynv_rank by apply wf_sorted. cbn [bind]. rewrite rank_zero. reflexivity.
Qed.

Lemma sch_at_total i : i < length (l_sch l) -> exists s, sch_at l i = Ok s /\ s_idx s = i /\ s_lin s = l.
Proof.
  intros H. unfold sch_at, index. destruct (nth_error (l_sch l) i) as [sd|] eqn:E.
  - exists (mkSchema l i sd). auto.
  - apply nth_error_None in E. lia.
Qed.

Lemma sch_at_v i s : sch_at l i = Ok s -> nth_error (l_allv l) i = Some (s_v s).
Proof.
  intros H. apply sch_at_ok in H as [sd [H ->]]. rewrite wf_allv_nth, H. reflexivity.
Qed.

Lemma first_ok : exists s, first l = Ok s /\ nth_error (all_schemas l) 0 = Some s.
Proof.
  destruct (sch_at_total 0 wf_pos) as [s [H _]]. exists s. split; [exact H|].
  apply all_schemas_at; exact H.
Qed.

Lemma latest_ok : exists s, latest l = Ok s /\
  nth_error (all_schemas l) (length (all_schemas l) - 1) = Some s.
Proof.
  pose proof wf_pos as P. unfold latest.
  destruct (Nat.eqb_spec (length (l_sch l)) 0); [lia|].
  destruct (sch_at_total (length (l_sch l) - 1) ltac:(lia)) as [s [H _]]. exists s.
  split; [exact H|]. rewrite all_schemas_length. apply all_schemas_at; exact H.
Qed.

(** With strictly increasing versions. *)
Hypothesis S : strict_vs (l_allv l).

Lemma strict_rank i s : sch_at l i = Ok s -> rank (l_allv l) (s_v s) = i.
Proof. intros H. apply rank_strict; [exact S|]. apply sch_at_v; exact H. Qed.

Lemma schema_v_strict i s : sch_at l i = Ok s -> schema_v l (s_v s) = Ok s.
Proof.
  intros H. unfold schema_v. rewrite searchSynv_rank by apply wf_sorted. cbn [bind].
  rewrite (strict_rank i s H). exact H.
Qed.

Lemma successor_strict i s : sch_at l i = Ok s ->
  successor s = if Nat.eqb (i + 1) (length (l_sch l)) then Ok None
                else n <- sch_at l (i + 1) ;; Ok (Some n).
Proof.
  intros H. pose proof H as H'. apply sch_at_ok in H' as [sd [Hn Hs]].
  assert (Hlin : s_lin s = l) by (subst s; reflexivity).
  assert (Hi : i < length (l_sch l)) by (apply nth_error_Some; congruence).
  unfold successor. rewrite Hlin.
  replace (Z.of_nat (length (l_allv l)) - 1)%Z with (Z.of_nat (length (l_allv l) - 1))
    by (rewrite wf_length; lia).
  rewrite indexZ_nat.
  destruct (sch_at_total (length (l_sch l) - 1) ltac:(lia)) as [sl [Hl _]].
  pose proof (sch_at_v _ _ Hl) as Hlv. rewrite <- wf_length in Hlv.
  unfold index at 1. rewrite Hlv. cbn [bind].
  destruct (Nat.eqb_spec (i + 1) (length (l_sch l))) as [E|E].
  - assert (K : sl = s) by (replace (length (l_sch l) - 1) with i in Hl by lia; congruence).
    subst sl. rewrite veqb_refl. reflexivity.
  - assert (K : veqb (s_v sl) (s_v s) = false).
    { apply veqb_false. intros K. pose proof (strict_rank _ _ Hl) as R1.
      pose proof (strict_rank _ _ H) as R2. rewrite K in R1. lia. }
    rewrite K. rewrite searchSynv_rank by apply wf_sorted. cbn [bind].
    rewrite (strict_rank i s H).
    destruct (sch_at_total (i + 1) ltac:(lia)) as [n [Hn1 _]]. rewrite Hn1. cbn [bind].
    unfold index. rewrite (sch_at_v _ _ Hn1). cbn [bind].
    rewrite (schema_v_strict _ _ Hn1). reflexivity.
Qed.

(** First version 0.0. *)
Hypothesis Z : nth_error (l_allv l) 0 = Some synv0.

Lemma predecessor_strict i s : sch_at l i = Ok s ->
  predecessor s = match i with
                  | 0 => Ok None
                  | Datatypes.S j => n <- sch_at l j ;; Ok (Some n)
                  end.
Proof.
  intros H. pose proof H as H'. apply sch_at_ok in H' as [sd [Hn Hs]].
  assert (Hlin : s_lin s = l) by (subst s; reflexivity).
  assert (Hi : i < length (l_sch l)) by (apply nth_error_Some; congruence).
  unfold predecessor. rewrite Hlin.
  pose proof (sch_at_v _ _ H) as Hv.
  destruct i as [|j].
  - assert (K : s_v s = synv0) by congruence. rewrite K. reflexivity.
  - assert (K : veqb (s_v s) synv0 = false).
    { apply veqb_false. intros K. pose proof (strict_rank _ _ H) as R. rewrite K, rank_zero in R. lia. }
    rewrite K. rewrite searchSynv_rank by apply wf_sorted. cbn [bind].
    rewrite (strict_rank _ s H).
    replace (Z.of_nat (Datatypes.S j) - 1)%Z with (Z.of_nat j) by lia. rewrite indexZ_nat.
    destruct (sch_at_total j ltac:(lia)) as [n [Hn1 _]]. rewrite Hn1. cbn [bind].
    unfold index. rewrite (sch_at_v _ _ Hn1). cbn [bind].
    rewrite (schema_v_strict _ _ Hn1). reflexivity.
Qed.
End W.

End L.
