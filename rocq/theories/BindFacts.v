(** Facts about [BindLineage] as a whole, closing [PropertiesBind.v]. *)
From Verif Require Import Prelude Version VersionProofs Search SearchProofs
  ValidateErr Native Split Lineage LineageProofs WalkProofs GoLensProofs Toy.
From Coq Require Import Sorting.Sorted Arith ZifyBool ZifyN ZifyNat.
Local Open Scope string_scope.
Local Open Scope list_scope.

(** *** Options *)
Definition is_skip (o : bindOption) : bool :=
  match o with OSkipBuggyChecks => true | _ => false end.
Definition lenses_of (o : bindOption) : list implens :=
  match o with OImperativeLenses ls => ls | _ => [] end.

Lemma make_cfg_spec fv opts :
  make_cfg fv opts = mkCfg (negb fv && existsb is_skip opts) (flat_map lenses_of opts).
Proof.
  unfold make_cfg.
  assert (G : forall c, fold_left (apply_opt fv) opts c =
    mkCfg (skipbuggychecks c || (negb fv && existsb is_skip opts))
          (implenses c ++ flat_map lenses_of opts)).
  { induction opts as [|o opts IH]; intros [sk ls]; cbn [fold_left existsb flat_map].
    - cbn. rewrite andb_false_r, orb_false_r, app_nil_r. reflexivity.
    - rewrite IH. destruct o; cbn [apply_opt is_skip lenses_of orb app].
      + destruct fv; cbn; [|rewrite orb_true_r]; reflexivity.
      + cbn. rewrite <- app_assoc. reflexivity. }
  rewrite G. reflexivity.
Qed.

Section B.
Context {V : Type}.
Variable ev : evaluator V.

(** All checks of [BindLineage] before those of the schema list pass for the
    candidate [e]; [uni] is the candidate unified with #Lineage. *)
Definition shape_accepted (lindef : V) (e : cexpr V) (raw uni : V) : Prop :=
  raw_uni ev lindef e = Ok (raw, uni) /\
  ev_exists ev raw = true /\
  checkLineageShape ev raw uni = Ok tt /\
  ev_valid ev raw = true /\ ev_valid ev uni = true.

Lemma bind_shape id fv lindef e opts raw uni : shape_accepted lindef e raw uni ->
  BindLineage ev id fv lindef e opts =
  let cfg := make_cfg fv opts in
  schlist <- checkGoValidity ev cfg uni ;;
  lm <- checkLensesOrder ev cfg uni (map sd_v schlist) ;;
  Ok (mkLin id (ev_name ev (cval e)) raw uni schlist (map sd_v schlist)
        (match ev_lenses ev uni with Some ls => ls | None => [] end) lm).
Proof.
  intros [H1 [H2 [H3 [H4 H5]]]]. unfold BindLineage. rewrite H1. cbn [bind].
  unfold checkExists. rewrite H2. cbn [negb bind]. rewrite H3. cbn [bind].
  unfold checkNativeValidity. rewrite H4, H5. cbn [negb bind]. reflexivity.
Qed.

Lemma bind_shape_inv id fv lindef e opts l : BindLineage ev id fv lindef e opts = Ok l ->
  shape_accepted lindef e (l_raw l) (l_uni l).
Proof.
  unfold BindLineage. cbv zeta. intros H.
  inv_bind H. destruct a as [raw uni]. inv_bind H. inv_bind H. inv_bind H. inv_bind H. inv_bind H.
  inversion H; subst l; clear H. cbn. split; [exact H0|].
  unfold checkExists in H1. destruct (ev_exists ev raw); [|cbn in H1; destruct (negb _) in H1; discriminate]. split; [reflexivity|].
  unfold checkNativeValidity in H3.
  destruct (ev_valid ev raw); [|discriminate]. destruct (ev_valid ev uni); [|discriminate].
  destruct a0. auto.
Qed.

(** *** C08 *)
Lemma bind_schemas_rule id fv lindef e opts raw uni es :
  shape_accepted lindef e raw uni -> ev_schemas ev uni = Some es ->
  let skip := negb fv && existsb is_skip opts in
  (forall l, BindLineage ev id fv lindef e opts = Ok l ->
     schemas_rule ev skip es /\ Forall2 (entry_def ev) es (l_sch l)) /\
  (schemas_rule ev skip es -> flat_map lenses_of opts = [] -> ev_lenses ev uni = None ->
     exists l, BindLineage ev id fv lindef e opts = Ok l) /\
  (~ schemas_rule ev skip es ->
     exists x, BindLineage ev id fv lindef e opts = Err x /\
       (err_is x ErrInvalidLineage = true \/ err_is x ErrInvalidSchemasOrder = true)).
Proof.
  intros A Es skip. rewrite (bind_shape id fv lindef e opts raw uni A).
  rewrite make_cfg_spec. fold skip. cbv zeta.
  unfold checkGoValidity. rewrite Es.
  set (cfg := mkCfg skip (flat_map lenses_of opts)).
  pose proof (check_schemas_rule ev cfg es) as R. cbn [skipbuggychecks cfg] in R.
  split; [|split].
  - intros l H. inv_bind H. inv_bind H. inversion H; subst l; cbn. split.
    + apply R. eauto.
    + apply check_schemas_ok in H0 as [F _]. exact F.
  - intros Hr Hl Hn. destruct (proj2 R Hr) as [sl ->]. cbn [bind].
    unfold checkLensesOrder. cbn [implenses cfg]. rewrite Hl, Hn. cbn [bind]. eauto.
  - intros Hr. pose proof (check_schemas_err ev cfg es None) as Q.
    destruct (check_schemas ev cfg None es) as [sl|x| |] eqn:E; cbn [bind].
    + exfalso. apply Hr, R. eauto.
    + eauto.
    + destruct Q.
    + destruct Q.
Qed.

(** Which error. [adjacent es e1 e2]: [e2] directly follows [e1]. *)
Definition adjacent {A} (es : list A) (e1 e2 : A) : Prop :=
  exists i, nth_error es i = Some e1 /\ nth_error es (S i) = Some e2.

Definition order_offence (es : list (schema_entry V)) : Prop :=
  exists e1 e2 v1 v2, adjacent es e1 e2 /\ entry_v e1 = Some v1 /\ entry_v e2 = Some v2 /\ vlt v2 v1.
Definition compat_offence (es : list (schema_entry V)) : Prop :=
  exists e1 e2 v1 v2, adjacent es e1 e2 /\ entry_v e1 = Some v1 /\ entry_v e2 = Some v2 /\
    ((snd v2 = 0%N /\ ev_subsumes ev (ev_schdef ev (se_val e2)) (ev_schdef ev (se_val e1)) = true) \/
     (snd v2 <> 0%N /\ ev_subsumes ev (ev_schdef ev (se_val e2)) (ev_schdef ev (se_val e1)) = false)).

Lemma adjacent_cons {A} (x : A) es e1 e2 : adjacent es e1 e2 -> adjacent (x :: es) e1 e2.
Proof. intros [i H]. exists (S i). exact H. Qed.

Lemma check_one_err_kind cfg prev e0 e x :
  entry_def ev e0 prev -> check_one ev cfg (Some prev) e = Err x ->
  (e_marks x = [ErrInvalidSchemasOrder] /\ order_offence [e0; e]) \/
  (e_marks x = [ErrInvalidLineage] /\
     (entry_v e = None \/ (skipbuggychecks cfg = false /\ compat_offence [e0; e]))).
Proof.
  intros [D1 [D2 D3]] H. unfold check_one, themaCompatible in H.
  assert (Adj : adjacent [e0; e] e0 e) by (exists 0; auto).
  destruct (se_major e) as [a|] eqn:Ea; [destruct (se_minor e) as [b|] eqn:Eb|].
  - assert (Ev : entry_v e = Some (a, b)) by (unfold entry_v; rewrite Ea, Eb; reflexivity).
    cbn [checkSchemasOrder] in H. destruct (vless (a, b) (sd_v prev)) eqn:L; cbn [bind] in H.
    + injection H as <-. left. split; [reflexivity|]. exists e0, e, (sd_v prev), (a, b).
      repeat split; auto. apply vless_spec; exact L.
    + destruct (skipbuggychecks cfg); cbn [negb] in H; [discriminate|]. right.
      destruct (N.eqb_spec b 0) as [->|Hb]; cbn [andb negb snd sd_def N.eqb] in H.
      * destruct (ev_subsumes ev _ _) eqn:S; [|discriminate]. injection H as <-.
        split; [reflexivity|]. right. split; [reflexivity|].
        exists e0, e, (sd_v prev), (a, 0%N). rewrite <- D3. repeat split; auto.
      * destruct (N.eqb_spec b 0); [congruence|]. cbn [andb negb] in H.
        destruct (ev_subsumes ev _ _) eqn:S; cbn in H; [discriminate|]. injection H as <-.
        split; [reflexivity|]. right. split; [reflexivity|].
        exists e0, e, (sd_v prev), (a, b). rewrite <- D3. repeat split; auto.
  - injection H as <-. right. split; [reflexivity|]. left. unfold entry_v. rewrite Ea, Eb. reflexivity.
  - injection H as <-. right. split; [reflexivity|]. left. unfold entry_v. rewrite Ea. reflexivity.
Qed.

Lemma adjacent_front {A} (a b : A) es e1 e2 : adjacent [a; b] e1 e2 -> adjacent (a :: b :: es) e1 e2.
Proof.
  intros [i [H1 H2]]. destruct i as [|[|[|i]]]; cbn in *; try discriminate.
  exists 0; auto.
Qed.

Lemma check_schemas_err_kind cfg es : forall prev e0 x,
  entry_def ev e0 prev -> check_schemas ev cfg (Some prev) es = Err x ->
  (e_marks x = [ErrInvalidSchemasOrder] /\ order_offence (e0 :: es)) \/
  (e_marks x = [ErrInvalidLineage] /\
     ((exists e, In e es /\ entry_v e = None) \/
      (skipbuggychecks cfg = false /\ compat_offence (e0 :: es)))).
Proof.
  induction es as [|e es IH]; intros prev e0 x D H; cbn [check_schemas] in H; [discriminate|].
  destruct (check_one ev cfg (Some prev) e) as [sd|y| |] eqn:E; cbn [bind] in H; try discriminate.
  - destruct (check_schemas ev cfg (Some sd) es) as [r|y| |] eqn:F; cbn [bind] in H; try discriminate.
    injection H as ->. apply check_one_ok in E as [Ed _].
    destruct (IH sd e x Ed F) as [[K1 [e1 [e2 [v1 [v2 [A1 K2]]]]]]|[K1 [[e' [K2 K3]]|[K2 [e1 [e2 [v1 [v2 [A1 K3]]]]]]]]].
    + left. split; [exact K1|]. exists e1, e2, v1, v2. split; [apply adjacent_cons; exact A1|exact K2].
    + right. split; [exact K1|]. left. exists e'. split; [right; exact K2|exact K3].
    + right. split; [exact K1|]. right. split; [exact K2|]. exists e1, e2, v1, v2.
      split; [apply adjacent_cons; exact A1|exact K3].
  - injection H as ->.
    destruct (check_one_err_kind cfg prev e0 e x D E) as [[K1 [e1 [e2 [v1 [v2 [A1 K2]]]]]]|[K1 [K2|[K2 [e1 [e2 [v1 [v2 [A1 K3]]]]]]]]].
    + left. split; [exact K1|]. exists e1, e2, v1, v2. split; [apply adjacent_front; exact A1|exact K2].
    + right. split; [exact K1|]. left. exists e. split; [left; reflexivity|exact K2].
    + right. split; [exact K1|]. right. split; [exact K2|]. exists e1, e2, v1, v2.
      split; [apply adjacent_front; exact A1|exact K3].
Qed.

Lemma check_schemas_none_err_kind cfg es x :
  check_schemas ev cfg None es = Err x ->
  (e_marks x = [ErrInvalidSchemasOrder] /\ order_offence es) \/
  (e_marks x = [ErrInvalidLineage] /\
     ((exists e, In e es /\ entry_v e = None) \/
      (skipbuggychecks cfg = false /\ compat_offence es))).
Proof.
  destruct es as [|e es]; cbn [check_schemas]; [discriminate|].
  destruct (check_one ev cfg None e) as [sd|y| |] eqn:E; cbn [bind]; try discriminate.
  - apply check_one_ok in E as [Ed _]. intros H.
    destruct (check_schemas ev cfg (Some sd) es) as [r|y| |] eqn:F; cbn [bind] in H; try discriminate.
    injection H as ->. destruct (check_schemas_err_kind cfg es sd e x Ed F) as [K|[K1 [[e' [K2 K3]]|K2]]]; auto.
    right. split; [exact K1|]. left. exists e'. split; [right; exact K2|exact K3].
  - intros H; injection H as ->. right. unfold check_one in E.
    destruct (se_major e) as [a|] eqn:Ea; [destruct (se_minor e) as [b|] eqn:Eb|]; cbn in E; try discriminate;
      injection E as <-; (split; [reflexivity|]); left; exists e; (split; [left; reflexivity|]);
      unfold entry_v; rewrite Ea, ?Eb; reflexivity.
Qed.

Lemma bind_schemas_err id fv lindef e opts raw uni es x :
  shape_accepted lindef e raw uni -> ev_schemas ev uni = Some es ->
  let skip := negb fv && existsb is_skip opts in
  ~ schemas_rule ev skip es ->
  BindLineage ev id fv lindef e opts = Err x ->
  (e_marks x = [ErrInvalidSchemasOrder] /\ order_offence es) \/
  (e_marks x = [ErrInvalidLineage] /\
     ((exists e, In e es /\ entry_v e = None) \/ (skip = false /\ compat_offence es))).
Proof.
  intros A Es skip NR. rewrite (bind_shape id fv lindef e opts raw uni A).
  rewrite make_cfg_spec. fold skip. cbv zeta. unfold checkGoValidity. rewrite Es.
  set (cfg := mkCfg skip (flat_map lenses_of opts)). intros H.
  destruct (check_schemas ev cfg None es) as [sl|y| |] eqn:E; cbn [bind] in H; try discriminate.
  - exfalso. apply NR. apply (check_schemas_rule ev cfg es). eauto.
  - injection H as ->. exact (check_schemas_none_err_kind cfg es x E).
Qed.

(** *** Lens checks within BindLineage *)
Definition schemas_accepted (fv : bool) (lindef : V) (e : cexpr V) (opts : list bindOption)
    (raw uni : V) (vs : list version) : Prop :=
  shape_accepted lindef e raw uni /\
  exists es, ev_schemas ev uni = Some es /\
    schemas_rule ev (negb fv && existsb is_skip opts) es /\
    map entry_v es = map Some vs.

Lemma bind_lenses id fv lindef e opts raw uni vs :
  schemas_accepted fv lindef e opts raw uni vs ->
  exists sl, map sd_v sl = vs /\
  BindLineage ev id fv lindef e opts =
  lm <- checkLensesOrder ev (make_cfg fv opts) uni vs ;;
  Ok (mkLin id (ev_name ev (cval e)) raw uni sl vs
        (match ev_lenses ev uni with Some ls => ls | None => [] end) lm).
Proof.
  intros [A [es [Es [R Hv]]]].
  rewrite (bind_shape id fv lindef e opts raw uni A). cbv zeta.
  unfold checkGoValidity. rewrite Es.
  pose proof (check_schemas_rule ev (make_cfg fv opts) es) as Q.
  assert (Sk : skipbuggychecks (make_cfg fv opts) = negb fv && existsb is_skip opts)
    by (rewrite make_cfg_spec; reflexivity).
  rewrite Sk in Q. destruct (proj2 Q R) as [sl Hsl]. rewrite Hsl. cbn [bind].
  assert (E : map sd_v sl = vs).
  { apply check_schemas_ok in Hsl as [F _]. clear -F Hv. revert vs Hv.
    induction F as [|a b es sl D F IH]; intros vs Hv; destruct vs as [|v vs]; cbn in *; try discriminate; [reflexivity|].
    injection Hv as H1 H2. destruct D as [D _]. f_equal; [congruence|apply IH; exact H2]. }
  exists sl. split; [exact E|]. rewrite E. reflexivity.
Qed.

(** *** C17 *)

(** The messages users get: one line for each missing pair; an explanation for each
    excess one. *)
Definition pair_words (id : lensID) : string := (vstring (fst id) ++ " -> " ++ vstring (snd id))%string.

Definition missing_message (L : list lensID) : string :=
  ("Go migrations not provided for the following version pairs:" ++ newline ++
   String.concat "" (map (fun id => tab ++ pair_words id ++ newline) L))%string.

Definition reason_words (from to : version) (r : lens_reason) : string :=
  (match r with
   | RNoSuchVersion v => " (schema version " ++ vstring v ++ " does not exist)"
   | RSelf => " (self-migrations not allowed)"
   | RPredecessor p => " (" ++ vstring p ++ " is predecessor of " ++ vstring from ++ ", not " ++ vstring to ++ ")"
   | RSuccessor p => " (" ++ vstring p ++ " is successor of " ++ vstring from ++ ", not " ++ vstring to ++ ")"
   | RMinorAutomatic => " (minor version upgrades are handled automatically)"
   end)%string.

Definition erroneous_message (rs : list (lensID * lens_reason)) : string :=
  ("Go migrations erroneously provided for the following version pairs:" ++ newline ++
   String.concat "" (map (fun p => tab ++ pair_words (fst p) ++
     reason_words (fst (fst p)) (snd (fst p)) (snd p)) rs))%string.

Definition go_lens_spec (vs : list version) (ls : list implens) (o : outcome (lineage V)) : Prop :=
  match o with
  | Ok l =>
      exact_lenses vs ls /\
      forall id x, lens_lookup (l_lensmap l) id = Some x <-> In x ls /\ il_id x = id
  | Err e =>
      ((~ NoDup (map il_id ls) \/ exists l, In l ls /\ il_mapper l = None) /\ e_marks e = []) \/
      (NoDup (map il_id ls) /\ (forall l, In l ls -> il_mapper l <> None) /\
       (exists id, entailed vs id /\ ~ In id (map il_id ls)) /\
       e_marks e = [ErrMissingLenses] /\
       exists L, e_text e = missing_message L /\ NoDup L /\
         forall id, In id L <-> entailed vs id /\ ~ In id (map il_id ls)) \/
      (NoDup (map il_id ls) /\ (forall l, In l ls -> il_mapper l <> None) /\
       (forall id, entailed vs id -> In id (map il_id ls)) /\
       (exists id, In id (map il_id ls) /\ ~ entailed vs id) /\
       e_marks e = [ErrErroneousLenses] /\
       exists rs, e_text e = erroneous_message rs /\
         forall id r, In (id, r) rs <->
           exists l, In l ls /\ il_id l = id /\ ~ entailed vs id /\ lens_reason_of vs l = Ok r)
  | _ => False
  end.

Lemma bind_go_lenses id fv lindef e opts raw uni vs ls :
  schemas_accepted fv lindef e opts raw uni vs ->
  strict_vs vs -> nth_error vs 0 = Some synv0 ->
  flat_map lenses_of opts = ls -> ls <> [] ->
  go_lens_spec vs ls (BindLineage ev id fv lindef e opts) /\
  (exact_lenses vs ls -> exists l, BindLineage ev id fv lindef e opts = Ok l).
Proof.
  intros A St Z Hls Hne. destruct (bind_lenses id fv lindef e opts raw uni vs A) as [sl [Hsl HB]].
  rewrite HB. clear HB.
  assert (HC : checkLensesOrder ev (make_cfg fv opts) uni vs = checkGoLensCompleteness vs ls).
  { rewrite make_cfg_spec. unfold checkLensesOrder. cbn [implenses]. rewrite Hls.
    destruct ls; [congruence|reflexivity]. }
  rewrite HC. destruct vs as [|v0 rest]; [discriminate|].
  assert (v0 = synv0) by (cbn in Z; congruence). subst v0.
  pose proof (completeness_cases _ ls synv0 rest eq_refl (strict_sorted _ St) (expected_nodup rest synv0 St)) as C.
  split.
  - destruct (checkGoLensCompleteness (synv0 :: rest) ls) as [lm|x| |]; cbn [bind go_lens_spec].
    + destruct C as [C1 ->]. split; [exact C1|]. intros i y. apply build_lensmap_in. apply C1.
    + exact C.
    + exact C.
    + exact C.
  - intros X. destruct (completeness_ok (synv0 :: rest) ls (build_lensmap ls) St Z) as [_ Q].
    rewrite Q by (split; [exact X|reflexivity]). cbn [bind]. eauto.
Qed.

(** *** C22 *)
Definition lens_order (a b : version * version) : Prop :=
  vlt (fst a) (fst b) \/ (fst a = fst b /\ vle (snd a) (snd b)).

Definition cue_lenses_ok (ls : list (cue_lens V)) : Prop :=
  exists tf, map (fun l => (cl_to l, cl_from l)) ls = map (fun p => (Some (fst p), Some (snd p))) tf /\
    StronglySorted lens_order tf.

Lemma lens_order_trans a b c : lens_order a b -> lens_order b c -> lens_order a c.
Proof.
  unfold lens_order. intros [H1|[H1 H2]] [K1|[K1 K2]].
  - left. eapply vlt_trans; eauto.
  - left. rewrite <- K1. exact H1.
  - left. rewrite H1. exact K1.
  - right. split; [congruence|]. eapply vle_trans; eauto.
Qed.

Lemma doCheck_ok prev curr : doCheck prev curr = Ok tt <->
  match prev with None => True | Some p => lens_order p curr end.
Proof.
  unfold doCheck, lens_order. destruct prev as [[pt pf]|]; [|tauto]. destruct curr as [ct cf]. cbn [fst snd].
  destruct (vless ct pt) eqn:E1.
  - split; [discriminate|]. intros H. exfalso. apply vless_spec in E1.
    destruct H as [H|[H _]]; [exact (vlt_irrefl _ (vlt_trans _ _ _ H E1))|subst; exact (vlt_irrefl _ E1)].
  - apply vless_false in E1. destruct (veqb pt ct) eqn:E2; cbn [andb].
    + apply veqb_spec in E2. subst ct. destruct (vless cf pf) eqn:E3.
      * split; [discriminate|]. intros [H|[_ H]]; [exfalso; exact (vlt_irrefl _ H)|].
        apply vless_false in H. congruence.
      * apply vless_false in E3. split; auto.
    + apply veqb_false in E2. split; [|reflexivity]. intros _. left. destruct E1 as [E1|E1]; [exact E1|congruence].
Qed.

Lemma doCheck_err prev curr x : doCheck prev curr = Err x -> e_marks x = [ErrInvalidLensesOrder].
Proof.
  unfold doCheck. destruct prev as [[pt pf]|]; [|discriminate]. destruct curr as [ct cf].
  destruct (vless ct pt); [intros H; injection H as <-; reflexivity|].
  destruct (_ && _); [intros H; injection H as <-; reflexivity|discriminate].
Qed.

Lemma check_cue_lenses_ok (ls : list (cue_lens V)) : forall prev,
  check_cue_lenses prev ls = Ok tt <->
  exists tf, map (fun l => (cl_to l, cl_from l)) ls = map (fun p => (Some (fst p), Some (snd p))) tf /\
    StronglySorted lens_order (match prev with None => tf | Some p => p :: tf end).
Proof.
  induction ls as [|l ls IH]; intros prev; cbn [check_cue_lenses map].
  - split; [|reflexivity]. intros _. exists []. split; [reflexivity|]. destruct prev; repeat constructor.
  - unfold newLensVersionDef.
    destruct (cl_to l) as [t|] eqn:Et; [destruct (cl_from l) as [f|] eqn:Ef|]; cbn [bind].
    + destruct (doCheck prev (t, f)) as [[]|x| |] eqn:D; cbn [bind].
      * rewrite IH. apply doCheck_ok in D. split.
        -- intros [tf [H1 H2]]. exists ((t, f) :: tf). cbn. rewrite H1. split; [reflexivity|].
           destruct prev as [p|]; [|exact H2].
           constructor; [exact H2|]. constructor; [exact D|].
           inversion H2 as [|? ? H3 H4]; subst. eapply Forall_impl; [|exact H4].
           intros a Ha. eapply lens_order_trans; eauto.
        -- intros [tf [H1 H2]]. destruct tf as [|p tf]; [discriminate|]. cbn in H1.
           injection H1 as H3 H4 H5. exists tf. split; [exact H5|].
           assert (E : (t, f) = p) by (destruct p; cbn in *; congruence). rewrite E.
           destruct prev; [|exact H2]. inversion H2; assumption.
      * split; [discriminate|]. intros [tf [H1 H2]]. destruct tf as [|p tf]; [discriminate|].
        cbn in H1. injection H1 as H3 H4 H5.
        assert (E : (t, f) = p) by (destruct p; cbn in *; congruence).
        assert (K : doCheck prev (t, f) = Ok tt).
        { apply doCheck_ok. destruct prev; [|exact I]. inversion H2 as [|? ? _ K]; subst.
          inversion K; assumption. }
        congruence.
      * exfalso. unfold doCheck in D. destruct prev as [[? ?]|]; [|discriminate].
        destruct (vless _ _); [discriminate|]. destruct (_ && _); discriminate.
      * exfalso. unfold doCheck in D. destruct prev as [[? ?]|]; [|discriminate].
        destruct (vless _ _); [discriminate|]. destruct (_ && _); discriminate.
    + split; [discriminate|]. intros [tf [H1 _]]. destruct tf; discriminate.
    + split; [discriminate|]. intros [tf [H1 _]]. destruct tf; discriminate.
Qed.

Lemma check_cue_lenses_cases (ls : list (cue_lens V)) : forall prev,
  match check_cue_lenses prev ls with
  | Ok _ => True
  | Err x => (e_marks x = [ErrInvalidLensesOrder]) \/
             (e_marks x = [ErrInvalidLineage] /\ exists l, In l ls /\ (cl_to l = None \/ cl_from l = None))
  | _ => False
  end.
Proof.
  induction ls as [|l ls IH]; intros prev; cbn [check_cue_lenses]; [exact I|].
  unfold newLensVersionDef.
  destruct (cl_to l) as [t|] eqn:Et; [destruct (cl_from l) as [f|] eqn:Ef|]; cbn [bind].
  - destruct (doCheck prev (t, f)) as [[]|x| |] eqn:D; cbn [bind].
    + specialize (IH (Some (t, f))). destruct (check_cue_lenses _ ls); auto.
      destruct IH as [IH|[IH [l' [H1 H2]]]]; [auto|]. right. split; [exact IH|]. exists l'. split; [right; exact H1|exact H2].
    + left. eapply doCheck_err; eauto.
    + unfold doCheck in D. destruct prev as [[? ?]|]; [|discriminate].
      destruct (vless _ _); [discriminate|]. destruct (_ && _); discriminate.
    + unfold doCheck in D. destruct prev as [[? ?]|]; [|discriminate].
      destruct (vless _ _); [discriminate|]. destruct (_ && _); discriminate.
  - right. split; [reflexivity|]. exists l. split; [left; reflexivity|auto].
  - right. split; [reflexivity|]. exists l. split; [left; reflexivity|auto].
Qed.

(** If some lens does not decode then the error may still be an order error of
    an earlier pair; if all decode it is always an order error. *)
Lemma bind_cue_lenses id fv lindef e opts raw uni vs ls :
  schemas_accepted fv lindef e opts raw uni vs ->
  flat_map lenses_of opts = [] -> ev_lenses ev uni = Some ls ->
  match BindLineage ev id fv lindef e opts with
  | Ok l => cue_lenses_ok ls /\ l_lenses l = ls /\ l_lensmap l = []
  | Err x => ~ cue_lenses_ok ls /\
      (e_marks x = [ErrInvalidLensesOrder] \/
       (e_marks x = [ErrInvalidLineage] /\ exists l, In l ls /\ (cl_to l = None \/ cl_from l = None)))
  | _ => False
  end.
Proof.
  intros A Hls Hn. destruct (bind_lenses id fv lindef e opts raw uni vs A) as [sl [Hsl HB]].
  rewrite HB. clear HB. unfold checkLensesOrder. rewrite make_cfg_spec. cbn [implenses].
  rewrite Hls, Hn. pose proof (check_cue_lenses_ok ls None) as Q. cbn in Q.
  pose proof (check_cue_lenses_cases ls None) as C.
  destruct (check_cue_lenses None ls) as [[]|x| |]; cbn [bind].
  - cbn. split; [apply Q; reflexivity|auto].
  - split; [|exact C]. intros K. apply Q in K. discriminate.
  - exact C.
  - exact C.
Qed.

(** *** C05, C14 *)
Lemma schema_lookup l : bound ev l -> forall v,
  ((exists s, In s (all_schemas l) /\ s_v s = v) ->
     exists s, lin_schema l v = Ok s /\ In s (all_schemas l) /\ s_v s = v) /\
  ((forall s, In s (all_schemas l) -> s_v s <> v) ->
     exists e, lin_schema l v = Err e /\ err_is e ErrVersionNotExist = true).
Proof.
  intros B v. apply bound_wf in B as W. split.
  - intros H. apply allv_in in H; [|exact W].
    destruct (lin_schema_in l W v H) as [s [H1 [H2 [_ H3]]]]. exists s. split; [exact H1|].
    split; [|exact H2]. apply all_schemas_at in H3. eapply nth_error_In; eauto.
  - intros H. eexists. split; [apply lin_schema_notin; [exact W|]|reflexivity].
    intros K. apply allv_in in K; [|exact W]. destruct K as [s [K1 K2]]. exact (H s K1 K2).
Qed.

(** [SchemaP] panics where [Schema] returns an error. *)
Lemma schema_lookup_p l : bound ev l -> forall v,
  ((exists s, In s (all_schemas l) /\ s_v s = v) ->
     exists s, schemaP l v = Ok s /\ In s (all_schemas l) /\ s_v s = v) /\
  ((forall s, In s (all_schemas l) -> s_v s <> v) -> schemaP l v = Panic).
Proof.
  intros B v. destruct (schema_lookup l B v) as [K1 K2]. unfold schemaP. split.
  - intros H. destruct (K1 H) as [s [E H2]]. rewrite E. eauto.
  - intros H. destruct (K2 H) as [e [E _]]. rewrite E. reflexivity.
Qed.

Lemma first_latest_all l : bound ev l ->
  exists f t, first l = Ok f /\ latest l = Ok t /\
    nth_error (all_schemas l) 0 = Some f /\
    nth_error (all_schemas l) (length (all_schemas l) - 1) = Some t /\
    latestVersion l = Ok (s_v t) /\
    map s_sd (all_schemas l) = l_sch l /\
    forall s, In s (all_schemas l) -> vle (s_v f) (s_v s) /\ vle (s_v s) (s_v t).
Proof.
  intros B. apply bound_wf in B as W.
  destruct (first_ok l W) as [f [F1 F2]]. destruct (latest_ok l W) as [t [T1 T2]].
  exists f, t. split; [exact F1|]. split; [exact T1|]. split; [exact F2|]. split; [exact T2|].
  split; [unfold latestVersion; rewrite T1; reflexivity|].
  split; [unfold all_schemas; rewrite map_map; apply map_snd_combine|].
  intros s Hs. apply In_nth_error in Hs as [i Hi].
  assert (Hlt : i < length (all_schemas l)) by (apply nth_error_Some; congruence).
  apply all_schemas_at in Hi, F2, T2.
  split; [apply (sorted_nth _ (wf_sorted l W) 0 i)|apply (sorted_nth _ (wf_sorted l W) i (length (all_schemas l) - 1))];
    try (apply sch_at_v; assumption); lia.
Qed.

(** *** Order of a bound lineage *)
Lemma bound_sorted l : bound ev l -> StronglySorted vle (map s_v (all_schemas l)).
Proof. intros B. apply bound_wf in B as W. rewrite all_schemas_versions by exact W. apply W. Qed.
End B.

(** *** C18 *)
Lemma lens_reason_exact allv l : strict_vs allv ->
  (~ In (il_to l) allv -> lens_reason_of allv l = Ok (RNoSuchVersion (il_to l))) /\
  (In (il_to l) allv -> ~ In (il_from l) allv -> lens_reason_of allv l = Ok (RNoSuchVersion (il_from l))) /\
  (In (il_to l) allv -> In (il_from l) allv ->
     (il_to l = il_from l -> lens_reason_of allv l = Ok RSelf) /\
     (vlt (il_to l) (il_from l) ->
        exists p, adjacent allv p (il_from l) /\ lens_reason_of allv l = Ok (RPredecessor p)) /\
     (vlt (il_from l) (il_to l) -> fst (il_from l) = fst (il_to l) ->
        exists s, adjacent allv (il_from l) s /\ lens_reason_of allv l = Ok (RSuccessor s)) /\
     (vlt (il_from l) (il_to l) -> fst (il_from l) <> fst (il_to l) ->
        lens_reason_of allv l = Ok RMinorAutomatic)).
Proof.
  intros St. pose proof (strict_sorted _ St) as Hs. unfold lens_reason_of.
  split; [|split].
  - intros H. rewrite (proj2 (synvExists_false _ _ Hs) H). reflexivity.
  - intros H1 H2. rewrite (proj2 (synvExists_true _ _ Hs) H1). cbn [bind negb].
    rewrite (proj2 (synvExists_false _ _ Hs) H2). reflexivity.
  - intros It If. rewrite (proj2 (synvExists_true _ _ Hs) It). cbn [bind negb].
    rewrite (proj2 (synvExists_true _ _ Hs) If). cbn [bind negb].
    pose proof (rank_in _ _ Hs It) as Rt. pose proof (rank_in _ _ Hs If) as Rf.
    split; [|split; [|split]].
    + intros ->. rewrite veqb_refl. reflexivity.
    + intros L. assert (E : veqb (il_to l) (il_from l) = false) by (apply veqb_false, vlt_neq; exact L).
      rewrite E. apply vless_spec in L. rewrite L.
      rewrite searchSynv_rank by exact Hs. cbn [bind].
      assert (Hlt : rank allv (il_to l) < rank allv (il_from l)).
      { apply (rank_split allv Hs (il_from l) _ _ Rt). exact L. }
      replace (Z.of_nat (rank allv (il_from l)) - 1)%Z with (Z.of_nat (rank allv (il_from l) - 1)) by lia.
      rewrite indexZ_nat. unfold index.
      destruct (nth_error allv (rank allv (il_from l) - 1)) as [p|] eqn:N.
      * exists p. split; [|reflexivity]. exists (rank allv (il_from l) - 1). split; [exact N|].
        replace (S (rank allv (il_from l) - 1)) with (rank allv (il_from l)) by lia. exact Rf.
      * apply nth_error_None in N. assert (rank allv (il_from l) < length allv) by (apply nth_error_Some; congruence). lia.
    + intros L M. assert (E : veqb (il_to l) (il_from l) = false) by (apply veqb_false; apply vlt_neq in L; congruence).
      rewrite E. assert (L' : vless (il_to l) (il_from l) = false) by (apply vless_false; left; exact L).
      rewrite L'. rewrite M, N.eqb_refl. cbn [negb].
      rewrite searchSynv_rank by exact Hs. cbn [bind].
      assert (Hlt : rank allv (il_from l) < rank allv (il_to l)).
      { apply (rank_split allv Hs (il_to l) _ _ Rf). apply vless_spec; exact L. }
      unfold index. destruct (nth_error allv (rank allv (il_from l) + 1)) as [s|] eqn:N.
      * exists s. split; [|reflexivity]. exists (rank allv (il_from l)). split; [exact Rf|].
        rewrite Nat.add_1_r in N. exact N.
      * apply nth_error_None in N. assert (rank allv (il_to l) < length allv) by (apply nth_error_Some; congruence). lia.
    + intros L M. assert (E : veqb (il_to l) (il_from l) = false) by (apply veqb_false; apply vlt_neq in L; congruence).
      rewrite E. assert (L' : vless (il_to l) (il_from l) = false) by (apply vless_false; left; exact L).
      rewrite L'. destruct (N.eqb_spec (fst (il_to l)) (fst (il_from l))); [congruence|]. reflexivity.
Qed.

(** *** Witnesses *)
Lemma tbind_bound t opts l : tbind t opts = Ok l -> bound toy l.
Proof. intros H. unfold bound. do 5 eexists. exact H. Qed.

Lemma dup_versions_bind :
  exists (V : Type) (ev : evaluator V) (l : lineage V),
    bound ev l /\ ~ StronglySorted vlt (map s_v (all_schemas l)).
Proof.
  destruct (tbind (tlin [(0, 0, [1]); (0, 0, [2])]%N []) []) as [l|e| |] eqn:E; try (vm_compute in E; discriminate).
  exists tv, toy, l. split; [exact (tbind_bound _ _ _ E)|].
  vm_compute in E. injection E as <-. intros H. cbn in H. inversion H as [|? ? _ F]; subst.
  inversion F as [|? ? K _]; subst. exact (vlt_irrefl _ K).
Qed.

Definition dense (vs : list version) : Prop :=
  nth_error vs 0 = Some (0, 0)%N /\
  forall a b, adjacent vs a b -> b = (fst a, snd a + 1)%N \/ b = (fst a + 1, 0)%N.

Lemma not_dense_bind :
  exists (V : Type) (ev : evaluator V) (l : lineage V),
    bound ev l /\ ~ dense (map s_v (all_schemas l)) /\
    exists l', bound ev l' /\ nth_error (map s_v (all_schemas l')) 0 = Some (0, 0)%N /\
      StronglySorted vlt (map s_v (all_schemas l')) /\ ~ dense (map s_v (all_schemas l')).
Proof.
  destruct (tbind (tlin [(1, 0, [1])]%N []) []) as [l|e| |] eqn:E; try (vm_compute in E; discriminate).
  destruct (tbind (tlin [(0, 0, [1]); (0, 2, [1; 2])]%N []) []) as [l'|e| |] eqn:E'; try (vm_compute in E'; discriminate).
  exists tv, toy, l. pose proof (tbind_bound _ _ _ E) as B. pose proof (tbind_bound _ _ _ E') as B'.
  split; [exact B|]. split.
  - vm_compute in E. injection E as <-. intros [D _]. vm_compute in D. discriminate.
  - exists l'. split; [exact B'|]. vm_compute in E'. injection E' as <-. split; [reflexivity|].
    split; [cbn; solve_sorted|]. intros [_ D].
    destruct (D (0, 0)%N (0, 2)%N) as [K|K]; try (vm_compute in K; discriminate). exists 0. split; reflexivity.
Qed.

Definition m (a b c d : N) : implens := mkImplens (c, d) (a, b) (Some 1%N).

(** Schemas 0.0, 0.1, 1.0, 2.0 with the exact Go lenses. *)
Definition ss4 : list (N * N * list N) := [(0, 0, [1]); (0, 1, [1; 2]); (1, 0, [3]); (2, 0, [1])]%N.
Definition exact4 : list implens :=
  [m 0 1 0 0; m 1 0 0 1; m 0 1 1 0; m 2 0 1 0; m 1 0 2 0]%N.

Lemma swapped_reasons :
  exists (V : Type) (ev : evaluator V) (lindef : V) (e : cexpr V) (ls : list implens)
         (err0 : err) (rs : list (lensID * lens_reason)),
    BindLineage ev 0 false lindef e [OImperativeLenses ls] = Err err0 /\
    err_is err0 ErrErroneousLenses = true /\ e_text err0 = erroneous_text rs /\
    (* the lens from 0.0 to 0.1 is a minor upgrade, the one from 0.1 to 2.0 skips 1.0 *)
    In (((0, 0), (0, 1)), RSuccessor (0, 1))%N rs /\
    In (((0, 1), (2, 0)), RMinorAutomatic)%N rs.
Proof.
  exists tv, toy, TLinDef, (Atom (tlin ss4 [])), (exact4 ++ [m 0 0 0 1; m 0 1 2 0]%N).
  eexists.
  exists [(((0, 0), (0, 1)), RSuccessor (0, 1)); (((0, 1), (2, 0)), RMinorAutomatic)]%N.
  split; [vm_compute; reflexivity|].
  split; [vm_compute; reflexivity|]. split; [vm_compute; reflexivity|].
  split; [left; reflexivity|right; left; reflexivity].
Qed.

Lemma incomplete_cue_lenses_bind :
  exists (V : Type) (ev : evaluator V) (l : lineage V) id,
    bound ev l /\ strict_from_zero l /\ l_lensmap l = [] /\
    entailed (map s_v (all_schemas l)) id /\
    forall c, In c (l_lenses l) -> (cl_from c, cl_to c) <> (Some (fst id), Some (snd id)).
Proof.
  destruct (tbind (tlin [(0, 0, [1]); (1, 0, [2])]%N []) []) as [l|e| |] eqn:E; try (vm_compute in E; discriminate).
  exists tv, toy, l, ((1, 0), (0, 0))%N. pose proof (tbind_bound _ _ _ E) as B. split; [exact B|].
  vm_compute in E. injection E as <-. split.
  { split; [cbn; solve_sorted|]. eexists. split; reflexivity. }
  split; [reflexivity|]. split; [|intros c []].
  exists 0, (0, 0)%N, (1, 0)%N. cbn. auto.
Qed.

Lemma duplicate_cue_lenses_bind :
  exists (V : Type) (ev : evaluator V) (l : lineage V) c,
    bound ev l /\ strict_from_zero l /\
    nth_error (l_lenses l) 0 = Some c /\ nth_error (l_lenses l) 1 = Some c.
Proof.
  destruct (tbind (tlin [(0, 0, [1]); (1, 0, [2])] [((0, 0), (1, 0), [(2, 1)]); ((0, 0), (1, 0), [(2, 1)])])%N [])
    as [l|e| |] eqn:E; try (vm_compute in E; discriminate).
  exists tv, toy, l. pose proof (tbind_bound _ _ _ E) as B.
  vm_compute in E. injection E as <-. eexists. split; [exact B|]. split.
  { split; [cbn; solve_sorted|]. eexists. split; reflexivity. }
  split; reflexivity.
Qed.

Lemma options_spec fv opts :
  skipbuggychecks (make_cfg fv opts) = negb fv && existsb is_skip opts /\
  implenses (make_cfg fv opts) = flat_map lenses_of opts.
Proof. rewrite make_cfg_spec. auto. Qed.

Lemma old_data_valid (V : Type) (ev : evaluator V) fv opts id lindef e l data :
  BindLineage ev id fv lindef e opts = Ok l ->
  negb fv && existsb is_skip opts = false ->
  StronglySorted vlt (map s_v (all_schemas l)) ->
  (forall a b, In a (all_schemas l) -> In b (all_schemas l) ->
     ev_subsumes ev (sd_def (s_sd b)) (sd_def (s_sd a)) = true ->
     conforms ev a data -> conforms ev b data) ->
  forall s1 s2, In s1 (all_schemas l) -> In s2 (all_schemas l) ->
    fst (s_v s1) = fst (s_v s2) -> vle (s_v s1) (s_v s2) ->
    (exists i, validate ev s1 data = Ok i) -> exists i, validate ev s2 data = Ok i.
Proof.
  intros B Sk St Snd s1 s2 I1 I2 M Le [i Hi]. apply validate_ok in Hi as [C _].
  assert (W : wf l) by (apply (bound_wf ev); unfold bound; eauto 6).
  eexists. apply validate_ok. split; [|reflexivity].
  rewrite all_schemas_versions in St by exact W.
  apply (within_major ev fv opts id lindef e l data B) with (s1 := s1); try assumption.
  rewrite make_cfg_spec. exact Sk.
Qed.

Lemma memN_in n l : memN n l = true <-> In n l.
Proof.
  unfold memN. rewrite existsb_exists. split.
  - intros [x [H E]]. apply N.eqb_eq in E. subst; exact H.
  - intros H. exists n. split; [exact H|apply N.eqb_refl].
Qed.

Lemma toy_sound n : forall d1 d2, ev_subsumes toy d2 d1 = true ->
  ev_validate toy (ev_unify toy d1 (TDat n)) = None -> ev_validate toy (ev_unify toy d2 (TDat n)) = None.
Proof.
  cbn. intros d1 d2 H1 H2.
  destruct d1 as [|a|a|a1 a2|a1 a2| |a1 a2 a3], d2 as [|b|b|b1 b2|b1 b2| |b1 b2 b3];
    cbn in H1; try discriminate; cbn in *; try discriminate.
  - apply N.eqb_eq in H1. subst. exact H2.
  - destruct (N.eqb_spec a n); [|discriminate]. subst n. rewrite H1. exact H2.
  - destruct (memN n a) eqn:E; [|discriminate]. apply memN_in in E.
    unfold subset in H1. rewrite forallb_forall in H1. rewrite (H1 n E). exact H2.
Qed.
