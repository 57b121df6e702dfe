(** C76-C79: validation and translation of data in lineages over the CUE
    fragment. *)
From Verif Require Import Prelude Version VersionProofs Search ValidateErr Native Split Lineage LineageProofs WalkProofs GoLensProofs
  BindFacts Translate TranslateCueProofs.
From Verif Require Import CueFrag CueSem CueProofs HydrateSem CueEval CueEvalSem CueEvalProofs
  CueEvalFacts CueEvalBind CueEvalWitness.
From Coq Require Import Sorting.Sorted.
Local Open Scope string_scope.
Local Open Scope list_scope.

(** *** C76 *)
Theorem C76_validate_exact :
  forall errs (s : schema cval) v d, sd_def (s_sd s) = CV v ->
    CueSem.wf v -> dwf d ->
    (valid v d -> validate (cue_fragment errs) s (CV (embed d)) = Ok (mkInst (CV (embed d)) "" s true)) /\
    (~ valid v d -> forall i, validate (cue_fragment errs) s (CV (embed d)) <> Ok i).
Proof. exact validate_exact. Qed.
Print Assumptions C76_validate_exact.

(** From the declaration of a lineage: the schemas are the declared ones, each with
    its version and validating by its definition; the definitions of consecutive
    ones pass or fail the subsumption check by the minor version. *)
Theorem C76_declared :
  forall errs id fv name ss ls opts l,
    BindLineage (cue_fragment errs) id fv CLinDef (Atom (CLin name ss ls)) opts = Ok l ->
    length (all_schemas l) = length ss /\
    forall i s, nth_error (all_schemas l) i = Some s ->
      exists a b def body, nth_error ss i = Some ((Some a, Some b), (def, body)) /\
        s_v s = (a, b) /\ sd_def (s_sd s) = CV def /\
        (CueSem.wf def -> forall d, dwf d ->
           ((exists r, validate (cue_fragment errs) s (CV (embed d)) = Ok r) <-> valid def d)) /\
        forall a' b' def' body', negb fv && existsb is_skip opts = false ->
          nth_error ss (S i) = Some ((Some a', Some b'), (def', body')) ->
          subs def' def = negb (b' =? 0)%N.
Proof. exact bound_declared. Qed.
Print Assumptions C76_declared.

(** *** C77 *)
Theorem C77_old_data_valid :
  forall errs id fv lindef e opts l,
    BindLineage (cue_fragment errs) id fv lindef e opts = Ok l -> negb fv && existsb is_skip opts = false ->
    StronglySorted vlt (map s_v (all_schemas l)) -> fragment_lineage l ->
    (forall a b va vb, In a (all_schemas l) -> In b (all_schemas l) ->
       sd_def (s_sd a) = CV va -> sd_def (s_sd b) = CV vb -> subs vb va = true -> keeps vb va = true) ->
    forall s1 s2 v1 v2 d, In s1 (all_schemas l) -> In s2 (all_schemas l) ->
      sd_def (s_sd s1) = CV v1 -> sd_def (s_sd s2) = CV v2 ->
      fst (s_v s1) = fst (s_v s2) -> vle (s_v s1) (s_v s2) -> valid v1 d -> valid v2 d.
Proof. exact old_data_fragment. Qed.
Print Assumptions C77_old_data_valid.

(** *** C78 *)
Theorem C78_forward_keeps_data :
  forall errs rm l,
    bound (cue_fragment errs) l -> l_lensmap l = [] -> dense (map s_v (all_schemas l)) ->
    exact_cue_lenses l -> struct_lineage l ->
    forall i k n t fuel df r lac,
      i_valid i = true -> i_raw i = CV (embed (DStruct df)) -> dwf (DStruct df) ->
      nth_error (all_schemas l) k = Some (i_sch i) -> nth_error (all_schemas l) n = Some t ->
      k <= n -> fst (s_v (i_sch i)) = fst (s_v t) -> (fst (s_v t) <= 2)%N ->
      translate (cue_fragment errs) rm (S fuel) i (s_v t) = Ok (r, lac) ->
      i_sch r = t /\
      exists x y vt, sd_def (s_sd t) = CV vt /\
        (* the data of the result has all that was there *)
        denotes (i_raw r) x /\ extends (DStruct df) x /\
        (* it agrees with every schema on the way *)
        (forall j s v, k < j -> j <= n -> nth_error (all_schemas l) j = Some s -> sd_def (s_sd s) = CV v ->
           inst (opened v) x = true) /\
        (* and with what the target makes of it *)
        denotes (c_unify (CV vt) (i_raw r)) y /\ extends (DStruct df) y /\ inst vt y = true.
Proof. exact forward_keeps. Qed.
Print Assumptions C78_forward_keeps_data.

(** *** C79 *)

(** Refuted: the schemas pass the compatibility check, the data is valid, and
    translating it to the next minor version is an error, because it relied on a
    default that is gone. *)
Theorem C79_forward_refuted :
  exists errs l i t v,
    bound (cue_fragment errs) l /\ l_lensmap l = [] /\ dense (map s_v (all_schemas l)) /\
    exact_cue_lenses l /\ fragment_lineage l /\
    nth_error (all_schemas l) 0 = Some (i_sch i) /\ nth_error (all_schemas l) 1 = Some t /\
    fst (s_v (i_sch i)) = fst (s_v t) /\ sd_def (s_sd (i_sch i)) = CV v /\
    valid v (DStruct []) /\ validate (cue_fragment errs) (i_sch i) (CV (embed (DStruct []))) = Ok i /\
    forall rm fuel, exists x, translate (cue_fragment errs) rm (S fuel) i (s_v t) = Err x /\
      e_marks x = [ErrLensIncomplete].
Proof. exact default_gone. Qed.
Print Assumptions C79_forward_refuted.

(** Complete data goes through unchanged. *)
Theorem C79_forward_complete_partial :
  forall errs rm id fv lindef e opts l,
    BindLineage (cue_fragment errs) id fv lindef e opts = Ok l -> negb fv && existsb is_skip opts = false ->
    l_lensmap l = [] -> dense (map s_v (all_schemas l)) ->
    exact_cue_lenses l -> fragment_lineage l ->
    forall i k n t fuel df v,
      i_valid i = true -> i_raw i = CV (embed (DStruct df)) -> dwf (DStruct df) ->
      nth_error (all_schemas l) k = Some (i_sch i) -> nth_error (all_schemas l) n = Some t ->
      k <= n -> fst (s_v (i_sch i)) = fst (s_v t) -> (fst (s_v t) <= 2)%N ->
      sd_def (s_sd (i_sch i)) = CV v -> inst v (DStruct df) = true ->
      exists r, translate (cue_fragment errs) rm (S fuel) i (s_v t) = Ok (r, []) /\ i_sch r = t /\
        i_valid r = true /\ denotes (i_raw r) (DStruct df).
Proof. exact forward_complete. Qed.
Print Assumptions C79_forward_complete_partial.

Example C76_cases :
  exists l s0 s2 v0 v2, fbind = Ok l /\ fragment_lineage l /\
    bound (cue_fragment ferrs) l /\ l_lensmap l = [] /\ dense (map s_v (all_schemas l)) /\
    (forall s, In s (all_schemas l) -> (fst (s_v s) <= 2)%N) /\
    (Z.of_nat (length (all_schemas l)) <= max64)%Z /\ exact_cue_lenses l /\
    (forall a b va vb, In a (all_schemas l) -> In b (all_schemas l) ->
       sd_def (s_sd a) = CV va -> sd_def (s_sd b) = CV vb -> subs vb va = true -> keeps vb va = true) /\
    nth_error (all_schemas l) 0 = Some s0 /\ nth_error (all_schemas l) 2 = Some s2 /\
    sd_def (s_sd s0) = CV v0 /\ sd_def (s_sd s2) = CV v2 /\
    dwf only_name /\ dwf name_mode /\ valid v0 only_name /\ inst v0 name_mode = true /\
    validate (cue_fragment ferrs) s0 (CV (embed only_name)) = Ok (mkInst (CV (embed only_name)) "" s0 true) /\
    (exists r, translate (cue_fragment ferrs) (fun _ _ _ => Ok None) 1 (mkInst (CV (embed only_name)) "" s0 true) (0, 2)%N
       = Ok (r, []) /\ i_sch r = s2 /\
       denotes (i_raw r) (DStruct [("name", DAtom (AString "x")); ("mode", DAtom (AString "foo"))])) /\
    (exists r, translate (cue_fragment ferrs) (fun _ _ _ => Ok None) 1 (mkInst (CV (embed name_mode)) "" s0 true) (0, 2)%N
       = Ok (r, []) /\ i_sch r = s2 /\ denotes (i_raw r) name_mode).
Proof.
  destruct fbind as [l|x| |] eqn:E; try (vm_compute in E; discriminate).
  assert (B : bound (cue_fragment ferrs) l) by (unfold bound; exists 7%N, false, CLinDef, (Atom lin3), []; exact E).
  vm_compute in E. injection E as <-.
  do 5 eexists. split; [reflexivity|]. split.
  { intros s [<-|[<-|[<-|[]]]]; eexists; (split; [reflexivity|]); (split; [|split; reflexivity]);
      cbn; repeat split; repeat constructor; cbn; intuition congruence. }
  split; [exact B|]. split; [reflexivity|]. split.
  { split; [reflexivity|]. intros a b [i [H1 H2]].
    destruct i as [|[|[|i]]]; cbn in H1, H2; try discriminate; injection H1 as <-; injection H2 as <-; cbn; auto. }
  split; [intros s [<-|[<-|[<-|[]]]]; vm_compute; discriminate|]. split; [vm_compute; discriminate|]. split.
  { split.
    - vm_compute. repeat constructor; cbn; intuition congruence.
    - intros f t. vm_compute lens_ids. split.
      + intros [K|[K|[]]]; injection K as <- <-.
        * exists 0, (0, 0)%N, (0, 1)%N; repeat split; auto.
        * exists 1, (0, 1)%N, (0, 2)%N; repeat split; auto.
      + intros [i [a [b [H1 [H2 H3]]]]]. destruct i as [|[|[|i]]]; cbn in H1, H2; try discriminate;
          injection H1 as <-; injection H2 as <-;
          destruct H3 as [K|[K M]]; injection K as -> ->; cbn; auto 8; cbn in M; congruence. }
  split.
  { intros a b va vb [<-|[<-|[<-|[]]]] [<-|[<-|[<-|[]]]] Ea Eb; injection Ea as <-; injection Eb as <-;
      vm_compute; auto. }
  split; [reflexivity|]. split; [reflexivity|]. split; [reflexivity|]. split; [reflexivity|].
  split; [cbn; repeat split; repeat constructor; cbn; intuition congruence|].
  split; [cbn; repeat split; repeat constructor; cbn; intuition congruence|].
  split; [eexists; vm_compute; reflexivity|]. split; [reflexivity|]. split; [vm_compute; reflexivity|].
  split; (eexists; split; [vm_compute; reflexivity|]; split; [reflexivity|]; eexists; split; [reflexivity|]; vm_compute; reflexivity).
Qed.
