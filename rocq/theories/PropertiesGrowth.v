(** C112, C113: publishing further versions. *)
From Verif Require Import Prelude Version VersionProofs Search SearchProofs
  ValidateErr Native Split Lineage LineageProofs WalkProofs GoLensProofs BindFacts WalkFacts
  NativeProofs Translate TranslateGoProofs TranslateCueProofs TranslateFacts Vmux VmuxProofs Toy
  GrowthProofs GrowthWitness.
From Coq Require Import Sorting.Sorted.
Local Open Scope string_scope.
Local Open Scope list_scope.

(** *** C112 *)
Theorem C112_lookup :
  forall (V : Type) (ev : evaluator V) (l l' : lineage V),
    bound ev l -> bound ev l' -> StronglySorted vlt (map s_v (all_schemas l')) -> grows l l' ->
    forall v s, lin_schema l v = Ok s ->
      exists s', lin_schema l' v = Ok s' /\ twin_schema s s' /\
        forall d, alike twin (validate ev s d) (validate ev s' d).
Proof. exact @lookup_published. Qed.
Print Assumptions C112_lookup.

Theorem C112_validate_any :
  forall (V : Type) (ev : evaluator V) (l l' : lineage V),
    bound ev l -> bound ev l' ->
    StronglySorted vlt (map s_v (all_schemas l)) -> StronglySorted vlt (map s_v (all_schemas l')) -> grows l l' ->
    forall d fuel fuel' i,
      (forall s, In s (all_schemas l') -> validate ev s d <> Panic) ->
      length (all_schemas l) <= fuel -> length (all_schemas l') <= fuel' ->
      validateAny ev fuel l d = Ok (Some i) ->
      exists i', validateAny ev fuel' l' d = Ok (Some i') /\ twin i i'.
Proof. exact @grow_any. Qed.
Print Assumptions C112_validate_any.

(** For every number of majors: even where the native positions are wrong (C25),
    they are equally wrong in both lineages. *)
Theorem C112_cue :
  forall (V : Type) (ev : evaluator V) rm (l l' : lineage V),
    bound ev l -> bound ev l' -> l_lensmap l = [] -> l_lensmap l' = [] ->
    dense (map s_v (all_schemas l)) -> dense (map s_v (all_schemas l')) ->
    exact_cue_lenses l -> exact_cue_lenses l' -> grows l l' -> incl (l_lenses l) (l_lenses l') ->
    forall i i' t fuel fuel',
      i_valid i = true ->
      In (i_sch i) (all_schemas l) -> In (i_sch i') (all_schemas l') -> twin i i' -> In t (all_schemas l) ->
      alike twin_lac (translate ev rm (S fuel) i (s_v t)) (translate ev rm (S fuel') i' (s_v t)).
Proof. exact @cue_published. Qed.
Print Assumptions C112_cue.

Example C112_cue_case :
  exists l l', tbind short2 [] = Ok l /\ tbind long3 [] = Ok l' /\
    bound toy l /\ bound toy l' /\ l_lensmap l = [] /\ l_lensmap l' = [] /\
    dense (map s_v (all_schemas l)) /\ dense (map s_v (all_schemas l')) /\
    exact_cue_lenses l /\ exact_cue_lenses l' /\ grows l l' /\ incl (l_lenses l) (l_lenses l').
Proof. exact short_long. Qed.

Theorem C112_go :
  forall (V : Type) (ev : evaluator V) rm (l l' : lineage V) id fv lindef e opts id' fv' lindef' e' opts',
    BindLineage ev id fv lindef e opts = Ok l -> BindLineage ev id' fv' lindef' e' opts' = Ok l' ->
    strict_from_zero l -> strict_from_zero l' -> flat_map lenses_of opts <> [] ->
    well_behaved rm l -> well_behaved rm l' -> mappers_alike rm l l' ->
    grows l l' -> incl (flat_map lenses_of opts) (flat_map lenses_of opts') ->
    forall i i' t fuel fuel',
      i_valid i = true -> In (i_sch i) (all_schemas l) -> In (i_sch i') (all_schemas l') -> twin i i' ->
      In t (all_schemas l) -> length (all_schemas l) < fuel -> length (all_schemas l') < fuel' ->
      alike twin_lac (translate ev rm fuel i (s_v t)) (translate ev rm fuel' i' (s_v t)).
Proof. exact @go_published. Qed.
Print Assumptions C112_go.

(** 2.1 is published after 2.0. *)
Example C112_go_case :
  exists l l', tbind (tlin ss4 []) [OImperativeLenses exact4] = Ok l /\
    tbind (tlin ss5 []) [OImperativeLenses exact5] = Ok l' /\
    strict_from_zero l /\ strict_from_zero l' /\ well_behaved toy_mapper l /\ well_behaved toy_mapper l' /\
    mappers_alike toy_mapper l l' /\ grows l l' /\ incl exact4 exact5.
Proof. exact go_short_long. Qed.

(** *** C113 *)

(** Although every valid instance can be translated everywhere. *)
Theorem C113_mux_refuted :
  exists (V : Type) (ev : evaluator V) (l l' : lineage V) t t' v x x',
    bound ev l /\ bound ev l' /\ l_lensmap l = [] /\ l_lensmap l' = [] /\
    dense (map s_v (all_schemas l)) /\ dense (map s_v (all_schemas l')) /\
    exact_cue_lenses l /\ exact_cue_lenses l' /\ grows l l' /\ incl (l_lenses l) (l_lenses l') /\
    In t (all_schemas l) /\ In t' (all_schemas l') /\ s_v t = s_v t' /\
    (forall rm fuel i u, i_valid i = true -> In (i_sch i) (all_schemas l') -> In u (all_schemas l') ->
       conforms ev (i_sch i) (i_raw i) -> exists r, translate ev rm (S fuel) i (s_v u) = Ok (r, [])) /\
    forall rm fuel, exists mux mux', newUntypedMux ev rm (fun v => Ok v) (S (S (S (S fuel)))) t = Ok mux /\
      newUntypedMux ev rm (fun v => Ok v) (S (S (S (S fuel)))) t' = Ok mux' /\
      mux v = Ok (x, []) /\ mux' v = Ok (x', []) /\ i_raw x <> i_raw x'.
Proof. exact mux_changes. Qed.
Print Assumptions C113_mux_refuted.

(** The answer stays when the mux's own schema accepts the data, or none of the
    new ones does. *)
Theorem C113_cue_partial :
  forall (V : Type) (ev : evaluator V) rm (Byt : Type) (dec : Byt -> outcome V) (l l' : lineage V),
    bound ev l -> bound ev l' -> l_lensmap l = [] -> l_lensmap l' = [] ->
    dense (map s_v (all_schemas l)) -> dense (map s_v (all_schemas l')) ->
    exact_cue_lenses l -> exact_cue_lenses l' -> grows l l' -> incl (l_lenses l) (l_lenses l') ->
    forall t t' fuel fuel',
      In t (all_schemas l) -> In t' (all_schemas l') -> s_v t = s_v t' ->
      length (all_schemas l) < fuel -> length (all_schemas l') < fuel' ->
      exists mux mux', newUntypedMux ev rm dec fuel t = Ok mux /\ newUntypedMux ev rm dec fuel' t' = Ok mux' /\
      forall b,
        (forall e, dec b = Err e -> mux b = Err e /\ mux' b = Err e) /\
        forall v s, dec b = Ok v -> (forall s, In s (all_schemas l') -> validate ev s v <> Panic) ->
          In s (all_schemas l) -> conforms ev s v -> undisturbed ev l l' t v -> alike twin_lac (mux b) (mux' b).
Proof. exact @mux_cue_published. Qed.
Print Assumptions C113_cue_partial.

Theorem C113_go_partial :
  forall (V : Type) (ev : evaluator V) rm (Byt : Type) (dec : Byt -> outcome V) (l l' : lineage V)
         id fv lindef e opts id' fv' lindef' e' opts',
    BindLineage ev id fv lindef e opts = Ok l -> BindLineage ev id' fv' lindef' e' opts' = Ok l' ->
    strict_from_zero l -> strict_from_zero l' -> flat_map lenses_of opts <> [] ->
    well_behaved rm l -> well_behaved rm l' -> mappers_alike rm l l' ->
    grows l l' -> incl (flat_map lenses_of opts) (flat_map lenses_of opts') ->
    forall t t' fuel fuel',
      In t (all_schemas l) -> In t' (all_schemas l') -> s_v t = s_v t' ->
      length (all_schemas l) < fuel -> length (all_schemas l') < fuel' ->
      exists mux mux', newUntypedMux ev rm dec fuel t = Ok mux /\ newUntypedMux ev rm dec fuel' t' = Ok mux' /\
      forall b,
        (forall e, dec b = Err e -> mux b = Err e /\ mux' b = Err e) /\
        forall v s, dec b = Ok v -> (forall s, In s (all_schemas l') -> validate ev s v <> Panic) ->
          In s (all_schemas l) -> conforms ev s v -> undisturbed ev l l' t v -> alike twin_lac (mux b) (mux' b).
Proof. exact @mux_go_published. Qed.
Print Assumptions C113_go_partial.

(** The lineages of C112; 3 is not accepted by 2.1, so the mux for 2.0 keeps its
    answer. *)
Example C113_go_case :
  exists l l' t, tbind (tlin ss4 []) [OImperativeLenses exact4] = Ok l /\
    tbind (tlin ss5 []) [OImperativeLenses exact5] = Ok l' /\ grows l l' /\
    nth_error (all_schemas l) 3 = Some t /\ undisturbed toy l l' t (TDat 3) /\ ~ conforms toy t (TDat 3) /\
    (exists s, In s (all_schemas l) /\ conforms toy s (TDat 3)) /\
    forall s, In s (all_schemas l') -> validate toy s (TDat 3) <> Panic.
Proof.
  destruct go_short_long as [l [l' [E [E' [_ [_ [_ [_ [_ [G _]]]]]]]]]].
  vm_compute in E, E'. injection E as <-. injection E' as <-. do 2 eexists. eexists.
  split; [reflexivity|]. split; [reflexivity|]. split; [exact G|]. split; [reflexivity|]. split.
  { right. intros k u H L. destruct k as [|[|[|[|[|k]]]]]; cbn in H, L; try (exfalso; lia); [|destruct k; discriminate].
    injection H as <-. intros K. vm_compute in K. discriminate. }
  split; [intros K; vm_compute in K; discriminate|]. split.
  { eexists. split; [right; right; left; reflexivity|]. vm_compute. reflexivity. }
  intros s [<-|[<-|[<-|[<-|[<-|[]]]]]] K; vm_compute in K; discriminate.
Qed.
