(** C19-C21, C26-C30: translation. *)
From Verif Require Import Prelude Version VersionProofs Search SearchProofs
  ValidateErr Native Split Lineage LineageProofs WalkProofs GoLensProofs BindFacts WalkFacts
  NativeProofs Translate TranslateGoProofs TranslateCueProofs TranslateFacts Toy.
From Coq Require Import Sorting.Sorted.
Local Open Scope string_scope.
Local Open Scope list_scope.

(** *** C19 *)
Theorem C19_go_translation :
  forall (V : Type) (ev : evaluator V) rm id fv lindef e opts (l : lineage V),
    BindLineage ev id fv lindef e opts = Ok l -> strict_from_zero l ->
    flat_map lenses_of opts <> [] -> well_behaved rm l ->
    forall i k n t fuel,
      i_valid i = true -> nth_error (all_schemas l) k = Some (i_sch i) ->
      nth_error (all_schemas l) n = Some t -> length (all_schemas l) < fuel ->
      exists r, go_trans rm l (flat_map lenses_of opts) n k i r /\
        (forall r', go_trans rm l (flat_map lenses_of opts) n k i r' -> r' = r) /\
        ((exists x, r = Ok x /\ translate ev rm fuel i (s_v t) = Ok (x, []) /\
            i_sch x = t /\ i_valid x = true) \/
         (exists x, r = Err x /\ translate ev rm fuel i (s_v t) = Err x)).
Proof. exact @go_translation. Qed.
Print Assumptions C19_go_translation.

(** Down from 2.0 to 0.0 over a minor and two major steps, and up again. *)
Example C19_cases :
  exists l s0 s3, tbind (tlin ss4 []) [OImperativeLenses exact4] = Ok l /\ strict_from_zero l /\
    nth_error (all_schemas l) 0 = Some s0 /\ nth_error (all_schemas l) 3 = Some s3 /\
    well_behaved toy_mapper l /\
    translate toy toy_mapper 5 (mkInst (TDat 1) "" s3 true) (0, 0)%N =
      Ok (mkInst (TDat 1) "" s0 true, []) /\
    translate toy toy_mapper 5 (mkInst (TDat 1) "n" s0 true) (2, 0)%N =
      Ok (mkInst (TDat 1) "" s3 true, []) /\
    translate toy (fun mp i s => Ok None) 5 (mkInst (TDat 1) "" s3 true) (0, 0)%N =
      Err (mkErr [] "lens returned a nil instance").
Proof.
  destruct (tbind (tlin ss4 []) [OImperativeLenses exact4]) as [l|e| |] eqn:E; try (vm_compute in E; discriminate).
  exists l. vm_compute in E. injection E as <-. do 2 eexists.
  split; [reflexivity|]. split; [split; [cbn; solve_sorted|eexists; split; reflexivity]|].
  split; [reflexivity|]. split; [reflexivity|].
  split.
  { intros mp i s [<-|[<-|[<-|[<-|[]]]]]; vm_compute; auto 6. }
  split; [vm_compute; reflexivity|]. split; vm_compute; reflexivity.
Qed.

(** *** C20 *)
Theorem C20_go_minor_unchanged :
  forall (V : Type) (ev : evaluator V) rm id fv lindef e opts (l : lineage V),
    BindLineage ev id fv lindef e opts = Ok l -> strict_from_zero l ->
    flat_map lenses_of opts <> [] ->
    forall i t fuel,
      i_valid i = true -> In (i_sch i) (all_schemas l) -> In t (all_schemas l) ->
      fst (s_v (i_sch i)) = fst (s_v t) -> vle (s_v (i_sch i)) (s_v t) ->
      length (all_schemas l) < fuel ->
      translate ev rm fuel i (s_v t) = Ok (mkInst (i_raw i) (i_name i) t true, []).
Proof. exact @go_minor. Qed.
Print Assumptions C20_go_minor_unchanged.

(** With mappers that always fail. *)
Example C20_case :
  exists l s0 s1, tbind (tlin ss4 []) [OImperativeLenses exact4] = Ok l /\
    In s0 (all_schemas l) /\ In s1 (all_schemas l) /\ s_v s1 = (0, 1)%N /\
    translate toy (fun _ _ _ => Err (new_err "boom")) 5 (mkInst (TDat 1) "n" s0 true) (0, 1)%N =
      Ok (mkInst (TDat 1) "n" s1 true, []).
Proof.
  destruct (tbind (tlin ss4 []) [OImperativeLenses exact4]) as [l|e| |] eqn:E; try (vm_compute in E; discriminate).
  exists l. vm_compute in E. injection E as <-. do 2 eexists.
  split; [reflexivity|]. split; [left; reflexivity|]. split; [right; left; reflexivity|].
  split; vm_compute; reflexivity.
Qed.

(** *** C21 *)

(** Refuted: the version of a mapper's result is compared, its lineage is not. A
    mapper that always returns validated instances can make [Translate] return
    an instance that is not of the lineage and not valid for the target. *)
Theorem C21_go_result_valid_refuted :
  exists (V : Type) (ev : evaluator V) rm id fv lindef e opts (l : lineage V) i t x,
    BindLineage ev id fv lindef e opts = Ok l /\ strict_from_zero l /\
    flat_map lenses_of opts <> [] /\
    (forall mp i s r, rm mp i s = Ok (Some r) ->
       i_valid r = true /\ validate ev (i_sch r) (i_raw r) = Ok r) /\
    In (i_sch i) (all_schemas l) /\ validate ev (i_sch i) (i_raw i) = Ok i /\
    In t (all_schemas l) /\
    (forall fuel, translate ev rm (5 + fuel) i (s_v t) = Ok (x, [])) /\
    (exists err, validate ev t (i_raw x) = Err err) /\ ~ In (i_sch x) (all_schemas l).
Proof. exact foreign_instance. Qed.
Print Assumptions C21_go_result_valid_refuted.

(** What holds: if the mappers return instances of the lineage's own schemas
    whose data conforms to them, and the bind-time compatibility check is on and
    sound, the result conforms to the target. *)
Theorem C21_go_result_valid_partial :
  forall (V : Type) (ev : evaluator V) rm id fv lindef e opts (l : lineage V),
    BindLineage ev id fv lindef e opts = Ok l -> strict_from_zero l ->
    flat_map lenses_of opts <> [] -> well_behaved rm l ->
    negb fv && existsb is_skip opts = false ->
    (forall data a b, In a (all_schemas l) -> In b (all_schemas l) ->
       ev_subsumes ev (sd_def (s_sd b)) (sd_def (s_sd a)) = true ->
       conforms ev a data -> conforms ev b data) ->
    (forall mp i s r, In s (all_schemas l) -> rm mp i s = Ok (Some r) -> conforms ev (i_sch r) (i_raw r)) ->
    forall i t fuel x lac,
      i_valid i = true -> In (i_sch i) (all_schemas l) -> In t (all_schemas l) ->
      conforms ev (i_sch i) (i_raw i) -> length (all_schemas l) < fuel ->
      translate ev rm fuel i (s_v t) = Ok (x, lac) ->
      i_sch x = t /\ conforms ev t (i_raw x).
Proof. exact @go_result_valid. Qed.
Print Assumptions C21_go_result_valid_partial.

(** All hypotheses together, with compatibility checks on. *)
Example C21_case :
  exists l, tbind (tlin ss4 []) [OImperativeLenses exact4] = Ok l /\ strict_from_zero l /\
    well_behaved toy_mapper l /\
    (forall data a b, In a (all_schemas l) -> In b (all_schemas l) ->
       ev_subsumes toy (sd_def (s_sd b)) (sd_def (s_sd a)) = true ->
       conforms toy a data -> conforms toy b data) /\
    (forall mp i s r, In s (all_schemas l) -> toy_mapper mp i s = Ok (Some r) ->
       conforms toy (i_sch r) (i_raw r)).
Proof.
  destruct (tbind (tlin ss4 []) [OImperativeLenses exact4]) as [l|e| |] eqn:E; try (vm_compute in E; discriminate).
  exists l. vm_compute in E. injection E as <-.
  split; [reflexivity|]. split; [split; [cbn; solve_sorted|eexists; split; reflexivity]|].
  split; [intros mp i s [<-|[<-|[<-|[<-|[]]]]]; vm_compute; auto 6|].
  split.
  { intros data a b Ha Hb. destruct data; try (unfold conforms; intros _ K;
      destruct Ha as [<-|[<-|[<-|[<-|[]]]]]; discriminate K). apply (toy_sound n). }
  intros mp i s r [<-|[<-|[<-|[<-|[]]]]] H; vm_compute in H; injection H as <-; vm_compute; reflexivity.
Qed.

(** *** C26 *)
Theorem C26_cue_translation :
  forall (V : Type) (ev : evaluator V) rm (l : lineage V),
    bound ev l -> l_lensmap l = [] -> dense (map s_v (all_schemas l)) ->
    exact_cue_lenses l ->
    forall i k n t fuel,
      i_valid i = true -> ev_struct ev (i_raw i) = true ->
      nth_error (all_schemas l) k = Some (i_sch i) -> nth_error (all_schemas l) n = Some t ->
      k = n \/ (fst (s_v (i_sch i)) <= 2)%N /\ (fst (s_v t) <= 2)%N ->
      exists o,
        cue_trans ev l n k (i_raw i) o /\
        (forall o', cue_trans ev l n k (i_raw i) o' -> o' = o) /\
        translate ev rm (S fuel) i (s_v t) =
          match o with
          | Some d =>
              if ev_json_ok ev (ev_default ev d) then
                match validate ev t (ev_default ev d) with
                | Ok r => Ok (r, [])
                | Err e => Err (mkErr (ErrLensResultIsInvalidData :: e_marks e) (e_text e))
                | Panic => Panic
                | OutOfFuel => OutOfFuel
                end
              else Err (mkErr [ErrLensIncomplete] "lens produced a non-concrete result")
          | None => Err (mkErr [ErrInvalidLens] "")
          end.
Proof. exact @translate_cue. Qed.
Print Assumptions C26_cue_translation.

Example C26_cases :
  exists l s0 s3, tbind cue4 [] = Ok l /\ bound toy l /\ l_lensmap l = [] /\
    dense (map s_v (all_schemas l)) /\
    nth_error (all_schemas l) 0 = Some s0 /\ nth_error (all_schemas l) 3 = Some s3 /\
    exact_cue_lenses l /\
    translate toy toy_mapper 1 (mkInst (TDat 1) "" s3 true) (0, 0)%N =
      Ok (mkInst (TDat 1) "" s0 true, []) /\
    translate toy toy_mapper 1 (mkInst (TDat 1) "" s0 true) (2, 0)%N =
      Ok (mkInst (TDat 1) "" s3 true, []) /\
    translate toy toy_mapper 1 (mkInst (TDat 2) "" s3 true) (0, 0)%N =
      Err (mkErr [ErrInvalidLens] "").
Proof.
  destruct (tbind cue4 []) as [l|e| |] eqn:E; try (vm_compute in E; discriminate).
  exists l. pose proof (tbind_bound _ _ _ E) as B. vm_compute in E. injection E as <-. do 2 eexists.
  split; [reflexivity|]. split; [exact B|]. split; [reflexivity|]. split.
  { split; [reflexivity|]. intros a b [i [H1 H2]].
    destruct i as [|[|[|[|i]]]]; cbn in H1, H2; try discriminate; injection H1 as <-; injection H2 as <-; cbn; auto. }
  split; [reflexivity|]. split; [reflexivity|]. split.
  { split.
    - vm_compute. repeat constructor; cbn; intuition congruence.
    - intros f t. vm_compute lens_ids. split.
      + intros [K|[K|[K|[K|[K|[]]]]]]; injection K as <- <-.
        1: exists 0, (0, 0)%N, (0, 1)%N; repeat split; auto.
        1,2: exists 1, (0, 1)%N, (1, 0)%N; repeat split; auto; try (right; split; [reflexivity|discriminate]).
        1,2: exists 2, (1, 0)%N, (2, 0)%N; repeat split; auto; try (right; split; [reflexivity|discriminate]).
      + intros [i [a [b [H1 [H2 H3]]]]]. destruct i as [|[|[|[|i]]]]; cbn in H1, H2; try discriminate;
          injection H1 as <-; injection H2 as <-;
          destruct H3 as [K|[K M]]; injection K as -> ->; cbn; auto 8; cbn in M; congruence. }
  split; [vm_compute; reflexivity|]. split; vm_compute; reflexivity.
Qed.

(** Whatever lenses are declared, a translation goes through lenses of the very
    versions it passes. *)
Theorem C26_lens_versions :
  forall (V : Type) (ev : evaluator V) rm (l : lineage V) i to fuel r lac, bound ev l -> l_lensmap l = [] ->
    i_valid i = true -> In (i_sch i) (all_schemas l) ->
    translate ev rm (S fuel) i to = Ok (r, lac) ->
    exists ts, steps_from ev l (vless (s_v (i_sch i)) to) (i_raw i) (s_v (i_sch i)) ts /\
      i_raw r = ev_default ev (cue_result (i_raw i) ts).
Proof. exact @translate_steps. Qed.
Print Assumptions C26_lens_versions.

(** The bound on majors is needed. From majors 0-2 up into major 3 or more, the
    lenses are applied only up to a schema before the target, and what comes out
    is validated against the target. *)
Theorem C26_stops_short :
  forall (V : Type) (ev : evaluator V) rm (l : lineage V),
    bound ev l -> l_lensmap l = [] -> dense (map s_v (all_schemas l)) -> exact_cue_lenses l ->
    forall i k n t fuel,
      i_valid i = true -> ev_struct ev (i_raw i) = true ->
      nth_error (all_schemas l) k = Some (i_sch i) -> nth_error (all_schemas l) n = Some t ->
      (fst (s_v (i_sch i)) <= 2)%N -> (3 <= fst (s_v t))%N ->
      exists z, flatidx (l_allv l) (s_v t) = Some z /\ (z < Z.of_nat n)%Z /\
        ((z < Z.of_nat k)%Z -> translate ev rm (S fuel) i (s_v t) = Err (mkErr [ErrInvalidLens] "")) /\
        forall m, z = Z.of_nat m -> k <= m ->
        exists o, cue_trans ev l m k (i_raw i) o /\
          translate ev rm (S fuel) i (s_v t) =
            match o with
            | None => Err (mkErr [ErrInvalidLens] "")
            | Some d =>
                if ev_json_ok ev (ev_default ev d) then
                  match validate ev t (ev_default ev d) with
                  | Ok r => Ok (r, [])
                  | Err e => Err (mkErr (ErrLensResultIsInvalidData :: e_marks e) (e_text e))
                  | Panic => Panic
                  | OutOfFuel => OutOfFuel
                  end
                else Err (mkErr [ErrLensIncomplete] "lens produced a non-concrete result")
            end.
Proof. exact @translate_short. Qed.
Print Assumptions C26_stops_short.

(** With four majors a translation fails although every lens is right and the
    specification gives valid data. *)
Theorem C26_four_majors_fail :
  exists (V : Type) (ev : evaluator V) l i t,
    bound ev l /\ dense (map s_v (all_schemas l)) /\ exact_cue_lenses l /\
    In (i_sch i) (all_schemas l) /\ validate ev (i_sch i) (i_raw i) = Ok i /\ In t (all_schemas l) /\
    (exists n k o, nth_error (all_schemas l) n = Some t /\ nth_error (all_schemas l) k = Some (i_sch i) /\
       cue_trans ev l n k (i_raw i) (Some o) /\ (exists r, validate ev t o = Ok r)) /\
    l_lensmap l = [] /\ ev_struct ev (i_raw i) = true /\ (fst (s_v (i_sch i)) <= 2)%N /\ (3 <= fst (s_v t))%N /\
    forall rm fuel, exists x, translate ev rm (S fuel) i (s_v t) = Err x.
Proof. exact four_majors_fail. Qed.
Print Assumptions C26_four_majors_fail.

(** *** C27 *)
Theorem C27_cue_result_valid :
  forall (V : Type) (ev : evaluator V) rm (l : lineage V) i to fuel r lac,
    bound ev l -> l_lensmap l = [] -> i_valid i = true -> In (i_sch i) (all_schemas l) ->
    translate ev rm (S fuel) i to = Ok (r, lac) ->
    i_valid r = true /\ In (i_sch r) (all_schemas l) /\ s_v (i_sch r) = to /\
    validate ev (i_sch r) (i_raw r) = Ok r.
Proof. exact @cue_result_valid. Qed.
Print Assumptions C27_cue_result_valid.

(** *** C28 *)

(** Refuted for both kinds of lenses. *)
Theorem C28_errors_refuted :
  (exists (V : Type) (ev : evaluator V) rm l i x,
     bound ev l /\ In (i_sch i) (all_schemas l) /\ validate ev (i_sch i) (i_raw i) = Ok i /\
     (forall fuel, translate ev rm (S fuel) i (1, 0)%N = Err x) /\
     err_is x ErrLensIncomplete = true /\ err_is x ErrInvalidLens = false) /\
  (exists (V : Type) (ev : evaluator V) rm id fv lindef e opts (l : lineage V) i x,
     BindLineage ev id fv lindef e opts = Ok l /\ strict_from_zero l /\ flat_map lenses_of opts <> [] /\
     well_behaved rm l /\ In (i_sch i) (all_schemas l) /\ validate ev (i_sch i) (i_raw i) = Ok i /\
     (forall fuel, translate ev rm (2 + fuel) i (1, 0)%N = Err x) /\ e_marks x = []).
Proof. exact not_invalid_lens. Qed.
Print Assumptions C28_errors_refuted.

(** What holds: with CUE lenses every error carries one of three marks. *)
Theorem C28_errors_partial :
  forall (V : Type) (ev : evaluator V) rm (l : lineage V) i to fuel x,
    bound ev l -> l_lensmap l = [] -> i_valid i = true -> In (i_sch i) (all_schemas l) ->
    translate ev rm (S fuel) i to = Err x ->
    e_marks x = [ErrInvalidLens] \/ e_marks x = [ErrLensIncomplete] \/
    exists t data e', In t (all_schemas l) /\ s_v t = to /\ validate ev t data = Err e' /\
      e_marks x = ErrLensResultIsInvalidData :: e_marks e'.
Proof. exact @cue_errors. Qed.
Print Assumptions C28_errors_partial.

(** *** C29 *)

(** Refuted: the lens has a valid result and says what is lost in it, but nothing
    of either reaches the caller, since the step reads a field that the closed
    [#Lacuna] does not have. *)
Theorem C29_lacunas_refuted :
  exists (V : Type) (ev : evaluator V) l i s' c r,
    bound ev l /\ dense (map s_v (all_schemas l)) /\ exact_cue_lenses l /\
    nth_error (all_schemas l) 0 = Some (i_sch i) /\ validate ev (i_sch i) (i_raw i) = Ok i /\
    nth_error (all_schemas l) 1 = Some s' /\
    In c (l_lenses l) /\ cl_from c = Some (s_v (i_sch i)) /\ cl_to c = Some (s_v s') /\
    ev_lacunas ev (cl_val c) (i_raw i) <> [] /\
    ev_bottom ev (ev_embed ev (ev_lens_result ev (cl_val c) (i_raw i)) (sd_def (s_sd s'))) = false /\
    validate ev s' (ev_default ev (ev_embed ev (ev_lens_result ev (cl_val c) (i_raw i)) (sd_def (s_sd s')))) = Ok r /\
    forall rm fuel, translate ev rm (S fuel) i (s_v s') = Err (mkErr [ErrInvalidLens] "").
Proof. exact lacunas_lost. Qed.
Print Assumptions C29_lacunas_refuted.

(** The lacunas returned are always none. *)
Theorem C29_lacunas_partial :
  forall (V : Type) (ev : evaluator V) rm fuel i to r lac,
    translate ev rm fuel i to = Ok (r, lac) -> lac = [].
Proof. exact @no_lacunas. Qed.
Print Assumptions C29_lacunas_partial.

(** A translation with CUE lenses that succeeds went through lenses that emitted
    none. *)
Theorem C29_silent_partial :
  forall (V : Type) (ev : evaluator V) rm (l : lineage V) i to fuel r lac,
    bound ev l -> l_lensmap l = [] -> i_valid i = true -> In (i_sch i) (all_schemas l) ->
    translate ev rm (S fuel) i to = Ok (r, lac) ->
    exists ts, steps_from ev l (vless (s_v (i_sch i)) to) (i_raw i) (s_v (i_sch i)) ts /\
      i_raw r = ev_default ev (cue_result (i_raw i) ts).
Proof. exact @translate_steps. Qed.
Print Assumptions C29_silent_partial.

(** *** C30 *)
Theorem C30_translate_total :
  forall (V : Type) (ev : evaluator V) rm id fv lindef e opts (l : lineage V),
    BindLineage ev id fv lindef e opts = Ok l -> strict_from_zero l -> well_behaved rm l ->
    (forall s data, In s (all_schemas l) -> validate ev s data <> Panic) ->
    forall i to fuel,
      i_valid i = true -> In (i_sch i) (all_schemas l) -> ev_struct ev (i_raw i) = true ->
      length (all_schemas l) < fuel ->
      (In to (map s_v (all_schemas l)) ->
         exists o, translate ev rm fuel i to = Ok o \/ exists x, translate ev rm fuel i to = Err x) /\
      (~ In to (map s_v (all_schemas l)) ->
         translate ev rm fuel i to = Panic \/
         (flat_map lenses_of opts <> [] /\ exists x, translate ev rm fuel i to = Err x)).
Proof. exact @translate_total. Qed.
Print Assumptions C30_translate_total.

Theorem C30_neighbours_total :
  forall (V : Type) (ev : evaluator V) rm id fv lindef e opts (l : lineage V),
    BindLineage ev id fv lindef e opts = Ok l -> strict_from_zero l -> well_behaved rm l ->
    (forall s data, In s (all_schemas l) -> validate ev s data <> Panic) ->
    forall i k fuel,
      i_valid i = true -> nth_error (all_schemas l) k = Some (i_sch i) -> ev_struct ev (i_raw i) = true ->
      length (all_schemas l) < fuel ->
      (S k = length (all_schemas l) -> asSuccessor ev rm fuel i = Panic) /\
      (S k < length (all_schemas l) ->
         (exists o, asSuccessor ev rm fuel i = Ok o) \/ (exists x, asSuccessor ev rm fuel i = Err x)) /\
      (k = 0 -> asPredecessor ev rm fuel i = Panic) /\
      (0 < k ->
         (exists o, asPredecessor ev rm fuel i = Ok o) \/ (exists x, asPredecessor ev rm fuel i = Err x)).
Proof. exact @neighbours_total. Qed.
Print Assumptions C30_neighbours_total.

Example C30_cases :
  (forall s data, validate toy s data <> Panic) /\
  exists l s0 s3, tbind cue4 [] = Ok l /\ strict_from_zero l /\
    nth_error (all_schemas l) 0 = Some s0 /\ nth_error (all_schemas l) 3 = Some s3 /\
    translate toy toy_mapper 5 (mkInst (TDat 1) "" s0 true) (0, 2)%N = Panic /\
    asSuccessor toy toy_mapper 5 (mkInst (TDat 1) "" s3 true) = Panic /\
    asPredecessor toy toy_mapper 5 (mkInst (TDat 1) "" s0 true) = Panic /\
    is_ok (asSuccessor toy toy_mapper 5 (mkInst (TDat 1) "" s0 true)) = true /\
    is_ok (asPredecessor toy toy_mapper 5 (mkInst (TDat 1) "" s3 true)) = true.
Proof.
  split; [exact toy_validate_total|].
  destruct (tbind cue4 []) as [l|e| |] eqn:E; try (vm_compute in E; discriminate).
  exists l. vm_compute in E. injection E as <-. do 2 eexists.
  split; [reflexivity|]. split; [split; [cbn; solve_sorted|eexists; split; reflexivity]|].
  split; [reflexivity|]. split; [reflexivity|]. repeat split; vm_compute; reflexivity.
Qed.
