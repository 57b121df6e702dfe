(** C104: what a mux puts out it takes back unchanged. *)
From Verif Require Import Prelude Version VersionProofs Search SearchProofs
  ValidateErr Native Split Lineage LineageProofs WalkProofs GoLensProofs BindFacts WalkFacts
  NativeProofs Translate TranslateGoProofs TranslateCueProofs TranslateFacts Vmux VmuxProofs Toy VmuxAgainFacts.
From Coq Require Import Sorting.Sorted.
Local Open Scope string_scope.
Local Open Scope list_scope.

(** CUE lenses, for any codec that reads back what it writes. *)
Theorem C104_bytes :
  forall (V B : Type) (ev : evaluator V) rm (dec : B -> outcome V) (enc : V -> outcome B)
      (l : lineage V) sch fuel m b ob lac,
    bound ev l -> l_lensmap l = [] -> strict_from_zero l ->
    In sch (all_schemas l) -> length (all_schemas l) < fuel ->
    (forall v o, enc v = Ok o -> dec o = Ok v) ->
    (forall v s, dec b = Ok v -> In s (all_schemas l) -> validate ev s v <> Panic) ->
    newByteMux ev rm dec enc fuel sch = Ok m ->
    m b = Ok (Some ob, lac, None) -> m ob = Ok (Some ob, [], None).
Proof. exact @byte_again_cue. Qed.
Print Assumptions C104_bytes.

(** Data of 0.0 that is translated up to 1.0, and its output once more. *)
Example C104_bytes_case :
  exists l s2 m, tbind cue4 [] = Ok l /\ bound toy l /\ l_lensmap l = [] /\ strict_from_zero l /\
    nth_error (all_schemas l) 2 = Some s2 /\
    newByteMux toy toy_mapper (fun v : tv => Ok v) (fun v => Ok v) 5 s2 = Ok m /\
    m (TDat 1) = Ok (Some (TDat 3), [], None) /\ m (TDat 3) = Ok (Some (TDat 3), [], None) /\
    (forall v s, In s (all_schemas l) -> validate toy s v <> Panic).
Proof.
  destruct (tbind cue4 []) as [l|e| |] eqn:E; try (vm_compute in E; discriminate).
  exists l. pose proof (tbind_bound _ _ _ E) as Bd. vm_compute in E. injection E as <-. do 2 eexists.
  split; [reflexivity|]. split; [exact Bd|]. split; [reflexivity|].
  split; [split; [cbn; solve_sorted|eexists; split; reflexivity]|].
  split; [reflexivity|]. split.
  { unfold newByteMux, newUntypedMux.
    match goal with |- bind (bind ?x _) _ = _ =>
      let y := eval vm_compute in x in change x with y end. reflexivity. }
  split; [vm_compute; reflexivity|]. split; [vm_compute; reflexivity|].
  intros v s _. apply toy_validate_total.
Qed.

(** The same for instances: whatever bytes hold the data of the instance. *)
Theorem C104_untyped :
  forall (V B : Type) (ev : evaluator V) rm (dec : B -> outcome V) (l : lineage V) sch fuel mux b x lac b',
    bound ev l -> l_lensmap l = [] -> strict_from_zero l ->
    In sch (all_schemas l) -> length (all_schemas l) < fuel ->
    newUntypedMux ev rm dec fuel sch = Ok mux -> mux b = Ok (x, lac) ->
    (forall v s, dec b = Ok v -> In s (all_schemas l) -> validate ev s v <> Panic) ->
    dec b' = Ok (i_raw x) -> mux b' = Ok (mkInst (i_raw x) "" sch true, []).
Proof. exact @untyped_again_cue. Qed.
Print Assumptions C104_untyped.

(** With Go lenses a mapper may answer with a valid instance of another lineage:
    its data leaves the mux unchecked, and is refused when it comes back. *)
Theorem C104_go_refuted :
  exists (V : Type) (ev : evaluator V) rm id fv lindef e opts (l : lineage V) sch m,
    BindLineage ev id fv lindef e opts = Ok l /\ strict_from_zero l /\
    (forall mp i s r, rm mp i s = Ok (Some r) ->
       i_valid r = true /\ validate ev (i_sch r) (i_raw r) = Ok r) /\
    In sch (all_schemas l) /\
    newByteMux ev rm (fun v : V => Ok v) (fun v => Ok v) 5 sch = Ok m /\
    exists b ob er, m b = Ok (Some ob, [], None) /\ m ob = Ok (None, [], Some er).
Proof. exact mux_rejects_own. Qed.
Print Assumptions C104_go_refuted.

(** With mappers that return valid instances of the lineage's own schemas, and
    compatibility checks that were made and are sound, it holds. *)
Theorem C104_go_partial :
  forall (V B : Type) (ev : evaluator V) rm (dec : B -> outcome V) (enc : V -> outcome B)
      id fv lindef e opts (l : lineage V) sch fuel m b ob lac,
    BindLineage ev id fv lindef e opts = Ok l -> strict_from_zero l ->
    flat_map lenses_of opts <> [] -> well_behaved rm l ->
    negb fv && existsb is_skip opts = false ->
    (forall data a b, In a (all_schemas l) -> In b (all_schemas l) ->
       ev_subsumes ev (sd_def (s_sd b)) (sd_def (s_sd a)) = true ->
       conforms ev a data -> conforms ev b data) ->
    (forall mp i s r, In s (all_schemas l) -> rm mp i s = Ok (Some r) -> conforms ev (i_sch r) (i_raw r)) ->
    In sch (all_schemas l) -> length (all_schemas l) < fuel ->
    (forall v o, enc v = Ok o -> dec o = Ok v) ->
    (forall v s, dec b = Ok v -> In s (all_schemas l) -> validate ev s v <> Panic) ->
    newByteMux ev rm dec enc fuel sch = Ok m ->
    m b = Ok (Some ob, lac, None) -> m ob = Ok (Some ob, [], None).
Proof. exact @byte_again_go. Qed.
Print Assumptions C104_go_partial.

(** Data of 0.1 is mapped to 1.0 by a Go lens, and the output once more (the other
    hypotheses are met by [C21_case]). *)
Example C104_go_case :
  exists l s2 m, tbind (tlin ss4 []) [OImperativeLenses exact4] = Ok l /\
    nth_error (all_schemas l) 2 = Some s2 /\
    newByteMux toy toy_mapper (fun v : tv => Ok v) (fun v => Ok v) 5 s2 = Ok m /\
    m (TDat 2) = Ok (Some (TDat 3), [], None) /\ m (TDat 3) = Ok (Some (TDat 3), [], None).
Proof.
  destruct (tbind (tlin ss4 []) [OImperativeLenses exact4]) as [l|e| |] eqn:E; try (vm_compute in E; discriminate).
  exists l. vm_compute in E. injection E as <-. do 2 eexists.
  split; [reflexivity|]. split; [reflexivity|]. split.
  { unfold newByteMux, newUntypedMux.
    match goal with |- bind (bind ?x _) _ = _ =>
      let y := eval vm_compute in x in change x with y end. reflexivity. }
  split; vm_compute; reflexivity.
Qed.
