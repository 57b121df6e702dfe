(** C116, C117. *)
From Verif Require Import Prelude Strings Version VersionProofs Search SearchProofs ValidateErr Native Split
  Lineage LineageProofs BindFacts BindErrorProofs.
From Verif Require Import CueFrag CueSem CueProofs HydrateSem CueEval CueEvalSem CueEvalWitness
  Authoring AuthoringProofs AuthoringWitness AuthoringFacts BindErrorFacts.
From Verif Require Import WalkProofs WalkFacts Translate Cli Toy CliProofs CliHintProofs.
From Coq Require Import ZArith.
Local Open Scope string_scope.
Local Open Scope list_scope.

(** *** C116 *)

(** The error is that of the first schema at fault, and of the first lens at fault
    if there is no such schema. *)
Theorem C116_first_fault :
  forall (V : Type) (ev : evaluator V) id fv lindef e opts raw uni es,
    shape_accepted ev lindef e raw uni -> ev_schemas ev uni = Some es ->
    let skip := negb fv && existsb is_skip opts in
    let bound := BindLineage ev id fv lindef e opts in
    (forall x, first_fault ev skip es x -> bound = Err x) /\
    (faultless ev skip es -> flat_map lenses_of opts = [] ->
       match ev_lenses ev uni with
       | None => exists l, bound = Ok l
       | Some ls => (forall x, bound = Err x <-> first_lens_fault ls x) /\
                    ((exists l, bound = Ok l) <-> faultless_lenses ls)
       end).
Proof. exact @bind_first_fault. Qed.
Print Assumptions C116_first_fault.

(** Every list of schemas has a first fault or none. *)
Theorem C116_decided :
  forall (V : Type) (ev : evaluator V) skip es,
    ((exists x, first_fault ev skip es x) \/ faultless ev skip es) /\
    (forall x y, first_fault ev skip es x -> first_fault ev skip es y -> x = y) /\
    (forall x, first_fault ev skip es x -> ~ faultless ev skip es).
Proof. exact @faults_decided. Qed.
Print Assumptions C116_decided.

(** What is said of a candidate that has no list of schemas to look at. *)
Theorem C116_candidate :
  forall (V : Type) (ev : evaluator V) id fv lindef e opts raw uni,
    raw_uni ev lindef e = Ok (raw, uni) ->
    let bound := BindLineage ev id fv lindef e opts in
    (ev_exists ev raw = false -> ev_path ev raw = "" ->
       bound = Err (mkErr [ErrValueNotExist] "cue value does not exist")) /\
    (ev_exists ev raw = false -> ev_path ev raw <> "" ->
       bound = Err (mkErr [ErrValueNotExist]
         ("not a lineage: no cue value at path """ ++ ev_path ev raw ++ """")%string)) /\
    (ev_exists ev raw = true -> forall f, f = "name" \/ (f = "schemas" /\ ev_field ev raw "name" = FConcrete) ->
       (ev_field ev raw f = FAbsent ->
          bound = Err (mkErr [ErrValueNotALineage] ("not a lineage, missing #Lineage." ++ f)%string)) /\
       (ev_field ev raw f = FNonConcrete ->
          bound = Err (mkErr [ErrInvalidLineage] ("invalid lineage, #Lineage." ++ f ++ " must be concrete")%string))) /\
    (ev_exists ev raw = true -> ev_field ev raw "name" = FConcrete -> ev_field ev raw "schemas" = FConcrete ->
       (ev_final ev uni && native_ok ev uni = false ->
          bound = Err (mkErr [ErrInvalidLineage] "not an instance of thema.#Lineage")) /\
       (ev_final ev uni && native_ok ev uni = true -> ev_valid ev raw && ev_valid ev uni = false ->
          bound = Err (mkErr [ErrInvalidLineage] "lineage is invalid"))).
Proof. exact @bind_candidate. Qed.
Print Assumptions C116_candidate.

(** "redeclare as version": whoever follows the advice gets a lineage. *)
Theorem C116_redeclare :
  forall errs id fv name ss ls opts l a b def body c def' body' x,
    BindLineage (cue_fragment errs) id fv CLinDef
      (Atom (CLin name (ss ++ [((Some a, Some b), (def, body))]) ls)) opts = Ok l ->
    negb fv && existsb is_skip opts = false -> flat_map lenses_of opts = [] ->
    (Z.of_nat (length (l_allv l)) < max64)%Z ->
    vle (a, b) (c, 0%N) -> counts_ok (l_allv l ++ [(c, 0%N)]) = true ->
    BindLineage (cue_fragment errs) id fv CLinDef
      (Atom (CLin name (ss ++ [((Some a, Some b), (def, body)); ((Some c, Some 0%N), (def', body'))]) ls)) opts = Err x ->
    x = mkErr [ErrInvalidLineage]
          ("schema " ++ vstring (c, 0%N) ++ " must be backwards incompatible with schema " ++ vstring (a, b) ++
           ": introduce a breaking change, or redeclare as version " ++ vstring (a, b + 1)%N)%string /\
    exists l', BindLineage (cue_fragment errs) id fv CLinDef
      (Atom (CLin name (ss ++ [((Some a, Some b), (def, body)); ((Some a, Some (b + 1)%N), (def', body'))]) ls)) opts = Ok l' /\
      l_allv l' = l_allv l ++ [(a, b + 1)%N].
Proof. exact redeclare. Qed.
Print Assumptions C116_redeclare.

Example C116_case :
  tbind (tlin [(0, 0, [1]); (0, 2, [1]); (0, 1, [1]); (1, 0, [1])]%N []) [] =
    Err (mkErr [ErrInvalidSchemasOrder] "schema version 0.1 is not greater than previous schema version 0.2") /\
  tbind (tlin [(0, 0, [1]); (0, 1, [1; 2]); (1, 0, [1; 2; 3]); (0, 0, [1])]%N []) [] =
    Err (mkErr [ErrInvalidLineage] "schema 1.0 must be backwards incompatible with schema 0.1: introduce a breaking change, or redeclare as version 0.2") /\
  ship_bind (ship 1 0 (second true (VType TInt))) = Err (mkErr [ErrInvalidLineage]
    "schema 1.0 must be backwards incompatible with schema 0.0: introduce a breaking change, or redeclare as version 0.1") /\
  is_ok (ship_bind (ship 0 1 (second true (VType TInt)))) = true /\
  counts_ok ([(0, 0)] ++ [(1, 0)])%N = true /\
  shape_accepted toy TLinDef (Atom (tlin ss4 [])) (tlin ss4 []) (tlin ss4 []) /\
  first_fault toy false
    [mkEntry (Some 0) (Some 0) (TRef [1] [1]); mkEntry (Some 1) (Some 0) (TRef [1; 2] [1; 2]); mkEntry None None (TRef [] [])]%N
    (mkErr [ErrInvalidLineage]
       "schema 1.0 must be backwards incompatible with schema 0.0: introduce a breaking change, or redeclare as version 0.1").
Proof.
  split; [vm_compute; reflexivity|]. split; [vm_compute; reflexivity|]. split; [vm_compute; reflexivity|].
  split; [vm_compute; reflexivity|]. split; [vm_compute; reflexivity|].
  split; [repeat split; vm_compute; reflexivity|].
  apply (proj1 (check_schemas_first toy (mkCfg false []) _)). vm_compute. reflexivity.
Qed.

(** *** C117 *)

(** Refuted: the lineage is found with [-p lin]; without it the error says that
    there is no lineage, and the hint is not given. *)
Theorem C117_hint_refuted :
  exists (V : Type) (ev : evaluator V) fv lindef path_err skip fs mo instances input abs jd yd rm hyd dehyd concrete w fuel f,
    let run cp := thema_data ev jd yd rm hyd dehyd concrete
      (dynLoad ev fv lindef path_err skip fs mo instances input abs cp) w fuel CValidate f [] in
    (forall cfg, foreign (instances cfg)) /\
    (exists e, dynLoad ev fv lindef path_err skip fs mo instances input abs "" (f_version f) = Err e /\
       err_is e ErrValueNotALineage = true) /\
    (exists o, run "lin" = Exited 0 o "") /\
    run "" = Exited 1 ONothing ("Error: not a lineage, missing #Lineage.name" ++ newline)%string.
Proof. exact hint_missing. Qed.
Print Assumptions C117_hint_refuted.

(** It never is: no error of the loader has the text the command looks for. *)
Theorem C117_never_partial :
  forall (V : Type) (ev : evaluator V) fv lindef path_err skip fs mo instances input abs cp
      jd yd rm hyd dehyd concrete w fuel c f args e,
    (forall cfg, foreign (instances cfg)) ->
    dynLoad ev fv lindef path_err skip fs mo instances input abs cp (f_version f) = Err e ->
    exec ev jd yd rm hyd dehyd concrete
      (dynLoad ev fv lindef path_err skip fs mo instances input abs cp) w fuel c f args = Err e.
Proof. exact no_hint. Qed.
Print Assumptions C117_never_partial.
Example C117_case :
  (exists e, hidden_load "" "0.0" = Err e) /\ (forall c : loadcfg, foreign ((fun _ => hidden) c)).
Proof. split; [eexists; vm_compute; reflexivity|]. intros _ b e [<-|[]] H; discriminate H. Qed.
