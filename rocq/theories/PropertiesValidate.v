(** C37, C38, C39, C59: validation failures, their messages, typed instances. *)
From Verif Require Import Prelude Version Search Strings ValidateErr Native Split Lineage LineageProofs
  WalkProofs Translate Vmux VmuxProofs ValidateProofs TypedFacts Toy.
Local Open Scope string_scope.
Local Open Scope list_scope.

(** *** C37 *)

(** [field_path p q]: [q] is the path below the schema in the CUE path [p].
    [entry_of]: the entry a CUE error stands for. [entries_of]: those of a list
    of errors, in order. The other case, where composing the message panics, is
    the subject of C38. *)
Theorem C37_failures_kept :
  forall (V : Type) (ev : evaluator V) (s : schema V) data es,
    ev_validate ev (ev_unify ev (sd_def (s_sd s)) data) = Some (VCue es) ->
    (validate ev s data = Panic /\ exists e, In e es /\ forall q, ~ field_path (ce_path e) q) \/
    ((forall e, In e es -> exists q, field_path (ce_path e) q) /\
     exists xs, entries_of (l_name (s_lin s)) (s_v s) es xs /\
       validate ev s data = Err (mkErr [ErrInvalidData] (failure_text xs))).
Proof. exact @validate_cue. Qed.
Print Assumptions C37_failures_kept.

Theorem C37_foreign :
  forall (V : Type) (ev : evaluator V) (s : schema V) data e,
    ev_validate ev (ev_unify ev (sd_def (s_sd s)) data) = Some (VOther e) -> validate ev s data = Err e.
Proof. exact validate_foreign. Qed.
Print Assumptions C37_foreign.

Definition demo_missing := mkCueErr [mkPos "a.cue" "a.cue:1:2"] ["#Lineage"; "schemas"; "0"; "_#schema"; "f"; "g"]
  "incomplete value %s" [AStr "int & >=0 & <=255 | string"].
Definition demo_excess := mkCueErr [mkPos "a.cue" "a.cue:1:2"; mkPos "d.json" "d.json:3:4"] ["#Lineage"; "h"]
  "field not allowed: %s" [AStr "7"].
Definition demo_conflict := mkCueErr [mkPos "d.json" "d.json:3:4"; mkPos "a.cue" "a.cue:1:2"] ["#Lineage"; "k"]
  "conflicting values" [AStr "true"; AStr "int"; AKind 2; AKind 4].
Definition demo_bounds := mkCueErr [mkPos "a.cue" "a.cue:1:2"; mkPos "d.json" "d.json:3:4"] ["#Lineage"; "m"]
  "invalid value" [AStr "<10"; AStr "12"].
Definition demo_other := mkCueErr [] ["#Lineage"; "n"] "strange" [AOther; AOther; AOther].

Example C37_codes :
  exists xs, mungeValidateErr "lin" (0%N, 0%N)
    (VCue [demo_missing; demo_excess; demo_other; demo_conflict; demo_bounds]) = Ok (MFailure xs) /\
    map entry_code xs = [MissingField; ExcessField; KindConflict; OutOfBounds] /\
    map (fun x => c_path (entry_coords x)) xs = [["f"; "g"]; ["h"]; ["k"]; ["m"]] /\
    map quoted xs = [["uint8 | string"]; ["7"]; ["int"; "true"]; ["<10"; "12"]].
Proof. eexists. split; [vm_compute; reflexivity|]. vm_compute. auto. Qed.

Example C37_applies :
  exists l s, tbind (tlin [(0, 0, [1])]%N []) [] = Ok l /\ nth_error (all_schemas l) 0 = Some s /\
    ev_validate toy (ev_unify toy (sd_def (s_sd s)) (TDat 3)) = Some (VCue [t_err]) /\
    field_path (ce_path t_err) ["f"] /\
    exists t, validate toy s (TDat 3) = Err (mkErr [ErrInvalidData] t) /\
      contains t "<toy@v0.0>.f: validation failed" = true.
Proof.
  destruct (tbind (tlin [(0, 0, [1])]%N []) []) as [l|e| |] eqn:E; try (vm_compute in E; discriminate).
  vm_compute in E. injection E as <-. do 2 eexists. split; [reflexivity|]. split; [reflexivity|].
  split; [reflexivity|]. split.
  - apply (fp_def _ "#Lineage"); [|reflexivity]. intros [K|[K|[]]]; discriminate.
  - eexists. split; [vm_compute; reflexivity|]. vm_compute. reflexivity.
Qed.

(** *** C38 *)

(** A violation can be missing from the message altogether. *)
Theorem C38_every_violation_refuted :
  exists es, es <> [] /\
    mungeValidateErr "x" (0%N, 0%N) (VCue es) = Ok (MFailure []) /\
    munged_err (MFailure []) = mkErr [ErrInvalidData] "".
Proof. exact violation_lost. Qed.
Print Assumptions C38_every_violation_refuted.

Theorem C38_no_panic_refuted :
  exists es, mungeValidateErr "x" (0%N, 0%N) (VCue es) = Panic.
Proof. exact message_panics. Qed.
Print Assumptions C38_no_panic_refuted.

(** Composing the message panics exactly for an error path without a field
    path. *)
Theorem C38_panics :
  forall name v es,
    mungeValidateErr name v (VCue es) = Panic <->
    exists e, In e es /\ forall q, ~ field_path (ce_path e) q.
Proof. exact munge_outcome. Qed.
Print Assumptions C38_panics.

(** The recognised errors are all in the message. *)
Theorem C38_every_violation_partial :
  forall (V : Type) (ev : evaluator V) (s : schema V) data es x,
    ev_validate ev (ev_unify ev (sd_def (s_sd s)) data) = Some (VCue es) ->
    validate ev s data = Err x ->
    forall e y, In e es -> entry_of (l_name (s_lin s)) (s_v s) e y ->
      contains (e_text x) (entry_text y) = true /\
      (exists q, field_path (ce_path e) q /\
         contains (entry_text y)
           ("<" ++ l_name (s_lin s) ++ "@v" ++ vstring (s_v s) ++ ">." ++ String.concat "." q) = true) /\
      forall w, In w (quoted y) -> contains (entry_text y) ("`" ++ w ++ "`") = true.
Proof. exact @reported. Qed.
Print Assumptions C38_every_violation_partial.

Example C38_path_kept : field_path ["#Lineage"; "schemas"; "0"; "_#schema"; "f"; "g"] ["f"; "g"].
Proof. apply (fp_schema _ ["#Lineage"] "0" "_#schema"); [|reflexivity]. intros [K|[]]; discriminate. Qed.

Example C38_path_too_short : forall q, ~ field_path ["#Lineage"; "schemas"; "0"] q.
Proof. apply trim_spec. reflexivity. Qed.

(** *** C39 *)

(** [alternatives ps]: none of the strings contains a separator, nor begins
    one. The alternatives of a string are unique. *)
Theorem C39_names :
  forall value, exists ps qs,
    alternatives ps /\ join " | " ps = value /\ Forall2 shown ps qs /\
    humanReadableCUEType value = join " | " qs /\
    (forall ps', alternatives ps' -> join " | " ps' = value -> ps' = ps).
Proof. exact human_spec. Qed.
Print Assumptions C39_names.

(** The texts that are replaced are the ranges of the sized number types. *)
Theorem C39_ranges :
  forall p q, shown p q <-> range_name p q \/ ((forall n, ~ range_name p n) /\ q = p).
Proof. exact shown_ranges. Qed.
Print Assumptions C39_ranges.

(** [shown] is a function. *)
Theorem C39_shown_unique : forall p q q', shown p q -> shown p q' -> q = q'.
Proof. exact shown_fun. Qed.
Print Assumptions C39_shown_unique.

Theorem C39_idempotent :
  forall value, humanReadableCUEType (humanReadableCUEType value) = humanReadableCUEType value.
Proof. exact human_idem. Qed.
Print Assumptions C39_idempotent.

Example C39_case :
  humanReadableCUEType "string | int & >=0 & <=255 | >=-128 & <=127 & int | int & >=0" =
  "string | uint8 | int8 | int & >=0".
Proof. vm_compute. reflexivity. Qed.

(** *** C59 *)
Theorem C59_own_schema :
  forall (V T : Type) (l : lineage V) (ts : tschema V T) i,
    In (ts_schema ts) (all_schemas l) -> i_valid i = true ->
    (In (i_sch i) (all_schemas l) \/
     exists l', l_id l' <> l_id l /\ In (i_sch i) (all_schemas l')) ->
    (i_sch i = ts_schema ts /\ bindInstanceType i ts = Ok (mkTInst i ts)) \/
    (i_sch i <> ts_schema ts /\
     bindInstanceType i ts = Err (new_err "typed schema is not derived from instance's schema")).
Proof. exact @bind_instance_type. Qed.
Print Assumptions C59_own_schema.

Theorem C59_validate_typed :
  forall (V T : Type) (ev : evaluator V) (ts : tschema V T) v,
    (forall i, validate ev (ts_schema ts) v = Ok i ->
       validateTyped ev ts v = Ok (mkTInst i ts) /\ i_sch i = ts_schema ts /\ i_raw i = v) /\
    (forall e, validate ev (ts_schema ts) v = Err e -> validateTyped ev ts v = Err e) /\
    (validate ev (ts_schema ts) v = Panic -> validateTyped ev ts v = Panic) /\
    (forall t, validateTyped ev ts v = Ok t ->
       ti_tsch t = ts /\ validate ev (ts_schema ts) v = Ok (ti_inst t)).
Proof. exact @validate_typed. Qed.
Print Assumptions C59_validate_typed.

Example C59_cases :
  exists l s0 s1 i, tbind (tlin [(0, 0, [1]); (0, 1, [1; 2])]%N [((0, 0), (0, 1), [(1, 1); (2, 1)])]%N) [] = Ok l /\
    nth_error (all_schemas l) 0 = Some s0 /\ nth_error (all_schemas l) 1 = Some s1 /\
    validate toy s0 (TDat 1) = Ok i /\
    bindInstanceType i (mkTyped s0 tt (fun _ _ => (tt, None))) =
      Ok (mkTInst i (mkTyped s0 tt (fun _ _ => (tt, None)))) /\
    bindInstanceType i (mkTyped s1 tt (fun _ _ => (tt, None))) =
      Err (new_err "typed schema is not derived from instance's schema").
Proof.
  destruct (tbind (tlin [(0, 0, [1]); (0, 1, [1; 2])]%N [((0, 0), (0, 1), [(1, 1); (2, 1)])]%N) [])
    as [l|e| |] eqn:E; try (vm_compute in E; discriminate).
  vm_compute in E. injection E as <-. do 4 eexists. split; [reflexivity|]. split; [reflexivity|].
  split; [reflexivity|]. split; [vm_compute; reflexivity|]. split; reflexivity.
Qed.
