(** C31, C32: version multiplexing. *)
From Verif Require Import Prelude Version VersionProofs Search SearchProofs
  ValidateErr Native Split Lineage LineageProofs WalkProofs GoLensProofs BindFacts WalkFacts
  NativeProofs Translate TranslateGoProofs TranslateCueProofs TranslateFacts Vmux VmuxProofs Toy.
From Coq Require Import Sorting.Sorted.
Local Open Scope string_scope.
Local Open Scope list_scope.

(** *** C31 *)

(** [mux_spec] is the specification; it determines the result
    ([C31_spec_determines]). *)
Theorem C31_untyped_mux :
  forall (V B : Type) (ev : evaluator V) rm (dec : B -> outcome V) l sch fuel,
    bound ev l -> strict_from_zero l -> In sch (all_schemas l) -> length (all_schemas l) < fuel ->
    exists mux, newUntypedMux ev rm dec fuel sch = Ok mux /\
      forall b,
        (forall e, dec b = Err e -> mux b = Err e) /\
        (forall v, dec b = Ok v -> (forall s, In s (all_schemas l) -> validate ev s v <> Panic) ->
           mux_spec ev l sch (fun i => translate ev rm fuel i (s_v sch)) v (mux b)).
Proof. exact @untyped_spec. Qed.
Print Assumptions C31_untyped_mux.

Theorem C31_spec_determines :
  forall (V : Type) (ev : evaluator V) l sch tr v r r',
    bound ev l -> strict_from_zero l ->
    mux_spec ev l sch tr v r -> mux_spec ev l sch tr v r' -> r = r'.
Proof. exact @mux_spec_fun. Qed.
Print Assumptions C31_spec_determines.

Theorem C31_result_at_target :
  forall (V B : Type) (ev : evaluator V) rm (dec : B -> outcome V) id fv lindef e opts l sch fuel mux b x lac,
    BindLineage ev id fv lindef e opts = Ok l -> strict_from_zero l -> well_behaved rm l ->
    In sch (all_schemas l) -> length (all_schemas l) < fuel ->
    newUntypedMux ev rm dec fuel sch = Ok mux -> mux b = Ok (x, lac) ->
    (forall v s, dec b = Ok v -> In s (all_schemas l) -> validate ev s v <> Panic) ->
    i_sch x = sch /\ i_valid x = true /\ lac = [].
Proof. exact @untyped_version. Qed.
Print Assumptions C31_result_at_target.

(** The hypothesis on 0.0 is needed. *)
Theorem C31_needs_zero :
  exists (V : Type) (ev : evaluator V) (l : lineage V) s,
    bound ev l /\ StronglySorted vlt (map s_v (all_schemas l)) /\ In s (all_schemas l) /\
    forall rm (dec : V -> outcome V) fuel, newUntypedMux ev rm dec fuel s = Panic.
Proof. exact mux_needs_zero. Qed.
Print Assumptions C31_needs_zero.

(** Data valid for the target, for another schema only, for none. *)
Example C31_cases :
  exists l s0 s2 mux, tbind cue4 [] = Ok l /\ strict_from_zero l /\
    nth_error (all_schemas l) 0 = Some s0 /\ nth_error (all_schemas l) 2 = Some s2 /\
    newUntypedMux toy toy_mapper (fun n : N => if N.eqb n 9 then Err (new_err "bad") else Ok (TDat n)) 5 s0 = Ok mux /\
    mux 1%N = Ok (mkInst (TDat 1) "" s0 true, []) /\
    mux 3%N = Ok (mkInst (TDat 1) "" s0 true, []) /\
    mux 9%N = Err (new_err "bad") /\
    (exists t, mux 7%N = Err (mkErr [ErrInvalidData] t)).
Proof.
  destruct (tbind cue4 []) as [l|e| |] eqn:E; try (vm_compute in E; discriminate).
  exists l. vm_compute in E. injection E as <-. do 2 eexists. 
  eexists.
  split; [reflexivity|]. split; [split; [cbn; solve_sorted|eexists; split; reflexivity]|].
  split; [reflexivity|]. split; [reflexivity|]. split.
  { unfold newUntypedMux.
    match goal with |- bind ?x _ = _ => let y := eval vm_compute in x in change x with y end.
    cbn [bind]. reflexivity. }
  split; [vm_compute; reflexivity|]. split; [vm_compute; reflexivity|]. split; [vm_compute; reflexivity|].
  eexists. vm_compute. reflexivity.
Qed.

(** *** C32 *)
Theorem C32_typed_mux :
  forall (V B T : Type) (ev : evaluator V) rm (dec : B -> outcome V) id fv lindef e opts l
         (ts : tschema V T) fuel,
    BindLineage ev id fv lindef e opts = Ok l -> strict_from_zero l -> well_behaved rm l ->
    In (ts_schema ts) (all_schemas l) -> length (all_schemas l) < fuel ->
    exists u t, newUntypedMux ev rm dec fuel (ts_schema ts) = Ok u /\
      newTypedMux ev rm dec fuel ts = Ok t /\
      forall b, (forall v s, dec b = Ok v -> In s (all_schemas l) -> validate ev s v <> Panic) ->
        t b = match u b with
              | Ok (x, lac) => Ok (mkTInst x ts, lac)
              | Err er => Err er
              | Panic => Panic
              | OutOfFuel => OutOfFuel
              end.
Proof. exact @typed_same. Qed.
Print Assumptions C32_typed_mux.

Theorem C32_byte_mux :
  forall (V B : Type) (ev : evaluator V) rm (dec : B -> outcome V) (enc : V -> outcome B) fuel sch,
    match newUntypedMux ev rm dec fuel sch with
    | Ok u => exists m, newByteMux ev rm dec enc fuel sch = Ok m /\ forall b,
        (forall x lac ob, u b = Ok (x, lac) -> i_valid x = true -> enc (i_raw x) = Ok ob ->
           m b = Ok (Some ob, lac, None)) /\
        (forall x lac er, u b = Ok (x, lac) -> i_valid x = true -> enc (i_raw x) = Err er ->
           m b = Ok (None, lac, Some er)) /\
        (forall er, u b = Err er -> m b = Ok (None, [], Some er)) /\
        (u b = Panic -> m b = Panic)
    | Err er => newByteMux ev rm dec enc fuel sch = Err er
    | Panic => newByteMux ev rm dec enc fuel sch = Panic
    | OutOfFuel => newByteMux ev rm dec enc fuel sch = OutOfFuel
    end.
Proof. exact @byte_agrees. Qed.
Print Assumptions C32_byte_mux.

Theorem C32_value_mux :
  forall (V B T : Type) (ev : evaluator V) rm (dec : B -> outcome V) fuel (ts : tschema V T),
    match newTypedMux ev rm dec fuel ts with
    | Ok t => exists m, newValueMux ev rm dec fuel ts = Ok m /\ forall b,
        (forall x lac, t b = Ok (mkTInst x ts, lac) -> i_valid x = true ->
           m b = Ok (fst (ts_decode ts (i_raw x) (ts_newfn ts)), lac,
                     snd (ts_decode ts (i_raw x) (ts_newfn ts)))) /\
        (forall er, t b = Err er -> m b = Ok (ts_newfn ts, [], Some er)) /\
        (t b = Panic -> m b = Panic)
    | Err er => newValueMux ev rm dec fuel ts = Err er
    | Panic => newValueMux ev rm dec fuel ts = Panic
    | OutOfFuel => newValueMux ev rm dec fuel ts = OutOfFuel
    end.
Proof. exact @value_agrees. Qed.
Print Assumptions C32_value_mux.

(** The hypothesis on lenses is needed: a foreign instance reaches the panic
    marked unreachable. *)
Theorem C32_typed_panics :
  exists (V : Type) (ev : evaluator V) rm id fv lindef e opts (l : lineage V) (ts : tschema V unit) t,
    BindLineage ev id fv lindef e opts = Ok l /\ strict_from_zero l /\
    (forall mp i s r, rm mp i s = Ok (Some r) ->
       i_valid r = true /\ validate ev (i_sch r) (i_raw r) = Ok r) /\
    In (ts_schema ts) (all_schemas l) /\
    newTypedMux ev rm (fun v : V => Ok v) 5 ts = Ok t /\ exists v, t v = Panic.
Proof. exact typed_panics. Qed.
Print Assumptions C32_typed_panics.
