(** C54-C58, C70, C71: the [thema] command. *)
From Verif Require Import Prelude Strings Version VersionProofs Search SearchProofs
  ValidateErr Native Split Lineage LineageProofs WalkProofs BindFacts WalkFacts Translate
  TranslateFacts Cli CliProofs Toy.
From Coq Require Import Sorting.Sorted.
Local Open Scope string_scope.
Local Open Scope list_scope.

(** *** C54 *)

(** [find_spec] describes exactly one result for a start directory: the module of
    the nearest directory that answers for [cue.mod/module.cue], the reason why
    that one cannot be used, or that none answers. [findCueMod] is total. *)
Theorem C54_module_search :
  forall fs module_of p,
    match fs_stat fs p with
    | StatErr e => findCueMod fs module_of p = FStat ("could not stat path: " ++ e)%string
    | StatDir => find_spec fs module_of p (findCueMod fs module_of p)
    | StatFile => find_spec fs module_of (removelast p) (findCueMod fs module_of p)
    end.
Proof. exact find_cue_mod. Qed.
Print Assumptions C54_module_search.

Theorem C54_unique :
  forall fs module_of p r r',
    find_spec fs module_of p r -> find_spec fs module_of p r' -> r = r'.
Proof. exact find_unique. Qed.
Print Assumptions C54_unique.

(** Modules at [/a], at [/a/b/c] and at the root, which is never looked at. *)
Definition fs54 : fsys := mkFs
  (fun p => match p with ["a"; "b"; "x.cue"] => StatFile | _ => StatDir end)
  (fun p => match p with
            | ["a"; "cue.mod"; "module.cue"] => ReadData "outer"
            | ["a"; "b"; "c"; "cue.mod"; "module.cue"] => ReadData "inner"
            | ["cue.mod"; "module.cue"] => ReadData "root"
            | _ => ReadNotExist
            end).
Example C54_cases :
  findCueMod fs54 inl ["a"; "b"; "c"; "d"] = Found (mkMod ["a"; "b"; "c"] "inner") /\
  findCueMod fs54 inl ["a"; "b"; "c"] = Found (mkMod ["a"; "b"; "c"] "inner") /\
  findCueMod fs54 inl ["a"; "b"; "x.cue"] = Found (mkMod ["a"] "outer") /\
  findCueMod fs54 inr ["a"] = FInvalid "contents of /a/cue.mod/module.cue invalid: outer" /\
  findCueMod fs54 inl ["z"; "b"] = FNotExist.
Proof. repeat split; reflexivity. Qed.

(** *** C55 *)
Theorem C55_package_selection :
  forall (V : Type) (ev : evaluator V) fv lindef path_err skip bs pp cp,
    (forall k b, nth_error bs k = Some b ->
       answered (loadone ev fv lindef path_err skip (N.of_nat k) b (pp b) cp)) ->
    let build := buildInsts ev fv lindef path_err skip bs pp cp in
    let yields := yields ev fv lindef path_err skip bs pp cp in
    (bs = [] -> build = Err (new_err "no loadable CUE data found")) /\
    (forall l b, build = Ok (l, b) <->
       exists k, yields k b (Ok l) /\ forall k' b' l', yields k' b' (Ok l') -> k' = k) /\
    (forall k k' b b' l l', k <> k' -> yields k b (Ok l) -> yields k' b' (Ok l') ->
       build = Err (new_err "valid lineages found in multiple CUE packages")) /\
    (bs <> [] -> (forall k b l, ~ yields k b (Ok l)) ->
       exists b e, yields 0 b (Err e) /\ build = Err e).
Proof. exact @build_insts. Qed.
Print Assumptions C55_package_selection.

(** What is bound in one package: its value, or the value at the path that [-p]
    gives; buggy checks are skipped exactly if THEMA_SKIP_BUGGY is set. *)
Theorem C55_one_package :
  forall (V : Type) (ev : evaluator V) fv lindef path_err skip id b pp cp,
    (exists r, bound_value path_err b pp cp r /\
       loadone ev fv lindef path_err skip id b pp cp =
         match r with
         | inl v => BindLineage ev id fv lindef v (if skip then [OSkipBuggyChecks] else [])
         | inr e => Err e
         end) /\
    (forall r r', bound_value path_err b pp cp r -> bound_value path_err b pp cp r' -> r = r').
Proof. intros. split; [apply load_one|apply bound_value_unique]. Qed.
Print Assumptions C55_one_package.

Definition pkg (v : tv) : binst tv :=
  mkBinst None "p" (fun p => if String.eqb p "" then Some (Atom v) else None).
Definition build_toy (bs : list (binst tv)) :=
  buildInsts toy false TLinDef (fun _ => None) false bs (fun _ => "d") "".

(** One of three binds; two of three; none of two; one broken package. *)
Example C55_cases :
  (exists l, build_toy [pkg (TDat 1); pkg (tlin ss4 []); pkg (TDat 2)] = Ok (l, pkg (tlin ss4 []))) /\
  build_toy [pkg (tlin ss4 []); pkg (TDat 1); pkg (tlin ss4 [])] =
    Err (new_err "valid lineages found in multiple CUE packages") /\
  (exists e, build_toy [pkg (TDat 1); mkBinst (Some (new_err "x")) "q" (fun _ => None)] = Err e /\
     build_toy [pkg (TDat 1)] = Err e) /\
  build_toy [mkBinst (Some (new_err "x")) "q" (fun _ => None); pkg (TDat 1)] = Err (new_err "x") /\
  (forall k b, nth_error [pkg (TDat 1); pkg (tlin ss4 []); pkg (TDat 2)] k = Some b ->
     answered (loadone toy false TLinDef (fun _ => None) false (N.of_nat k) b "d" "")).
Proof.
  split; [eexists; vm_compute; reflexivity|]. split; [vm_compute; reflexivity|].
  split; [eexists; split; vm_compute; reflexivity|]. split; [vm_compute; reflexivity|].
  intros k b H.
  destruct k as [|[|[|k]]]; cbn in H; [| | |destruct k; discriminate H];
    injection H as <-; [right|left|right]; vm_compute; eexists; reflexivity.
Qed.

(** *** C56 *)

(** Refuted. Without [-v] the schema is the latest one, so [validate-any] prints
    its error, and [hydrate] and [dehydrate] refuse data that is valid for another
    schema. [-q] is not looked at. *)
Theorem C56_validate_any_silent_refuted :
  exists (V : Type) (ev : evaluator V) jd yd rm hyd dehyd concrete
         (ld : string -> outcome (dynamicLoader V)) d w fuel fmt data t,
    ld "" = Ok d /\ usable ev (dl_lin d) data fuel /\
    validateDataInput jd yd w (mkDc "" "") [] = Ok (fmt, data) /\
    rejected ev (dl_lin d) data /\ t <> "" /\
    thema_data ev jd yd rm hyd dehyd concrete ld w fuel CValidateAny (mkFlags "" "" false) [] =
      Exited 1 ONothing ("Error: " ++ t ++ newline)%string.
Proof. exact any_silent. Qed.
Print Assumptions C56_validate_any_silent_refuted.

Theorem C56_fill_all_schemas_refuted :
  exists (V : Type) (ev : evaluator V) jd yd rm hyd dehyd concrete
         (ld : string -> outcome (dynamicLoader V)) d w fuel fmt data s i t,
    ld "" = Ok d /\ usable ev (dl_lin d) data fuel /\
    validateDataInput jd yd w (mkDc "" "") [] = Ok (fmt, data) /\
    In s (all_schemas (dl_lin d)) /\ validate ev s data = Ok i /\
    thema_data ev jd yd rm hyd dehyd concrete ld w fuel CHydrate (mkFlags "" "" false) [] =
      Exited 1 ONothing t /\
    thema_data ev jd yd rm hyd dehyd concrete ld w fuel CDehydrate (mkFlags "" "" false) [] =
      Exited 1 ONothing t.
Proof. exact fill_all. Qed.
Print Assumptions C56_fill_all_schemas_refuted.

Theorem C56_quiet_refuted :
  exists (V : Type) (ev : evaluator V) jd yd rm hyd dehyd concrete
         (ld : string -> outcome (dynamicLoader V)) w fuel,
    (exists t, t <> "" /\
       thema_data ev jd yd rm hyd dehyd concrete ld w fuel CValidate (mkFlags "1.0" "" true) [] =
       Exited 1 ONothing t) /\
    exists o, o <> ONothing /\
       thema_data ev jd yd rm hyd dehyd concrete ld w fuel CValidateAny (mkFlags "" "" true) [] =
       Exited 0 o "".
Proof. exact not_quiet. Qed.
Print Assumptions C56_quiet_refuted.

(** What holds. The chosen schema: *)
Theorem C56_version_partial :
  forall (V : Type) (ev : evaluator V) (l : lineage V) verstr, bound ev l ->
    (verstr = "" -> exists s, pick_schema l verstr = Ok s /\
       nth_error (all_schemas l) (length (all_schemas l) - 1) = Some s) /\
    (forall v e, verstr <> "" -> parse_version verstr = (v, Some e) -> pick_schema l verstr = Err e) /\
    (forall v, verstr <> "" -> parse_version verstr = (v, None) ->
       (exists s, In s (all_schemas l) /\ s_v s = v) ->
       exists s, pick_schema l verstr = Ok s /\ In s (all_schemas l) /\ s_v s = v) /\
    (forall v, verstr <> "" -> parse_version verstr = (v, None) ->
       (forall s, In s (all_schemas l) -> s_v s <> v) ->
       pick_schema l verstr =
         Err (new_err ("schema version " ++ vstring v ++ " does not exist in lineage")%string)).
Proof. exact @pick_schema_spec. Qed.
Print Assumptions C56_version_partial.

Theorem C56_loaded_partial :
  forall (V : Type) (ev : evaluator V) fv lindef path_err skip fs mo instances input abs cp verstr d,
    dynLoad ev fv lindef path_err skip fs mo instances input abs cp verstr = Ok d ->
    bound ev (dl_lin d) /\ l_lensmap (dl_lin d) = [] /\
    In (dl_sch d) (all_schemas (dl_lin d)) /\ pick_schema (dl_lin d) verstr = Ok (dl_sch d).
Proof. exact @dyn_load. Qed.
Print Assumptions C56_loaded_partial.

(** [validate-any]: the chosen schema first, then the others, oldest first; the
    error against the chosen schema. *)
Theorem C56_validate_any_partial :
  forall (V : Type) (ev : evaluator V) d data fuel,
    usable ev (dl_lin d) data fuel -> In (dl_sch d) (all_schemas (dl_lin d)) ->
    (forall i, validate ev (dl_sch d) data = Ok i ->
       runValidateAny ev fuel d data = Ok (OLine (vstring (s_v (dl_sch d))))) /\
    (forall e s i, validate ev (dl_sch d) data = Err e -> oldest ev (dl_lin d) data s i ->
       runValidateAny ev fuel d data = Ok (OLine (vstring (s_v s)))) /\
    (forall e, validate ev (dl_sch d) data = Err e -> rejected ev (dl_lin d) data ->
       runValidateAny ev fuel d data = Err e).
Proof. exact @validate_any_cmd. Qed.
Print Assumptions C56_validate_any_partial.

(** [validate], [hydrate] and [dehydrate] use only the chosen schema. *)
Theorem C56_one_schema_partial :
  forall (V : Type) (ev : evaluator V) hyd d data,
    match validate ev (dl_sch d) data with
    | Ok i =>
        runValidate ev d data = Ok ONothing /\
        (ev_json_ok ev (i_raw (hyd i)) = true -> runFill ev hyd d data = Ok (OJson (i_raw (hyd i)))) /\
        (ev_json_ok ev (i_raw (hyd i)) = false -> exists e, runFill ev hyd d data = Err e)
    | Err e => runValidate ev d data = Err e /\ runFill ev hyd d data = Err e
    | Panic => runValidate ev d data = Panic /\ runFill ev hyd d data = Panic
    | OutOfFuel => False
    end.
Proof. exact @one_schema. Qed.
Print Assumptions C56_one_schema_partial.

(** [hydrate] prints what [Instance.Hydrate] makes of the data, [dehydrate] what
    [Instance.Dehydrate] makes of it. *)
Theorem C56_fill_partial :
  forall (V : Type) (ev : evaluator V) jd yd rm hyd dehyd concrete
         (ld : string -> outcome (dynamicLoader V)) w fuel ver fmt q args d x data i,
    ld ver = Ok d -> validateDataInput jd yd w (mkDc fmt "") args = Ok (x, data) ->
    validate ev (dl_sch d) data = Ok i ->
    (ev_json_ok ev (i_raw (hyd i)) = true ->
     thema_data ev jd yd rm hyd dehyd concrete ld w fuel CHydrate (mkFlags ver fmt q) args =
     Exited 0 (OJson (i_raw (hyd i))) "") /\
    (ev_json_ok ev (i_raw (dehyd i)) = true ->
     thema_data ev jd yd rm hyd dehyd concrete ld w fuel CDehydrate (mkFlags ver fmt q) args =
     Exited 0 (OJson (i_raw (dehyd i))) "").
Proof. exact process_fill. Qed.
Print Assumptions C56_fill_partial.

(** From the command line to the command: order of the steps, exit status and
    output. [-q] has no influence. *)
Theorem C56_process_partial :
  forall (V : Type) (ev : evaluator V) jd yd rm hyd dehyd concrete
         (ld : string -> outcome (dynamicLoader V)) w fuel c ver fmt q args d x data,
    ld ver = Ok d -> (c = CTranslate -> ver <> "") ->
    validateDataInput jd yd w (mkDc fmt "") args = Ok (x, data) ->
    thema_data ev jd yd rm hyd dehyd concrete ld w fuel c (mkFlags ver fmt q) args =
    match run ev rm hyd dehyd concrete c fuel d data with
    | Ok o => Exited 0 o ""
    | Err e => Exited 1 ONothing ("Error: " ++ e_text e ++ newline)%string
    | Panic => Crashed
    | OutOfFuel => Stuck
    end.
Proof. exact process_steps. Qed.
Print Assumptions C56_process_partial.

(** A lineage that cannot be loaded: the command never looks at its input; the
    hint about [-p] is added exactly when the root of the instance is what was
    not a lineage. *)
Theorem C56_no_lineage_partial :
  forall (V : Type) (ev : evaluator V) jd yd rm hyd dehyd concrete
         (ld : string -> outcome (dynamicLoader V)) w fuel c f args e,
    ld (f_version f) = Err e ->
    ((exists a b, err_is e ErrValueNotALineage = true /\ e_text e = (a ++ "instance root" ++ b)%string) ->
     thema_data ev jd yd rm hyd dehyd concrete ld w fuel c f args =
     Exited 1 ONothing ("Error: " ++ (e_text e ++ newline ++ "Did you forget to pass a CUE path with -p?") ++ newline)%string) /\
    (~ (exists a b, err_is e ErrValueNotALineage = true /\ e_text e = (a ++ "instance root" ++ b)%string) ->
     thema_data ev jd yd rm hyd dehyd concrete ld w fuel c f args =
     Exited 1 ONothing ("Error: " ++ e_text e ++ newline)%string).
Proof. exact process_no_lineage. Qed.
Print Assumptions C56_no_lineage_partial.

(** The example lineage accepts 1 in 0.0, 0.1 and 2.0, 2 in 0.1, 3 in 1.0. *)
Example C56_cases :
  ex_data (tlin ss4 []) CValidateAny (mkFlags "" "" false) "1" = Exited 0 (OLine "2.0") "" /\
  ex_data (tlin ss4 []) CValidateAny (mkFlags "1.0" "" false) "1" = Exited 0 (OLine "0.0") "" /\
  ex_data (tlin ss4 []) CValidateAny (mkFlags "" "" false) "-3" = Exited 0 (OLine "1.0") "" /\
  ex_data (tlin ss4 []) CValidate (mkFlags "0.1" "" false) "2" = Exited 0 ONothing "" /\
  ex_data (tlin ss4 []) CHydrate (mkFlags "1.0" "" false) "3" = Exited 0 (OJson (TDat 3)) "" /\
  ex_data (tlin ss4 []) CHydrate (mkFlags "3.0" "" false) "3" =
    Exited 1 ONothing ("Error: schema version 3.0 does not exist in lineage" ++ newline)%string /\
  ex_data (tlin ss4 []) CHydrate (mkFlags "3" "" false) "3" =
    Exited 1 ONothing ("Error: " ++ newline)%string /\
  usable toy (dl_lin ex_d) (TDat 9) 4 /\ rejected toy (dl_lin ex_d) (TDat 9).
Proof.
  do 7 (split; [vm_compute; reflexivity|]).
  split; [apply (ex_usable 9); cbn; auto|exact ex_rejected].
Qed.

Definition fail56 (m : list sentinel) (t : string) : process tv :=
  thema_data toy ex_json ex_yaml (fun _ _ _ => Panic) (fun i => i) (fun i => i) (fun _ => true)
    (fun _ => Err (mkErr m t)) (mkWorld StdinNoPipe (fun _ => StatFile) (fun _ => None) (fun _ => inl ""))
    0 CValidate (mkFlags "" "" false) [].
Example C56_no_lineage_cases :
  fail56 [ErrValueNotALineage] "not a lineage (instance root): x" =
    Exited 1 ONothing ("Error: not a lineage (instance root): x" ++ newline ++
      "Did you forget to pass a CUE path with -p?" ++ newline)%string /\
  fail56 [ErrValueNotALineage] "not a lineage: x" = Exited 1 ONothing ("Error: not a lineage: x" ++ newline)%string /\
  fail56 [] "no instance root" = Exited 1 ONothing ("Error: no instance root" ++ newline)%string.
Proof. vm_compute. auto. Qed.

(** *** C57 *)
Theorem C57_translate :
  forall (V : Type) (ev : evaluator V) fv lindef path_err skip fs mo instances input abs cp verstr d,
    dynLoad ev fv lindef path_err skip fs mo instances input abs cp verstr = Ok d ->
    forall rm concrete data fuel, usable ev (dl_lin d) data fuel ->
    (rejected ev (dl_lin d) data ->
       runTranslate ev rm concrete fuel d data =
         Err (new_err "input data is not valid for any schema in lineage")) /\
    (forall s i, oldest ev (dl_lin d) data s i ->
       (forall o, runTranslate ev rm concrete fuel d data = Ok o <->
          exists x lac, translate ev rm fuel i (s_v (dl_sch d)) = Ok (x, lac) /\
            ev_exists ev (i_raw x) = true /\ ev_bottom ev (i_raw x) = false /\ concrete (i_raw x) = true /\
            o = OTranslation (vstring (s_v s)) (vstring (s_v (dl_sch d))) (i_raw x) lac) /\
       (forall e, translate ev rm fuel i (s_v (dl_sch d)) = Err e ->
          runTranslate ev rm concrete fuel d data = Err e) /\
       (translate ev rm fuel i (s_v (dl_sch d)) = Panic ->
          runTranslate ev rm concrete fuel d data = Panic)).
Proof. exact @loaded_translate. Qed.
Print Assumptions C57_translate.

(** The target must be named. *)
Theorem C57_target_required :
  forall (V : Type) (ev : evaluator V) jd yd rm hyd dehyd concrete
         (ld : string -> outcome (dynamicLoader V)) w fuel fmt q args d,
    ld "" = Ok d ->
    thema_data ev jd yd rm hyd dehyd concrete ld w fuel CTranslate (mkFlags "" fmt q) args =
    Exited 1 ONothing ("Error: must specify an explicit schema version" ++ newline)%string.
Proof. exact process_no_version. Qed.
Print Assumptions C57_target_required.

Example C57_cases :
  ex_data cue4 CTranslate (mkFlags "2.0" "" false) "1" =
    Exited 0 (OTranslation "0.0" "2.0" (TDat 1) []) "" /\
  ex_data cue4 CTranslate (mkFlags "0.0" "" false) "3" =
    Exited 0 (OTranslation "1.0" "0.0" (TDat 1) []) "" /\
  ex_data cue4 CTranslate (mkFlags "2.0" "" false) "9" =
    Exited 1 ONothing ("Error: input data is not valid for any schema in lineage" ++ newline)%string.
Proof. repeat split; vm_compute; reflexivity. Qed.

(** *** C58 *)
Theorem C58_input_format :
  forall (V : Type) (jdec ydec : string -> V + err) w format args b, input_bytes w args b ->
    let r := validateDataInput jdec ydec w (mkDc format "") args in
    (format = "" ->
       (forall v, jdec b = inl v -> r = Ok ("json", v)) /\
       (forall e v, jdec b = inr e -> ydec b = inl v -> r = Ok ("yaml", v)) /\
       (forall e e', jdec b = inr e -> ydec b = inr e' ->
          r = Err (new_err "unrecognized format of input data"))) /\
    (format = "json" -> forall k, kind_of args k ->
       r = (if String.eqb k "json" then lift "json" (jdec b)
            else Err (new_err ("JSON input format specified, but file extension is " ++ k)%string))) /\
    (format = "yaml" -> forall k, kind_of args k ->
       r = (if String.eqb k "yaml" then lift "yaml" (ydec b)
            else Err (new_err ("YAML input format specified, but file extension is " ++ k)%string))) /\
    (format <> "" -> format <> "json" -> format <> "yaml" ->
       r = Err (new_err ("unknown input format """ ++ format ++ """ requested")%string)).
Proof. exact @data_input. Qed.
Print Assumptions C58_input_format.

Theorem C58_unreadable :
  forall (V : Type) (jdec ydec : string -> V + err) w format inb args,
    (forall b, ~ input_bytes w args b) ->
    forall x, validateDataInput jdec ydec w (mkDc format inb) args <> Ok x.
Proof. exact @data_unreadable. Qed.
Print Assumptions C58_unreadable.

(** The message for each way the input cannot be read. Only a standard input
    that cannot be inspected at all makes the program panic. *)
Theorem C58_messages :
  forall (V : Type) (jdec ydec : string -> V + err) w format inb,
    (forall f g l, validateDataInput jdec ydec w (mkDc format inb) (f :: g :: l) =
       Err (new_err "too many args: either provide path to input or pass input on stdin")) /\
    (dw_stdin w = StdinNoPipe -> validateDataInput jdec ydec w (mkDc format inb) [] =
       Err (new_err "no path provided and nothing on stdin")) /\
    (forall e, dw_stdin w = StdinPipe (inr e) -> validateDataInput jdec ydec w (mkDc format inb) [] =
       Err (new_err ("error reading from stdin: " ++ e)%string)) /\
    (dw_stdin w = StdinStatErr <-> validateDataInput jdec ydec w (mkDc format inb) [] = Panic) /\
    (forall f, validateDataInput jdec ydec w (mkDc format inb) [f] <> Panic) /\
    (forall f e, dw_stat w f = StatErr e -> validateDataInput jdec ydec w (mkDc format inb) [f] =
       Err (new_err ("failed to stat path """ ++ f ++ """: " ++ e)%string)) /\
    (forall f, dw_stat w f = StatDir -> validateDataInput jdec ydec w (mkDc format inb) [f] =
       Err (new_err (f ++ " is a directory")%string)) /\
    (forall f e, dw_stat w f = StatFile -> dw_open w f = Some e ->
       validateDataInput jdec ydec w (mkDc format inb) [f] =
       Err (new_err ("could not open provided path: " ++ e)%string)) /\
    (forall f e, dw_stat w f = StatFile -> dw_open w f = None -> dw_read w f = inr e ->
       validateDataInput jdec ydec w (mkDc format inb) [f] =
       Err (new_err ("error reading from input file """ ++ f ++ """: " ++ e)%string)).
Proof. exact @data_refused. Qed.
Print Assumptions C58_messages.

Definition world58 : dworld :=
  mkWorld (StdinPipe (inl "7"))
    (fun f => if String.eqb f "d" then StatDir else StatFile) (fun _ => None) (fun _ => inl "-5").
Definition in58 (format : string) (args : list string) :=
  validateDataInput ex_json ex_yaml world58 (mkDc format "") args.
Example C58_cases :
  in58 "" [] = Ok ("json", TDat 7) /\ in58 "" ["a.txt"] = Ok ("yaml", TDat 5) /\
  in58 "yaml" ["x.d/a.b.yml"] = Ok ("yaml", TDat 5) /\
  in58 "json" ["a.ldjson"] = Err (new_err "invalid JSON") /\
  in58 "json" ["a.json/b"] = Err (new_err "JSON input format specified, but file extension is ") /\
  in58 "json" ["a.yaml"] = Err (new_err "JSON input format specified, but file extension is yaml") /\
  in58 "toml" [] = Err (new_err "unknown input format ""toml"" requested") /\
  in58 "" ["d"] = Err (new_err "d is a directory") /\
  input_bytes world58 ["x.d/a.b.yml"] "-5" /\ kind_of ["x.d/a.b.yml"] "yaml" /\ kind_of [] "".
Proof.
  repeat (split; [vm_compute; reflexivity|]).
  split; [right; exists "x.d/a.b.yml"; auto|]. split.
  - left. exists "x.d/a.b.yml", ".yml". split; [reflexivity|]. split; [apply (ext_spec "x.d/a.b.yml")|].
    right. auto.
  - right. split; [reflexivity|]. discriminate.
Qed.
Example C58_messages_cases :
  in58 "" ["d"; "e"] = Err (new_err "too many args: either provide path to input or pass input on stdin") /\
  validateDataInput ex_json ex_yaml (mkWorld StdinStatErr (fun _ => StatErr "gone") (fun _ => None) (fun _ => inl ""))
    (mkDc "" "") [] = Panic /\
  validateDataInput ex_json ex_yaml (mkWorld StdinStatErr (fun _ => StatErr "gone") (fun _ => None) (fun _ => inl ""))
    (mkDc "" "") ["x"] = Err (new_err "failed to stat path ""x"": gone").
Proof. vm_compute. auto. Qed.

(** *** C70: refuted. JSON on stdin is refused when the format is said to be
    JSON. *)
Theorem C70_explicit_format_refuted :
  exists (V : Type) (jdec ydec : string -> V + err) w b v e,
    dw_stdin w = StdinPipe (inl b) /\ jdec b = inl v /\
    validateDataInput jdec ydec w (mkDc "" "") [] = Ok ("json", v) /\
    validateDataInput jdec ydec w (mkDc "json" "") [] = Err e.
Proof. exact explicit_stdin. Qed.
Print Assumptions C70_explicit_format_refuted.

(** Indeed no explicit format is ever accepted for stdin. *)
Theorem C70_stdin_partial :
  forall (V : Type) (jdec ydec : string -> V + err) w format b,
    dw_stdin w = StdinPipe (inl b) -> format <> "" ->
    exists e, validateDataInput jdec ydec w (mkDc format "") [] = Err e.
Proof. exact @stdin_refused. Qed.
Print Assumptions C70_stdin_partial.

(** What holds: files whose extension names the format. *)
Theorem C70_explicit_format_partial :
  forall (V : Type) (jdec ydec : string -> V + err) w f x b,
    dw_stat w f = StatFile -> dw_open w f = None -> dw_read w f = inl b -> has_extension f x ->
    (x = ".json" \/ x = ".ldjson" ->
       validateDataInput jdec ydec w (mkDc "json" "") [f] = lift "json" (jdec b)) /\
    (x = ".yaml" \/ x = ".yml" ->
       validateDataInput jdec ydec w (mkDc "yaml" "") [f] = lift "yaml" (ydec b)).
Proof. exact @explicit_format. Qed.
Print Assumptions C70_explicit_format_partial.

(** *** C71 *)
Theorem C71_loader_directory :
  forall fs mo input abs, Forall plain abs -> fs_stat fs abs = StatDir ->
    load_spec fs mo input abs abs [] (load_config fs mo input abs).
Proof. exact load_config_dir. Qed.
Print Assumptions C71_loader_directory.

Theorem C71_loader_file :
  forall fs mo input abs, Forall plain abs -> abs <> [] -> fs_stat fs abs = StatFile ->
    load_spec fs mo input abs (removelast abs) [last abs ""] (load_config fs mo input abs).
Proof. exact load_config_file. Qed.
Print Assumptions C71_loader_file.

(** The relative path that the loader computes leads to the directory. *)
Theorem C71_relative :
  (forall b t, Forall plain b -> Forall plain t -> joinpath b (relpath b t) = t) /\
  (forall b r, Forall plain b -> leads b r (joinpath b r)).
Proof. split; [exact join_rel|exact join_leads]. Qed.
Print Assumptions C71_relative.
Example C71_relative_case :
  relpath ["a"; "b"] ["a"; "c"; "d"] = [".."; "c"; "d"] /\ joinpath ["a"; "b"] [".."; "c"; "d"] = ["a"; "c"; "d"].
Proof. split; reflexivity. Qed.

Example C71_cases :
  load_config fs54 inl "x.cue" ["a"; "b"; "x.cue"] =
    Ok (mkLoad ["a"] "outer" [(["a"; "cue.mod"; "pkg"; "github.com"; "grafana"; "thema"], OThema)]
          ["a"; "b"] "" ["x.cue"]) /\
  load_config fs54 (fun _ => inl "github.com/grafana/thema") "." ["a"] =
    Ok (mkLoad ["a"] "github.com/grafana/thema" [] ["a"] "" []) /\
  load_config fs54 inl "q" ["q"] =
    Ok (mkLoad ["q"] "" [(["q"; "cue.mod"; "module.cue"], OText "module: """"");
                         (["q"; "cue.mod"; "pkg"; "github.com"; "grafana"; "thema"], OThema)]
          ["q"] "*" []) /\
  Forall plain ["a"; "b"; "x.cue"] /\ nearest fs54 ["a"; "b"] ["a"].
Proof.
  repeat (split; [reflexivity|]). split; [repeat constructor; discriminate|].
  split; [discriminate|]. split; [exists ["b"]; reflexivity|]. split; [discriminate|].
  intros d' [r E] L. destruct d' as [|x [|y d']]; cbn in L; try lia.
  cbn in E. injection E as <- <- E. symmetry in E. apply app_eq_nil in E as [-> _]. reflexivity.
Qed.
