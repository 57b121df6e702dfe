(** C84, C85, C86, C87, C88: [thema lineage gen] ([cmd/thema/lineage_subgen.go]). *)
From Verif Require Import Prelude Strings Util UtilProofs Load LoadProofs Cli CliProofs CliGen CliGenProofs.
Local Open Scope string_scope.
Local Open Scope list_scope.

(** *** C84 *)
Theorem C84_document_partial :
  forall F (to_json to_yaml : F -> string + string) quote format f text, encoded to_json to_yaml format f (inl text) ->
    run_document to_json to_yaml quote format (inl f) = mkEffect (printf text) "" [] 0 /\
    (e_out (run_document to_json to_yaml quote format (inl f)) = text <->
     ~ exists a b, text = (a ++ String "%" b)%string).
Proof. exact @document_text. Qed.
Print Assumptions C84_document_partial.

Theorem C84_encoding_error :
  forall F (to_json to_yaml : F -> string + string) quote format f e, encoded to_json to_yaml format f (inr e) ->
    run_document to_json to_yaml quote format (inl f) = mkEffect "" (e ++ newline) [] 1.
Proof. exact @document_error. Qed.
Print Assumptions C84_encoding_error.

Theorem C84_generation_error :
  forall F (to_json to_yaml : F -> string + string) quote format e,
    run_document to_json to_yaml quote format (inr e) = mkEffect "" (e ++ newline) [] 1.
Proof. exact @document_gen_error. Qed.
Print Assumptions C84_generation_error.

Definition same_json (s : string) : string + string := inl s.
Definition no_yaml (s : string) : string + string := inr "cannot encode".

(** A document that mentions a percentage. *)
Theorem C84_percent_refuted :
  exists text, encoded same_json no_yaml "json" text (inl text) /\
    run_document same_json no_yaml (fun s => s) "json" (inl text) =
    mkEffect "at most 100%!o(MISSING)f it" "" [] 0 /\ text = "at most 100% of it".
Proof. exists "at most 100% of it". split; [left; split; reflexivity|split; reflexivity]. Qed.
Print Assumptions C84_percent_refuted.

(** Exit status zero without a document. *)
Theorem C84_format_refuted :
  forall F (to_json to_yaml : F -> string + string) quote format f,
    format <> "json" -> format <> "yaml" -> format <> "yml" ->
    e_out (run_document to_json to_yaml quote format (inl f)) = "" /\
    e_status (run_document to_json to_yaml quote format (inl f)) = 0 /\
    e_err (run_document to_json to_yaml quote format (inl f)) <> "".
Proof. exact @document_bad_format. Qed.
Print Assumptions C84_format_refuted.

Example C84_cases :
  run_document same_json no_yaml (fun s => s) "json" (inl "{}") = mkEffect "{}" "" [] 0 /\
  run_document same_json no_yaml (fun s => s) "yml" (inl "{}") = mkEffect "" ("cannot encode" ++ newline) [] 1 /\
  e_status (run_document same_json no_yaml (fun s => s) "toml" (inl "{}")) = 0 /\
  printf "50%% %-08.3d%" = "50% %!d(MISSING)%!(NOVERB)" /\
  encoded same_json no_yaml "yml" "{}" (inr "cannot encode").
Proof. repeat split; try reflexivity. right. split; [right; reflexivity|reflexivity]. Qed.

(** *** C85 *)
Theorem C85_known_flags :
  forall c given, (exists st, parsed c given = Some st) <->
    forall n x, In (n, x) given -> exists f, In f (flags_of c) /\ fd_name f = n.
Proof. exact flag_known. Qed.
Print Assumptions C85_known_flags.

(** The last value given for a flag is the one used. *)
Theorem C85_flag_given :
  forall c pre n x post st f, parsed c (pre ++ (n, x) :: post) = Some st -> In f (flags_of c) -> fd_name f = n ->
    ~ In n (map fst post) -> st (fd_var f) = x.
Proof. exact flag_given. Qed.
Print Assumptions C85_flag_given.

(** A flag that is not given has the default its help names, but for one. *)
Theorem C85_flag_default_partial :
  forall c given st f, parsed c given = Some st -> In f (flags_of c) ->
    ~ In (fd_name f) (map fst given) -> (c, fd_name f) <> (GOpenapi, "format") -> st (fd_var f) = fd_default f.
Proof. exact flag_default. Qed.
Print Assumptions C85_flag_default_partial.

(** The flags and defaults of the help texts. *)
Definition help (c : gcmd) : list (string * string) :=
  [("lineage", "."); ("path", "")] ++
  match c with
  | GOpenapi => [("version", ""); ("format", "yaml")]
  | GJsonschema => [("version", ""); ("format", "json")]
  | GGotypes => [("version", ""); ("pkgname", ""); ("stdout", "false"); ("quiet", "false")]
  | GGobindings =>
      [("bind-type", ""); ("version", ""); ("pkgname", ""); ("suffix", "false"); ("private", "false");
       ("no-embed", "false"); ("no-fs-func", "false"); ("stdout", "false"); ("quiet", "false")]
  end.
Theorem C85_help :
  forall c, map (fun f => (fd_name f, fd_default f)) (flags_of c) = help c.
Proof. intros []; reflexivity. Qed.
Print Assumptions C85_help.

Theorem C85_format_default_refuted :
  exists f st, In f (flags_of GOpenapi) /\ fd_name f = "format" /\ fd_default f = "yaml" /\
    parsed GOpenapi [] = Some st /\ st (fd_var f) = "json".
Proof. exact openapi_default. Qed.
Print Assumptions C85_format_default_refuted.

(** [gen gotypes --stdout] writes the file all the same. *)
Theorem C85_stdout_refuted :
  exists st, parsed GGotypes [("stdout", "true")] = Some st /\
    forall isdir abs name code,
      e_out (runGoTypes st (fun _ => None) isdir abs name (inl code)) = "" /\
      e_files (runGoTypes st (fun _ => None) isdir abs name (inl code)) <> [].
Proof. eexists. split; [reflexivity|]. intros. split; [reflexivity|discriminate]. Qed.
Print Assumptions C85_stdout_refuted.

(** [gen gobindings --stdout] does what it says. *)
Theorem C85_bindings_stdout :
  forall fs module_of gomod_of st wr isdir abs name gen, flag_on (st Vstdout) = true ->
    runGoBindings fs module_of gomod_of st wr isdir abs name gen =
    match gen (mkBindCfg "" "" "") with
    | inl code => mkEffect (goheader ++ code) "" [] 0
    | inr e => mkEffect "" (e ++ newline) [] 1
    end.
Proof. exact bindings_stdout. Qed.
Print Assumptions C85_bindings_stdout.

Example C85_cases :
  (exists st, parsed GGobindings [("quiet", "true"); ("pkgname", "a"); ("pkgname", "b")] = Some st /\
     st Vquiet = "true" /\ st Vpkgname = "b" /\ st Vstdout = "false" /\ st Vlineage = ".") /\
  parsed GOpenapi [("stdout", "true")] = None /\
  (exists st, parsed GJsonschema [] = Some st /\ st Vformat = "json") /\
  (exists st, parsed GOpenapi [("format", "yaml")] = Some st /\ st Vformat = "yaml").
Proof. repeat split; try reflexivity; eexists; repeat split; reflexivity. Qed.

(** *** C86 *)
Theorem C86_types_file_partial :
  forall st wr isdir abs name code, clean abs -> no_slash name -> flag_on (st Vstdout) = false ->
    let p := lineage_dir isdir abs ++ [(lower name ++ "_types_gen.go")%string] in
    wr p = None ->
    exists text, runGoTypes st wr isdir abs name (inl code) = mkEffect "" "" [(p, text)] 0 /\
      (percents (epath isdir abs) = 0 -> text = (goheaderp (epath isdir abs) ++ code)%string).
Proof. exact gotypes_file. Qed.
Print Assumptions C86_types_file_partial.

Theorem C86_bindings_file_partial :
  forall fs module_of gomod_of st wr isdir abs name gen cfg code,
    clean abs -> no_slash name -> flag_on (st Vstdout) = false ->
    binding_config fs module_of gomod_of st isdir abs = inl cfg -> gen cfg = inl code ->
    let p := lineage_dir isdir abs ++ [(lower name ++ "_bindings_gen.go")%string] in
    wr p = None ->
    exists text said, runGoBindings fs module_of gomod_of st wr isdir abs name gen = mkEffect said "" [(p, text)] 0 /\
      (percents (epath isdir abs) = 0 -> text = (goheaderp (epath isdir abs) ++ code)%string) /\
      said = if flag_on (st Vquiet) then ""
             else ("generated go bindings for " ++ name ++ " at " ++ pstring p ++ newline)%string.
Proof. exact bindings_file. Qed.
Print Assumptions C86_bindings_file_partial.

(** One file and success, or nothing but the error. *)
Theorem C86_types_all_or_nothing :
  forall st wr isdir abs name code, flag_on (st Vstdout) = false ->
    (exists p t, runGoTypes st wr isdir abs name code = mkEffect "" "" [(p, t)] 0 /\ exists c, code = inl c) \/
    (exists e, runGoTypes st wr isdir abs name code = mkEffect "" (e ++ newline) [] 1 /\
       (code = inr e \/ exists p, wr p = Some e)).
Proof. exact gotypes_shape. Qed.
Print Assumptions C86_types_all_or_nothing.

Theorem C86_bindings_all_or_nothing :
  forall fs module_of gomod_of st wr isdir abs name gen, flag_on (st Vstdout) = false ->
    (exists p t out cfg c, runGoBindings fs module_of gomod_of st wr isdir abs name gen = mkEffect out "" [(p, t)] 0 /\
       binding_config fs module_of gomod_of st isdir abs = inl cfg /\ gen cfg = inl c) \/
    (exists e, runGoBindings fs module_of gomod_of st wr isdir abs name gen = mkEffect "" (e ++ newline) [] 1 /\
       (binding_config fs module_of gomod_of st isdir abs = inr e \/
        (exists cfg, binding_config fs module_of gomod_of st isdir abs = inl cfg /\ gen cfg = inr e) \/
        exists p, wr p = Some e)).
Proof. exact bindings_shape. Qed.
Print Assumptions C86_bindings_all_or_nothing.

(** A lineage may have any name. *)
Theorem C86_placement_refuted :
  exists name, e_files (runGoTypes initial_store (fun _ => None) true ["src"; "ship"] name (inl "C")) =
    [(["src"; "x_types_gen.go"], (goheaderp "*.cue" ++ "C")%string)].
Proof. exists "../X". reflexivity. Qed.
Print Assumptions C86_placement_refuted.

Example C86_cases :
  clean ["src"; "ship"; "ship.cue"] /\ no_slash "Ship" /\ flag_on (initial_store Vstdout) = false /\
  e_files (runGoTypes initial_store (fun _ => None) false ["src"; "ship"; "ship.cue"] "Ship" (inl "C")) =
    [(["src"; "ship"; "ship_types_gen.go"], (goheaderp "ship.cue" ++ "C")%string)] /\
  runGoTypes initial_store (fun _ => Some "read-only") true ["src"] "Ship" (inl "C") =
    mkEffect "" ("read-only" ++ newline) [] 1.
Proof.
  split; [intros x I; cbn in I; intuition (subst; discriminate)|]. split; [apply suffix_ok; reflexivity|]. repeat split.
Qed.

(** *** C87 *)
Definition fs87 : fsys := mkFs
  (fun p => match p with ["w"; "m"; "s"; "x.cue"] => StatFile | ["gone"] => StatErr "gone" | _ => StatDir end)
  (fun p => match p with
            | ["w"; "cue.mod"; "module.cue"] => ReadData "example.com/w"
            | ["w"; "m"; "go.mod"] => ReadData "example.com/w/m"
            | ["w"; "go.mod"] => ReadData "never read"
            | ["g"; "app"; "go.mod"] => ReadData "example.com/app"
            | ["bad"; "go.mod"] => ReadErr "permission denied"
            | _ => ReadNotExist
            end).

Theorem C87_root :
  forall fs module_of gomod_of abs isdir,
    fs_stat fs abs = (if isdir : bool then StatDir else StatFile) ->
    root_spec fs module_of gomod_of (lineage_dir isdir abs) (findModRoot fs module_of gomod_of abs).
Proof. exact findModRoot_spec. Qed.
Print Assumptions C87_root.

(** The two searches agree on the CUE module, when both succeed. *)
Theorem C87_same_module :
  forall fs module_of gomod_of abs m r,
    findCueMod fs module_of abs = Found m -> findModRoot fs module_of gomod_of abs = inl r ->
    rf_cuemodpath r = Some (cuemodparentdir m) /\ rf_cuemod r = modname m.
Proof. exact roots_agree. Qed.
Print Assumptions C87_same_module.

Example C87_cases :
  findModRoot fs87 inl (fun g => g) ["w"; "m"; "s"; "x.cue"] =
    inl (mkRootFind "example.com/w" (Some ["w"]) "example.com/w/m" (Some ["w"; "m"])) /\
  findModRoot fs87 inl (fun g => g) ["w"] = inl (mkRootFind "example.com/w" (Some ["w"]) "" None) /\
  findModRoot fs87 inl (fun g => g) ["g"; "app"; "ship"] = inl (mkRootFind "" None "example.com/app" (Some ["g"; "app"])) /\
  findModRoot fs87 inl (fun g => g) ["bad"; "ship"] = inr "permission denied" /\
  findModRoot fs87 inr (fun g => g) ["w"; "m"] = inr "invalid cue.mod at /w/cue.mod/module.cue: example.com/w" /\
  findModRoot fs87 inl (fun g => g) ["gone"] = inr "could not stat abspath: gone" /\
  findCueMod fs87 inl ["w"; "m"; "s"; "x.cue"] = Found (mkMod ["w"] "example.com/w").
Proof. repeat split; reflexivity. Qed.

(** *** C88 *)
Theorem C88_config_cue :
  forall fs module_of gomod_of st isdir abs r m rel,
    findModRoot fs module_of gomod_of abs = inl r -> rf_cuemodpath r = Some m -> rf_cuemod r <> "" ->
    lineage_dir isdir abs = m ++ rel ->
    flag_on (st Vstdout) = false -> flag_on (st Vnofsfunc) = false ->
    binding_config fs module_of gomod_of st isdir abs =
    inl (mkBindCfg (if flag_on (st Vnoembed) then "" else epath isdir abs) "."
           (match rel with [] => rf_cuemod r | _ => (rf_cuemod r ++ "/" ++ String.concat "/" rel)%string end)).
Proof. exact binding_cue. Qed.
Print Assumptions C88_config_cue.

Theorem C88_config_go :
  forall fs module_of gomod_of st isdir abs r m,
    findModRoot fs module_of gomod_of abs = inl r -> rf_cuemodpath r = None -> rf_cuemod r = "" ->
    rf_gomodpath r = Some m -> rf_gomod r <> "" ->
    flag_on (st Vstdout) = false -> flag_on (st Vnofsfunc) = false ->
    binding_config fs module_of gomod_of st isdir abs =
    inl (mkBindCfg (if flag_on (st Vnoembed) then "" else epath isdir abs) "." (rf_gomod r)).
Proof. exact binding_go. Qed.
Print Assumptions C88_config_go.

Theorem C88_config_none :
  forall fs module_of gomod_of st isdir abs r,
    findModRoot fs module_of gomod_of abs = inl r -> rf_cuemod r = "" -> rf_gomod r = "" ->
    flag_on (st Vstdout) = false ->
    binding_config fs module_of gomod_of st isdir abs =
    inl (mkBindCfg (if flag_on (st Vnoembed) then "" else epath isdir abs) "" "").
Proof. exact binding_none. Qed.
Print Assumptions C88_config_none.

(** Without the function there is nothing to load. *)
Theorem C88_config_no_func :
  forall fs module_of gomod_of st isdir abs r,
    findModRoot fs module_of gomod_of abs = inl r ->
    flag_on (st Vstdout) = false -> flag_on (st Vnofsfunc) = true ->
    binding_config fs module_of gomod_of st isdir abs =
    inl (mkBindCfg (if flag_on (st Vnoembed) then "" else epath isdir abs) "" "").
Proof. exact binding_nofs. Qed.
Print Assumptions C88_config_no_func.

(** In a CUE module the generated code asks for the package named like the
    directory of the lineage. *)
Theorem C88_package_partial :
  forall fs module_of gomod_of st isdir abs r m rel ps efs cfg cueFS joint lcfg,
    findModRoot fs module_of gomod_of abs = inl r -> rf_cuemodpath r = Some m ->
    ps <> [] -> Forall LoadProofs.plain ps -> Forall LoadProofs.plain rel -> rf_cuemod r = String.concat "/" ps ->
    lineage_dir isdir abs = m ++ rel ->
    flag_on (st Vstdout) = false -> flag_on (st Vnofsfunc) = false ->
    names_once efs -> (forall n, ~ at_path efs ["cue.mod"] n) -> verbatim (String.concat "/" (ps ++ rel)) ->
    binding_config fs module_of gomod_of st isdir abs = inl cfg ->
    module_name cue_module (asModFS efs (bc_cuemod cfg)) = inl (bc_cuemod cfg) /\
    (Load.load_config cueFS joint (asModFS efs (bc_cuemod cfg)) (bc_loaddir cfg) [] (bc_cuemod cfg) = Loaded lcfg ->
     cf_dir lcfg = ps ++ rel /\ cf_package lcfg = last (ps ++ rel) "").
Proof. exact bindings_load. Qed.
Print Assumptions C88_package_partial.

Definition embedded : fsnode := FDir (Some [("ship.cue", FFile (Some "package ship"))]).

(** In a Go module that is not a CUE module it asks for the package named like
    the Go module. *)
Theorem C88_package_refuted :
  exists cfg lcfg, binding_config fs87 inl (fun g => g) initial_store true ["g"; "app"; "ship"] = inl cfg /\
    Load.load_config (FDir (Some [])) (FDir (Some [])) (asModFS embedded (bc_cuemod cfg)) (bc_loaddir cfg) [] (bc_cuemod cfg) = Loaded lcfg /\
    cf_package lcfg = "app" /\ last ["g"; "app"; "ship"] "" = "ship".
Proof. eexists _, _. repeat split; reflexivity. Qed.
Print Assumptions C88_package_refuted.

Example C88_cases :
  binding_config fs87 inl (fun g => g) initial_store false ["w"; "m"; "s"; "x.cue"] =
    inl (mkBindCfg "x.cue" "." "example.com/w/m/s") /\
  (exists lcfg, Load.load_config (FDir (Some [])) (FDir (Some [])) (asModFS embedded "example.com/w/m/s") "." [] "example.com/w/m/s" = Loaded lcfg /\
     cf_package lcfg = "s") /\
  names_once embedded /\ verbatim "example.com/w/m/s" /\
  ["example.com"; "w"; "m"; "s"] = ["example.com"; "w"] ++ ["m"; "s"] /\
  binding_config fs87 inl (fun g => g) initial_store true ["z"] = inl (mkBindCfg "*.cue" "" "").
Proof.
  split; [reflexivity|]. split; [eexists; split; reflexivity|]. split.
  { constructor; [repeat constructor; intros []|]. intros x d [K|[]]. injection K as <- <-. constructor. }
  split; [|split; reflexivity].
  apply verbatim_check. reflexivity.
Qed.
