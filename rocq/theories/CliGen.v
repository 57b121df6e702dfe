(** The commands [thema lineage gen ...] ([cmd/thema/lineage_subgen.go]): flags,
    printed documents, written files and the search for a module root. Paths and
    the file system are those of Cli.v. *)
From Verif Require Import Prelude Strings Cli.
Local Open Scope string_scope.
Local Open Scope list_scope.

Definition newline : string := String (ascii_of_N 10) "".

(** *** fmt.Fprintf without arguments *)

(** Where [fmt.Fprintf] is in a directive. *)
Inductive fstate := InText | InFlags | InWidth | InPrec.

Definition is_digit (c : ascii) : bool := (48 <=? N_of_ascii c)%N && (N_of_ascii c <=? 57)%N.
Definition is_flag (c : ascii) : bool := existsb (Ascii.eqb c) ["#"; "0"; "+"; "-"; " "]%char.

(** [fmt.Fprintf(w, s)] with no further arguments. A standard-library function.
    Simplified: [*] and argument indexes are taken as verbs, and verbs are single
    bytes. *)
Fixpoint printf_from (st : fstate) (s : string) : string :=
  match s with
  | EmptyString => match st with InText => "" | _ => "%!(NOVERB)" end
  | String c r =>
      let verb :=
        if Ascii.eqb c "%" then String c (printf_from InText r)
        else ("%!" ++ String c ("(MISSING)" ++ printf_from InText r))%string in
      match st with
      | InText => if Ascii.eqb c "%" then printf_from InFlags r else String c (printf_from InText r)
      | InFlags =>
          if is_flag c then printf_from InFlags r
          else if is_digit c then printf_from InWidth r
          else if Ascii.eqb c "." then printf_from InPrec r
          else verb
      | InWidth =>
          if is_digit c then printf_from InWidth r
          else if Ascii.eqb c "." then printf_from InPrec r
          else verb
      | InPrec => if is_digit c then printf_from InPrec r else verb
      end
  end.
Definition printf (s : string) : string := printf_from InText s.

(** *** Flags *)

(** The subcommands of [gen] that are set up. *)
Inductive gcmd := GOpenapi | GJsonschema | GGotypes | GGobindings.

(** The variables flags are bound to ([lineage_subgen.go:25-54], [load.go:23-52]). *)
Inductive gvar :=
| Vlineage | Vpath | Vverstr | Vformat | Vpkgname | Vstdout | Vnoembed | Vnofsfunc
| Vquiet | Vbindtype | Vsuffix | Vprivate.

(** A flag: the command that has it ([None]: all of them), its name, the
    variable and the default. Truth values are written as text. *)
Record flagdef := mkFlag { fd_cmd : option gcmd; fd_name : string; fd_var : gvar; fd_default : string }.

(** [main.go:35-39], [lineage_subgen.go:56-95]: the flags in the order they are
    defined. *)
Definition gen_flags : list flagdef := [
  mkFlag None "lineage" Vlineage ".";
  mkFlag None "path" Vpath "";
  mkFlag (Some GOpenapi) "version" Vverstr "";
  mkFlag (Some GOpenapi) "format" Vformat "yaml";
  mkFlag (Some GJsonschema) "version" Vverstr "";
  mkFlag (Some GJsonschema) "format" Vformat "json";
  mkFlag (Some GGotypes) "version" Vverstr "";
  mkFlag (Some GGotypes) "pkgname" Vpkgname "";
  mkFlag (Some GGotypes) "stdout" Vnoembed "false";
  mkFlag (Some GGotypes) "quiet" Vquiet "false";
  mkFlag (Some GGobindings) "bind-type" Vbindtype "";
  mkFlag (Some GGobindings) "version" Vverstr "";
  mkFlag (Some GGobindings) "pkgname" Vpkgname "";
  mkFlag (Some GGobindings) "suffix" Vsuffix "false";
  mkFlag (Some GGobindings) "private" Vprivate "false";
  mkFlag (Some GGobindings) "no-embed" Vnoembed "false";
  mkFlag (Some GGobindings) "no-fs-func" Vnofsfunc "false";
  mkFlag (Some GGobindings) "stdout" Vstdout "false";
  mkFlag (Some GGobindings) "quiet" Vquiet "false"].

Definition gvar_eqb (a b : gvar) : bool :=
  match a, b with
  | Vlineage, Vlineage | Vpath, Vpath | Vverstr, Vverstr | Vformat, Vformat | Vpkgname, Vpkgname
  | Vstdout, Vstdout | Vnoembed, Vnoembed | Vnofsfunc, Vnofsfunc | Vquiet, Vquiet
  | Vbindtype, Vbindtype | Vsuffix, Vsuffix | Vprivate, Vprivate => true
  | _, _ => false
  end.
Definition gcmd_eqb (a b : gcmd) : bool :=
  match a, b with
  | GOpenapi, GOpenapi | GJsonschema, GJsonschema | GGotypes, GGotypes | GGobindings, GGobindings => true
  | _, _ => false
  end.

Definition gstore := gvar -> string.
Definition gset (s : gstore) (v : gvar) (x : string) : gstore :=
  fun w => if gvar_eqb w v then x else s w.

(** Defining a flag sets its variable to the default ([pflag], a library). *)
Definition define (s : gstore) (f : flagdef) : gstore := gset s (fd_var f) (fd_default f).
Definition initial_store : gstore := fold_left define gen_flags (fun _ => "").

Definition has_flag (c : gcmd) (f : flagdef) : bool :=
  match fd_cmd f with None => true | Some c' => gcmd_eqb c c' end.

(** Parsing the arguments of a command: flags given set their variables in
    order; an unknown flag is an error ([None]). *)
Fixpoint parse_flags (c : gcmd) (given : list (string * string)) (s : gstore) : option gstore :=
  match given with
  | [] => Some s
  | (n, x) :: r =>
      match find (fun f => has_flag c f && String.eqb (fd_name f) n) gen_flags with
      | Some f => parse_flags c r (gset s (fd_var f) x)
      | None => None
      end
  end.
Definition parsed (c : gcmd) (given : list (string * string)) : option gstore :=
  parse_flags c given initial_store.

Definition flag_on (x : string) : bool := String.eqb x "true".

(** *** What a command does *)

(** Standard output, standard error, files written, exit status. *)
Record effect := mkEffect {
  e_out : string; e_err : string; e_files : list (path * string); e_status : nat
}.

(** [lineage_subgen.go:134-137]. *)
Definition failed (e : string) : effect := mkEffect "" (e ++ newline) [] 1.

Section Documents.
Context {F : Type}.
(** [BuildFile(f).MarshalJSON] with [json.Indent], and [yaml.Marshal]. *)
Variables to_json to_yaml : F -> string + string.
(** [%q]. *)
Variable quote : string -> string.

(** [lineage_subgen.go:166-192,204-230] [runOpenAPI], [runJSONSchema]: [gen] is
    the result of [openapi.GenerateSchema] or [jsonschema.GenerateSchema]. *)
Definition run_document (format : string) (gen : F + string) : effect :=
  match gen with
  | inr e => failed e
  | inl f =>
      let print (t : string + string) :=
        match t with
        | inl str => mkEffect (printf str) "" [] 0
        | inr e => failed e
        end in
      if String.eqb format "json" then print (to_json f)
      else if String.eqb format "yaml" || String.eqb format "yml" then print (to_yaml f)
      else mkEffect (printf "")
             ("unrecognized output format " ++ quote format ++ " - must choose ""yaml"" or ""json""") [] 0
  end.
End Documents.

(** *** Generated Go files *)

(** [strings.ToLower], on ASCII only. *)
Definition lower_char (c : ascii) : ascii :=
  let n := N_of_ascii c in
  if (65 <=? n)%N && (n <=? 90)%N then ascii_of_N (n + 32) else c.
Fixpoint lower (s : string) : string :=
  match s with
  | EmptyString => ""
  | String c r => String (lower_char c) (lower r)
  end.

(** [lineage_subgen.go:470-480] [goheader], [goheaderp]. *)
Definition goheader : string :=
  "// THIS FILE IS GENERATED. EDITING IS FUTILE." ++ newline ++ "//" ++ newline ++
  "// Generated by ""thema lineage gen""" ++ newline ++ newline.
Definition goheaderp (epath : string) : string :=
  "// THIS FILE IS GENERATED. EDITING IS FUTILE." ++ newline ++ "//" ++ newline ++
  "// Generated by ""thema lineage gen"" from lineage defined in " ++ epath ++ newline ++ newline.

(** [lineage_subgen.go:108-117]: [gc.epath]; [base] is the last element of the
    path given. *)
Definition epath (isdir : bool) (abs : path) : string := if isdir then "*.cue" else basename abs.

(** [lineage_subgen.go:267-272,366-370]: the directory of the lineage, and a file
    in it. [filepath.Join] of a rooted path and a name that may hold slashes. *)
Definition lineage_dir (isdir : bool) (abs : path) : path := if isdir then abs else dirname abs.
Definition target (isdir : bool) (abs : path) (name suffix : string) : path :=
  joinpath (lineage_dir isdir abs)
    (filter (fun x => negb (String.eqb x "")) (split_str (lower name ++ suffix) "/")).

(** [os.WriteFile]: [Some e] when it fails. *)
Definition write_res := path -> option string.

(** [lineage_subgen.go:248-273] [runGoTypes]; [code] is the result of
    [gocode.GenerateTypesOpenAPI]. *)
Definition runGoTypes (st : gstore) (wr : write_res) (isdir : bool) (abs : path) (name : string)
    (code : string + string) : effect :=
  match code with
  | inr e => failed e
  | inl b =>
      if flag_on (st Vstdout) then mkEffect (goheader ++ b) "" [] 0
      else
        let p := target isdir abs name "_types_gen.go" in
        match wr p with
        | Some e => failed e
        | None => mkEffect "" "" [(p, (printf (goheaderp (epath isdir abs)) ++ b)%string)] 0
        end
  end.

(** *** The module root *)

(** [lineage_subgen.go:426-429]; an empty path is [None]. *)
Record rootfind := mkRootFind {
  rf_cuemod : string; rf_cuemodpath : option path; rf_gomod : string; rf_gomodpath : option path
}.
Definition no_root : rootfind := mkRootFind "" None "" None.

(** [lineage_subgen.go:431-455]. *)
Definition rf_exists (r : rootfind) : bool :=
  negb (String.eqb (rf_cuemod r) "") || negb (String.eqb (rf_gomod r) "").
Definition rf_modname (r : rootfind) : string :=
  if negb (rf_exists r) then "" else if negb (String.eqb (rf_cuemod r) "") then rf_cuemod r else rf_gomod r.
Definition rf_modpath (r : rootfind) : option path :=
  if negb (rf_exists r) then None
  else match rf_cuemodpath r with Some p => Some p | None => rf_gomodpath r end.

Section Roots.
Variable fs : fsys.
(** Compiling [module.cue] and reading the string at [module]; [modfile.ModulePath]. *)
Variable module_of : string -> string + string.
Variable gomod_of : string -> string.

(** [lineage_subgen.go:396-421]: the loop, over the reversed path. *)
Fixpoint root_up (rp : list string) (r : rootfind) : rootfind + string :=
  let p := rev rp in
  let mpath := p ++ ["cue.mod"; "module.cue"] in
  match fs_read fs mpath with
  | ReadData b =>
      match module_of b with
      | inl n => inl (mkRootFind n (Some p) (rf_gomod r) (rf_gomodpath r))
      | inr e => inr ("invalid cue.mod at " ++ pstring mpath ++ ": " ++ e)%string
      end
  | _ =>
      let next :=
        match rf_gomodpath r with
        | Some _ => inl r
        | None =>
            match fs_read fs (p ++ ["go.mod"]) with
            | ReadData g => inl (mkRootFind (rf_cuemod r) (rf_cuemodpath r) (gomod_of g) (Some p))
            | ReadNotExist => inl r
            | ReadErr e => inr e
            end
        end in
      match next with
      | inr e => inr e
      | inl r' => match rp with [] => inl r' | _ :: up => root_up up r' end
      end
  end.

(** [lineage_subgen.go:384-424] [findModRoot]. *)
Definition findModRoot (abs : path) : rootfind + string :=
  match fs_stat fs abs with
  | StatErr e => inr ("could not stat abspath: " ++ e)%string
  | StatDir => root_up (rev abs) no_root
  | StatFile => root_up (rev (dirname abs)) no_root
  end.

(** The parts of [gocode.BindingConfig] that decide how the generated code loads
    the lineage. *)
Record bindcfg := mkBindCfg { bc_embed : string; bc_loaddir : string; bc_cuemod : string }.

(** [lineage_subgen.go:318-345]. [path.Join] is taken to append, the module name
    being a clean path. *)
Definition binding_config (st : gstore) (isdir : bool) (abs : path) : bindcfg + string :=
  if flag_on (st Vstdout) then inl (mkBindCfg "" "" "")
  else
    let embed := if flag_on (st Vnoembed) then "" else epath isdir abs in
    match findModRoot abs with
    | inr e => inr e
    | inl r =>
        match rf_modpath r with
        | Some mp =>
            if flag_on (st Vnofsfunc) then inl (mkBindCfg embed "" "")
            else
              let rel := relpath mp (lineage_dir isdir abs) in
              let n := rf_modname r in
              let n := match rel with
                       | [] => n
                       | _ => if negb (String.eqb (rf_cuemod r) "")
                              then (n ++ "/" ++ String.concat "/" rel)%string else n
                       end in
              inl (mkBindCfg embed "." n)
        | None => inl (mkBindCfg embed "" "")
        end
    end.

(** [lineage_subgen.go:306-382] [runGoBindings]; [gen] is
    [gocode.GenerateLineageBinding] on that part of its configuration. *)
Definition runGoBindings (st : gstore) (wr : write_res) (isdir : bool) (abs : path) (name : string)
    (gen : bindcfg -> string + string) : effect :=
  match binding_config st isdir abs with
  | inr e => failed e
  | inl cfg =>
      match gen cfg with
      | inr e => failed e
      | inl b =>
          if flag_on (st Vstdout) then mkEffect (goheader ++ b) "" [] 0
          else
            let p := target isdir abs name "_bindings_gen.go" in
            match wr p with
            | Some e => failed e
            | None =>
                let said := if flag_on (st Vquiet) then ""
                            else ("generated go bindings for " ++ name ++ " at " ++ pstring p ++ newline)%string in
                mkEffect said "" [(p, (printf (goheaderp (epath isdir abs)) ++ b)%string)] 0
            end
      end
  end.
End Roots.
