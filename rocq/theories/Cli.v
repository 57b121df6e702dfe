(** The [thema] command: loading a lineage and the [data] commands
    ([cmd/thema/load.go], [cmd/thema/data.go], [cmd/thema/main.go]). *)
From Verif Require Import Prelude Strings Version Search ValidateErr Native Split Lineage Translate.
Local Open Scope string_scope.
Local Open Scope list_scope.

(** *** Paths *)

(** An absolute, cleaned path: its elements, outermost first; [[]] is the root.
    [load.go:97] makes the input path absolute with [filepath.Abs], which cleans
    it. *)
Definition path := list string.

(** [filepath.Dir] and [filepath.Base] of such a path. *)
Definition dirname (p : path) : path := removelast p.
Definition basename (p : path) : string := last p "/".

(** [filepath.Clean] of a rooted sequence of elements: [acc] is the reversed
    result so far. *)
Fixpoint clean_elems (acc : list string) (p : list string) : path :=
  match p with
  | [] => rev acc
  | x :: r =>
      if String.eqb x ".." then clean_elems (tl acc) r
      else if String.eqb x "." then clean_elems acc r
      else clean_elems (x :: acc) r
  end.
(** [filepath.Join] of a rooted path and a relative one. *)
Definition joinpath (p : path) (r : list string) : path := clean_elems [] (p ++ r).

(** [filepath.Rel] of two absolute paths: the elements of the relative path, []
    being ["."]. *)
Fixpoint relpath (base target : path) : list string :=
  match base, target with
  | b :: base', t :: target' =>
      if String.eqb b t then relpath base' target'
      else repeat ".." (length base) ++ target
  | _, _ => repeat ".." (length base) ++ target
  end.

(** A path as text. *)
Fixpoint path_text (p : path) : string :=
  match p with
  | [] => ""
  | x :: r => ("/" ++ x ++ path_text r)%string
  end.
Definition pstring (p : path) : string := match p with [] => "/" | _ => path_text p end.

(** [filepath.Ext]: from the last dot of the last element. [acc] is the extension
    seen so far. *)
Fixpoint ext_from (s acc : string) : string :=
  match s with
  | EmptyString => acc
  | String c r =>
      if Ascii.eqb c "." then ext_from r s
      else if Ascii.eqb c "/" then ext_from r ""
      else ext_from r acc
  end.
Definition ext (s : string) : string := ext_from s "".

(** *** The file system *)

Inductive stat_res := StatErr (t : string) | StatDir | StatFile.
(** [os.ReadFile]: an error that is [os.ErrNotExist] is [ReadNotExist]. *)
Inductive read_res := ReadData (b : string) | ReadNotExist | ReadErr (t : string).

Record fsys := mkFs { fs_stat : path -> stat_res; fs_read : path -> read_res }.

(** *** Finding the module *)

(** [load.go:74-79]. *)
Record parentCueMod := mkMod { cuemodparentdir : path; modname : string }.

(** The results of [findCueMod]. Only [FNotExist] is [os.ErrNotExist]; the error
    of [os.Stat] could be it too, but [dynLoad] has made that call before. *)
Inductive find_res :=
| Found (m : parentCueMod)
| FStat (t : string)
| FInvalid (t : string)
| FRead (t : string)
| FNotExist.

Section Find.
Variable fs : fsys.
(** Compiling [module.cue] and reading the string at [module]. *)
Variable module_of : string -> string + string.

Definition modfile (p : path) : path := p ++ ["cue.mod"; "module.cue"].

(** [load.go:248-266]: the loop, over the reversed path. *)
Fixpoint search_up (rp : list string) : find_res :=
  match rp with
  | [] => FNotExist
  | _ :: up =>
      let p := rev rp in
      let mpath := modfile p in
      match fs_read fs mpath with
      | ReadData b =>
          match module_of b with
          | inr e => FInvalid ("contents of " ++ pstring mpath ++ " invalid: " ++ e)%string
          | inl n => Found (mkMod p n)
          end
      | ReadErr e => FRead ("error reading path " ++ pstring mpath ++ ": " ++ e)%string
      | ReadNotExist => search_up up
      end
  end.

(** [load.go:240-268] [findCueMod]. *)
Definition findCueMod (p : path) : find_res :=
  match fs_stat fs p with
  | StatErr e => FStat ("could not stat path: " ++ e)%string
  | StatDir => search_up (rev p)
  | StatFile => search_up (rev (dirname p))
  end.
End Find.

(** *** Loader configuration *)

(** What an overlay maps a path to: literal text, or thema's own CUE files below
    it ([util.ToOverlay], see [Util.v]). *)
Inductive osource := OText (t : string) | OThema.

(** [load.Config] with the arguments of [load.Instances]. *)
Record loadcfg := mkLoad {
  lc_root : path;
  lc_module : string;
  lc_overlay : list (path * osource);
  lc_dir : path;
  lc_package : string;
  lc_args : list string
}.

(** [load.go:270]. *)
Definition themamodpath : list string := ["cue.mod"; "pkg"; "github.com"; "grafana"; "thema"].
Definition thema_module : string := "github.com/grafana/thema".

(** [load.go:94-170]: the part of [dynLoad] that prepares loading. [input] is
    the path as given, [abs] its absolute form. *)
Definition load_config (fs : fsys) (module_of : string -> string + string)
    (input : string) (abs : path) : outcome loadcfg :=
  match fs_stat fs abs with
  | StatErr e => Err (new_err ("error statting path " ++ pstring abs ++ ": " ++ e)%string)
  | st =>
      let isdir := match st with StatDir => true | _ => false end in
      let searching e := Err (new_err ("error while searching for cue.mod at or above "
                                       ++ input ++ ": " ++ e)%string) in
      match findCueMod fs module_of abs with
      | FStat e | FInvalid e | FRead e => searching e
      | FNotExist =>
          let dyndir := if isdir then abs else dirname abs in
          let args := if isdir then [] else [basename abs] in
          Ok (mkLoad dyndir "" [(joinpath dyndir ["cue.mod"; "module.cue"], OText "module: """"");
                                (joinpath dyndir themamodpath, OThema)]
                dyndir "*" args)
      | Found cm =>
          let overlay :=
            if String.eqb (modname cm) thema_module then []
            else [(joinpath (cuemodparentdir cm) themamodpath, OThema)] in
          let rel := relpath (cuemodparentdir cm) abs in
          let args := if isdir then [] else [basename rel] in
          let rel := if isdir then rel else dirname rel in
          Ok (mkLoad (cuemodparentdir cm) (modname cm) overlay
                (joinpath (cuemodparentdir cm) rel) "" args)
      end
  end.

(** *** Choosing a package *)

Section Load.
Context {V : Type}.
Variable ev : evaluator V.
Variable forceVerify : bool.
Variable lindef : V.

(** A [build.Instance]: its error, its package name and the value at a CUE path,
    where [""] is the root and [None] means that nothing exists there. *)
Record binst := mkBinst {
  bi_err : option err;
  bi_pkg : string;
  bi_at : string -> option (cexpr V)
}.
(** [cue.ParsePath]: the error, if any. *)
Variable path_err : string -> option string.
(** Whether THEMA_SKIP_BUGGY is set. *)
Variable skip_buggy : bool.

(** [load.go:312-338] [loadone]. [id] is the identity of the lineage. *)
Definition loadone (id : N) (b : binst) (pkgpath cuepath : string) : outcome (lineage V) :=
  match bi_err b with
  | Some e => Err e
  | None =>
      match bi_at b "" with
      | None => Err (new_err ("empty instance at " ++ pkgpath)%string)
      | Some root =>
          let opts := if skip_buggy then [OSkipBuggyChecks] else [] in
          if String.eqb cuepath "" then BindLineage ev id forceVerify lindef root opts
          else
            match path_err cuepath with
            | Some e => Err (new_err ("""" ++ cuepath ++ """ is not a valid CUE path expression: " ++ e)%string)
            | None =>
                match bi_at b cuepath with
                | None => Err (new_err ("no value at path """ ++ cuepath ++ """ in instance """
                                        ++ pkgpath ++ """")%string)
                | Some v => BindLineage ev id forceVerify lindef v opts
                end
            end
      end
  end.

(** [load.go:280-283]: all packages are tried; a panic ends the program. *)
Fixpoint load_all (id : N) (bs : list binst) (ppath : binst -> string) (cuepath : string)
  : outcome (list (binst * (lineage V + err))) :=
  match bs with
  | [] => Ok []
  | b :: r =>
      match loadone id b (ppath b) cuepath with
      | Ok l => rest <- load_all (id + 1)%N r ppath cuepath ;; Ok ((b, inl l) :: rest)
      | Err e => rest <- load_all (id + 1)%N r ppath cuepath ;; Ok ((b, inr e) :: rest)
      | Panic => Panic
      | OutOfFuel => OutOfFuel
      end
  end.

(** [load.go:292-302]: the loop over the results. *)
Fixpoint pick (sel : option (lineage V * binst)) (rets : list (binst * (lineage V + err)))
  : outcome (option (lineage V * binst)) :=
  match rets with
  | [] => Ok sel
  | (b, inl l) :: r =>
      match sel with
      | Some _ => Err (new_err "valid lineages found in multiple CUE packages")
      | None => pick (Some (l, b)) r
      end
  | (_, inr _) :: r => pick sel r
  end.

Definition result_of (r : binst * (lineage V + err)) : outcome (lineage V * binst) :=
  match r with
  | (b, inl l) => Ok (l, b)
  | (_, inr e) => Err e
  end.

(** [load.go:274-310] [buildInsts]. *)
Definition buildInsts (bs : list binst) (ppath : binst -> string) (cuepath : string)
  : outcome (lineage V * binst) :=
  rets <- load_all 0%N bs ppath cuepath ;;
  match rets with
  | [] => Err (new_err "no loadable CUE data found")
  | [r] => result_of r
  | r0 :: _ :: _ =>
      sel <- pick None rets ;;
      match sel with
      | Some x => Ok x
      | None => match snd r0 with inr e => Err e | inl l => Ok (l, fst r0) end
      end
  end.

(** *** The version *)

Record dynamicLoader := mkDl { dl_lin : lineage V; dl_sch : schema V }.

(** [load.go:188-201]: the schema that goes with the [version] flag. *)
Definition pick_schema (l : lineage V) (verstr : string) : outcome (schema V) :=
  if String.eqb verstr "" then latest l
  else
    match parse_version verstr with
    | (_, Some e) => Err e
    | (v, None) =>
        match lin_schema l v with
        | Ok s => Ok s
        | Err _ => Err (new_err ("schema version " ++ vstring v ++ " does not exist in lineage")%string)
        | Panic => Panic
        | OutOfFuel => OutOfFuel
        end
    end.

(** [load.go:81-204] [dynLoad] without [skipBindLineage]. [instances] is
    [load.Instances]; [abs] is the absolute form of [input]. *)
Definition dynLoad (fs : fsys) (module_of : string -> string + string)
    (instances : loadcfg -> list binst)
    (input : string) (abs : path) (cuepath verstr : string) : outcome dynamicLoader :=
  if String.eqb input "" then Err (new_err "must provide a lineage file argument via -l")
  else
    cfg <- load_config fs module_of input abs ;;
    let isdir := match fs_stat fs abs with StatDir => true | _ => false end in
    lb <- buildInsts (instances cfg)
            (fun b => if isdir then (input ++ ":" ++ bi_pkg b)%string else input) cuepath ;;
    s <- pick_schema (fst lb) verstr ;;
    Ok (mkDl (fst lb) s).

(** *** Reading the data *)

Inductive stdin_res := StdinStatErr | StdinNoPipe | StdinPipe (r : string + string).

(** What the process sees of its standard input and of files given as arguments:
    [os.Stat], [os.Open], [io.ReadAll]. *)
Record dworld := mkWorld {
  dw_stdin : stdin_res;
  dw_stat : string -> stat_res;
  dw_open : string -> option string;
  dw_read : string -> string + string
}.

(** [data.go:305-347] [pathOrStdin]. *)
Definition pathOrStdin (w : dworld) (args : list string) : outcome string :=
  match args with
  | [] =>
      match dw_stdin w with
      | StdinStatErr => Panic
      | StdinNoPipe => Err (new_err "no path provided and nothing on stdin")
      | StdinPipe (inr e) => Err (new_err ("error reading from stdin: " ++ e)%string)
      | StdinPipe (inl b) => Ok b
      end
  | [f] =>
      match dw_stat w f with
      | StatErr e => Err (new_err ("failed to stat path """ ++ f ++ """: " ++ e)%string)
      | StatDir => Err (new_err (f ++ " is a directory")%string)
      | StatFile =>
          match dw_open w f with
          | Some e => Err (new_err ("could not open provided path: " ++ e)%string)
          | None =>
              match dw_read w f with
              | inr e => Err (new_err ("error reading from input file """ ++ f ++ """: " ++ e)%string)
              | inl b => Ok b
              end
          end
      end
  | _ => Err (new_err "too many args: either provide path to input or pass input on stdin")
  end.

(** [vmux.NewJSONCodec] and [NewYAMLCodec]: [Decode]. *)
Variables jdec ydec : string -> V + err.

(** [data.go:19-29]: the fields that are read here. *)
Record dcmd := mkDc { dc_format : string; dc_inbytes : string }.

(** [data.go:349-412] [validateDataInput]: the new format and the decoded value. *)
Definition validateDataInput (w : dworld) (dc : dcmd) (args : list string) : outcome (string * V) :=
  byt <- pathOrStdin w args ;;
  let inbytes :=
    if Nat.ltb 0 (String.length byt) && Nat.eqb (String.length (dc_inbytes dc)) 0
    then byt else dc_inbytes dc in
  let e :=
    match args with
    | [f] =>
        let x := ext f in
        if String.eqb x ".json" || String.eqb x ".ldjson" then "json"
        else if String.eqb x ".yaml" || String.eqb x ".yml" then "yaml"
        else ""
    | _ => ""
    end in
  if String.eqb (dc_format dc) "" then
    match jdec inbytes with
    | inl v => Ok ("json", v)
    | inr _ =>
        match ydec inbytes with
        | inl v => Ok ("yaml", v)
        | inr _ => Err (new_err "unrecognized format of input data")
        end
    end
  else if String.eqb (dc_format dc) "json" then
    if negb (String.eqb e "json") then
      Err (new_err ("JSON input format specified, but file extension is " ++ e)%string)
    else match jdec inbytes with inl v => Ok ("json", v) | inr x => Err x end
  else if String.eqb (dc_format dc) "yaml" then
    if negb (String.eqb e "yaml") then
      Err (new_err ("YAML input format specified, but file extension is " ++ e)%string)
    else match ydec inbytes with inl v => Ok ("yaml", v) | inr x => Err x end
  else Err (new_err ("unknown input format """ ++ dc_format dc ++ """ requested")%string).

(** *** The commands *)

(** The Go functions of lenses (see [Translate.v]); [Hydrate] and [Dehydrate];
    [cue.Value.IsConcrete]. *)
Variable rm : N -> instance V -> schema V -> outcome (option (instance V)).
Variables hyd dehyd : instance V -> instance V.
Variable concrete : V -> bool.

(** What is written to standard output: a line of text, a JSON value, or the
    fields of [translationResult] ([data.go:210-215]). *)
Inductive output :=
| ONothing
| OLine (t : string)
| OJson (v : V)
| OTranslation (from to : string) (result : V) (lacunas : list N).

Inductive command := CValidate | CValidateAny | CTranslate | CHydrate | CDehydrate.

(** [data.go:105-115]; the check of [datval] cannot fail after
    [validateDataInput] succeeded. *)
Definition runValidate (d : dynamicLoader) (data : V) : outcome output :=
  match validate ev (dl_sch d) data with
  | Ok _ => Ok ONothing
  | Err e => Err e
  | Panic => Panic
  | OutOfFuel => OutOfFuel
  end.

(** [data.go:132-156]; [dl.sch] is never nil. *)
Definition runValidateAny (fuel : nat) (d : dynamicLoader) (data : V) : outcome output :=
  match validate ev (dl_sch d) data with
  | Ok _ => Ok (OLine (vstring (s_v (dl_sch d))))
  | Panic => Panic
  | OutOfFuel => OutOfFuel
  | Err reterr =>
      o <- validateAny ev fuel (dl_lin d) data ;;
      match o with
      | Some i => Ok (OLine (vstring (s_v (i_sch i))))
      | None => Err reterr
      end
  end.

(** [data.go:416-435] [validateTranslationResult]. *)
Definition validateTranslationResult (i : instance V) : outcome unit :=
  let raw := i_raw i in
  if negb (ev_exists ev raw) then
    Err (new_err "should be unreachable - result should at least always exist")
  else if ev_bottom ev raw then
    Err (new_err "translated value has errors, should be unreachable")
  else if negb (concrete raw) then
    Err (new_err "translated value is not concrete (TODO print non-concrete fields)")
  else Ok tt.

(** [data.go:173-208]. *)
Definition runTranslate (fuel : nat) (d : dynamicLoader) (data : V) : outcome output :=
  o <- validateAny ev fuel (dl_lin d) data ;;
  match o with
  | None => Err (new_err "input data is not valid for any schema in lineage")
  | Some inst =>
      tl <- translate ev rm fuel inst (s_v (dl_sch d)) ;;
      let '(tinst, lac) := tl in
      _ <- validateTranslationResult tinst ;;
      if negb (ev_json_ok ev (i_raw tinst)) then
        Err (new_err "error marshaling translation result to JSON")
      else Ok (OTranslation (vstring (s_v (i_sch inst))) (vstring (s_v (i_sch tinst))) (i_raw tinst) lac)
  end.

(** [data.go:232-259] and [276-303], [h] being [Hydrate] or [Dehydrate];
    [dl.sch] is never nil. *)
Definition runFill (h : instance V -> instance V) (d : dynamicLoader) (data : V) : outcome output :=
  match validate ev (dl_sch d) data with
  | Ok i =>
      let r := i_raw (h i) in
      if negb (ev_json_ok ev r) then Err (new_err "error marshaling hydrated object to JSON")
      else Ok (OJson r)
  | Err e => Err e
  | Panic => Panic
  | OutOfFuel => OutOfFuel
  end.

Definition run (c : command) (fuel : nat) (d : dynamicLoader) (data : V) : outcome output :=
  match c with
  | CValidate => runValidate d data
  | CValidateAny => runValidateAny fuel d data
  | CTranslate => runTranslate fuel d data
  | CHydrate => runFill hyd d data
  | CDehydrate => runFill dehyd d data
  end.

(** The flags of a command; [translate] has no [quiet]. *)
Record flags := mkFlags { f_version : string; f_format : string; f_quiet : bool }.

(** [data.go:37-77]: the checks that run before the command, in order
    ([mergeCobraefuncs], [main.go:82-92]). [ld] is [dynLoad] for the given
    lineage flags. *)
Definition exec (ld : string -> outcome dynamicLoader) (w : dworld)
    (fuel : nat) (c : command) (f : flags) (args : list string) : outcome output :=
  d <- match ld (f_version f) with
       | Err e =>
           if err_is e ErrValueNotALineage && contains (e_text e) "instance root"
           then Err (wrap (e_text e ++ newline ++ "Did you forget to pass a CUE path with -p?")%string e)
           else Err e
       | o => o
       end ;;
  _ <- match c with
       | CTranslate =>
           if String.eqb (f_version f) "" then Err (new_err "must specify an explicit schema version")
           else Ok tt
       | _ => Ok tt
       end ;;
  fv <- validateDataInput w (mkDc (f_format f) "") args ;;
  run c fuel d (snd fv).

(** The process: [main.go:14-32]. cobra writes ["Error:"] and the message to
    standard error unless told not to, which no command does. *)
Inductive process :=
| Exited (code : nat) (stdout : output) (stderr : string)
| Crashed
| Stuck.

Definition thema_data (ld : string -> outcome dynamicLoader) (w : dworld)
    (fuel : nat) (c : command) (f : flags) (args : list string) : process :=
  match exec ld w fuel c f args with
  | Ok o => Exited 0 o ""
  | Err e => Exited 1 ONothing ("Error: " ++ e_text e ++ newline)%string
  | Panic => Crashed
  | OutOfFuel => Stuck
  end.
End Load.
Arguments binst V : clear implicits.
Arguments dynamicLoader V : clear implicits.
Arguments output V : clear implicits.
Arguments process V : clear implicits.
