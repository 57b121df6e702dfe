(** [load/load.go]: loading a CUE module that imports thema from an [fs.FS].
    File systems, overlays and cleaned paths are those of Util.v. *)
From Verif Require Import Prelude Strings Util.
Local Open Scope string_scope.
Local Open Scope list_scope.

(** The node at a name of a directory that can be listed. Simplified: in a
    directory that cannot be listed nothing is found. *)
Definition child (n : fsnode) (name : string) : option fsnode :=
  match n with
  | FDir (Some es) =>
      match find (fun e => String.eqb name (fst e)) es with
      | Some e => Some (snd e)
      | None => None
      end
  | _ => None
  end.
Fixpoint node_at (n : fsnode) (p : list string) : option fsnode :=
  match p with
  | [] => Some n
  | x :: r => match child n x with Some d => node_at d r | None => None end
  end.

Definition modulefile : list string := ["cue.mod"; "module.cue"].

(** *** AsModFS *)

(** [load.go:43]: [fmt.Sprintf(`module: "%s"`, modname)]. *)
Definition module_text (modname : string) : string :=
  ("module: """ ++ modname ++ """")%string.

Fixpoint set_child (name : string) (d : fsnode) (es : list (string * fsnode)) : list (string * fsnode) :=
  match es with
  | [] => [(name, d)]
  | (x, d') :: r => if String.eqb name x then (x, d) :: r else (x, d') :: set_child name d r
  end.

(** [merged_fs.NewMergedFS(m, in)] for the [m] of [load.go:41-44], which holds
    the one file cue.mod/module.cue: directories of the same name are merged,
    otherwise what [m] has hides what [in] has. A library function. Simplified:
    added entries come last; [fs.ReadDir] would sort them. *)
Definition with_module (inp : fsnode) (text : string) : fsnode :=
  let file := FFile (Some text) in
  let dir :=
    match child inp "cue.mod" with
    | Some (FDir (Some es)) => FDir (Some (set_child "module.cue" file es))
    | _ => FDir (Some [("module.cue", file)])
    end in
  match inp with
  | FDir (Some es) => FDir (Some (set_child "cue.mod" dir es))
  | _ => FDir (Some [("cue.mod", dir)])
  end.

(** [load.go:38-48] [AsModFS]. Simplified: [fs.Stat] fails only because there is
    nothing at the path. *)
Definition asModFS (inp : fsnode) (modname : string) : fsnode :=
  match node_at inp modulefile with
  | Some _ => inp
  | None => with_module inp (module_text modname)
  end.

(** What CUE reads from a module file of one line, the only kind [AsModFS]
    writes: [None] is an error. Escapes other than those of a quote, a backslash,
    a newline and a tab are not modelled and count as errors, as
    interpolations are. *)
Fixpoint string_literal (s : string) : option string :=
  match s with
  | EmptyString => None
  | String c r =>
      if Ascii.eqb c """" then match r with EmptyString => Some "" | _ => None end
      else if (N_of_ascii c =? 10)%N then None
      else if Ascii.eqb c "\" then
        match r with
        | String d r' =>
            let esc x := match string_literal r' with Some t => Some (String x t) | None => None end in
            if Ascii.eqb d """" || Ascii.eqb d "\" then esc d
            else if Ascii.eqb d "n" then esc (ascii_of_N 10)
            else if Ascii.eqb d "t" then esc (ascii_of_N 9)
            else None
        | EmptyString => None
        end
      else match string_literal r with Some t => Some (String c t) | None => None end
  end.
Definition cue_module (text : string) : string + string :=
  let lead := "module: """ in
  if has_prefix text lead
  then match string_literal (substring (String.length lead) (String.length text - String.length lead) text) with
       | Some s => inl s
       | None => inr "invalid"
       end
  else inr "invalid".

(** *** InstanceWithThema *)

(** [load.go:50]. *)
Definition themapath : list string := ["cue.mod"; "pkg"; "github.com"; "grafana"; "thema"].
Definition thema_name : string := "github.com/grafana/thema".

(** The error at [load.go:97]. *)
Definition exists_err : err :=
  new_err "path ""cue.mod/pkg/github.com/grafana/thema"" already exists in modFS passed to InstancesWithThema, must be absent for dynamic dependency injection".
Definition empty_err : err :=
  new_err "InstancesWithThema requires non-empty module name in modFS' cue.mod/module.cue".
Definition no_name_err : err := new_err "cue.mod/module.cue modname was empty".

Section Load.
(** [cuecontext.New().CompileBytes(b).LookupPath("module").String()]: the string
    or the text of the error. *)
Variable module_of : string -> string + string.

(** [load.go:84-122]: [fs.WalkDir] with its callback, from the node at [path];
    the value of [modname] and the error. *)
Fixpoint mod_walk (path : list string) (n : fsnode) (modname : string) : string * option err :=
  match n with
  | FFile oc =>
      if path_eqb path modulefile then
        match oc with
        | None => (modname, Some io_err)
        | Some c =>
            match module_of c with
            | inr e => ("", Some (new_err e))
            | inl m => (m, if String.eqb m "" then Some empty_err else None)
            end
        end
      else (modname, None)
  | FDir oes =>
      if path_eqb path ["cue.mod"; "gen"] || path_eqb path ["cue.mod"; "usr"] then (modname, None)
      else if path_eqb path themapath then (modname, Some exists_err)
      else
        match oes with
        | None => (modname, Some io_err)
        | Some es =>
            (fix go (l : list (string * fsnode)) (modname : string) : string * option err :=
               match l with
               | [] => (modname, None)
               | (name, d) :: r =>
                   match mod_walk (path ++ [name]) d modname with
                   | (m, Some e) => (m, Some e)
                   | (m, None) => go r m
                   end
               end) es modname
        end
  end.

(** [load.go:83-129]: the module name, or the error that [ErrFSNotACueModule]
    wraps. *)
Definition module_name (modFS : fsnode) : string + err :=
  match child modFS "cue.mod" with
  | None => inr io_err
  | Some d =>
      match mod_walk ["cue.mod"] d "" with
      | (_, Some e) => inr e
      | (m, None) => if String.eqb m "" then inr no_name_err else inl m
      end
  end.

(** [load.Config], [load.go:148-154,167]. *)
Record config := mkCfg {
  cf_overlay : overlay;
  cf_root : list string;
  cf_module : string;
  cf_dir : list string;
  cf_package : string;
  cf_datafiles : bool
}.

(** [filepath.Base] on Unix. A standard-library function. *)
Definition base (s : string) : string :=
  if String.eqb s "" then "."
  else last (filter (fun x => negb (String.eqb x "")) (split_str s "/")) "/".
(** The same for a cleaned rooted path. *)
Definition base_abs (p : list string) : string := last p "/".

(** [load.go:183-199]: the options; [Package] is the only one. *)
Inductive option_ := OPackage (name : string).
Definition apply_option (pkg : string) (o : option_) : string :=
  match o with OPackage n => n end.

(** The results of [InstanceWithThema]; [NotModule] is [ErrFSNotACueModule] with
    the error it wraps. *)
Inductive loaded (A : Type) :=
| Loaded (a : A)
| NotModule (inner : err)
| Failed (e : err)
| Crash.

(** [thema.CueFS] and [thema.CueJointFS] ([embed.go:16,22]). *)
Variables cueFS cueJointFS : fsnode.

(** A step of [ToOverlay] on the overlay. *)
Definition add_overlay (prefix : string) (vfs : fsnode) (m : overlay) : overlay + err + unit :=
  match toOverlay prefix vfs (Some m) with
  | Ok (Some m', None) => inl (inl m')
  | Ok (_, Some e) => inl (inr e)
  | _ => inr tt
  end.

(** [load.go:131-167]. [util.Prefix] is "/" ([internal/util/prefix.go:6]).
    [filepath.Join] cleans; here [modroot] is kept as text and cleaned where it is
    used. *)
Definition load_config (modFS : fsnode) (dir : string) (opts : list option_) (modname : string)
  : loaded config :=
  let modroot := ("/" ++ modname)%string in
  match add_overlay modroot modFS [] with
  | inr _ => Crash _
  | inl (inr e) => Failed _ e
  | inl (inl m) =>
      let second :=
        if String.eqb modname thema_name then add_overlay modroot cueJointFS m
        else add_overlay (modroot ++ "/" ++ String.concat "/" themapath)%string cueFS m in
      match second with
      | inr _ => Crash _
      | inl (inr e) => Failed _ e
      | inl (inl m) =>
          let root := clean_abs modroot in
          let special := String.eqb dir "" || String.eqb dir "." in
          let d := if special then root else clean_abs (modroot ++ "/" ++ dir)%string in
          let pkg := if special then base_abs root else base dir in
          Loaded _ (mkCfg m root modname d (fold_left apply_option opts pkg) true)
      end
  end.

Context {B : Type}.
(** [load.Instances(nil, cfg)]: instances with their errors. *)
Variable instances : config -> list (B * option err).

(** [load.go:82-175] [InstanceWithThema]. *)
Definition instanceWithThema (modFS : fsnode) (dir : string) (opts : list option_) : loaded B :=
  match module_name modFS with
  | inr e => NotModule _ e
  | inl modname =>
      match load_config modFS dir opts modname with
      | Loaded _ cfg =>
          match instances cfg with
          | [] => Crash _
          | (b, None) :: _ => Loaded _ b
          | (_, Some e) :: _ => Failed _ e
          end
      | NotModule _ e => NotModule _ e
      | Failed _ e => Failed _ e
      | Crash _ => Crash _
      end
  end.
End Load.
Arguments Loaded {A} a.
Arguments NotModule {A} inner.
Arguments Failed {A} e.
Arguments Crash {A}.
