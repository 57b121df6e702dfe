(** [thema lineage init ...] ([cmd/thema/lineage_init.go]) and [NewLineage]
    ([encoding/cue/encode.go:16-51,99-119]). *)
From Verif Require Import Prelude Strings Load.
Local Open Scope string_scope.
Local Open Scope list_scope.

Definition nl : string := String (ascii_of_N 10) "".

(** *** NewLineage *)

(** A schema as a CUE file: the packages it imports, those its declarations
    refer to, and the declarations as text. [ToExpr] ([internal/astutil/get.go:180-211])
    drops the imports. *)
Record source := mkSource { so_imports : list string; so_refs : list string; so_text : string }.

(** [encode.go:106-119]: the template, filled in. *)
Definition newlin_text (pkgname name sch : string) : string :=
  ((if String.eqb pkgname "" then "" else "package " ++ pkgname ++ nl) ++
   "import ""github.com/grafana/thema""" ++ nl ++ nl ++
   "thema.#Lineage" ++ nl ++
   "name: """ ++ name ++ """" ++ nl ++
   "schemas: [" ++ nl ++
   "    {" ++ nl ++
   "        version: [0, 0]" ++ nl ++
   "        schema: {" ++ nl ++
   "            " ++ sch ++ nl ++
   "        }" ++ nl ++
   "    }" ++ nl ++
   "]" ++ nl)%string.

(** What a parsed lineage file holds: package, imports, the value of [name], and
    the text of what follows. *)
Record linfile := mkLin {
  lf_package : option string; lf_imports : list string; lf_name : string; lf_rest : string
}.

(** The first line and what follows it. *)
Fixpoint line (s : string) : string * string :=
  match s with
  | EmptyString => ("", "")
  | String c r =>
      if (N_of_ascii c =? 10)%N then ("", r)
      else let '(l, t) := line r in (String c l, t)
  end.

(** The text after a prefix. *)
Fixpoint after (p s : string) : option string :=
  match p, s with
  | EmptyString, _ => Some s
  | String a p', String b s' => if Ascii.eqb a b then after p' s' else None
  | String _ _, EmptyString => None
  end.

Section Init.
(** The parser accepts this as the name of a package; it accepts what follows the
    line [name]. *)
Variables package_ok rest_ok : string -> bool.

(** [parser.ParseFile] on the texts of the template, a library function. The
    value of [name] is read as in Load.v: a line that is not one string literal
    of that kind counts as an error. *)
Definition parse_header (s : string) : option (list string * string * string) :=
  match after "import """ s with
  | None => None
  | Some s =>
      let '(l, s) := line s in
      match string_literal l with
      | None => None
      | Some p =>
          match after (nl ++ "thema.#Lineage" ++ nl ++ "name: """) s with
          | None => None
          | Some s =>
              let '(l, s) := line s in
              match string_literal l with
              | None => None
              | Some n => if rest_ok s then Some ([p], n, s) else None
              end
          end
      end
  end.
Definition parse_file (s : string) : option linfile :=
  let header pkg s :=
    match parse_header s with
    | Some (imports, n, rest) => Some (mkLin pkg imports n rest)
    | None => None
    end in
  match after "package " s with
  | None => header None s
  | Some s =>
      let '(pkg, s) := line s in
      if package_ok pkg then header (Some pkg) s else None
  end.

(** [encode.go:22-51]. The error of the parser is not modelled. *)
Definition newLineage (sch : source) (name pkgname : string) : linfile + string :=
  let text := newlin_text pkgname name (so_text sch) in
  match parse_file text with
  | Some f => inl f
  | None => inr (text ++ nl ++ "error while parsing generated output")%string
  end.

(** *** The commands *)

(** [lineage_init.go:23-32]: the flags; [ic_srcpath] exists for two of the
    commands only. [cuepath] has no flag. *)
Record flags := mkFlags { ic_name : string; ic_pkgname : string; ic_nopkg : bool; ic_srcpath : string }.

Inductive icmd := IEmpty | IOpenapi | IJsonschema.

(** [ast.IsValidIdent] and [%q]; [strconv.Itoa]. Libraries. *)
Variable is_valid_ident : string -> bool.
Variable quote : string -> string.
Variable itoa : nat -> string.

(** [cobra.MaximumNArgs]; [lineage_init.go:70,82,94]. *)
Definition max_args (c : icmd) : nat := match c with IEmpty => 0 | _ => 1 end.

(** [lineage_init.go:122-140] [processPackageArgs]: the error, and the flags. *)
Definition processPackageArgs (f : flags) : flags + string :=
  if String.eqb (ic_name f) "" then inr "must provide a name for lineage via --name"
  else if ic_nopkg f then
    if negb (String.eqb (ic_pkgname f) "") then inr "cannot pass both --no-package and --package-name"
    else inl f
  else
    let pkg := if String.eqb (ic_pkgname f) "" then ic_name f else ic_pkgname f in
    if negb (is_valid_ident pkg) then inr (quote pkg ++ " is not a valid package name")%string
    else inl (mkFlags (ic_name f) pkg (ic_nopkg f) (ic_srcpath f)).

(** [build.File.Encoding] as far as it is looked at, and other encodings by
    name. *)
Inductive encoding := EncYAML | EncJSON | EncOther (name : string).

Context {F : Type}.
(** [yaml.Extract], [json.Extract]. *)
Variables yaml_extract json_extract : string -> F + string.

(** [lineage_init.go:253-288] [inputToFile]: [orphaned] are the orphaned files of
    the first instance that [load.Instances] returns. The file may be nil. The
    error of [json.Extract] is assigned to a variable of its own (line 273). *)
Definition inputToFile (input : string) (orphaned : list encoding) : outcome (option F) :=
  match orphaned with
  | [] => Panic
  | EncYAML :: _ =>
      match yaml_extract input with inl f => Ok (Some f) | inr e => Err (new_err e) end
  | EncJSON :: _ =>
      match json_extract input with inl f => Ok (Some f) | inr _ => Ok None end
  | EncOther n :: _ => Err (new_err ("unsupported format: " ++ n)%string)
  end.

(** The parts of CUE that turn input into a schema: [ctx.CompileBytes] and
    [jsonschema.Extract] with the subpath; [CompileFile], [openapi.Extract] and
    [BuildFile], where a nil file may crash; [cue.ParsePath] and [LookupPath]. *)
Variable schema_of_json : string -> string -> source + string.
Context {W : Type}.
Variable schema_of_openapi : option F -> outcome W.
Variable path_err : string -> option string.
Variable at_path : W -> string -> option source.
Variable whole : W -> source.
(** The printed form of a path; the printed form of a file, or the error of
    [FmtNode]. *)
Variable path_string : string -> string.
Variable print : linfile -> string + string.

(** What a run leaves: text on standard output, or the error cobra prints, or the
    error the command prints. *)
Inductive iresult := Printed (text : string) | CobraErr (text : string) | RunErr (text : string) | Crashed.

Definition emptySchema : source :=
  mkSource [] [] ("{" ++ nl ++ "}")%string.

(** [lineage_init.go:163-198,230-248,343-361]: the part common to the commands. *)
Definition finish (sch : source) (f : flags) : iresult :=
  match newLineage sch (ic_name f) (ic_pkgname f) with
  | inr e => RunErr e
  | inl lf => match print lf with inl t => Printed t | inr e => RunErr e end
  end.

(** [lineage_init.go:200-249] [runJSONSchema]. *)
Definition runJSONSchema (f : flags) (input : string) : iresult :=
  match schema_of_json (ic_srcpath f) input with
  | inr e => RunErr e
  | inl sch => finish sch f
  end.

(** [lineage_init.go:290-362] [runOpenAPI]. *)
Definition runOpenAPI (f : flags) (input : string) (orphaned : list encoding) : iresult :=
  match inputToFile input orphaned with
  | Panic | OutOfFuel => Crashed
  | Err e => RunErr (e_text e)
  | Ok file =>
      match schema_of_openapi file with
      | Panic | OutOfFuel => Crashed
      | Err e => RunErr (e_text e)
      | Ok v =>
          if String.eqb (ic_srcpath f) "" then finish (whole v) f
          else
            match path_err (ic_srcpath f) with
            | Some e =>
                RunErr ("value for --src-subpath is not a valid cue path expression: " ++ e)%string
            | None =>
                match at_path v (ic_srcpath f) with
                | None => RunErr ("path " ++ quote (path_string (ic_srcpath f)) ++
                                  " does not exist in converted schema")%string
                | Some sch => finish sch f
                end
            end
      end
  end.

(** [lineage_init.go:34-57,104-120]. [input] is what [pathOrStdin] returns (see
    Cli.v). *)
Definition run (c : icmd) (f : flags) (args : list string) (input : string + string)
    (orphaned : list encoding) : iresult :=
  if Nat.ltb (max_args c) (List.length args) then
    CobraErr ("accepts at most " ++ itoa (max_args c) ++ " arg(s), received " ++ itoa (List.length args))%string
  else
    match c with
    | IEmpty =>
        match processPackageArgs f with
        | inr e => CobraErr e
        | inl f => finish emptySchema f
        end
    | _ =>
        match input with
        | inr e => CobraErr e
        | inl b =>
            match c with
            | IOpenapi => runOpenAPI f b orphaned
            | _ => runJSONSchema f b
            end
        end
    end.
End Init.
