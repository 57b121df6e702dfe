(** [encoding/openapi/oapi.go]: OpenAPI generation around CUE's own OpenAPI
    encoder, which is a parameter. *)
From Verif Require Import Prelude Version Strings Paths Util.
Local Open Scope string_scope.
Local Open Scope list_scope.

(** CUE values as far as [Allows] and [LookupPath] see them: structs, closed or
    open, with regular and optional fields. Patterns are not modelled. *)
Inductive shape :=
| Leaf
| Struct (closed : bool) (fields : list (string * (bool * shape))).

Fixpoint field (fs : list (string * (bool * shape))) (l : string) : option (bool * shape) :=
  match fs with
  | [] => None
  | (k, v) :: r => if String.eqb k l then Some v else field r l
  end.

(** [cue.Value.Allows]: whether a field could be added (library). *)
Definition allows (v : shape) (s : sel) : bool :=
  match v with
  | Leaf => false
  | Struct closed fs => negb closed || match field fs (sel_label s) with Some _ => true | None => false end
  end.

(** [cue.Value.LookupPath] (library): optional fields are found by optional
    selectors only. *)
Fixpoint lookupPath (v : shape) (p : cpath) : option shape :=
  match p with
  | [] => Some v
  | s :: r =>
      match v with
      | Leaf => None
      | Struct _ fs =>
          match field fs (sel_label s) with
          | Some (opt, w) => if opt && negb (sel_opt s) then None else lookupPath w r
          | None => None
          end
      end
  end.

(** The printed form of a path. List indexes are not modelled. *)
Definition sel_string (s : sel) : string := (sel_label s ++ if sel_opt s then "?" else "")%string.
Definition path_string (p : cpath) : string := String.concat "." (map sel_string p).

(** [strings.Trim(s, cutset)] for the cutset "?#". *)
Definition cut (c : ascii) : bool := Ascii.eqb c "?" || Ascii.eqb c "#".
Fixpoint trim_left (s : string) : string :=
  match s with
  | String c r => if cut c then trim_left r else s
  | EmptyString => EmptyString
  end.
Fixpoint trim_right (s : string) : string :=
  match s with
  | String c r =>
      match trim_right r with
      | EmptyString => if cut c then EmptyString else String c EmptyString
      | r' => String c r'
      end
  | EmptyString => EmptyString
  end.
Definition trim (s : string) : string := trim_right (trim_left s).

(** [oapi.go:272-286] [trimThemaPathPrefix]. *)
Definition trimThemaPathPrefix (p base : cpath) : cpath :=
  if negb (pathHasPrefix p base) then p
  else match skipn (length base) p with
       | [] => []
       | s :: rest =>
           if existsb (String.eqb (sel_string s)) ["schema"; "_#schema"; "_join"; "joinSchema"]
           then rest else s :: rest
       end.

(** CUE values handed to name functions; only their identity matters. *)
Inductive vref := VDef | VRaw | VJoin | VOther (i : nat).

(** [cue.Value], [cue.Path] to component name; [""] inlines the value. *)
Definition name_func := vref -> cpath -> string.

(** [oapi.go:224-240] [nfSingle], for one generator: [bpath] leads to the
    #SchemaDef, [onf] is the name function found in the configuration. The
    values compared with are those of this generator. *)
Definition nfSingle (onf : option name_func) (bpath : cpath) (val : vref) (path defpath : cpath) (name : string) : string :=
  let tpath := trimPathPrefix (trimThemaPathPrefix path bpath) defpath in
  if String.eqb (path_string path) "" || String.eqb (path_string tpath) (path_string defpath) then name
  else match val with
       | VRaw | VJoin => ""
       | VDef => name
       | VOther _ =>
           match onf with
           | Some f => f val tpath
           | None => trim (path_string tpath)
           end
       end.

(** [oapi.go:18-48] [Config]. [nameFunc] and [info] are fields of the embedded
    CUE configuration. *)
Record config := mkConfig {
  c_group : bool; c_rootName : string; c_subpath : cpath; c_split : bool;
  c_nameFunc : option name_func; c_info : option (string * string) }.

Definition with_gen (c : config) (f : name_func) (i : string * string) : config :=
  mkConfig (c_group c) (c_rootName c) (c_subpath c) (c_split c) (Some f) (Some i).

Section Gen.
(** A component of the generated document. *)
Context {decl : Type}.
(** CUE's [openapi.Generate] on [#name: value], with the name function and
    header it is given, and the components of its result ([oapi.go:242-246]). *)
Variable generate : string -> option shape -> name_func -> string * string -> outcome (list decl).

(** What the generator reads from the schema ([oapi.go:63-74]). *)
Record schinfo := mkSch {
  s_lineage : string; s_version : version; s_bpath : cpath;
  s_def : shape; s_raw : shape; s_join : shape }.

(** [oapi.go:265-270] [newHeader]. *)
Definition newHeader (title : string) (v : version) : string * string := (trim title, vstring v).

Definition not_present (p : cpath) (i : nat) : err :=
  new_err ("subpath """ ++ path_string (firstn (S i) p) ++ """ not present in schema")%string.

(** [oapi.go:248-256] [pathAllowed], and the same loop at [183-187]: [v] is not
    advanced along the path. *)
Fixpoint pathAllowed_from (v : shape) (i : nat) (whole rest : cpath) : option err :=
  match rest with
  | [] => None
  | s :: r => if negb (allows v s) then Some (not_present whole i) else pathAllowed_from v (S i) whole r
  end.
Definition pathAllowed (v : shape) (p : cpath) : option err := pathAllowed_from v 0 p p.

(** [oapi.go:173-181]: the name of the generated component. *)
Definition rootName (c : config) (sch : schinfo) : string :=
  if negb (String.eqb (c_rootName c) "") then c_rootName c
  else match rev (c_subpath c) with
       | s :: _ => sel_string s
       | [] => sanitizeLabelString (s_lineage sch)
       end.

(** [oapi.go:172-217] [genSchema]: the components, the configuration as left
    behind, and the name stored in the generator. [onf] is the name function
    read before generation started. *)
Definition genSchema (onf : option name_func) (c : config) (sch : schinfo) (val : shape)
  : outcome (list decl * string) * config :=
  let name := rootName c sch in
  let sub := c_subpath c in
  let checked :=
    match sub with
    | [] => None
    | _ => match pathAllowed val sub with
           | Some e => Some e
           | None => pathAllowed (s_join sch) sub
           end
    end in
  match checked with
  | Some e => (Err e, c)
  | None =>
      let v := match sub with [] => Some val | _ => lookupPath val sub end in
      let defpath := [mkSel ("#" ++ name)%string false] in
      let nf := fun val path => nfSingle onf (s_bpath sch) val path defpath name in
      let hd := newHeader name (s_version sch) in
      let c' := with_gen c nf hd in
      (ds <- generate name v nf hd ;; Ok (ds, name), c')
  end.

(** [oapi.go:159-170] [genSingle]. *)
Fixpoint genSingle (onf : option name_func) (c : config) (sch : schinfo) (vals : list shape) (name : string)
  : outcome (list decl * string) * config :=
  match vals with
  | [] => (Ok ([], name), c)
  | v :: r =>
      match genSchema onf c sch v with
      | (Ok (ds, n), c1) =>
          match genSingle onf c1 sch r n with
          | (Ok (ds', n'), c2) => (Ok (ds ++ ds', n'), c2)
          | (o, c2) => (o, c2)
          end
      | (o, c1) => (o, c1)
      end
  end.

(** [oapi.go:125-157] [genGroup]: one generation for each top-level field,
    definitions and optional fields included; the configuration is copied. *)
Fixpoint genGroup (onf : option name_func) (sch : schinfo) (fs : list (string * (bool * shape))) : outcome (list decl) :=
  match fs with
  | [] => Ok []
  | (l, (opt, v)) :: r =>
      let name := trim (sel_string (mkSel l opt)) in
      let defpath := [mkSel ("#" ++ name)%string false] in
      let nf := fun val path => nfSingle onf (s_bpath sch) val path defpath name in
      match generate name (Some v) nf (newHeader (path_string defpath) (s_version sch)) with
      | Ok ds => rest <- genGroup onf sch r ;; Ok (ds ++ rest)
      | Err e => Err (wrap ("failed generation for grouped field " ++ sel_string (mkSel l opt))%string e)
      | Panic => Panic
      | OutOfFuel => OutOfFuel
      end
  end.

(** The document built at [oapi.go:88-102]. *)
Record document := mkDoc { d_title : string; d_version : string; d_schemas : list decl }.

(** [oapi.go:54-103] [GenerateSchema], with the configuration left behind (the
    caller's, as it is passed by pointer). A group of a schema that is not a
    struct panics. *)
Definition generateSchema (sch : schinfo) (c : config) : outcome document * config :=
  let onf := c_nameFunc c in
  let finish (r : outcome (list decl * string)) :=
    d <- r ;; Ok (mkDoc (snd d) (vstring (s_version sch)) (fst d)) in
  if c_group c then
    match s_def sch with
    | Leaf => (Panic, c)
    | Struct _ fs =>
        (finish (ds <- genGroup onf sch fs ;; Ok (ds, sanitizeLabelString (s_lineage sch))), c)
    end
  else
    let vals := if c_split c then [s_raw sch; s_join sch] else [s_def sch] in
    let '(r, c') := genSingle onf c sch vals "" in
    (finish r, c').
End Gen.
