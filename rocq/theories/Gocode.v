(** Go code generation ([encoding/gocode/gen.go], [decorators.go],
    [postprocessing.go], [binding.tmpl]). *)
From Verif Require Import Prelude Strings.
Local Open Scope string_scope.
Local Open Scope list_scope.

(** *** Go files *)

(** The type expressions of [dst] that the passes of [decorators.go] tell
    apart. Simplified: the length of an array is dropped, and channels,
    functions and interfaces are one opaque [TOther]. *)
Inductive gtype :=
| TIdent (n : string)                       (* *dst.Ident *)
| TStar (t : gtype)                         (* *dst.StarExpr *)
| TArray (elt : gtype)                      (* *dst.ArrayType *)
| TMap (key val : gtype)                    (* *dst.MapType *)
| TStruct (fs : list (list string * gtype)) (* *dst.StructType: names and type of each *dst.Field *)
| TSel (x sel : string)                     (* *dst.SelectorExpr *)
| TOther (s : string).

Definition field := (list string * gtype)%type.

(** [dst.Spec]. Type parameters of type declarations are left out: the
    generated code has none. *)
Inductive spec :=
| SType (name : string) (t : gtype)
| SValue (names : list string) (t : option gtype)
| SImport (path : string).

(** [dst.Decl]. [comments] is [Decorations().Start.All()]. A function has a
    receiver list (absent: [Recv == nil]) and its parameters and results; its
    body is opaque. *)
Inductive decl :=
| DGen (comments : list string) (specs : list spec)
| DFunc (comments : list string) (recv : option (list field)) (name : string) (sig : list field).

(** *** Visiting fields

    [dstutil.Apply(f, pre, nil)] calls [pre] on every node in depth-first
    pre-order. For a [pre] that changes the types of [*dst.Field] nodes only, the
    result is the file in which [pre] was applied to the type of every field.
    Simplified: the model handles the fields inside a type before the type
    itself. The [pre]s below look only at the outermost constructors of the type
    of a field, which this does not change, or rename identifiers, and renaming
    twice is renaming once. *)
Fixpoint visit (pre : gtype -> gtype) (t : gtype) : gtype :=
  match t with
  | TIdent n => TIdent n
  | TStar u => TStar (visit pre u)
  | TArray u => TArray (visit pre u)
  | TMap k v => TMap (visit pre k) (visit pre v)
  | TStruct fs => TStruct (map (fun f => (fst f, pre (visit pre (snd f)))) fs)
  | TSel x s => TSel x s
  | TOther s => TOther s
  end.

Definition visit_field (pre : gtype -> gtype) (f : field) : field :=
  (fst f, pre (visit pre (snd f))).

Definition visit_spec (pre : gtype -> gtype) (s : spec) : spec :=
  match s with
  | SType n t => SType n (visit pre t)
  | SValue ns t => SValue ns (option_map (visit pre) t)
  | SImport p => SImport p
  end.

Definition visit_decl (pre : gtype -> gtype) (d : decl) : decl :=
  match d with
  | DGen c ss => DGen c (map (visit_spec pre) ss)
  | DFunc c r n sig =>
      DFunc c (option_map (map (visit_field pre)) r) n (map (visit_field pre) sig)
  end.

(** *** depointerizer *)

(** [decorators.go:34-39] *)
Definition depoint (t : gtype) : gtype := match t with TStar u => u | _ => t end.

(** The case [*dst.Field] of [decorators.go:18-29]. *)
Definition depoint_field (all : bool) (t : gtype) : gtype :=
  match t with
  | TStar u =>
      if all then depoint t
      else match depoint t with
           | TArray e => TArray e
           | TMap k v => TMap k v
           | _ => t
           end
  | _ => t
  end.

(** [decorators.go:15-32] applied to a file. *)
Definition depointerizer (all : bool) (f : list decl) : list decl :=
  map (visit_decl (depoint_field all)) f.

(** *** Renaming of identifiers *)

(** The three mutually recursive functions [iterateStruct], [iterateMap],
    [iterateArray] of [decorators.go:236-271], as one function on the types they
    are called with. [PField] is the type of a field ([iterateStruct], line 238,
    which sees through one pointer), [PElt] the element of an array
    ([iterateArray], line 263), [PVal] the value of a map ([iterateMap], line
    252); [PTop] is the type of a field after [depoint], and a struct, map or
    array that one of the three is called with directly. *)
Inductive place := PField | PTop | PElt | PVal.

Fixpoint iterate (fn : string -> string) (p : place) (t : gtype) : gtype :=
  match t with
  | TIdent n => TIdent (fn n)
  | TStar u => match p with PField => TStar (iterate fn PTop u) | _ => TStar u end
  | TArray e => TArray (iterate fn PElt e)
  | TMap k v => match p with PElt => TMap k v | _ => TMap k (iterate fn PVal v) end
  | TStruct fs =>
      match p with
      | PVal => TStruct fs
      | _ => TStruct (map (fun f => (fst f, iterate fn PField (snd f))) fs)
      end
  | TSel x s => TSel x s
  | TOther s => TOther s
  end.

(** The three [if]s on the type of a type declaration, [decorators.go:160-168]
    and [190-198]: only structs, maps and arrays are looked into. *)
Definition iterate_spec (fn : string -> string) (t : gtype) : gtype :=
  match t with
  | TStruct _ | TMap _ _ | TArray _ => iterate fn PTop t
  | _ => t
  end.

(** *** fixUnderscoreInTypeName *)

(** [strings.ReplaceAll(s, "_", "")]. *)
Fixpoint strip (s : string) : string :=
  match s with
  | EmptyString => EmptyString
  | String c r => if Ascii.eqb c "_" then strip r else String c (strip r)
  end.

(** [strings.ReplaceAll(s, old, new)] for a non-empty [old]. *)
Definition replace_all (s old new : string) : string := String.concat new (split_str s old).

(** [decorators.go:222-226] *)
Definition withoutUnderscore (n : string) : string :=
  if contains n "_" then strip n else n.

(** [decorators.go:207-220] *)
Definition findFieldsWithUnderscores (t : gtype) : gtype :=
  match t with
  | TIdent n => TIdent (withoutUnderscore n)
  | TStar (TIdent n) => TStar (TIdent (withoutUnderscore n))
  | TArray _ | TMap _ _ => iterate withoutUnderscore PTop t
  | _ => t
  end.

(** The case [*dst.GenDecl] of [decorators.go:183-199]. [Specs[0]] of a
    declaration without specs and [Start[0]] of one without comments are out of
    range. *)
Definition underscore_gen (d : decl) : outcome decl :=
  match d with
  | DGen c (SType n t :: r) =>
      let t' := iterate_spec withoutUnderscore t in
      if contains n "_" then
        match c with
        | [] => Panic
        | c0 :: cs => Ok (DGen (replace_all c0 n (strip n) :: cs) (SType (strip n) t' :: r))
        end
      else Ok (DGen c (SType n t' :: r))
  | DGen c [] => Panic
  | _ => Ok d
  end.

Fixpoint omap {A B} (f : A -> outcome B) (l : list A) : outcome (list B) :=
  match l with
  | [] => Ok []
  | x :: r => y <- f x ;; ys <- omap f r ;; Ok (y :: ys)
  end.

(** [decorators.go:180-205] applied to a file. *)
Definition fixUnderscoreInTypeName (f : list decl) : outcome (list decl) :=
  omap (fun d => d' <- underscore_gen d ;; Ok (visit_decl findFieldsWithUnderscores d')) f.

(** *** fixRawData *)

(** [decorators.go:118-126]: a struct with exactly one field of type
    [json.RawMessage]. *)
Definition raw_spec (s : spec) : list string :=
  match s with
  | SType n (TStruct [(_, TSel x y)]) =>
      if String.eqb (x ++ "." ++ y)%string "json.RawMessage" then [n] else []
  | _ => []
  end.

Definition mem (n : string) (l : list string) : bool := existsb (String.eqb n) l.

(** [decorators.go:130-135]: the receivers of a function; one that is not a named
    type or a pointer to it fails the type assertion. *)
Fixpoint raw_recv (raw ex : list string) (l : list field) : outcome (list string) :=
  match l with
  | [] => Ok ex
  | (_, t) :: r =>
      match depoint t with
      | TIdent n => raw_recv raw (if mem n raw then n :: ex else ex) r
      | _ => Panic
      end
  end.

(** [decorators.go:111-137]. The two maps are lists of their keys. A function
    without receiver has [x.Recv == nil]. *)
Fixpoint raw_collect (raw ex : list string) (f : list decl) : outcome (list string) :=
  match f with
  | [] => Ok ex
  | DGen _ ss :: r => raw_collect (flat_map raw_spec ss ++ raw) ex r
  | DFunc _ None _ _ :: _ => Panic
  | DFunc _ (Some l) _ _ :: r => ex' <- raw_recv raw ex l ;; raw_collect raw ex' r
  end.

(** [decorators.go:228-234]; [setStar] of an identifier is always empty. *)
Definition withoutRawData (ex : list string) (n : string) : string :=
  if mem n ex then "any" else n.

(** [decorators.go:152-170]: what a declaration becomes. *)
Definition raw_rewrite_spec (ex : list string) (s : spec) : spec :=
  match s with
  | SType n t => if mem n ex then s else SType n (iterate_spec (withoutRawData ex) t)
  | _ => s
  end.
Definition raw_rewrite (ex : list string) (d : decl) : decl :=
  match d with
  | DGen c ss => DGen c (map (raw_rewrite_spec ex) ss)
  | DFunc _ _ _ _ => d
  end.

(** [decorators.go:146-151] *)
Definition nameless (c : list string) : bool :=
  match c with
  | c0 :: _ => has_suffix c0 "defines model for ."
  | [] => false
  end.

Definition raw_dead_spec (ex : list string) (s : spec) : bool :=
  match s with SType n _ => mem n ex | _ => false end.

(** How often [c.Delete()] is called for a declaration: lines 143, 149, 156. *)
Definition deletes (ex : list string) (d : decl) : nat :=
  match d with
  | DFunc _ _ _ _ => 1
  | DGen c ss => (if nameless c then 1 else 0) + length (filter (raw_dead_spec ex) ss)
  end.

(** [dstutil.Cursor.Delete] on the list of declarations: it removes the element
    at the index of the cursor and takes one from the step to the next element.
    Called twice for one element, it removes the element that follows, and slices
    out of range if there is none. (dst is not part of /repo; its cursor is that
    of golang.org/x/tools/go/ast/astutil.) *)
Fixpoint remove_at {A} (i : nat) (l : list A) : option (list A) :=
  match i, l with
  | _, [] => None
  | O, _ :: r => Some r
  | S j, x :: r => option_map (cons x) (remove_at j r)
  end.
Fixpoint remove_n {A} (k i : nat) (l : list A) : option (list A) :=
  match k with
  | O => Some l
  | S k' => match remove_at i l with Some l' => remove_n k' i l' | None => None end
  end.
Fixpoint set_at {A} (i : nat) (x : A) (l : list A) : list A :=
  match i, l with
  | _, [] => []
  | O, _ :: r => x :: r
  | S j, y :: r => y :: set_at j x r
  end.

(** The loop of [dstutil.Apply] over the declarations, at index [i]: after an
    element the index advances by [1 - k] where [k] is the number of deletions. A
    negative index is out of range. *)
Fixpoint raw_loop (fuel : nat) (ex : list string) (f : list decl) (i : nat) : outcome (list decl) :=
  match fuel with
  | O => OutOfFuel
  | S fuel' =>
      match nth_error f i with
      | None => Ok f
      | Some d =>
          match remove_n (deletes ex d) i (set_at i (raw_rewrite ex d) f) with
          | None => Panic
          | Some f' =>
              if Nat.ltb (S i) (deletes ex d) then Panic
              else raw_loop fuel' ex f' (S i - deletes ex d)
          end
      end
  end.

(** [decorators.go:104-177] applied to a file. *)
Definition fixRawData (f : list decl) : outcome (list decl) :=
  ex <- raw_collect [] [] f ;; raw_loop (S (length f)) ex f 0.

(** *** PostprocessGoFile *)

(** A parsed file: its declarations, and the field [Imports] that the parser
    fills ([dst.File.Imports]) and that printing does not use. *)
Record gofile := mkFile { f_decls : list decl; f_imports : list string }.

(** What is used of [decorator], [imports] and [parser]: parsing (which yields
    the imports of the source as [f_imports]), printing, [imports.Process], and
    the imports of its result. *)
Record gotools := {
  go_parse : string -> string -> outcome gofile;
  go_print : gofile -> outcome string;
  go_imports : string -> string -> outcome string;
  go_import_list : string -> list string;
}.

Fixpoint run_appliers {A} (l : list (A -> outcome A)) (x : A) : outcome A :=
  match l with
  | [] => Ok x
  | a :: r => y <- a x ;; run_appliers r y
  end.

(** [fmt.Errorf(t + ": %w", e)] *)
Definition errorf {A} (t : string) (x : outcome A) : outcome A :=
  match x with
  | Err e => Err (wrap (t ++ ": " ++ e_text e)%string e)
  | _ => x
  end.

(** [postprocessing.go:61-66] *)
Definition added_imports (before after : list string) : list string :=
  filter (fun p => negb (mem p before)) after.

(** [postprocessing.go:70]: ["\n\t"], and the text. *)
Definition next_line : string := String (ascii_of_nat 10) (String (ascii_of_nat 9) EmptyString).
Definition added_text (path : string) (added : list string) : string :=
  ("goimports added the following import statements to " ++ path ++ ": " ++ next_line ++
   String.concat next_line added ++ String (ascii_of_nat 10) EmptyString ++
   "Relying on goimports to find imports significantly slows down code generation. Either add these imports with an AST manipulation in cfg.ApplyFuncs, or set cfg.IgnoreDiscoveredImports to true")%string.

(** [postprocessing.go:31-74]. [fname] is the sanitized base name of [path]
    (see Util.v). *)
Definition postprocess (g : gotools) (fname path : string)
    (appliers : list (gofile -> outcome gofile)) (ignore : bool) (inp : string) : outcome string :=
  gf <- errorf "error parsing generated file" (go_parse g fname inp) ;;
  gf' <- run_appliers appliers gf ;;
  buf <- errorf "error formatting generated file" (go_print g gf') ;;
  byt <- errorf "goimports processing of generated file failed" (go_imports g fname buf) ;;
  if ignore then Ok byt
  else match added_imports (f_imports gf') (go_import_list g byt) with
       | [] => Ok byt
       | added => Err (new_err (added_text path added))
       end.

(** A pass over the declarations as an applier. *)
Definition on_decls (p : list decl -> outcome (list decl)) (f : gofile) : outcome gofile :=
  ds <- p (f_decls f) ;; Ok (mkFile ds (f_imports f)).

(** *** GenerateTypesOpenAPI *)

(** [TypeConfigOpenAPI], [gen.go:35-63]; the nested [Config] is not modelled here
    (see Oapi.v). *)
Record type_config := mkTC {
  tc_package : string;
  tc_apply : list (gofile -> outcome gofile);
  tc_ignore_imports : bool;
  tc_no_optional_pointers : bool;
  tc_decl_in_comments : bool;
}.
Definition no_type_config : type_config := mkTC "" [] false false false.

(** What [GenerateTypesOpenAPI] uses: the name of the lineage; the OpenAPI
    document as text (lines 82-96: [openapi.GenerateSchema], [yaml.Marshal],
    [LoadFromData]); the code generator, given the package name (lines 101-123);
    [fixTODOComments]. *)
Record type_env := {
  te_name : string;
  te_openapi : outcome string;
  te_codegen : string -> string -> outcome string;
  te_todo : gofile -> outcome gofile;
}.

(** [gen.go:71-80] *)
Definition type_appliers (e : type_env) (cfg : type_config) : list (gofile -> outcome gofile) :=
  [on_decls (fun f => Ok (depointerizer (tc_no_optional_pointers cfg) f));
   on_decls fixRawData; on_decls fixUnderscoreInTypeName]
  ++ (if tc_decl_in_comments cfg then [] else [te_todo e])
  ++ tc_apply cfg.

(** [gen.go:66-131]: the result and what the [Config] holds afterwards; [None] is
    a nil [cfg]. The package name is stored in the caller's [Config] (line 98). *)
Definition types_openapi (g : gotools) (san : string -> string) (e : type_env) (cfg : option type_config)
  : outcome string * option type_config :=
  let c := match cfg with Some c => c | None => no_type_config end in
  match te_openapi e with
  | Ok doc =>
      let pkg := if String.eqb (tc_package c) "" then te_name e else tc_package c in
      let c' := mkTC pkg (tc_apply c) (tc_ignore_imports c) (tc_no_optional_pointers c)
                     (tc_decl_in_comments c) in
      (src <- errorf "openapi generation failed" (te_codegen e pkg doc) ;;
       postprocess g (san (te_name e ++ "_type_gen.go")%string) (te_name e ++ "_type_gen.go")%string
         (type_appliers e c) (tc_ignore_imports c) src,
       option_map (fun _ => c') cfg)
  | Err x => (Err x, cfg)
  | Panic => (Panic, cfg)
  | OutOfFuel => (OutOfFuel, cfg)
  end.

(** *** GenerateLineageBinding *)

(** [BindingConfig], [gen.go:181-271], without the fields that are handed to
    [PostprocessGoFile]. [bc_cuepath] is [CuePath.String()]; [bc_assignee] is
    [Assignee.String()]. *)
Record binding_config := mkBC {
  bc_embed : string;
  bc_loaddir : string;
  bc_mod : string;
  bc_title : string;
  bc_cuepath : string;
  bc_suffix : bool;
  bc_private : bool;
  bc_assignee : option string;
  bc_target : N * N;
  bc_package : string;
}.
Definition no_binding_config : binding_config := mkBC "" "" "" "" "" false false None (0%N, 0%N) "".

(** [bindingVars], [gen.go:353-391], without [TargetSchemaVersion] and [Assignee],
    which are copied. *)
Record binding_vars := mkBV {
  bv_name : string;
  bv_package : string;
  bv_embed : string;
  bv_loaddir : string;
  bv_cuepath : string;
  bv_mod : string;
  bv_base : string;
  bv_gen_embed : bool;
  bv_gen_fs : bool;
  bv_gen_loader : bool;
  bv_factory : string;
  bv_convergent : bool;
  bv_init : string;
}.

(** [gen.go:292-337]. [title], [lower], [quote] are [strings.Title],
    [strings.ToLower] and [fmt.Sprintf("%q", _)]. *)
Definition binding_variables (title lower quote : string -> string) (name : string)
    (cfg : option binding_config) : binding_vars :=
  let c := match cfg with Some c => c | None => no_binding_config end in
  let suffix :=
    if bc_suffix c
    then (if String.eqb (bc_title c) "" then title name else bc_title c)
    else "" in
  let plain := ("Lineage" ++ suffix)%string in
  let conv := match bc_assignee c with Some _ => true | None => false end in
  mkBV name
    (if String.eqb (bc_package c) "" then lower name else bc_package c)
    (bc_embed c) (bc_loaddir c) (quote (bc_cuepath c)) (bc_mod c)
    (if conv then ("base" ++ plain)%string
     else if bc_private c then ("do" ++ plain)%string else plain)
    (negb (String.eqb (bc_embed c) ""))
    (negb (String.eqb (bc_mod c) ""))
    (negb (String.eqb (bc_loaddir c) ""))
    (if conv && bc_private c then ("do" ++ plain)%string else plain)
    conv
    (match bc_assignee c with
     | None => ""
     | Some a => if has_prefix a "*"
                 then ("new(" ++ substring 1 (String.length a - 1) a ++ ")")%string
                 else (a ++ "{}")%string
     end).

(** What [binding.tmpl] declares at package level. The fixed text, the comments
    and the imports are dropped. *)
Inductive bitem :=
(** [func name(...)] and the functions of the package that it calls *)
| BFunc (name : string) (calls : list string)
(** [var _ T = name] *)
| BGuard (name : string)
(** [//go:embed path] with [var name embed.FS] *)
| BEmbed (path name : string).

(** [binding.tmpl:14-118] *)
Definition template_items (v : binding_vars) : list bitem :=
  let n := bv_name v in
  (* lines 14-46 *)
  (if bv_convergent v then [BFunc (bv_factory v) [bv_base v]] else [])
  (* lines 61-98 *)
  ++ [BFunc (bv_base v) [("loadInstanceFor" ++ n)%string]]
  (* lines 101-102 *)
  ++ (if bv_convergent v then [BGuard (bv_factory v)] else [])
  ++ [BGuard (bv_base v)]
  (* lines 104-112 *)
  ++ (if bv_gen_embed v
      then BEmbed (bv_embed v) ("themaFSFor" ++ n)%string ::
           (if bv_gen_fs v
            then [BFunc ("getThemaFSFor" ++ n)%string [("themaFSFor" ++ n)%string]]
            else [])
      else [])
  (* lines 114-118 *)
  ++ (if bv_gen_loader v
      then [BFunc ("loadInstanceFor" ++ n)%string [("getThemaFSFor" ++ n)%string]]
      else []).

(** Where the settings end up: the package clause (line 1), the path looked up (line
    87), the version and the value given to [BindType] and the type parameter of the
    convergent lineage (lines 30-46), the embedded path, the module name given to
    [AsModFS] and the directory given to [InstanceWithThema] (lines 104-118). *)
Record binding_text := mkBT {
  bt_package : string;
  bt_lookup : option string;
  bt_bind : option (string * (N * N) * string);
  bt_embed : option string;
  bt_module : option string;
  bt_loaddir : option string;
}.
Definition template_text (v : binding_vars) (c : binding_config) : binding_text :=
  mkBT (bv_package v)
    (if String.eqb (bv_cuepath v) "" then None else Some (bv_cuepath v))
    (match bc_assignee c with
     | Some a => if bv_convergent v then Some (a, bc_target c, bv_init v) else None
     | None => None
     end)
    (if bv_gen_embed v then Some (bv_embed v) else None)
    (if bv_gen_embed v && bv_gen_fs v then Some (bv_mod v) else None)
    (if bv_gen_loader v then Some (bv_loaddir v) else None).

Definition generate_binding (title lower quote : string -> string) (name : string)
    (cfg : option binding_config) : list bitem :=
  template_items (binding_variables title lower quote name cfg).

Definition generate_binding_text (title lower quote : string -> string) (name : string)
    (cfg : option binding_config) : binding_text :=
  template_text (binding_variables title lower quote name cfg)
    (match cfg with Some c => c | None => no_binding_config end).
