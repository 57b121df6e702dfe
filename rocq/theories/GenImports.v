(** The imports of generated Go code: [internal/deepmap/oapi-codegen/pkg/codegen],
    [codegen.go:45-95, 846-1033] and [utils.go:862-899]. *)
From Verif Require Import Prelude Strings Version Util GenName GenType GenGlobals.
Local Open Scope string_scope.
Local Open Scope list_scope.

(** *** Documents *)

(** The value of an extension, as JSON is decoded into [interface{}]. [XOther] are
    booleans, numbers and lists, by the name of their Go type. *)
Inductive ext := XNull | XStr (s : string) | XMap (fields : list (string * ext)) | XOther (gotype : string).

(** [openapi3.SchemaRef] and [openapi3.Schema], as far as imports go. A [nil]
    reference is [None] where one occurs. The lists of extensions, of properties
    and of fields of an extension are in the order in which Go happens to range
    over the maps. *)
Inductive ischema :=
| ISch (typ : string) (exts : list (string * ext)) (props : list (string * iref)) (items addl : option iref)
       (allOf anyOf oneOf : list iref)
with iref := IRef (ref : string) (value : option ischema).

(** [%T] *)
Definition go_type_of (x : ext) : string :=
  match x with
  | XNull => "<nil>"
  | XStr _ => "string"
  | XMap _ => "map[string]interface {}"
  | XOther t => t
  end.

(** *** Extensions *)

(** [v.Extensions[k]], [None] for [nil]. *)
Definition extension (exts : list (string * ext)) (k : string) : option ext :=
  match get k exts with
  | Some XNull | None => None
  | Some x => Some x
  end.

(** [strings.EqualFold(s, k)] for a [k] of ASCII letters other than k and s: no
    character outside of ASCII folds to these. *)
Definition fold_char (c : ascii) : ascii :=
  let n := N_of_ascii c in if a_upper n then ascii_of_N (n + 32) else c.
Fixpoint fold (s : string) : string :=
  match s with EmptyString => "" | String c r => String (fold_char c) (fold r) end.
Definition equalFold (s k : string) : bool := String.eqb (fold s) (fold k).

Definition convert_err {A} (x : ext) : outcome A := Err (new_err ("failed to convert type: " ++ go_type_of x)).

(** The loop of [utils.go:875-889]. *)
Fixpoint import_fields (l : list (string * ext)) (gi : goImport) : outcome goImport :=
  match l with
  | [] => Ok gi
  | (k, v) :: r =>
      if equalFold k "name" then
        match v with XStr s => import_fields r (mkImport s (gi_path gi)) | _ => convert_err v end
      else if equalFold k "path" then
        match v with XStr s => import_fields r (mkImport (gi_name gi) s) | _ => convert_err v end
      else import_fields r gi
  end.

(** [utils.go:862-893] *)
Definition parseGoImportExtension (exts : list (string * ext)) : outcome (option goImport) :=
  match extension exts "x-go-type-import", extension exts "x-go-type" with
  | Some x, Some _ =>
      match x with
      | XMap l => gi <- import_fields l (mkImport "" "") ;; Ok (Some gi)
      | _ => convert_err x
      end
  | _, _ => Ok None
  end.

(** *** Collecting *)

Definition imports := list (string * goImport).

Section Quote.
(** [%q] *)
Variable quote : string -> string.

(** [codegen.go:51-56] *)
Definition import_text (gi : goImport) : string :=
  if String.eqb (gi_name gi) "" then quote (gi_path gi) else (gi_name gi ++ " " ++ quote (gi_path gi))%string.

(** [utils.go:895-899] *)
Definition mergeImports (dst src : imports) : imports := fold_left (fun m kv => put (fst kv) (snd kv) m) src dst.

(** [codegen.go:932-966], for one reference: every call has one. *)
Fixpoint goSchemaImports (r : iref) : outcome imports :=
  match r with
  | IRef _ None => Ok []
  | IRef ref (Some (ISch t exts props items _ _ _ _)) =>
      if isGoTypeReference ref then Ok []
      else
        gi <- parseGoImportExtension exts ;;
        let res := match gi with Some g => [(import_text g, g)] | None => [] end in
        if String.eqb t "" || String.eqb t "object" then
          (fix each (ps : list (string * iref)) (res : imports) : outcome imports :=
             match ps with
             | [] => Ok res
             | (_, p) :: rest => i <- goSchemaImports p ;; each rest (mergeImports res i)
             end) props res
        else if String.eqb t "array" then
          match items with
          | None => Ok res
          | Some p => i <- goSchemaImports p ;; Ok (mergeImports res i)
          end
        else Ok res
  end.
Definition opt_imports (r : option iref) : outcome imports :=
  match r with None => Ok [] | Some r => goSchemaImports r end.

(** [codegen.go:968-986] *)
Fixpoint getSchemaImports (exclude : list string) (schemas : list (string * option iref)) (res : imports)
  : outcome imports :=
  match schemas with
  | [] => Ok res
  | (n, r) :: rest =>
      if existsb (String.eqb n) exclude then getSchemaImports exclude rest res
      else i <- opt_imports r ;; getSchemaImports exclude rest (mergeImports res i)
  end.

(** [codegen.go:988-1002], [1004-1018] and [1020-1033], which differ in where the
    schema is: under [application/json], and of the parameter. *)
Fixpoint collect (l : list (option iref)) (res : imports) : outcome imports :=
  match l with
  | [] => Ok res
  | r :: rest => i <- opt_imports r ;; collect rest (mergeImports res i)
  end.

(** [openapi3.Components], as far as imports go. *)
Record icomponents := mkIC {
  ic_schemas : list (string * option iref);
  ic_bodies : list (option iref); ic_responses : list (option iref); ic_params : list (option iref)
}.

(** [codegen.go:900-930] *)
Definition getTypeDefinitionsImports (c : option icomponents) (exclude : list string) : outcome imports :=
  match c with
  | None => Ok []
  | Some c =>
      s <- getSchemaImports exclude (ic_schemas c) [] ;;
      b <- collect (ic_bodies c) [] ;;
      r <- collect (ic_responses c) [] ;;
      p <- collect (ic_params c) [] ;;
      Ok (fold_left mergeImports [s; b; r; p] [])
  end.

(** [codegen.go:62-68] *)
Definition goImports (m : imports) : list string := map (fun kv => import_text (snd kv)) m.

(** [codegen.go:105, 146-167, 249] for documents without paths, which have no
    operations: the imports that [GenerateImports] gets, if models are generated. *)
Definition externalImports (mapping : list (string * string)) (c : option icomponents) (exclude : list string)
  : outcome (list string) :=
  i <- because "error getting type definition imports: " (getTypeDefinitionsImports c exclude) ;;
  Ok (goImports (constructImportMapping mapping) ++ goImports (mergeImports [] i)).
End Quote.
