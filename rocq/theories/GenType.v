(** Go types from OpenAPI schemas
    ([internal/deepmap/oapi-codegen/pkg/codegen]: [schema.go], [merge_schemas.go],
    [codegen.go], [utils.go], [templates/typedef.tmpl], [templates/constants.tmpl]).

    The options are those thema sets ([encoding/gocode/gen.go:99-117]): all
    compatibility options are off, except that enum values are always prefixed.
    Left out: extensions ([x-go-type] and the like), discriminators, references
    to other documents (the loader refuses them, and no import mapping is set)
    and the parts of a document that are not [components/schemas]. *)
From Verif Require Import Prelude Strings Version Util GenName.
Local Open Scope string_scope.
Local Open Scope list_scope.

(** *** Documents *)

(** The fields of [openapi3.Schema] that hold no schemas. An enum value is the
    string [%v] makes of it; of the default only its presence is kept. *)
Record base := mkBase {
  b_type : string; b_format : string; b_desc : string;
  b_enum : list string; b_required : list string;
  b_has : bool;                    (* AdditionalProperties.Has: set and true *)
  b_nullable : bool; b_readonly : bool; b_writeonly : bool; b_deprecated : bool;
  b_default : bool; b_unique : bool; b_exmin : bool; b_exmax : bool; b_allowempty : bool
}.

(** [openapi3.Schema] and [openapi3.SchemaRef]. [Properties] is a map: its keys
    are distinct. The lists are absent if they are [nil]. *)
Inductive schema :=
| Sch (b : base) (props : list (string * sref)) (items addl : option sref)
      (allOf anyOf oneOf : option (list sref))
with sref :=
| Ref (r : string)
| Inl (s : schema).

Definition s_base (s : schema) := match s with Sch b _ _ _ _ _ _ => b end.
Definition s_props (s : schema) := match s with Sch _ p _ _ _ _ _ => p end.
Definition s_items (s : schema) := match s with Sch _ _ i _ _ _ _ => i end.
Definition s_addl (s : schema) := match s with Sch _ _ _ a _ _ _ => a end.
Definition s_allOf (s : schema) := match s with Sch _ _ _ _ l _ _ => l end.
Definition s_anyOf (s : schema) := match s with Sch _ _ _ _ _ l _ => l end.
Definition s_oneOf (s : schema) := match s with Sch _ _ _ _ _ _ l => l end.

Definition ref_of (r : sref) : string := match r with Ref r => r | Inl _ => "" end.
Definition value (env : string -> schema) (r : sref) : schema :=
  match r with Ref r => env r | Inl s => s end.

(** [sort.Strings] of the keys of a map. *)
Fixpoint str_leb (a b : string) : bool :=
  match a, b with
  | EmptyString, _ => true
  | String _ _, EmptyString => false
  | String c r, String d t =>
      if Ascii.eqb c d then str_leb r t else N.leb (N_of_ascii c) (N_of_ascii d)
  end.
Fixpoint insert {A} (x : string * A) (l : list (string * A)) : list (string * A) :=
  match l with
  | [] => [x]
  | y :: r => if str_leb (fst x) (fst y) then x :: l else y :: insert x r
  end.
Definition by_key {A} (l : list (string * A)) : list (string * A) := fold_right insert [] l.

(** *** Go schemas *)

(** [schema.go:78-89] without the schema, the form tag and the extensions. *)
Record pinfo := mkP {
  p_name : string; p_desc : string;
  p_req : bool; p_null : bool; p_ro : bool; p_wo : bool; p_dep : bool
}.

(** [schema.go:13-40]; of [AdditionalPropertiesType] only what
    [additionalPropertiesType] makes of it, [ArrayType] is not read.
    A [TypeDefinition] ([schema.go:159-170]) is its names and its schema. *)
Inductive gsch :=
| GSch (typ ref desc : string) (alias skip : bool) (enum : list (string * string))
       (props : list (pinfo * gsch)) (has : bool) (addl : string)
       (types : list (string * string * gsch)) (union : list string) (oapi : option schema).

Definition g_type (g : gsch) := match g with GSch t _ _ _ _ _ _ _ _ _ _ _ => t end.
Definition g_ref (g : gsch) := match g with GSch _ r _ _ _ _ _ _ _ _ _ _ => r end.
Definition g_desc (g : gsch) := match g with GSch _ _ d _ _ _ _ _ _ _ _ _ => d end.
Definition g_alias (g : gsch) := match g with GSch _ _ _ a _ _ _ _ _ _ _ _ => a end.
Definition g_skip (g : gsch) := match g with GSch _ _ _ _ s _ _ _ _ _ _ _ => s end.
Definition g_enum (g : gsch) := match g with GSch _ _ _ _ _ e _ _ _ _ _ _ => e end.
Definition g_props (g : gsch) := match g with GSch _ _ _ _ _ _ p _ _ _ _ _ => p end.
Definition g_has (g : gsch) := match g with GSch _ _ _ _ _ _ _ h _ _ _ _ => h end.
Definition g_addl (g : gsch) := match g with GSch _ _ _ _ _ _ _ _ a _ _ _ => a end.
Definition g_types (g : gsch) := match g with GSch _ _ _ _ _ _ _ _ _ t _ _ => t end.
Definition g_union (g : gsch) := match g with GSch _ _ _ _ _ _ _ _ _ _ u _ => u end.
Definition g_oapi (g : gsch) := match g with GSch _ _ _ _ _ _ _ _ _ _ _ o => o end.

(** A schema that is only a type. *)
Definition plain (t desc : string) (alias : bool) (o : option schema) : gsch :=
  GSch t "" desc alias false [] [] false "" [] [] o.

(** Giving a schema the name of a new type definition: [RefType] and
    [AdditionalTypes]. *)
Definition named (n : string) (td : string * string * gsch) (g : gsch) : gsch :=
  match g with
  | GSch t _ d a s e p h x ts u o => GSch t n d a s e p h x (ts ++ [td]) u o
  end.
Definition with_oapi (o : option schema) (g : gsch) : gsch :=
  match g with
  | GSch t r d a s e p h x ts u _ => GSch t r d a s e p h x ts u o
  end.

(** [schema.go:46-51] *)
Definition typeDecl (g : gsch) : string :=
  if String.eqb (g_ref g) "" then g_type g else g_ref g.

(** [schema.go:69-76] *)
Fixpoint additionalTypeDefs (g : gsch) : list (string * string * gsch) :=
  match g with
  | GSch _ _ _ _ _ _ props _ _ types _ _ =>
      flat_map (fun p => additionalTypeDefs (snd p)) props ++ types
  end.

(** *** Text of structs *)

(** [schema.go:95-107] *)
Definition goTypeDef (p : pinfo) (g : gsch) : string :=
  let d := typeDecl g in
  if negb (g_skip g) && (negb (p_req p) || p_null p || p_ro p || p_wo p) then
    if String.eqb d "" then d else ("*" ++ d)%string
  else d.

Definition backquote : string := String (ascii_of_nat 96) "".
Definition dquote : string := String (ascii_of_nat 34) "".

(** The tags of [schema.go:672-710]. *)
Definition tag_of (p : pinfo) (g : gsch) : option string :=
  if (p_req p && negb (p_ro p) && negb (p_wo p)) || p_null p then Some (p_name p)
  else if String.eqb (goTypeDef p g) "" then None
  else Some (p_name p ++ ",omitempty")%string.

Section Gen.
Variable u : unicode.

(** One round of the loop of [schema.go:628-714]; [first] tells the first one. *)
Definition genField (first : bool) (pg : pinfo * gsch) : string :=
  let (p, g) := pg in
  let name := schemaNameToTypeName u (p_name p) in
  ((if String.eqb (p_desc p) "" then ""
    else (if first then "" else newline) ++ stringWithTypeNameToGoComment (p_desc p) name ++ newline)
   ++ (if p_dep p then deprecationComment "" ++ newline else "")
   ++ "    " ++ name ++ " " ++ goTypeDef p g
   ++ match tag_of p g with
      | None => ""
      | Some t => backquote ++ "json:" ++ dquote ++ t ++ dquote ++ backquote
      end)%string.
Definition genFields (ps : list (pinfo * gsch)) : list string :=
  match ps with
  | [] => []
  | p :: r => genField true p :: map (genField false) r
  end.

(** [schema.go:716-740] *)
Definition genStruct (props : list (pinfo * gsch)) (has : bool) (addl : string) (union : list string)
  : string :=
  String.concat newline
    (["struct {"] ++ genFields props
     ++ (if has then
           [("AdditionalProperties map[string]" ++ addl ++ " " ++ backquote ++ "json:" ++ dquote ++ "-"
             ++ dquote ++ backquote)%string]
         else [])
     ++ match union with [] => [] | _ => ["union json.RawMessage"] end
     ++ ["}"]).

(** *** References *)

Fixpoint last_part (l : list string) : string :=
  match l with [] => "" | [x] => x | _ :: r => last_part r end.
Definition hash : string := "#".

(** [utils.go:370-382] *)
Definition isGoTypeReference (r : string) : bool := negb (String.eqb r "") && contains r hash.

(** [utils.go:318-363], [825-858] for references within the document: without
    [x-go-name] the name a schema was given is its Go name. *)
Definition refPathToGoType (r : string) : outcome string :=
  if has_prefix r hash then
    let parts := split_str r "/" in
    if Nat.eqb (length parts) 4 then Ok (schemaNameToTypeName u (last_part parts))
    else Err (new_err ("unexpected reference depth: " ++ itoa (length parts) ++ " for ref: " ++ r
                       ++ " local: true"))
  else
    let parts := split_str r hash in
    if Nat.eqb (length parts) 2 then
      Err (new_err ("unrecognized external reference '" ++ hd "" parts
        ++ "'; please provide the known import for this reference using option --import-mapping"))
    else Err (new_err ("unsupported reference: " ++ r)).

(** [fmt.Errorf(t + "%w", err)] *)
Definition because {A} (t : string) (o : outcome A) : outcome A :=
  match o with Err e => Err (wrap (t ++ e_text e)%string e) | _ => o end.
(** [fmt.Errorf(t + "%s", err)], and [fmt.Errorf(t)]. *)
Definition because_s {A} (t : string) (o : outcome A) : outcome A :=
  match o with Err e => Err (new_err (t ++ e_text e)%string) | _ => o end.
Definition instead {A} (t : string) (o : outcome A) : outcome A :=
  match o with Err _ => Err (new_err t) | _ => o end.

(** *** Merging *)

(** [append(a, b...)] of slices that may be [nil]. *)
Definition append_opt {A} (a b : option (list A)) : option (list A) :=
  match a, b with
  | None, None => None
  | None, Some [] => None
  | _, _ => Some (match a with Some l => l | None => [] end ++ match b with Some l => l | None => [] end)
  end.

(** [utils.go:665-674] *)
Definition hasAdditional (s : schema) : bool :=
  b_has (s_base s) || match s_addl s with Some _ => true | None => false end.

Definition zero_base : base :=
  mkBase "" "" "" [] [] false false false false false false false false false false.
Definition zero_schema : schema := Sch zero_base [] None None None None None.

(** What follows the flattening in [mergeOpenapiSchemas],
    [merge_schemas.go:121-223]; [one] is [result.OneOf]. *)
Definition merge_flat (one : option (list sref)) (s1 s2 : schema) : outcome schema :=
  let a := s_base s1 in let b := s_base s2 in
  let fail t := Err (new_err t) in
  if negb (String.eqb (b_type a) "") && negb (String.eqb (b_type b) "") && negb (String.eqb (b_type a) (b_type b))
  then fail "can not merge incompatible types"
  else if negb (String.eqb (b_format a) (b_format b)) then fail "can not merge incompatible formats"
  else if b_default a || b_default b then fail "merging two sets of defaults is undefined"
  else if xorb (b_unique a) (b_unique b) then fail "merging two schemas with different UniqueItems"
  else if xorb (b_exmin a) (b_exmin b) then fail "merging two schemas with different ExclusiveMin"
  else if xorb (b_exmax a) (b_exmax b) then fail "merging two schemas with different ExclusiveMax"
  else if xorb (b_nullable a) (b_nullable b) then fail "merging two schemas with different Nullable"
  else if xorb (b_readonly a) (b_readonly b) then fail "merging two schemas with different ReadOnly"
  else if xorb (b_writeonly a) (b_writeonly b) then fail "merging two schemas with different WriteOnly"
  else if xorb (b_allowempty a) (b_allowempty b) then fail "merging two schemas with different AllowEmptyValue"
  else if hasAdditional s1 && hasAdditional s2
  then fail "merging two schemas with additional properties, this is unhandled"
  else
    Ok (Sch (mkBase (b_type a) (b_format a) "" (b_enum a ++ b_enum b) (b_required a ++ b_required b)
               false (b_nullable a) (b_readonly a) (b_writeonly a) false false
               (b_unique a) (b_exmin a) (b_exmax a) (b_allowempty a))
            (fold_left (fun m kv => put (fst kv) (snd kv) m) (s_props s2)
               (fold_left (fun m kv => put (fst kv) (snd kv) m) (s_props s1) []))
            None
            (match s_addl s2 with Some x => Some x | None => s_addl s1 end)
            (append_opt (s_allOf s1) (s_allOf s2)) None one).

Section Merge.
Variable env : string -> schema.
Variable mergeAll : list sref -> outcome schema.   (* mergeAllOf *)

(** [merge_schemas.go:82-223], for [allOf] merges. *)
Definition mergeOpenapi (s1 s2 : schema) : outcome schema :=
  let one := append_opt (s_oneOf s1) (s_oneOf s2) in
  s1' <- match s_allOf s1 with
         | Some l => instead "error transitive merging AllOf on schema 1" (mergeAll l)
         | None => Ok s1
         end ;;
  s2' <- match s_allOf s2 with
         | Some l => instead "error transitive merging AllOf on schema 2" (mergeAll l)
         | None => Ok s2
         end ;;
  merge_flat one s1' s2'.

(** The loops of [merge_schemas.go:29-39] and [70-76]. *)
Fixpoint merge_loop (acc : schema) (l : list sref) : outcome schema :=
  match l with
  | [] => Ok acc
  | r :: rest =>
      m <- because "error merging schemas for AllOf: " (mergeOpenapi acc (value env r)) ;;
      merge_loop m rest
  end.
End Merge.

(** [merge_schemas.go:68-78]; the bound counts nested [allOf]s. *)
Fixpoint mergeAllOf (env : string -> schema) (fuel : nat) (l : list sref) : outcome schema :=
  match fuel with
  | O => OutOfFuel
  | S n => merge_loop env (mergeAllOf env n) zero_schema l
  end.

(** *** Schemas *)

Definition inner_base (desc : string) : base :=
  mkBase "inner" "" desc [] [] false false false false false false false false false false.

(** The loop of [schema.go:261-285]: whether an inlined schema was met, and the
    properties. A schema without properties has a [nil] map, to which nothing can
    be written (an empty [properties], which is no [nil] map, is not modelled). *)
Fixpoint allof_loop (env : string -> schema) (props : list (string * sref)) (l : list sref)
  : outcome (bool * list (string * sref)) :=
  match l with
  | [] => Ok (false, props)
  | r :: rest =>
      if String.eqb (ref_of r) "" then Ok (true, props)
      else
        let n := last_part (split_str (ref_of r) "/") in
        if contains n "_" then allof_loop env props rest
        else
          match props with
          | [] => Panic
          | _ =>
              allof_loop env
                (put n (Inl (Sch (inner_base (b_desc (s_base (value env r)))) [] None None None None None)) props)
                rest
          end
  end.

(** [schema.go:538-563]: integer formats. *)
Definition int_type (f : string) : string :=
  if existsb (String.eqb f)
       ["int64"; "int32"; "int16"; "int8"; "int"; "uint64"; "uint32"; "uint16"; "uint8"; "uint"]
  then f else "int".

(** [schema.go:580-602]: string formats. *)
Definition string_type (f : string) : string :=
  if String.eqb f "byte" then "[]byte"
  else if String.eqb f "email" then "openapi_types.Email"
  else if String.eqb f "date" then "openapi_types.Date"
  else if String.eqb f "date-time" then "time.Time"
  else if String.eqb f "json" then "json.RawMessage"
  else if String.eqb f "uuid" then "openapi_types.UUID"
  else if String.eqb f "binary" then "[]byte"
  else "string".

Definition dotted (path : list string) : string := String.concat "." (map (toCamelCase u) path).

(** The additional type of [schema.go:339-353], [384-399] and [517-532]: the
    schema becomes a type of its own if it has additional properties or is a
    union. Simplified: the JSON name, used in a comment, is always the path in
    camel case; in Go this depends on the capacity of the slice, since
    [PathToTypeName] changes its argument. *)
Definition own_type (path : list string) (g : gsch) : gsch :=
  if (g_has g || match g_union g with [] => false | _ => true end) && String.eqb (g_ref g) ""
  then named (pathToTypeName u path) (pathToTypeName u path, dotted path, g) g
  else g.

Section Schema.
Variable env : string -> schema.
Variable gen : option sref -> list string -> outcome gsch.      (* GenerateGoSchema *)
Variable mergeAll : list sref -> outcome schema.                (* mergeAllOf *)

(** [schema.go:505-609] [oapiSchemaToGoType]: type, skip, additional types,
    properties and alias. *)
Definition oapiSchemaToGoType (s : schema) (path : list string)
  : outcome (string * bool * list (string * string * gsch) * list (pinfo * gsch) * bool) :=
  let f := b_format (s_base s) in
  let t := b_type (s_base s) in
  if String.eqb t "array" then
    a <- because "error generating type for array: " (gen (s_items s) path) ;;
    let a' := own_type (path ++ ["Item"]) a in
    Ok (("[]" ++ typeDecl a')%string, false, g_types a', g_props a', true)
  else if String.eqb t "integer" then Ok (int_type f, false, [], [], true)
  else if String.eqb t "number" then
    if String.eqb f "double" then Ok ("float64", false, [], [], true)
    else if String.eqb f "float" || String.eqb f "" then Ok ("float32", false, [], [], true)
    else Err (new_err ("invalid number format: " ++ f))
  else if String.eqb t "boolean" then
    if String.eqb f "" then Ok ("bool", false, [], [], true)
    else Err (new_err ("invalid format (" ++ f ++ ") for boolean"))
  else if String.eqb t "string" then Ok (string_type f, String.eqb f "json", [], [], true)
  else if String.eqb t "inner" then Ok ("", false, [], [], false)
  else Err (new_err ("unhandled Schema type: " ++ t)).

(** The loop of [schema.go:374-416] over the properties. *)
Fixpoint gen_props (required : list string) (path : list string) (ps : list (string * sref))
  : outcome (list (pinfo * gsch)) :=
  match ps with
  | [] => Ok []
  | (n, r) :: rest =>
      g <- because ("error generating Go schema for property '" ++ n ++ "': ") (gen (Some r) (path ++ [n])) ;;
      let v := s_base (value env r) in
      let p := mkP n (b_desc v) (existsb (String.eqb n) required) (b_nullable v) (b_readonly v)
                 (b_writeonly v) (b_deprecated v) in
      more <- gen_props required path rest ;;
      Ok ((p, own_type (path ++ [n]) g) :: more)
  end.

(** [schema.go:778-828] without discriminator: the additional types and the
    elements of a union. *)
Fixpoint gen_union (i : nat) (path : list string) (l : list sref)
  : outcome (list (string * string * gsch) * list string) :=
  match l with
  | [] => Ok ([], [])
  | r :: rest =>
      g <- gen (Some r) path ;;
      let tn := schemaNameToTypeName u (pathToTypeName u (path ++ [itoa i])) in
      more <- gen_union (S i) path rest ;;
      if String.eqb (ref_of r) "" then Ok ((tn, "", g) :: fst more, tn :: snd more)
      else Ok (fst more, g_type g :: snd more)
  end.

Definition gen_union_opt (t : string) (path : list string) (l : option (list sref)) :=
  match l with
  | None => Ok ([], [])
  | Some l => because t (gen_union 0 path l)
  end.

(** [schema.go:300-431]: objects and schemas without type. [props] are the
    properties with those of [allOf]. *)
Definition gen_object (s : schema) (props : list (string * sref)) (path : list string) : outcome gsch :=
  let b := s_base s in
  let none := match props, s_anyOf s, s_oneOf s with [], None, None => true | _, _, _ => false end in
  if none && negb (hasAdditional s) then
    Ok (plain (if String.eqb (b_type b) "object" then "map[string]any" else "any") (b_desc b) true (Some s))
  else
    ax <- match s_addl s with
          | None => Ok ("any", [])
          | Some r =>
              a <- because "error generating type for additional properties: " (gen (Some r) path) ;;
              let path' := path ++ ["AdditionalProperties"] in
              let a' :=
                if g_has a || match g_union a with [] => false | _ => true end
                then named (pathToTypeName u path') (pathToTypeName u path', dotted path', a) a
                else a in
              Ok (typeDecl a', g_types a')
          end ;;
    if none then
      Ok (GSch ("map[string]" ++ fst ax) "" (b_desc b) false false [] [] false (fst ax) (snd ax) [] (Some s))
    else
      ps <- gen_props (b_required b) path (by_key props) ;;
      any <- gen_union_opt "error generating type for anyOf: " path (s_anyOf s) ;;
      one <- gen_union_opt "error generating type for oneOf: " path (s_oneOf s) ;;
      let union := snd any ++ snd one in
      Ok (GSch (genStruct ps (hasAdditional s) (fst ax) union) "" (b_desc b) false false [] ps
            (hasAdditional s) (fst ax) (snd ax ++ fst any ++ fst one) union (Some s)).

(** The map of [schema.go:458-472], in the order of its entries (a Go map has
    none: where two names become equal here, either value may win). *)
Definition enum_map (m : list (string * string)) : list (string * string) :=
  fold_left (fun acc kv => put (schemaNameToTypeName u (fst kv)) (snd kv) acc) m [].

(** [schema.go:432-500]: enums and other types. *)
Definition gen_other (s : schema) (path : list string) : outcome gsch :=
  let b := s_base s in
  r <- because "error resolving primitive type: " (oapiSchemaToGoType s path) ;;
  let '(t, skip, types, props, alias) := r in
  match b_enum b with
  | [] => Ok (GSch t "" (b_desc b) alias skip [] props false "" types [] (Some s))
  | vs =>
      m <- sanitizeEnumNames u vs vs ;;
      let g := GSch t "" (b_desc b) false skip (enum_map m) props false "" types [] (Some s) in
      if Nat.ltb 1 (length path) then
        let n := schemaNameToTypeName u (pathToTypeName u path) in
        Ok (named n (n, dotted path, g) g)
      else Ok g
  end.

(** [schema.go:253-501] and [merge_schemas.go:22-41] for a schema that is no reference. *)
Definition gen_schema (s : schema) (path : list string) : outcome gsch :=
  let t := b_type (s_base s) in
  mp <- match s_allOf s with None => Ok (false, s_props s) | Some l => allof_loop env (s_props s) l end ;;
  let (merge, props) := mp : bool * list (string * sref) in
  let here props :=
    if String.eqb t "" || String.eqb t "object" then gen_object s props path else gen_other s path in
  if merge then
    m <- because "error merging schemas: "
      (match s with
       | Sch b _ i a _ any one =>
           m <- merge_loop env mergeAll (Sch b props i a None any one)
                  (match s_allOf s with Some l => l | None => [] end) ;;
           gen (Some (Inl m)) path
       end) ;;
    Ok (with_oapi (Some s) m)
  else here props.
End Schema.

(** [schema.go:223-501] [GenerateGoSchema]. *)
Fixpoint generateGoSchema (env : string -> schema) (fuel : nat) (r : option sref) (path : list string)
  : outcome gsch :=
  match fuel with
  | O => OutOfFuel
  | S n =>
      match r with
      | None => Ok (plain "any" "" false None)
      | Some r =>
          if isGoTypeReference (ref_of r) then
            t <- because_s ("error turning reference (" ++ ref_of r ++ ") into a Go type: ")
                   (refPathToGoType (ref_of r)) ;;
            Ok (plain t (b_desc (s_base (value env r))) true None)
          else gen_schema env (generateGoSchema env n) (mergeAllOf env n) (value env r) path
      end
  end.

(** *** Files *)

(** [codegen.go:442-474]; [renameSchema] ([utils.go:751-767]) without
    extensions. *)
Fixpoint types_for (env : string -> schema) (fuel : nat) (l : list (string * sref))
  : outcome (list (string * string * gsch)) :=
  match l with
  | [] => Ok []
  | (n, r) :: rest =>
      g <- because ("error converting Schema " ++ n ++ " to Go type: ")
             (generateGoSchema env fuel (Some r) [n]) ;;
      more <- types_for env fuel rest ;;
      Ok ((schemaNameToTypeName u n, n, g) :: additionalTypeDefs g ++ more)
  end.
Definition generateTypesForSchemas (env : string -> schema) (fuel : nat) (l : list (string * sref)) :=
  types_for env fuel (by_key l).

(** The loop of [codegen.go:602-622]; [same] is [reflect.DeepEqual] of the
    OpenAPI schemas. *)
Fixpoint unique_types (same : option schema -> option schema -> bool)
    (seen : list (string * string * gsch)) (l : list (string * string * gsch))
  : outcome (list (string * string * gsch)) :=
  match l with
  | [] => Ok []
  | d :: rest =>
      match find (fun e => String.eqb (fst (fst e)) (fst (fst d))) seen with
      | Some e =>
          if same (g_oapi (snd e)) (g_oapi (snd d)) then unique_types same seen rest
          else Err (new_err ("duplicate typename '" ++ fst (fst d) ++ "' detected, can't auto-rename, "
                     ++ "please use x-go-name to specify your own name for one of them"))
      | None => more <- unique_types same (d :: seen) rest ;; Ok (d :: more)
      end
  end.

(** [typedef.tmpl] for one type. *)
Definition typedef_text (d : string * string * gsch) : string :=
  let '(n, j, g) := d in
  (newline ++ (if String.eqb (g_desc g) "" then "// " ++ n ++ " defines model for " ++ j ++ "."
               else stringWithTypeNameToGoComment (g_desc g) n)
   ++ newline ++ "type " ++ n ++ " " ++ (if g_alias g then "=" else "") ++ " " ++ typeDecl g ++ newline)%string.

(** [codegen.go:602-631] *)
Definition generateTypes same (l : list (string * string * gsch)) : outcome string :=
  ts <- unique_types same [] l ;; Ok (String.concat "" (map typedef_text ts) ++ newline)%string.

(** [utils.go:98-105] *)
Definition uppercaseFirst (s : string) : string :=
  match runes s with [] => "" | r :: rest => encode (to_upper u r :: rest) end.

(** [codegen.go:633-707] and [schema.go:127-139] with the prefix always on, so
    that the search for conflicts changes nothing: type name, quotes and the
    constants of each enum. *)
Fixpoint enum_types (seen : list string) (l : list (string * string * gsch))
  : list (string * string * list (string * string)) :=
  match l with
  | [] => []
  | (n, _, g) :: rest =>
      if existsb (String.eqb n) seen then enum_types seen rest
      else
        match g_enum g with
        | [] => enum_types (n :: seen) rest
        | vs => (n, (if String.eqb (g_type g) "string" then dquote else ""),
                 fold_left (fun acc kv => put (n ++ uppercaseFirst (fst kv))%string (snd kv) acc) vs [])
                :: enum_types (n :: seen) rest
        end
  end.

(** [constants.tmpl] for the enums: a template ranges over a map in the order of
    its keys. *)
Definition enum_text (e : string * string * list (string * string)) : string :=
  let '(n, q, vs) := e in
  (newline ++ "// Defines values for " ++ n ++ "." ++ newline ++ "const (" ++ newline
   ++ String.concat "" (map (fun kv => newline ++ "  " ++ fst kv ++ " " ++ n ++ " = " ++ q ++ snd kv ++ q)%string (by_key vs))
   ++ newline ++ ")" ++ newline)%string.
Definition generateEnums (l : list (string * string * gsch)) : string :=
  (newline ++ String.concat "" (map enum_text (enum_types [] l)) ++ newline)%string.
End Gen.
