(** Go types for OpenAPI schemas: what they should be, as a tree.

    A specification for GenType.v. It covers schemas without [allOf]; the model
    is compared with it in GenTypeProofs.v. *)
From Verif Require Import Prelude Strings Version Util GenName GenNameProofs GenType.
Local Open Scope string_scope.
Local Open Scope list_scope.

(** *** Go types *)

(** A field of a struct: its name, the description it is documented with, whether
    it is marked as deprecated, and its [json] tag. *)
Record fld := mkF { f_name : string; f_doc : string; f_dep : bool; f_tag : option string }.

Inductive gty :=
| GId (n : string)
| GAs (n : string) (t : gty)   (* [n], which should name the type [t] *)
| GPtr (t : gty)
| GSlice (t : gty)
| GMap (t : gty)
| GStruct (fs : list (fld * gty)) (addl : option gty) (union : bool).

(** How a tree is written. *)
Definition render_field (first : bool) (f : fld) (t : string) : string :=
  ((if String.eqb (f_doc f) "" then ""
    else (if first then "" else newline) ++ stringWithTypeNameToGoComment (f_doc f) (f_name f) ++ newline)
   ++ (if f_dep f then "// Deprecated:" ++ newline else "")
   ++ "    " ++ f_name f ++ " " ++ t
   ++ match f_tag f with
      | None => ""
      | Some j => "`json:""" ++ j ++ """`"
      end)%string.

Fixpoint render (t : gty) : string :=
  match t with
  | GId n => n
  | GAs n _ => n
  | GPtr t => ("*" ++ render t)%string
  | GSlice t => ("[]" ++ render t)%string
  | GMap t => ("map[string]" ++ render t)%string
  | GStruct fs addl un =>
      String.concat newline
        ("struct {"
         :: match fs with
            | [] => []
            | f :: r => render_field true (fst f) (render (snd f))
                        :: map (fun f => render_field false (fst f) (render (snd f))) r
            end
         ++ match addl with
            | None => []
            | Some t => [("AdditionalProperties map[string]" ++ render t ++ " `json:""-""`")%string]
            end
         ++ (if un then ["union json.RawMessage"] else [])
         ++ ["}"])
  end.

(** *** Schemas *)

Definition formats (t : string) : list (string * gty) :=
  if String.eqb t "integer" then
    map (fun f => (f, GId f))
      ["int64"; "int32"; "int16"; "int8"; "int"; "uint64"; "uint32"; "uint16"; "uint8"; "uint"]
  else if String.eqb t "number" then
    [("double", GId "float64"); ("float", GId "float32"); ("", GId "float32")]
  else if String.eqb t "boolean" then [("", GId "bool")]
  else if String.eqb t "string" then
    [("byte", GSlice (GId "byte")); ("binary", GSlice (GId "byte")); ("date-time", GId "time.Time");
     ("date", GId "openapi_types.Date"); ("email", GId "openapi_types.Email");
     ("uuid", GId "openapi_types.UUID"); ("json", GId "json.RawMessage")]
  else [].

(** The type of a type with a format; formats that are not known do not matter
    for integers and strings. *)
Definition scalar (t f : string) : option gty :=
  match lookup f (formats t) with
  | Some g => Some g
  | None => if String.eqb t "integer" then Some (GId "int")
            else if String.eqb t "string" then Some (GId "string") else None
  end.

Definition objectlike (b : base) : bool := String.eqb (b_type b) "" || String.eqb (b_type b) "object".
Definition enumlike (b : base) : bool :=
  negb (objectlike b) && match b_enum b with [] => false | _ => true end.
Definition arraylike (b : base) : bool := String.eqb (b_type b) "array".

(** The elements of a union, and whether a schema has one at all. *)
Definition elements (l : option (list sref)) : list sref := match l with Some l => l | None => [] end.
Definition has_list (l : option (list sref)) : bool := match l with Some _ => true | None => false end.
Definition nonempty {A} (l : list A) : bool := match l with [] => false | _ => true end.
Definition enum_of (r : sref) : bool :=
  match r with Inl s => enumlike (s_base s) | Ref _ => false end.

(** Objects that become structs: those with properties and unions. *)
Definition structlike (s : schema) : bool :=
  objectlike (s_base s) && (nonempty (s_props s) || has_list (s_anyOf s) || has_list (s_oneOf s)).
Definition union_of (s : schema) : bool := nonempty (elements (s_anyOf s) ++ elements (s_oneOf s)).
Definition more_of (s : schema) : bool :=
  b_has (s_base s) || match s_addl s with Some _ => true | None => false end.

Definition letter_first (s : string) : bool := match s with String c _ => letterc c | EmptyString => false end.

Definition ref_to (n : string) : string := ("#/components/schemas/" ++ n)%string.

(** References of the form the OpenAPI encoder writes. *)
Definition good_ref (r : string) : Prop :=
  exists n, r = ref_to n /\ letter_first n = true /\ contains n "/" = false.

Section Spec.
Variable u : unicode.
Variable env : string -> schema.

Fixpoint simple (s : schema) : Prop :=
  match s with
  | Sch b props items addl allOf anyOf oneOf =>
      allOf = None /\
      (match anyOf with
       | None => True
       | Some l => (fix go (l : list sref) : Prop :=
           match l with [] => True | r :: l => simple_ref r /\ go l end) l
       end) /\
      (match oneOf with
       | None => True
       | Some l => (fix go (l : list sref) : Prop :=
           match l with [] => True | r :: l => simple_ref r /\ go l end) l
       end) /\
      match items with None => True | Some r => simple_ref r end /\
      match addl with None => True | Some r => simple_ref r end /\
      (fix go (l : list (string * sref)) : Prop :=
         match l with [] => True | p :: r => simple_ref (snd p) /\ go r end) props /\
      (objectlike b = true \/ arraylike b = true \/ scalar (b_type b) (b_format b) <> None)
  end
with simple_ref (r : sref) : Prop :=
  match r with Ref r => good_ref r | Inl s => simple s end.

Fixpoint depth (s : schema) : nat :=
  match s with
  | Sch _ props items addl _ anyOf oneOf =>
      S (Nat.max (fold_right (fun p m => Nat.max (depth_ref (snd p)) m) 1 props)
           (Nat.max (match items with None => 1 | Some r => depth_ref r end)
              (Nat.max (match addl with None => 1 | Some r => depth_ref r end)
                 (Nat.max (match anyOf with
                           | None => 1
                           | Some l => fold_right (fun r m => Nat.max (depth_ref r) m) 1 l
                           end)
                          (match oneOf with
                           | None => 1
                           | Some l => fold_right (fun r m => Nat.max (depth_ref r) m) 1 l
                           end)))))
  end
with depth_ref (r : sref) : nat :=
  match r with Ref _ => 1 | Inl s => depth s end.

(** The last part of a reference. *)
Definition ref_name (r : string) : string := schemaNameToTypeName u (last_part (split_str r "/")).

(** Structs with additional properties, unions, and enums get types of their own. *)
Definition owned (r : sref) : bool :=
  match r with
  | Inl s => structlike s && (more_of s || union_of s)
  | Ref _ => false
  end.
Definition enum_name (path : list string) : string := schemaNameToTypeName u (pathToTypeName u path).
Definition skips (r : sref) : bool :=
  match r with
  | Inl s => String.eqb (b_type (s_base s)) "string" && String.eqb (b_format (s_base s)) "json"
  | Ref _ => false
  end.

Definition is_optional (required : bool) (b : base) : bool :=
  negb required || b_nullable b || b_readonly b || b_writeonly b.
Definition json_tag (n : string) (required : bool) (b : base) : string :=
  if (required && negb (b_readonly b) && negb (b_writeonly b)) || b_nullable b
  then n else (n ++ ",omitempty")%string.

(** The field of a property whose type is [t]. *)
Definition field_of (required : list string) (n : string) (r : sref) (t : gty) : fld * gty :=
  let b := s_base (value env r) in
  let req := existsb (String.eqb n) required in
  (mkF (schemaNameToTypeName u n) (b_desc b) (b_deprecated b) (Some (json_tag n req b)),
   if is_optional req b && negb (skips r) then GPtr t else t).

(** [body]: the type of a schema at a path; [used]: how the schema is referred to
    from the place [sfx] (nothing, [Item] or [AdditionalProperties]) below it. *)
Fixpoint body (path : list string) (s : schema) {struct s} : gty :=
  match s with
  | Sch b props items addl _ anyOf oneOf =>
      if objectlike b then
        let elem := match addl with None => GId "any" | Some r => used path ["AdditionalProperties"] r end in
        let more := b_has b || match addl with Some _ => true | None => false end in
        if nonempty props || has_list anyOf || has_list oneOf then
          GStruct
            (map snd (by_key (map (fun p =>
               (fst p, field_of (b_required b) (fst p) (snd p) (used (path ++ [fst p]) [] (snd p)))) props)))
            (if more then Some elem else None)
            (nonempty (elements anyOf ++ elements oneOf))
        else if more then GMap elem
        else if String.eqb (b_type b) "object" then GMap (GId "any") else GId "any"
      else if arraylike b then
        GSlice (match items with None => GId "any" | Some r => used path ["Item"] r end)
      else match scalar (b_type b) (b_format b) with Some t => t | None => GId "any" end
  end
with used (path sfx : list string) (r : sref) {struct r} : gty :=
  match r with
  | Ref r => GId (ref_name r)
  | Inl s =>
      if enumlike (s_base s) && Nat.ltb 1 (length path) then GId (enum_name path)
      else if owned (Inl s) then GId (pathToTypeName u (path ++ sfx))
      else body path s
  end.

(** The names of the constants of an enum, without the name of the type, and
    their values; C95 says what the names are. *)
Definition constants (b : base) : list (string * string) :=
  if enumlike b then
    match sanitizeEnumNames u (b_enum b) (b_enum b) with Ok m => enum_map u m | _ => [] end
  else [].

(** A declared type: its name, the name in its comment, its description, whether
    it is an alias, its constants, and its type. *)
Definition decl := (string * string * string * bool * list (string * string) * gty)%type.

(** The declaration a schema needs where it is used. *)
Definition own (path sfx : list string) (r : sref) : list decl :=
  match r with
  | Ref _ => []
  | Inl s =>
      if enumlike (s_base s) && Nat.ltb 1 (length path)
      then [(enum_name path, dotted u path, b_desc (s_base s), false, constants (s_base s), body path s)]
      else if owned r
      then [(pathToTypeName u (path ++ sfx), dotted u (path ++ sfx), b_desc (s_base s), false, constants (s_base s), body path s)]
      else []
  end.

Definition alias_of (r : sref) : bool :=
  match r with
  | Ref _ => true
  | Inl s =>
      if objectlike (s_base s) then negb (structlike s) && negb (more_of s)
      else negb (enumlike (s_base s))
  end.

(** The inline elements of a union are declared under the path and their number,
    without a name for the comment. *)
Definition element (i : nat) (path : list string) (r : sref) : list decl :=
  match r with
  | Ref _ => []
  | Inl s => [(schemaNameToTypeName u (pathToTypeName u (path ++ [itoa i])), "", b_desc (s_base s),
               alias_of r, constants (s_base s),
               if enumlike (s_base s) && Nat.ltb 1 (length path) then GAs (enum_name path) (body path s) else body path s)]
  end.
Fixpoint elements_from (i : nat) (path : list string) (l : list sref) : list decl :=
  match l with [] => [] | r :: l => element i path r ++ elements_from (S i) path l end.

(** What is declared for a schema. [whole = false]: without what the properties
    of objects need. What the elements of a union need is not declared. *)
Fixpoint defs (whole : bool) (path sfx : list string) (r : sref) {struct r} : list decl :=
  match r with
  | Ref _ => []
  | Inl s => defs_in whole path s ++ own path sfx (Inl s)
  end
with defs_in (whole : bool) (path : list string) (s : schema) {struct s} : list decl :=
  match s with
  | Sch b props items addl _ anyOf oneOf =>
      if objectlike b then
        (if whole then
           flat_map snd (by_key (map (fun p => (fst p, defs true (path ++ [fst p]) [] (snd p))) props))
         else [])
        ++ match addl with None => [] | Some r => defs false path ["AdditionalProperties"] r end
        ++ elements_from 0 path (elements anyOf) ++ elements_from 0 path (elements oneOf)
      else if arraylike b then
        match items with None => [] | Some r => defs whole path ["Item"] r end
      else []
  end.

(** *** Names *)

(** The identifiers of a tree. *)
Fixpoint ids (t : gty) : list string :=
  match t with
  | GId n => [n]
  | GAs n _ => [n]
  | GPtr t | GSlice t | GMap t => ids t
  | GStruct fs addl un =>
      flat_map (fun f => ids (snd f)) fs ++ match addl with Some t => ids t | None => [] end
      ++ (if un then ["json.RawMessage"] else [])
  end.

(** The references of a schema. *)
Fixpoint refs (s : schema) : list string :=
  match s with
  | Sch _ props items addl _ anyOf oneOf =>
      flat_map (fun p => refs_ref (snd p)) props
      ++ match items with None => [] | Some r => refs_ref r end
      ++ match addl with None => [] | Some r => refs_ref r end
      ++ match anyOf with None => [] | Some l => flat_map refs_ref l end
      ++ match oneOf with None => [] | Some l => flat_map refs_ref l end
  end
with refs_ref (r : sref) : list string :=
  match r with Ref r => [r] | Inl s => refs s end.
End Spec.
