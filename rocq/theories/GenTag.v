(** Fields of generated structs with extensions
    ([internal/deepmap/oapi-codegen/pkg/codegen/schema.go], cited as [schema.go], and
    [extension.go] beside it). *)
From Verif Require Import Prelude Strings Version GenName GenType GenGlobals.
Local Open Scope string_scope.
Local Open Scope list_scope.

(** The value of an extension, as JSON is decoded into [interface{}]. Numbers and
    lists are [EOther]: none of the extensions of a field takes one. *)
Inductive ext := ENull | EBool (b : bool) | EStr (s : string) | EMap (m : list (string * ext)) | EOther.

(** [schema.go:78-89]. Of the schema only [TypeDecl()] and [SkipOptionalPointer]
    are read. The extensions, and the fields of one, are in the order in which Go
    happens to range over the maps. *)
Record prop := mkProp {
  q_json : string; q_desc : string; q_decl : string; q_skip : bool;
  q_req : bool; q_null : bool; q_ro : bool; q_wo : bool; q_form : bool; q_dep : bool;
  q_exts : list (string * ext)
}.

(** [extension.go:25-31], which [35-37] and [87-89] call; the errors are not looked
    at by [GenFieldsFromProperties]. *)
Definition extString (e : ext) : option string := match e with EStr s => Some s | _ => None end.
(** [extension.go:39-45] and [63-69] *)
Definition extBool (e : ext) : option bool := match e with EBool b => Some b | _ => None end.
(** [extension.go:47-61] *)
Fixpoint extra_loop (l : list (string * ext)) : option (list (string * string)) :=
  match l with
  | [] => Some []
  | (k, v) :: r =>
      match extString v with
      | None => None
      | Some s => match extra_loop r with None => None | Some m => Some ((k, s) :: m) end
      end
  end.
Definition extExtraTags (e : ext) : option (list (string * string)) :=
  match e with EMap l => extra_loop l | _ => None end.

(** [if _, ok := p.Extensions[k]; ok { if x, err := parse(p.Extensions[k]); err == nil {...} }] *)
Definition given {A} (parse : ext -> option A) (k : string) (p : prop) : option A :=
  match get k (q_exts p) with None => None | Some e => parse e end.
Definition given_or {A} (parse : ext -> option A) (k : string) (d : A) (p : prop) : A :=
  match given parse k p with None => d | Some a => a end.

(** Assignment to a map. *)
Definition put (k v : string) (m : list (string * string)) : list (string * string) :=
  (k, v) :: filter (fun e => negb (String.eqb (fst e) k)) m.

Section Tag.
Variable u : unicode.
(** [Compatibility.DisableRequiredReadOnlyAsPointer] *)
Variable noptr : bool.

(** [schema.go:95-107] *)
Definition typeDef (p : prop) : string :=
  if negb (q_skip p) && (negb (q_req p) || q_null p || (q_ro p && (negb (q_req p) || negb noptr)) || q_wo p) then
    if String.eqb (q_decl p) "" then "" else ("*" ++ q_decl p)%string
  else q_decl p.

(** [schema.go:672-686] *)
Definition json_tags (p : prop) : list (string * string) :=
  let both v m := let m := put "json" v m in if q_form p then put "form" v m else m in
  if (q_req p && negb (q_ro p) && negb (q_wo p)) || q_null p || negb (given_or extBool "x-omitempty" true p)
     || (q_req p && q_ro p && noptr)
  then both (q_json p) []
  else if negb (String.eqb (typeDef p) "") then both (q_json p ++ ",omitempty")%string []
  else [].
(** [schema.go:688-692] *)
Definition ignored_tags (p : prop) (m : list (string * string)) : list (string * string) :=
  if given_or extBool "x-go-json-ignore" false p then put "json" "-" m else m.
(** [schema.go:695-702] *)
Definition extra_tags (p : prop) (m : list (string * string)) : list (string * string) :=
  match given extExtraTags "x-oapi-codegen-extra-tags" p with
  | None => m
  | Some tags => fold_left (fun m kv => put (fst kv) (snd kv) m) (by_key tags) m
  end.
Definition fieldTags (p : prop) : list (string * string) := extra_tags p (ignored_tags p (json_tags p)).

(** [schema.go:704-711] *)
Definition tag_text (m : list (string * string)) : string :=
  match m with
  | [] => ""
  | _ => (backquote ++ join " " (map (fun kv => fst kv ++ ":" ++ dquote ++ snd kv ++ dquote)%string (by_key m)) ++ backquote)%string
  end.

(** One round of the loop of [schema.go:628-714]; [first] tells the first one. *)
Definition genTagged (first : bool) (p : prop) : string :=
  let name := schemaNameToTypeName u (q_json p) in
  ((if String.eqb (q_desc p) "" then ""
    else (if first then "" else newline) ++ stringWithTypeNameToGoComment (q_desc p) name ++ newline)
   ++ (if q_dep p then deprecationComment (given_or extString "x-deprecated-reason" "" p) ++ newline else "")
   ++ "    " ++ given_or extString "x-go-name" name p ++ " " ++ typeDef p ++ tag_text (fieldTags p))%string.
(** [schema.go:626-716] *)
Definition genFieldsFromProperties (ps : list prop) : list string :=
  match ps with
  | [] => []
  | p :: r => genTagged true p :: map (genTagged false) r
  end.
End Tag.
