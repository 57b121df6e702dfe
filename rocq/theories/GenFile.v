(** The declarations of the Go file generated for a document, before and after
    the passes of [decorators.go]
    ([internal/deepmap/oapi-codegen/pkg/codegen/codegen.go:343-408,743-812],
    [templates/union.tmpl], [templates/additional-properties.tmpl],
    [templates/union-and-additional-properties.tmpl],
    [encoding/gocode/gen.go:71-80]).

    The text of types and constants is that of GenType.v. Here it has been parsed:
    [go/parser] is the argument [parse], from the text of a type to its tree. The
    comments of a declaration are the lines written before it (gofmt may change
    how they are laid out, not whether the first one ends in "defines model
    for ."). Functions are their headers. *)
From Verif Require Import Prelude Strings Version Util GenName GenType Gocode.
Local Open Scope string_scope.
Local Open Scope list_scope.

Section File.
Variable u : unicode.
Variable parse : string -> gtype.

(** [typedef.tmpl] for one type, parsed. *)
Definition comment_lines (n j desc : string) : list string :=
  split_str (if String.eqb desc "" then "// " ++ n ++ " defines model for " ++ j ++ "."
             else stringWithTypeNameToGoComment desc n)%string newline.
Definition type_decl (d : string * string * gsch) : Gocode.decl :=
  let '(n, j, g) := d in
  DGen (comment_lines n j (g_desc g)) [SType n (parse (typeDecl g))].

(** [constants.tmpl] for one enum, parsed. *)
Definition const_decl (e : string * string * list (string * string)) : Gocode.decl :=
  let '(n, _, vs) := e in
  DGen ["// Defines values for " ++ n ++ "."]%string
    (map (fun kv => SValue [fst kv] (Some (TIdent n))) (by_key vs)).

(** A method: its receiver is a type or a pointer to it. *)
Definition method (pointer : bool) (n name : string) (sig : list field) : Gocode.decl :=
  DFunc [] (Some [(["t"], if pointer then TStar (TIdent n) else TIdent n)]) name sig.
Definition param (n t : string) : field := ([n], parse t).
Definition error_result : field := ([], TIdent "error").
Definition marshal (n : string) : list Gocode.decl :=
  [method false n "MarshalJSON" [([], TArray (TIdent "byte")); error_result];
   method true n "UnmarshalJSON" [(["b"], TArray (TIdent "byte")); error_result]].

(** [schema.go:211-217] *)
Definition method_name (e : string) : string :=
  String.concat "" (map (uppercaseFirst u) (split_str e ".")).

(** [union.tmpl] for one type without discriminator. *)
Definition union_methods (d : string * string * gsch) : list Gocode.decl :=
  let '(n, _, g) := d in
  flat_map (fun e =>
    [method false n ("As" ++ method_name e) [([], parse e); error_result];
     method true n ("From" ++ method_name e) [param "v" e; error_result];
     method true n ("Merge" ++ method_name e) [param "v" e; error_result]]%string) (g_union g)
  ++ if g_has g then [] else marshal n.

(** [additional-properties.tmpl] for one type. *)
Definition addl_methods (d : string * string * gsch) : list Gocode.decl :=
  let '(n, _, g) := d in
  [method false n "Get" [param "fieldName" "string"; param "value" (g_addl g); param "found" "bool"];
   method true n "Set" [param "fieldName" "string"; param "value" (g_addl g)]]
  ++ match g_union g with [] => marshal n | _ => [] end.

(** [codegen.go:745-771]: one type of a name, and those with additional
    properties. *)
Fixpoint addl_types (seen : list string) (l : list (string * string * gsch)) : list (string * string * gsch) :=
  match l with
  | [] => []
  | (n, j, g) :: rest =>
      if existsb (String.eqb n) seen then addl_types seen rest
      else if g_has g then (n, j, g) :: addl_types (n :: seen) rest
      else addl_types (n :: seen) rest
  end.

Definition has_union (d : string * string * gsch) : bool :=
  match g_union (snd d) with [] => false | _ => true end.

(** [codegen.go:743-812] *)
Definition boilerplate (l : list (string * string * gsch)) : list Gocode.decl :=
  flat_map addl_methods (addl_types [] l)
  ++ flat_map union_methods (filter has_union l)
  ++ flat_map (fun d => marshal (fst (fst d))) (filter (fun d => has_union d && g_has (snd d)) l).

(** [codegen.go:343-408], with the imports that are left before. *)
Definition generated (same : option schema -> option schema -> bool) (imports : list string)
    (l : list (string * string * gsch)) : outcome (list Gocode.decl) :=
  ts <- unique_types same [] l ;;
  Ok (match imports with [] => [] | _ => [DGen [] (map SImport imports)] end
      ++ map const_decl (enum_types u [] l) ++ map type_decl ts ++ boilerplate l).

(** The passes of [gen.go:71-76] that change declarations. *)
Definition passes (no_pointers : bool) (f : list Gocode.decl) : outcome (list Gocode.decl) :=
  g <- fixRawData (depointerizer no_pointers f) ;; fixUnderscoreInTypeName g.
End File.
