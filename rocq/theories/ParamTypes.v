(** The parameters of operations in Go:
    [internal/deepmap/oapi-codegen/pkg/codegen/operations.go], cited as
    [operations.go], and [schema.go] of the same directory. *)
From Verif Require Import Prelude Strings Version Util GenName GenType RespCase.
Local Open Scope string_scope.
Local Open Scope list_scope.

(** The Go schema of a parameter ([schema.go:13-40]): whether it has additional
    properties, [RefType], additional types, and the rest. [T] are type
    definitions, pairs of a name and what it is. *)
Record pschema (T X : Type) := mkPS { ps_has : bool; ps_ref : string; ps_types : list T; ps_rest : X }.
Arguments mkPS {T X}.
Arguments ps_has {T X}.
Arguments ps_ref {T X}.
Arguments ps_types {T X}.
Arguments ps_rest {T X}.

(** [operations.go:30-36] and what is read of [openapi3.Parameter]: style, place,
    explode, description, the content types, and whether there is a schema.
    [pa_go] is the extension [x-go-name], which may be no string. *)
Record param (T X : Type) := mkPa {
  pa_name : string; pa_required : bool; pa_schema : pschema T X;
  pa_style : string; pa_in : string; pa_explode : option bool; pa_description : string;
  pa_contents : list string; pa_styled : bool; pa_go : option (option string) }.
Arguments mkPa {T X}.
Arguments pa_name {T X}.
Arguments pa_required {T X}.
Arguments pa_schema {T X}.
Arguments pa_style {T X}.
Arguments pa_in {T X}.
Arguments pa_explode {T X}.
Arguments pa_description {T X}.
Arguments pa_contents {T X}.
Arguments pa_styled {T X}.
Arguments pa_go {T X}.

(** [schema.go:78-89]: a field of a struct, without what is never set here. *)
Record prop (T X : Type) := mkProp {
  pr_description : string; pr_json : string; pr_required : bool; pr_schema : pschema T X; pr_form : bool;
  pr_go : option (option string) }.
Arguments mkProp {T X}.
Arguments pr_description {T X}.
Arguments pr_json {T X}.
Arguments pr_required {T X}.
Arguments pr_schema {T X}.
Arguments pr_form {T X}.
Arguments pr_go {T X}.

(** What a type is: the schema of a parameter, or a struct with a description. *)
Inductive typ (T X : Type) := TParam (s : pschema T X) | TStruct (description : string) (fields : list (prop T X)).
Arguments TParam {T X}.
Arguments TStruct {T X}.

Section Params.
Context {T X : Type}.
Variable u : unicode.
Variable u_to_lower : N -> N.    (* unicode.ToLower, not ASCII *)
Implicit Types p : param T X.

(** [operations.go:85-99] *)
Definition style p : outcome string :=
  if String.eqb (pa_style p) "" then
    if String.eqb (pa_in p) "path" || String.eqb (pa_in p) "header" then Ok "simple"
    else if String.eqb (pa_in p) "query" || String.eqb (pa_in p) "cookie" then Ok "form"
    else Panic
  else Ok (pa_style p).

(** [operations.go:101-114] *)
Definition explode p : outcome bool :=
  match pa_explode p with
  | None =>
      if String.eqb (pa_in p) "path" || String.eqb (pa_in p) "header" then Ok false
      else if String.eqb (pa_in p) "query" || String.eqb (pa_in p) "cookie" then Ok true
      else Panic
  | Some b => Ok b
  end.

(** [operations.go:57-83] *)
Definition isJson p : bool := match pa_contents p with [k] => isMediaTypeJson k | _ => false end.
Definition isPassThrough p : bool :=
  match pa_contents p with [] => false | [_] => negb (isJson p) | _ => true end.

(** [operations.go:127-135] *)
Definition goName p : string :=
  schemaNameToTypeName u (match pa_go p with Some (Some n) => n | _ => pa_name p end).

(** [utils.go:127-134] *)
Definition to_lower (r : N) : N := if (r <? 128)%N then (if a_upper r then (r + 32)%N else r) else u_to_lower r.
Definition lowercaseFirst (s : string) : string :=
  match runes s with [] => "" | r :: rest => encode (to_lower r :: rest) end.

(** [operations.go:116-125] *)
Definition goVariableName p : outcome string :=
  let n1 := lowercaseFirst (goName p) in
  let n2 := if isGoKeyword n1 then ("p" ++ uppercaseFirst u n1)%string else n1 in
  match runes n2 with
  | [] => Panic
  | r :: _ => Ok (if is_number u r then ("n" ++ n2)%string else n2)
  end.

(** [schema.go:91-93,633-638]: the name of a field. *)
Definition fieldName (f : prop T X) : string :=
  match pr_go f with Some (Some n) => n | _ => schemaNameToTypeName u (pr_json f) end.

(** One round of the loop, [operations.go:825-845]. *)
Definition param_field (typeName : string) p : outcome (list (string * typ T X) * prop T X) :=
  st <- style p ;;
  let s := pa_schema p in
  let own := (typeName ++ "_" ++ goName p)%string in
  let s' := if ps_has s then mkPS (ps_has s) own (ps_types s) (ps_rest s) else s in
  Ok (if ps_has s then [(own, TParam s)] else [],
      mkProp (pa_description p) (pa_name p) (pa_required p) s' (String.eqb st "form") (pa_go p)).
Fixpoint param_fields (typeName : string) (ps : list (param T X))
  : outcome (list (string * typ T X) * list (prop T X)) :=
  match ps with
  | [] => Ok ([], [])
  | p :: r =>
      a <- param_field typeName p ;;
      b <- param_fields typeName r ;; Ok (fst a ++ fst b, snd a :: snd b)
  end.

(** [operations.go:817-857]. An operation is its identifier, its description and
    its parameters by place. The text of the struct is left out, see GenType.v. *)
Definition generateParamsTypes (opId description : string) (query header cookie : list (param T X))
  : outcome (list (string * typ T X)) :=
  r <- param_fields (opId ++ "Params")%string (query ++ header ++ cookie) ;;
  Ok (fst r ++ [((opId ++ "Params")%string, TStruct description (snd r))]).

(** [operations.go:797-813]: the types made here, then those that parameters and
    bodies bring along. *)
Definition generateTypeDefs (opId description : string) (query header cookie path : list (param T X)) (bodies : list (list T))
  : outcome (list (string * typ T X) * list T) :=
  own <- match query ++ header ++ cookie with
         | [] => Ok []
         | _ => generateParamsTypes opId description query header cookie
         end ;;
  Ok (own, flat_map (fun p => ps_types (pa_schema p)) (query ++ header ++ cookie ++ path) ++ List.concat bodies).
End Params.
