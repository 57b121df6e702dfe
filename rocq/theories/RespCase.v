(** How generated clients read responses: [template_helpers.go] and
    [operations.go] of [internal/deepmap/oapi-codegen/pkg/codegen]. *)
From Verif Require Import Prelude Strings Version GenName GenType OpDefs.
Local Open Scope string_scope.
Local Open Scope list_scope.

(** [template_helpers.go:37-39], with the constants of echo written out. *)
Definition contentTypesJSON : list string := ["application/json"; "text/x-json"; "application/problem+json"].
Definition contentTypesYAML : list string := ["application/yaml"; "application/x-yaml"; "text/yaml"; "text/x-yaml"].
Definition contentTypesXML : list string := ["application/xml"; "text/xml"; "application/problems+xml"].

(** [utils.go], [StringInArray]. *)
Definition stringInArray (s : string) (l : list string) : bool := existsb (String.eqb s) l.

(** [util/isjson.go:5-7] *)
Definition isMediaTypeJson (s : string) : bool := String.eqb s "application/json" || has_suffix s "+json".

(** The responses of an operation by their names, each with its contents by their
    types ([openapi3.Responses], maps). A response without a value is [None], as is
    a content without a schema. [T] are schemas as they are written. *)
Definition contents (T : Type) : Type := list (string * option T).
Definition responses (T : Type) : Type := list (string * option (contents T)).

(** [operations.go:245-256, schema.go:159-170]; [r_decl] is [Schema.TypeDecl()]. *)
Record rtype := mkRType { r_type : string; r_decl : string; r_status : string; r_media : string }.

(** [schema.go:46-51] *)
Definition typeDecl (goType refType : string) : string := if String.eqb refType "" then goType else refType.

Section Reading.
Context {T : Type}.
Variable u : unicode.
(** The reference of a schema, and what [GenerateGoSchema] makes of it: [GoType]
    and [RefType]. *)
Variable ref : T -> string.
Variable goSchema : T -> list string -> outcome (string * string).

(** The switch of [operations.go:295-307]. *)
Definition typeName (contentTypeName responseName : string) : option string :=
  if stringInArray contentTypeName contentTypesJSON then Some ("JSON" ++ toCamelCase u responseName)%string
  else if stringInArray contentTypeName contentTypesYAML then Some ("YAML" ++ toCamelCase u responseName)%string
  else if stringInArray contentTypeName contentTypesXML then Some ("XML" ++ toCamelCase u responseName)%string
  else None.

(** One round of the inner loop, [operations.go:285-325]. *)
Definition contentTypes1 (opId responseName contentTypeName : string) (schema : option T) : outcome (list rtype) :=
  match schema with
  | None => Ok []
  | Some s =>
      g <- wrapping ("Unable to determine Go type for " ++ opId ++ "." ++ contentTypeName ++ ": ")%string
                    (goSchema s [responseName]) ;;
      match typeName contentTypeName responseName with
      | None => Ok []
      | Some n =>
          refType <- (if isGoTypeReference (ref s) then wrapping "error dereferencing response Ref: " (refPathToGoType u (ref s))
                      else Ok (snd g)) ;;
          Ok [mkRType n (typeDecl (fst g) refType) responseName contentTypeName]
      end
  end.
Fixpoint contentTypes (opId responseName : string) (l : contents T) : outcome (list rtype) :=
  match l with
  | [] => Ok []
  | (c, s) :: r => t <- contentTypes1 opId responseName c s ;; ts <- contentTypes opId responseName r ;; Ok (t ++ ts)
  end.
Fixpoint responseTypes (opId : string) (l : responses T) : outcome (list rtype) :=
  match l with
  | [] => Ok []
  | (n, v) :: r =>
      t <- match v with None => Ok [] | Some cs => contentTypes opId n (by_key cs) end ;;
      ts <- responseTypes opId r ;; Ok (t ++ ts)
  end.
(** [operations.go:274-331] *)
Definition getResponseTypeDefinitions (opId : string) (rs : responses T) : outcome (list rtype) := responseTypes opId (by_key rs).

(** A case of the generated switch: one that reads a body, or one that does nothing
    for a content that is not read. *)
Inductive clause :=
| Reads (kind status decl field : string)
| Leaves (status note : string).

Definition nl : string := String (ascii_of_N 10) "".
Definition quote : string := String (ascii_of_N 34) "".

(** [template_helpers.go:251-260]; [responseName[:1]] is of a name of three
    characters. *)
Definition getConditionOfResponseName (statusCodeVar responseName : string) : string :=
  if String.eqb responseName "default" then "true"
  else if stringInArray responseName ["1XX"; "2XX"; "3XX"; "4XX"; "5XX"]
  then (statusCodeVar ++ " / 100 == " ++ String.substring 0 1 responseName)%string
  else (statusCodeVar ++ " == " ++ responseName)%string.

(** The text of a case: [template_helpers.go:160-168, 175-182, 188-195, 202-203,
    227-233]. *)
Definition clause_text (c : clause) : string :=
  match c with
  | Reads kind status decl field =>
      ("case strings.Contains(rsp.Header.Get(" ++ quote ++ "Content-Type" ++ quote ++ "), " ++ quote ++ kind ++ quote ++ ") && "
       ++ getConditionOfResponseName "rsp.StatusCode" status ++ ":" ++ nl
       ++ "var dest " ++ decl ++ nl ++ "if err := " ++ kind ++ ".Unmarshal(bodyBytes, &dest); err != nil { " ++ nl
       ++ " return nil, err " ++ nl ++ "}" ++ nl ++ "response." ++ field ++ " = &dest" ++ nl)%string
  | Leaves status note => ("case " ++ getConditionOfResponseName "rsp.StatusCode" status ++ ":" ++ nl ++ note ++ nl)%string
  end.

(** Maps of cases by their keys; a later one takes the place of an earlier one. *)
Definition put (k : string) (c : clause) (m : list (string * clause)) : list (string * clause) :=
  (k, c) :: filter (fun e => negb (String.eqb (fst e) k)) m.

(** [template_helpers.go:29, 228] *)
Definition read_key (kind status : string) : string := ("9" ++ "." ++ kind ++ "." ++ status)%string.
(** [template_helpers.go:144-145, 203-204] *)
Definition left_key (status : string) : string :=
  ("9" ++ "case " ++ getConditionOfResponseName "rsp.StatusCode" status ++ ":")%string.

Definition maps : Type := (list (string * clause) * list (string * clause))%type.

(** One round of the inner loop, [template_helpers.go:149-207]. *)
Definition unmarshal1 (d : rtype) (m : maps) (contentTypeName : string) : maps :=
  let reads kind :=
    if String.eqb (r_media d) contentTypeName
    then (put (read_key kind (r_status d)) (Reads kind (r_status d) (r_decl d) (r_type d)) (fst m), snd m)
    else m in
  if String.eqb (r_type d) "any" then m
  else if stringInArray contentTypeName contentTypesJSON || isMediaTypeJson contentTypeName then reads "json"
  else if stringInArray contentTypeName contentTypesYAML then reads "yaml"
  else if stringInArray contentTypeName contentTypesXML then reads "xml"
  else (fst m, put (left_key (r_status d))
                   (Leaves (r_status d) ("// Content-type (" ++ contentTypeName ++ ") unsupported")%string) (snd m)).

Definition lookup {A} (l : list (string * A)) (k : string) : option A :=
  match find (fun e => String.eqb (fst e) k) l with Some e => Some (snd e) | None => None end.

(** One round of the outer loop, [template_helpers.go:127-208]. *)
Definition unmarshal (rs : responses T) (m : maps) (d : rtype) : maps :=
  match lookup rs (r_status d) with
  | None | Some None => m
  | Some (Some []) => (fst m, put (left_key (r_status d)) (Leaves (r_status d) "break // No content-type") (snd m))
  | Some (Some cs) => fold_left (unmarshal1 d) (map fst (by_key cs)) m
  end.

(** [template_helpers.go:105-227]: the cases in their order. An error of the types
    is a panic. *)
Definition responseCases (opId : string) (rs : responses T) : outcome (list clause) :=
  match getResponseTypeDefinitions opId rs with
  | Err _ => Panic
  | Panic => Panic
  | OutOfFuel => OutOfFuel
  | Ok ds => let m := fold_left (unmarshal rs) ds ([], []) in Ok (map snd (by_key (fst m)) ++ map snd (by_key (snd m)))
  end.
Definition genResponseUnmarshal (opId : string) (rs : responses T) : outcome string :=
  cs <- responseCases opId rs ;;
  match cs with
  | [] => Ok ""
  | _ => Ok ("switch {" ++ nl ++ String.concat "" (map (fun c => (clause_text c ++ nl)%string) cs) ++ "}" ++ nl)%string
  end.
End Reading.

(** *** What the generated switch does *)

Fixpoint numeral (acc : nat) (s : string) : nat :=
  match s with EmptyString => acc | String c r => numeral (acc * 10 + (N.to_nat (N_of_ascii c) - 48)) r end.

(** The condition of a name on a status, for the text
    [getConditionOfResponseName] writes. *)
Definition applies (name : string) (status : nat) : bool :=
  if String.eqb name "default" then true
  else if stringInArray name ["1XX"; "2XX"; "3XX"; "4XX"; "5XX"]
  then Nat.eqb (Nat.div status 100) (numeral 0 (String.substring 0 1 name))
  else Nat.eqb status (numeral 0 name).

(** The first case that holds; [None] is a response of which no body is read. *)
Fixpoint run (cs : list clause) (status : nat) (header : string) : option (string * string * string) :=
  match cs with
  | [] => None
  | Reads kind name decl field :: r =>
      if contains header kind && applies name status then Some (kind, decl, field) else run r status header
  | Leaves name _ :: r => if applies name status then None else run r status header
  end.
