(** The bodies of requests and the responses of operations:
    [internal/deepmap/oapi-codegen/pkg/codegen/operations.go], cited as
    [operations.go]. *)
From Verif Require Import Prelude Strings Version GenName GenType OpDefs RespCase.
Local Open Scope string_scope.
Local Open Scope list_scope.

(** A content ([openapi3.MediaType]): its schema, and the encodings of forms by
    field. [T] are schemas as they are written, [E] are encodings. *)
Record content (T E : Type) := mkContent { co_schema : option T; co_encoding : list (string * E) }.
Arguments mkContent {T E}.
Arguments co_schema {T E}.
Arguments co_encoding {T E}.

(** A Go schema ([schema.go:13-40]): [RefType] and the rest. *)
Record goschema (X : Type) := mkGo { g_ref : string; g_rest : X }.
Arguments mkGo {X}.
Arguments g_ref {X}.
Arguments g_rest {X}.

(** [operations.go:341-361] *)
Record body_def (X E : Type) := mkBody {
  b_required : bool; b_schema : option (goschema X); b_tag : string; b_content : string; b_default : bool;
  b_encoding : list (string * E) }.
Arguments mkBody {X E}.
Arguments b_required {X E}.
Arguments b_schema {X E}.
Arguments b_tag {X E}.
Arguments b_content {X E}.
Arguments b_default {X E}.
Arguments b_encoding {X E}.

(** [operations.go:431-442] *)
Record content_def (X : Type) := mkContentDef { c_schema : option (goschema X); c_content : string; c_tag : string }.
Arguments mkContentDef {X}.
Arguments c_schema {X}.
Arguments c_content {X}.
Arguments c_tag {X}.
(** [operations.go:465-469] *)
Record header_def (X : Type) := mkHeader { h_name : string; h_go : string; h_schema : goschema X }.
Arguments mkHeader {X}.
Arguments h_name {X}.
Arguments h_go {X}.
Arguments h_schema {X}.
(** [operations.go:410-416] *)
Record response_def (X : Type) := mkResponse {
  rd_status : string; rd_description : string; rd_contents : list (content_def X); rd_headers : list (header_def X); rd_ref : string }.
Arguments mkResponse {X}.
Arguments rd_status {X}.
Arguments rd_description {X}.
Arguments rd_contents {X}.
Arguments rd_headers {X}.
Arguments rd_ref {X}.

(** A response as it is written ([openapi3.ResponseRef]): its reference, and its
    value if it was found: description, contents and schemas of headers. *)
Record response (T E : Type) := mkWritten {
  re_description : option string; re_contents : list (string * content T E); re_headers : list (string * option T) }.
Arguments mkWritten {T E}.
Arguments re_description {T E}.
Arguments re_contents {T E}.
Arguments re_headers {T E}.
Definition response_ref (T E : Type) : Type := (string * option (response T E))%type.

Definition form : string := "application/x-www-form-urlencoded".

(** [operations.go:629-647] *)
Definition body_tag (contentType : string) : option string :=
  if isMediaTypeJson contentType then Some "JSON"
  else if has_prefix contentType "multipart/" then Some "Multipart"
  else if String.eqb contentType form then Some "Formdata"
  else if String.eqb contentType "text/plain" then Some "Text"
  else None.
(** [operations.go:723-739] *)
Definition response_tag (contentType : string) : option string :=
  if isMediaTypeJson contentType then Some "JSON"
  else if String.eqb contentType form then Some "Formdata"
  else if has_prefix contentType "multipart/" then Some "Multipart"
  else if String.eqb contentType "text/plain" then Some "Text"
  else None.

Section Bodies.
Context {T E X : Type}.
Variable u : unicode.
Variable ref : T -> string.
(** [GenerateGoSchema]; [withForm] gives fields the tag of forms and makes the type
    anew, [operations.go:671-679]. *)
Variable goSchema : option T -> list string -> outcome (goschema X).
Variable withForm : X -> X.

(** One round of the loop, [operations.go:625-707]; [default] is set for JSON only.
    The type definition is the name and the schema. *)
Definition body1 (operationID : string) (required : bool) (contentType : string) (c : content T E)
  : outcome (body_def X E * list (string * goschema X)) :=
  match body_tag contentType with
  | None => Ok (mkBody required None "" contentType false [], [])
  | Some tag =>
      let bodyTypeName := (operationID ++ tag ++ "Body")%string in
      g <- wrapping "error generating request body definition: " (goSchema (co_schema c) [bodyTypeName]) ;;
      match co_schema c with
      | None => Panic
      | Some s =>
          r <- (if isGoTypeReference (ref s)
                then wrapping ("error turning reference (" ++ ref s ++ ") into a Go type: ")%string (refPathToGoType u (ref s))
                else Ok (g_ref g)) ;;
          let rest := if String.eqb r "" && String.eqb contentType form then withForm (g_rest g) else g_rest g in
          let def t := mkBody required (Some (mkGo t rest)) tag contentType (String.eqb tag "JSON") (co_encoding c) in
          if String.eqb r "" then Ok (def bodyTypeName, [(bodyTypeName, mkGo "" rest)])
          else Ok (def r, [])
      end
  end.
Fixpoint bodies (operationID : string) (required : bool) (l : list (string * content T E))
  : outcome (list (body_def X E) * list (string * goschema X)) :=
  match l with
  | [] => Ok ([], [])
  | (c, x) :: r =>
      b <- body1 operationID required c x ;;
      bs <- bodies operationID required r ;; Ok (fst b :: fst bs, snd b ++ snd bs)
  end.
(** [operations.go:613-712]. A body is whether it is required, and its contents. It
    is sorted by content types again. *)
Definition generateBodyDefinitions (operationID : string) (body : option (bool * list (string * content T E)))
  : outcome (list (body_def X E) * list (string * goschema X)) :=
  match body with
  | None => Ok ([], [])
  | Some (required, cs) =>
      r <- bodies operationID required (by_key cs) ;;
      Ok (map snd (by_key (map (fun b => (b_content b, b)) (fst r))), snd r)
  end.

(** [operations.go:720-757] *)
Definition response_content (operationID statusCode contentType : string) (c : content T E) : outcome (content_def X) :=
  match response_tag contentType with
  | None => Ok (mkContentDef None contentType "")
  | Some tag =>
      g <- wrapping "error generating request body definition: "
                    (goSchema (co_schema c) [(operationID ++ statusCode ++ tag ++ "Response")%string]) ;;
      Ok (mkContentDef (Some g) contentType tag)
  end.
(** [operations.go:759-768] *)
Definition response_header (headerName : string) (s : option T) : outcome (header_def X) :=
  g <- wrapping "error generating response header definition: " (goSchema s []) ;;
  Ok (mkHeader headerName (schemaNameToTypeName u headerName) g).
Fixpoint every {A B} (f : string -> A -> outcome B) (l : list (string * A)) : outcome (list B) :=
  match l with
  | [] => Ok []
  | (k, a) :: r => b <- f k a ;; bs <- every f r ;; Ok (b :: bs)
  end.

(** One round of the loop, [operations.go:714-793]; [refSet] are the references
    already taken. A reference whose value was not found is a panic. *)
Definition response1 (operationID statusCode : string) (rr : response_ref T E) (refSet : list string)
  : outcome (response_def X * list string) :=
  match snd rr with
  | None => Panic
  | Some re =>
      cs <- every (response_content operationID statusCode) (by_key (re_contents re)) ;;
      hs <- every response_header (by_key (re_headers re)) ;;
      let rd := mkResponse statusCode (match re_description re with Some d => d | None => "" end) cs hs in
      if isGoTypeReference (fst rr) then
        refType <- wrapping ("error turning reference (" ++ fst rr ++ ") into a Go type: ")%string (refPathToGoType u (fst rr)) ;;
        if stringInArray refType refSet then Ok (rd "", refSet) else Ok (rd refType, refType :: refSet)
      else Ok (rd "", refSet)
  end.
Fixpoint response_list (operationID : string) (l : list (string * option (response_ref T E))) (refSet : list string)
  : outcome (list (response_def X)) :=
  match l with
  | [] => Ok []
  | (_, None) :: r => response_list operationID r refSet
  | (st, Some rr) :: r =>
      d <- response1 operationID st rr refSet ;;
      ds <- response_list operationID r (snd d) ;; Ok (fst d :: ds)
  end.
(** [operations.go:714-795] *)
Definition generateResponseDefinitions (operationID : string) (rs : list (string * option (response_ref T E)))
  : outcome (list (response_def X)) := response_list operationID (by_key rs) [].
End Bodies.

(** [operations.go:365-390] *)
Definition body_type_name {X E} (opID : string) (b : body_def X E) : string := (opID ++ b_tag b ++ "RequestBody")%string.
Definition suffix {X E} (b : body_def X E) : string := if b_default b then "" else ("With" ++ b_tag b ++ "Body")%string.
