(** The operations of a document:
    [internal/deepmap/oapi-codegen/pkg/codegen/operations.go], cited as
    [operations.go]. *)
From Verif Require Import Prelude Strings Version GenName GenType Uri.
Local Open Scope string_scope.
Local Open Scope list_scope.

(** Schemes that must be met together, each with its scopes
    ([openapi3.SecurityRequirement], a map). *)
Definition requirement : Type := list (string * list string).

(** What the code reads of an operation. [P] are parameters as they are written,
    [A] is what bodies and responses are made from. [o_body] is whether a body is
    required, if there is one. *)
Record operation (P A : Type) := mkOperation {
  o_id : string; o_params : list P; o_security : option (list requirement); o_body : option bool; o_rest : A }.
Arguments mkOperation {P A}.
Arguments o_id {P A}.
Arguments o_params {P A}.
Arguments o_security {P A}.
Arguments o_body {P A}.
Arguments o_rest {P A}.
(** A path: parameters of all its operations, and the operations by method. Paths
    and methods are keys of maps, hence distinct. *)
Record path_item (P A : Type) := mkPath { pi_params : list P; pi_ops : list (string * operation P A) }.
Arguments mkPath {P A}.
Arguments pi_params {P A}.
Arguments pi_ops {P A}.
Record document (P A : Type) := mkDoc { do_paths : list (string * path_item P A); do_security : list requirement }.
Arguments mkDoc {P A}.
Arguments do_paths {P A}.
Arguments do_security {P A}.

(** [operations.go:208-225], without what is copied for the templates. *)
Record op_def (D B R : Type) := mkDef {
  d_id : string; d_method : string; d_path : string;
  d_path_params : list (param_def D); d_header : list (param_def D); d_query : list (param_def D); d_cookie : list (param_def D);
  d_security : list (string * list string); d_required : bool; d_bodies : B; d_responses : R }.
Arguments mkDef {D B R}.
Arguments d_id {D B R}.
Arguments d_method {D B R}.
Arguments d_path {D B R}.
Arguments d_path_params {D B R}.
Arguments d_header {D B R}.
Arguments d_query {D B R}.
Arguments d_cookie {D B R}.
Arguments d_security {D B R}.
Arguments d_required {D B R}.
Arguments d_bodies {D B R}.
Arguments d_responses {D B R}.

(** [strings.ToLower] of a method, which is ASCII. *)
Definition lower_char (c : ascii) : ascii :=
  let n := N_of_ascii c in if (65 <=? n)%N && (n <=? 90)%N then ascii_of_N (n + 32) else c.
Fixpoint toLower (s : string) : string := match s with EmptyString => "" | String c r => String (lower_char c) (toLower r) end.

(** [operations.go:591-609] *)
Definition generateDefaultOperationID (u : unicode) (opName requestPath : string) : outcome string :=
  if String.eqb opName "" then Err (mkErr [] "operation name cannot be an empty string")
  else if String.eqb requestPath "" then Err (mkErr [] "request path cannot be an empty string")
  else Ok (toCamelCase u (fold_left (fun id part => if String.eqb part "" then id else (id ++ "-" ++ part)%string)
                                    (split_str requestPath "/") (toLower opName))).

(** [operations.go:195-206] *)
Definition describeSecurityDefinition (rs : list requirement) : list (string * list string) := flat_map by_key rs.

(** [operations.go:155-188]. [describe] is the body of the loop. *)
Fixpoint describeParameters {P D} (describe : list string -> P -> outcome (param_def D)) (path : list string) (ps : list P)
  : outcome (list (param_def D)) :=
  match ps with
  | [] => Ok []
  | p :: r => d <- describe path p ;; ds <- describeParameters describe path r ;; Ok (d :: ds)
  end.

(** Errors with a text before; [%s] leaves the marks out. *)
Definition telling {A} (t : string) (o : outcome A) : outcome A :=
  match o with Err e => Err (mkErr [] (t ++ e_text e)%string) | o => o end.
Definition wrapping {A} (t : string) (o : outcome A) : outcome A :=
  match o with Err e => Err (mkErr (e_marks e) (t ++ e_text e)%string) | o => o end.

Section Operations.
Context {P A D B R : Type}.
Variable u : unicode.
Variable describe : list string -> P -> outcome (param_def D).
(** [GenerateBodyDefinitions] and [GenerateResponseDefinitions], given the
    identifier of the operation. *)
Variable bodies : string -> A -> outcome B.
Variable responses : string -> A -> outcome R.

(** [operations.go:505-514]. The identifier is written back into the document. *)
Definition operation_id (opName requestPath given : string) : outcome string :=
  id <- (if String.eqb given ""
         then telling ("error generating default OperationID for " ++ opName ++ "/" ++ requestPath ++ ": ")%string
                      (generateDefaultOperationID u opName requestPath)
         else Ok (toCamelCase u given)) ;;
  Ok (typeNamePrefix u id ++ id)%string.

(** One round of the inner loop, [operations.go:500-585]. *)
Definition define_op (security : list requirement) (requestPath : string) (globalParams : list (param_def D))
  (opName : string) (op : operation P A) : outcome (op_def D B R) :=
  id <- operation_id opName requestPath (o_id op) ;;
  localParams <- telling ("error describing global parameters for " ++ opName ++ "/" ++ requestPath ++ ": ")%string
                         (describeParameters describe [(id ++ "Params")%string] (o_params op)) ;;
  let allParams := globalParams ++ localParams in
  pathParams <- sortParamsByPath requestPath (filterByType allParams "path") ;;
  bs <- wrapping "error generating body definitions: " (bodies id (o_rest op)) ;;
  rs <- wrapping "error generating response definitions: " (responses id (o_rest op)) ;;
  Ok (mkDef (toCamelCase u id) opName requestPath pathParams
        (filterByType allParams "header") (filterByType allParams "query") (filterByType allParams "cookie")
        (describeSecurityDefinition (match o_security op with Some s => s | None => security end))
        (match o_body op with Some b => b | None => false end) bs rs).

Fixpoint define_ops (security : list requirement) (requestPath : string) (globalParams : list (param_def D))
  (l : list (string * operation P A)) : outcome (list (op_def D B R)) :=
  match l with
  | [] => Ok []
  | (m, op) :: r =>
      d <- define_op security requestPath globalParams m op ;;
      ds <- define_ops security requestPath globalParams r ;; Ok (d :: ds)
  end.

Fixpoint define_paths (security : list requirement) (l : list (string * path_item P A)) : outcome (list (op_def D B R)) :=
  match l with
  | [] => Ok []
  | (p, item) :: r =>
      globalParams <- telling ("error describing global parameters for " ++ p ++ ": ")%string
                              (describeParameters describe [] (pi_params item)) ;;
      ds <- define_ops security p globalParams (by_key (pi_ops item)) ;;
      rest <- define_paths security r ;; Ok (ds ++ rest)
  end.

(** [operations.go:486-589] *)
Definition operationDefinitions (d : document P A) : outcome (list (op_def D B R)) :=
  define_paths (do_security d) (by_key (do_paths d)).
End Operations.
