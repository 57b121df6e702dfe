(** [encoding/jsonschema/jschema.go]: turning an OpenAPI document into JSON
    Schema. The code edits a CUE syntax tree in place; here the edited tree is
    the result.

    Documents. The trees handed over by [openapi.GenerateSchema] are JSON-like:
    literals, lists, and structs all of whose elements are fields with string
    labels. Other syntax (identifiers, embeddings, comprehensions) is not
    modelled. String literals are represented by their unquoted text. *)
From Verif Require Import Prelude.
Local Open Scope string_scope.
Local Open Scope list_scope.

Inductive lit := LStr (s : string) | LTrue | LFalse | LNull | LNum (raw : string).

Inductive node :=
| NLit (l : lit)
| NList (elts : list node)
| NStruct (fields : list (string * node))
| NFile (decls : list node).

(** [jschema.go:91-97,106-116] [getFieldWithLabel]: the first field of that label. *)
Fixpoint getField (fs : list (string * node)) (label : string) : option node :=
  match fs with
  | [] => None
  | (k, v) :: r => if String.eqb k label then Some v else getField r label
  end.

(** [lit.Value] for literals other than strings, and the empty string, whose
    unquoted text is not used ([jschema.go:121-125]). *)
Definition lit_text (l : lit) : string :=
  match l with
  | LStr s => if String.eqb s "" then """""" else s
  | LTrue => "true" | LFalse => "false" | LNull => "null" | LNum raw => raw
  end.

(** [jschema.go:118-129] [getSchemaType]; [None] is [errNotASchema]. *)
Definition getSchemaType (fs : list (string * node)) : option string :=
  match getField fs "type" with
  | Some (NLit l) => Some (lit_text l)
  | _ => None
  end.

(** [jschema.go:210-217] [checkNull]. *)
Definition checkNull (fs : list (string * node)) : bool :=
  match getField fs "nullable" with
  | Some (NLit LTrue) => true
  | _ => false
  end.

(** [jschema.go:238]: keywords deleted from a schema node. *)
Definition deleted : list string :=
  ["deprecated"; "discriminator"; "example"; "externalDocs"; "nullable"; "readOnly"; "writeOnly"; "xml"].
Definition is_deleted (k : string) : bool := existsb (String.eqb k) deleted.

(** [jschema.go:65-80] [typeContains(x, "null")] on a field labelled type. *)
Definition typeContainsNull (v : node) : bool :=
  match v with NLit (LStr s) => String.eqb s "null" | _ => false end.

(** [jschema.go:224-248]: [astutil.Apply] visits the node and its fields, not
    what is below the fields. *)
Definition apply_field (ensureNull : bool) (f : string * node) : list (string * node) :=
  let '(k, v) := f in
  if is_deleted k then []
  else if String.eqb k "type" then
    if ensureNull && negb (typeContainsNull v)
    then [(k, NList [v; NLit (LStr "null")])] else [(k, v)]
  else [(k, v)].

Definition schemaURL : string := "http://json-schema.org/draft-04/schema#".

(** [jschema.go:219-257] [process], after [scanf]; [root] is [s.parent == nil]. *)
Definition process (root : bool) (orig fs : list (string * node)) : node :=
  NStruct (flat_map (apply_field (checkNull orig)) fs ++
           (if root then [("$schema", NLit (LStr schemaURL))] else [])).

(** [jschema.go:156-194]: the fields each type's [scanf] descends into. *)
Definition scanned (typ : string) : option (list string) :=
  if String.eqb typ "object" then Some ["properties"; "additionalProperties"]
  else if String.eqb typ "array" then Some ["items"]
  else if existsb (String.eqb typ) ["integer"; "number"; "boolean"; "string"] then Some []
  else None.

(** An error in a nested scan is raised by [process] as a panic
    ([jschema.go:220-222]). *)
Definition or_panic {A} (x : outcome A) : outcome A :=
  match x with Ok a => Ok a | OutOfFuel => OutOfFuel | _ => Panic end.

Section Lists.
Context {A B : Type} (f : A -> outcome B).
Fixpoint traverse (l : list A) : outcome (list B) :=
  match l with
  | [] => Ok []
  | x :: r => y <- f x ;; ys <- traverse r ;; Ok (y :: ys)
  end.
End Lists.

Section Fields.
Context (f : node -> outcome node).
(** The first field of each label in [labels] is replaced, in place. *)
Fixpoint on_first (labels : list string) (fs : list (string * node)) : outcome (list (string * node)) :=
  match fs with
  | [] => Ok []
  | (k, v) :: r =>
      if existsb (String.eqb k) labels
      then v' <- f v ;; r' <- on_first (filter (fun l => negb (String.eqb k l)) labels) r ;; Ok ((k, v') :: r')
      else r' <- on_first labels r ;; Ok ((k, v) :: r')
  end.
Fixpoint on_all (fs : list (string * node)) : outcome (list (string * node)) :=
  match fs with
  | [] => Ok []
  | (k, v) :: r => v' <- f v ;; r' <- on_all r ;; Ok ((k, v') :: r')
  end.
End Fields.

(** [jschema.go:142-208] [newSchemaNode] and [259-283] [scan]. [root] is true
    while no schema node encloses the scan ([p == nil]). A node without a literal
    type is walked through ([ast.Walk]); a schema node is processed and not
    walked further. An unknown type ends the walk with an error. *)
Fixpoint scan (root : bool) (n : node) : outcome node :=
  match n with
  | NLit l => Ok (NLit l)
  | NList es => es' <- traverse (scan root) es ;; Ok (NList es')
  | NFile ds => ds' <- traverse (scan root) ds ;; Ok (NFile ds')
  | NStruct fs =>
      match getSchemaType fs with
      | None => fs' <- on_all (scan root) fs ;; Ok (NStruct fs')
      | Some typ =>
          match scanned typ with
          | None => Err (new_err ("unrecognized schema node type " ++ typ))
          | Some labels =>
              fs' <- or_panic (on_first (scan false) labels fs) ;;
              Ok (process root fs fs')
          end
      end
  end.

(** [jschema.go:40-43] [oapiToJSchema], and [17-28] [GenerateSchema] after the
    OpenAPI document [f] is available. *)
Definition oapiToJSchema (f : node) : outcome node := scan true f.
