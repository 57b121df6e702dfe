(** What bodies and responses of operations should be, apart from the code. *)
From Verif Require Import Prelude Strings Version GenName GenType OpDefs RespCase OpBodies.
Local Open Scope string_scope.
Local Open Scope list_scope.

(** The tag of a content type; there is none for others. *)
Definition json_like (c : string) : Prop := c = "application/json" \/ exists p, c = (p ++ "+json")%string.
Definition multipart (c : string) : Prop := exists p, c = ("multipart/" ++ p)%string.
Definition formdata (c : string) : Prop := c = "application/x-www-form-urlencoded".
Definition text (c : string) : Prop := c = "text/plain".
Inductive tagged : string -> string -> Prop :=
| tag_json c : json_like c -> tagged c "JSON"
| tag_multipart c : ~ json_like c -> multipart c -> tagged c "Multipart"
| tag_form c : formdata c -> tagged c "Formdata"
| tag_text c : text c -> tagged c "Text".
Definition untagged (c : string) : Prop := ~ json_like c /\ ~ multipart c /\ ~ formdata c /\ ~ text c.

Section Spec.
Context {T E X : Type}.
Variable u : unicode.
Variable ref : T -> string.
Variable goSchema : option T -> list string -> outcome (goschema X).
Variable withForm : X -> X.

(** The type a schema stands for, if it has a name. *)
Definition stands_for (s : T) (own t : string) : Prop :=
  if isGoTypeReference (ref s) then refPathToGoType u (ref s) = Ok t else t = own.

(** What is defined for one content of a body: the definition, and the type of its
    own it has unless its schema stands for another. *)
Inductive defines (op : string) (required : bool) : string * content T E -> body_def X E -> list (string * goschema X) -> Prop :=
| defines_other c x : untagged c -> defines op required (c, x) (mkBody required None "" c false []) []
| defines_named c x tag s own rest t d : tagged c tag -> co_schema x = Some s ->
    goSchema (Some s) [(op ++ tag ++ "Body")%string] = Ok (mkGo own rest) -> stands_for s own t -> t <> "" ->
    (d = true <-> tag = "JSON") ->
    defines op required (c, x) (mkBody required (Some (mkGo t rest)) tag c d (co_encoding x)) []
| defines_own c x tag s own rest rest' d : tagged c tag -> co_schema x = Some s ->
    goSchema (Some s) [(op ++ tag ++ "Body")%string] = Ok (mkGo own rest) -> stands_for s own "" ->
    (formdata c -> rest' = withForm rest) -> (~ formdata c -> rest' = rest) -> (d = true <-> tag = "JSON") ->
    defines op required (c, x) (mkBody required (Some (mkGo (op ++ tag ++ "Body") rest')) tag c d (co_encoding x))
      [((op ++ tag ++ "Body")%string, mkGo "" rest')].

(** Bodies whose schemas can be made. *)
Definition body_typed (op : string) (c : string) (x : content T E) : Prop :=
  forall tag, tagged c tag -> exists s g, co_schema x = Some s /\ goSchema (Some s) [(op ++ tag ++ "Body")%string] = Ok g /\
    exists t, stands_for s (g_ref g) t.

(** One content, one header and one response, but for the reference. *)
Inductive content_of (op status : string) : string * content T E -> content_def X -> Prop :=
| content_other c x : untagged c -> content_of op status (c, x) (mkContentDef None c "")
| content_tagged c x tag g : tagged c tag -> goSchema (co_schema x) [(op ++ status ++ tag ++ "Response")%string] = Ok g ->
    content_of op status (c, x) (mkContentDef (Some g) c tag).
Definition header_of (h : string * option T) (d : header_def X) : Prop :=
  h_name d = fst h /\ h_go d = schemaNameToTypeName u (fst h) /\ goSchema (snd h) [] = Ok (h_schema d).
Definition response_of (op : string) (w : string * response_ref T E) (d : response_def X) : Prop :=
  exists re, snd (snd w) = Some re /\ rd_status d = fst w /\
    (forall t, re_description re = Some t -> rd_description d = t) /\ (re_description re = None -> rd_description d = "") /\
    Forall2 (content_of op (fst w)) (by_key (re_contents re)) (rd_contents d) /\
    Forall2 header_of (by_key (re_headers re)) (rd_headers d).
(** The responses that are there, in order. *)
Definition present (l : list (string * option (response_ref T E))) : list (string * response_ref T E) :=
  flat_map (fun e => match snd e with Some r => [(fst e, r)] | None => [] end) l.
(** The type a response refers to. *)
Definition refers (w : string * response_ref T E) (t : string) : Prop :=
  isGoTypeReference (fst (snd w)) = true /\ refPathToGoType u (fst (snd w)) = Ok t.
End Spec.
