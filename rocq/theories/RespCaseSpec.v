(** What reading responses means, apart from how the code does it. *)
From Verif Require Import Prelude Strings Version GenName GenType OpDefs RespCase.
Local Open Scope string_scope.
Local Open Scope list_scope.

(** The content types that are read, each with the word its header is searched for. *)
Definition known : list (string * string) :=
  [("application/json", "json"); ("text/x-json", "json"); ("application/problem+json", "json");
   ("application/yaml", "yaml"); ("application/x-yaml", "yaml"); ("text/yaml", "yaml"); ("text/x-yaml", "yaml");
   ("application/xml", "xml"); ("text/xml", "xml"); ("application/problems+xml", "xml")].
(** The words in the order they are asked for, with the prefixes of fields. *)
Definition words : list (string * string) := [("json", "JSON"); ("xml", "XML"); ("yaml", "YAML")].
Definition place (w : string) : nat := if String.eqb w "json" then 0 else if String.eqb w "xml" then 1 else 2.

(** The names of responses: a status, a hundred of them, or the others. *)
Definition is_status (n : string) : Prop := exists k, 100 <= k <= 999 /\ n = itoa k.
Definition is_range (n : string) : Prop := exists k, 1 <= k <= 5 /\ n = (itoa k ++ "XX")%string.
Definition valid_name (n : string) : Prop := is_status n \/ is_range n \/ n = "default".
(** A response of this status is one of that name. *)
Definition covers (n : string) (status : nat) : Prop :=
  n = itoa status \/ n = (itoa (Nat.div status 100) ++ "XX")%string \/ n = "default".
(** [a] is named more closely than [b]. *)
Definition closer (a b : string) : Prop := (is_status a /\ ~ is_status b) \/ (a <> "default" /\ b = "default").

(** What a name adds to the name of a field. *)
Definition shown (n : string) : string := if String.eqb n "default" then "Default" else n.

Section Spec.
Context {T : Type}.
Variable u : unicode.
Variable ref : T -> string.
Variable goSchema : T -> list string -> outcome (string * string).

(** The type of a schema: of what it refers to, or its own. *)
Definition declared (s : T) (name decl : string) : Prop :=
  exists g r t, goSchema s [name] = Ok (g, r) /\
    (if isGoTypeReference (ref s) then refPathToGoType u (ref s) = Ok t else t = r) /\
    decl = (if String.eqb t "" then g else t).

(** The response [name] has the content type [c], which is read by [word], with a
    schema of the type [decl]. *)
Definition has_content (rs : responses T) (name word c decl : string) : Prop :=
  exists cs s, In (name, Some cs) rs /\ In (c, Some s) cs /\ In (c, word) known /\ declared s name decl.
(** It is the last of that response for that word. *)
Definition offers (rs : responses T) (name word c decl : string) : Prop :=
  has_content rs name word c decl /\
  forall c' decl', has_content rs name word c' decl' -> str_leb c' c = true.

(** Responses and contents are keys of maps. *)
Definition proper (rs : responses T) : Prop :=
  NoDup (map fst rs) /\ Forall (fun r => valid_name (fst r)) rs /\
  forall name cs, In (name, Some cs) rs -> NoDup (map fst cs).

(** All schemas have types. *)
Definition typed (rs : responses T) : Prop :=
  forall name cs c s, In (name, Some cs) rs -> In (c, Some s) cs ->
    (exists g, goSchema s [name] = Ok g) /\
    ((exists w, In (c, w) known) -> isGoTypeReference (ref s) = true -> exists t, refPathToGoType u (ref s) = Ok t).

(** What is done with a response of [status] whose header of the content type is
    [header]: it is read by the first word that stands in the header and has a
    response that covers the status, as the closest of those. *)
Definition reads_as (rs : responses T) (status : nat) (header : string) (o : option (string * string * string)) : Prop :=
  let open w n := contains header w = true /\ covers n status in
  match o with
  | None => forall n w c d, offers rs n w c d -> ~ open w n
  | Some (word, decl, field) =>
      exists name c, offers rs name word c decl /\ open word name /\
        (exists p, In (word, p) words /\ field = (p ++ shown name)%string) /\
        forall n w c' d, offers rs n w c' d -> open w n ->
          place word < place w \/ (word = w /\ (n = name \/ closer name n))
  end.
End Spec.

(** The texts of the generated switch. *)
Definition condition (name cond : string) : Prop :=
  (exists k, 100 <= k <= 999 /\ name = itoa k /\ cond = ("rsp.StatusCode == " ++ itoa k)%string) \/
  (exists k, 1 <= k <= 5 /\ name = (itoa k ++ "XX")%string /\ cond = ("rsp.StatusCode / 100 == " ++ itoa k)%string) \/
  (name = "default" /\ cond = "true").
Definition line (s : string) : string := (s ++ String (ascii_of_N 10) "")%string.
Definition quoted (s : string) : string := (String (ascii_of_N 34) s ++ String (ascii_of_N 34) "")%string.
Inductive written : clause -> string -> Prop :=
| w_reads word name decl field cond : condition name cond ->
    written (Reads word name decl field)
      (line ("case strings.Contains(rsp.Header.Get(" ++ quoted "Content-Type" ++ "), " ++ quoted word ++ ") && " ++ cond ++ ":")
       ++ line ("var dest " ++ decl)
       ++ line ("if err := " ++ word ++ ".Unmarshal(bodyBytes, &dest); err != nil { ")
       ++ line " return nil, err " ++ line "}"
       ++ line ("response." ++ field ++ " = &dest") ++ line "")%string
| w_leaves name note cond : condition name cond ->
    written (Leaves name note) (line ("case " ++ cond ++ ":") ++ line note ++ line "")%string.
