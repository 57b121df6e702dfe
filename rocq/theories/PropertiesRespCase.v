(** C132: how generated clients read responses. *)
From Verif Require Import Prelude Strings Version GenName GenType OpDefs RespCase RespCaseSpec RespCaseProofs RespCaseNotes RespCaseWitness.
Local Open Scope string_scope.
Local Open Scope list_scope.

(** Every response is read as the closest of those that cover its status, into the
    field and the type of its last content, and the switch is written out. *)
Theorem C132_exact : forall (T : Type) (u : unicode) (ref : T -> string) (goSchema : T -> list string -> outcome (string * string))
  (op : string) (rs : responses T),
  proper rs -> typed u ref goSchema rs -> (forall s p, goSchema s p <> OutOfFuel /\ goSchema s p <> Panic) ->
  exists ds cs ts, getResponseTypeDefinitions u ref goSchema op rs = Ok ds /\ responseCases u ref goSchema op rs = Ok cs /\
    (forall status header, reads_as u ref goSchema rs status header (run cs status header)) /\
    (forall w n x f, In (Reads w n x f) cs -> exists d, In d ds /\ r_type d = f /\ r_decl d = x /\ r_status d = n) /\
    Forall2 written cs ts /\
    genResponseUnmarshal u ref goSchema op rs = Ok (if Nat.eqb (length cs) 0 then ""
                                                    else line "switch {" ++ String.concat "" ts ++ line "}")%string.
Proof. exact (fun T u ref goSchema op rs => read_exact u ref goSchema op rs). Qed.
Print Assumptions C132_exact.

(** A case that reads nothing is of a content that is not read, and names it. *)
Theorem C132_notes : forall (T : Type) (u : unicode) (ref : T -> string) (goSchema : T -> list string -> outcome (string * string))
  (op : string) (rs : responses T) cs, proper rs -> responseCases u ref goSchema op rs = Ok cs ->
  forall n t, In (Leaves n t) cs -> exists ks c, In (n, Some ks) rs /\ In c (map fst ks) /\ (forall w, ~ In (c, w) known) /\
    isMediaTypeJson c = false /\ t = ("// Content-type (" ++ c ++ ") unsupported")%string.
Proof. exact (fun T u ref goSchema op rs cs => cases_noted u ref goSchema op rs cs). Qed.
Print Assumptions C132_notes.

(** Responses that have at most one content for each word have distinct fields, one
    for each content that is read. *)
Theorem C132_fields : forall (T : Type) (u : unicode) (ref : T -> string) (goSchema : T -> list string -> outcome (string * string))
  (op : string) (rs : responses T) (ds : list rtype),
  proper rs -> getResponseTypeDefinitions u ref goSchema op rs = Ok ds ->
  (forall n w c x c' x', has_content u ref goSchema rs n w c x -> has_content u ref goSchema rs n w c' x' -> c = c') ->
  NoDup (map r_type ds) /\
  forall d, In d ds <-> exists n w c x p, has_content u ref goSchema rs n w c x /\ In (w, p) words /\ d = mkRType (p ++ shown n) x n c.
Proof. exact (fun T u ref goSchema op rs ds => fields_distinct u ref goSchema op rs ds). Qed.
Print Assumptions C132_fields.

(** Two contents of a response that are read alike: the body of the first is read
    as the type of the second, and both have the same field. *)
Theorem C132_alike_refuted : forall u : unicode, exists (rs : responses string) cs ds,
  proper rs /\ typed u no_ref own_type rs /\
  responseCases u no_ref own_type "FindPet" rs = Ok cs /\ getResponseTypeDefinitions u no_ref own_type "FindPet" rs = Ok ds /\
  has_content u no_ref own_type rs "200" "json" "application/json" "Pet" /\
  (exists f, run cs 200 "application/json" = Some ("json", "Problem", f)) /\
  ~ NoDup (map r_type ds).
Proof. exact last_wins. Qed.
Print Assumptions C132_alike_refuted.

(** JSON of a vendor, which bodies of requests take for JSON, is not read. *)
Theorem C132_vendor_refuted : forall u : unicode, exists (rs : responses string) cs,
  proper rs /\ typed u no_ref own_type rs /\ responseCases u no_ref own_type "FindPet" rs = Ok cs /\
  In ("200", Some [("application/vnd.api+json", Some "Pet")]) rs /\ isMediaTypeJson "application/vnd.api+json" = true /\
  run cs 200 "application/vnd.api+json" = None.
Proof. exact vendor_unread. Qed.
Print Assumptions C132_vendor_refuted.

(** Without a type for every schema it is a panic, and the error names the content. *)
Theorem C132_errors : forall (T : Type) (u : unicode) (ref : T -> string) (goSchema : T -> list string -> outcome (string * string))
  (op : string) (rs : responses T),
  (forall s p, goSchema s p <> OutOfFuel /\ goSchema s p <> Panic) ->
  (typed u ref goSchema rs /\ exists ds, getResponseTypeDefinitions u ref goSchema op rs = Ok ds) \/
  (exists n cs c x e, In (n, Some cs) rs /\ In (c, Some x) cs /\
     ((exists e0, goSchema x [n] = Err e0 /\
         e = mkErr (e_marks e0) ("Unable to determine Go type for " ++ op ++ "." ++ c ++ ": " ++ e_text e0)%string) \/
      (exists g e0, goSchema x [n] = Ok g /\ (exists w, In (c, w) known) /\ isGoTypeReference (ref x) = true /\
         refPathToGoType u (ref x) = Err e0 /\ e = mkErr (e_marks e0) ("error dereferencing response Ref: " ++ e_text e0)%string)) /\
     getResponseTypeDefinitions u ref goSchema op rs = Err e /\ responseCases u ref goSchema op rs = Panic /\
     ~ typed u ref goSchema rs).
Proof. exact (fun T u ref goSchema op rs H => responses_total u ref goSchema H op rs). Qed.
Print Assumptions C132_errors.

Example C132_pets : forall u : unicode,
  proper pets /\ typed u no_ref own_type pets /\
  exists cs, responseCases u no_ref own_type "FindPet" pets = Ok cs /\
  map (fun q => run cs (fst q) (snd q))
    [(200, "application/json; charset=utf-8"); (200, "application/yaml"); (404, "application/json"); (410, "application/json");
     (500, "application/json"); (500, "text/plain"); (404, "application/yaml")]
  = [Some ("json", "Pets", "JSON200"); Some ("yaml", "Pets", "YAML200"); Some ("json", "Missing", "JSON404");
     Some ("json", "Fault", "JSON4XX"); Some ("json", "Problem", "JSONDefault"); None; None].
Proof. exact (fun u => conj pets_proper (conj (own_typed u pets) (pets_read u))). Qed.

Example C132_text_case : forall u : unicode,
  exists t, genResponseUnmarshal u no_ref own_type "FindPet"
              [("default", Some [("application/json", Some "Problem"); ("text/plain", Some "string")])] = Ok t /\
  t = String.concat (String (ascii_of_N 10) "")
    ["switch {";
     "case strings.Contains(rsp.Header.Get(" ++ quoted "Content-Type" ++ "), " ++ quoted "json" ++ ") && true:";
     "var dest Problem"; "if err := json.Unmarshal(bodyBytes, &dest); err != nil { "; " return nil, err "; "}";
     "response.JSONDefault = &dest"; ""; "case true:"; "// Content-type (text/plain) unsupported"; ""; "}"; ""]%string.
Proof. exact pets_text. Qed.
