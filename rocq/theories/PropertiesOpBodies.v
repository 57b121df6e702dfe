(** C133: the bodies of requests and the responses of operations. *)
From Coq Require Import Permutation.
From Verif Require Import Prelude Strings Version GenName GenType OpDefs GoJsonSpec RespCase OpBodies OpBodiesSpec OpBodiesProofs OpBodiesNames OpBodiesWitness.
Local Open Scope string_scope.
Local Open Scope list_scope.

(** Every content of a body has one definition, in the order of content types, and
    a type of its own unless its schema stands for another. *)
Theorem C133_bodies : forall (T E X : Type) (u : unicode) (ref : T -> string)
  (goSchema : option T -> list string -> outcome (goschema X)) (withForm : X -> X)
  (op : string) (required : bool) (cs : list (string * content T E)),
  NoDup (map fst cs) -> (forall c x, In (c, x) cs -> body_typed u ref goSchema op c x) ->
  exists ws ds, Permutation ws cs /\ increasing (map fst ws) /\
    generateBodyDefinitions u ref goSchema withForm op (Some (required, cs)) = Ok (map fst ds, List.concat (map snd ds)) /\
    Forall2 (fun cx d => defines u ref goSchema withForm op required cx (fst d) (snd d)) ws ds.
Proof. exact (fun T E X u ref goSchema withForm => @bodies_exact T E X u ref goSchema withForm). Qed.
Print Assumptions C133_bodies.

(** Contents of different tags have different types and suffixes of functions. *)
Theorem C133_apart : forall (T E X : Type) (u : unicode) (ref : T -> string)
  (goSchema : option T -> list string -> outcome (goschema X)) (withForm : X -> X)
  (op : string) (required : bool) (cs : list (string * content T E)) (defs : list (body_def X E)) (types : list (string * goschema X)),
  NoDup (map fst cs) -> (forall c x, In (c, x) cs -> body_typed u ref goSchema op c x) ->
  (forall c c' tag, In c (map fst cs) -> In c' (map fst cs) -> tagged c tag -> tagged c' tag -> c = c') ->
  generateBodyDefinitions u ref goSchema withForm op (Some (required, cs)) = Ok (defs, types) ->
  NoDup (map fst types) /\
  forall b b', In b defs -> In b' defs -> b_tag b <> "" -> b_tag b' <> "" -> suffix b = suffix b' -> b_content b = b_content b'.
Proof. exact (fun T E X u ref goSchema withForm => @bodies_apart T E X u ref goSchema withForm). Qed.
Print Assumptions C133_apart.

(** The type of a request body is named after the operation and the tag, and those of
    different contents differ. *)
Theorem C133_request_types : forall (T E X : Type) (u : unicode) (ref : T -> string)
  (goSchema : option T -> list string -> outcome (goschema X)) (withForm : X -> X)
  (op : string) (required : bool) (cs : list (string * content T E)) (defs : list (body_def X E)) (types : list (string * goschema X)),
  NoDup (map fst cs) -> (forall c x, In (c, x) cs -> body_typed u ref goSchema op c x) ->
  (forall c c' tag, In c (map fst cs) -> In c' (map fst cs) -> tagged c tag -> tagged c' tag -> c = c') ->
  generateBodyDefinitions u ref goSchema withForm op (Some (required, cs)) = Ok (defs, types) ->
  (forall b tag, In b defs -> tagged (b_content b) tag -> body_type_name op b = (op ++ tag ++ "RequestBody")%string) /\
  forall b b', In b defs -> In b' defs -> b_tag b <> "" -> body_type_name op b = body_type_name op b' -> b_content b = b_content b'.
Proof. exact (fun T E X u ref goSchema withForm => @request_types T E X u ref goSchema withForm). Qed.
Print Assumptions C133_request_types.

(** Two kinds of JSON have the same type and the same function. *)
Theorem C133_apart_refuted : forall u : unicode, exists (cs : list (string * content string unit)) defs types,
  NoDup (map fst cs) /\ (forall c x, In (c, x) cs -> body_typed u at_ref to_go "AddPet" c x) /\
  generateBodyDefinitions u at_ref to_go formed "AddPet" (Some (true, cs)) = Ok (defs, types) /\
  ~ NoDup (map fst types) /\
  exists b b', In b defs /\ In b' defs /\ b_content b <> b_content b' /\ b_tag b <> "" /\ suffix b = suffix b' /\
    body_type_name "AddPet" b = body_type_name "AddPet" b'.
Proof. exact collide. Qed.
Print Assumptions C133_apart_refuted.

(** A body of JSON without a schema is a panic. *)
Theorem C133_schema_refuted : forall u : unicode, exists body : list (string * content string unit),
  NoDup (map fst body) /\ generateBodyDefinitions u at_ref to_go formed "AddPet" (Some (true, body)) = Panic.
Proof. exact without_schema. Qed.
Print Assumptions C133_schema_refuted.

(** There is no other panic, and every error has its cause and its text. *)
Theorem C133_body_errors : forall (T E X : Type) (u : unicode) (ref : T -> string)
  (goSchema : option T -> list string -> outcome (goschema X)) (withForm : X -> X),
  (forall s p, goSchema s p <> OutOfFuel /\ goSchema s p <> Panic) ->
  forall (op : string) (body : option (bool * list (string * content T E))),
  (exists r, generateBodyDefinitions u ref goSchema withForm op body = Ok r) \/
  (generateBodyDefinitions u ref goSchema withForm op body = Panic /\
     exists q cs c x tag, body = Some (q, cs) /\ In (c, x) cs /\ co_schema x = None /\ tagged c tag) \/
  (exists e, generateBodyDefinitions u ref goSchema withForm op body = Err e /\
     exists q cs c x, body = Some (q, cs) /\ In (c, x) cs /\
     exists tag, tagged c tag /\
    ((exists e0, goSchema (co_schema x) [(op ++ tag ++ "Body")%string] = Err e0 /\
        e = mkErr (e_marks e0) ("error generating request body definition: " ++ e_text e0)%string) \/
     (exists s e0, co_schema x = Some s /\ isGoTypeReference (ref s) = true /\ refPathToGoType u (ref s) = Err e0 /\
        e = mkErr (e_marks e0) ("error turning reference (" ++ ref s ++ ") into a Go type: " ++ e_text e0)%string))).
Proof. exact (fun T E X u ref goSchema withForm ends => @bodies_outcome T E X u ref goSchema withForm ends). Qed.
Print Assumptions C133_body_errors.

(** No body is no definition. *)
Theorem C133_none : forall (T E X : Type) (u : unicode) (ref : T -> string)
  (goSchema : option T -> list string -> outcome (goschema X)) (withForm : X -> X) (op : string),
  generateBodyDefinitions (E:=E) u ref goSchema withForm op None = Ok ([], []).
Proof. exact (fun T E X u ref goSchema withForm op => eq_refl). Qed.
Print Assumptions C133_none.

(** Every response has one definition, in the order of statuses; it has the type it
    refers to unless one before has it. *)
Theorem C133_responses : forall (T E X : Type) (u : unicode) (goSchema : option T -> list string -> outcome (goschema X))
  (op : string) (rs : list (string * option (response_ref T E))) (ds : list (response_def X)),
  NoDup (map fst rs) -> generateResponseDefinitions u goSchema op rs = Ok ds ->
  exists ws, Permutation ws (present rs) /\ increasing (map fst ws) /\ Forall2 (response_of u goSchema op) ws ds /\
    forall pre w post dpre d dpost, ws = pre ++ w :: post -> ds = dpre ++ d :: dpost -> length pre = length dpre ->
      forall t, t <> "" -> (rd_ref d = t <-> refers u w t /\ forall w', In w' pre -> ~ refers u w' t).
Proof. exact (fun T E X u goSchema => @responses_exact T E X u goSchema). Qed.
Print Assumptions C133_responses.

(** No two responses have the same type, which would break the switch on types. *)
Theorem C133_refs_once : forall (T E X : Type) (u : unicode) (goSchema : option T -> list string -> outcome (goschema X))
  (op : string) (rs : list (string * option (response_ref T E))) (ds : list (response_def X)) a d b d' c,
  NoDup (map fst rs) -> generateResponseDefinitions u goSchema op rs = Ok ds -> ds = a ++ d :: b ++ d' :: c ->
  rd_ref d <> "" -> rd_ref d' <> rd_ref d.
Proof. exact (fun T E X u goSchema => @refs_once T E X u goSchema). Qed.
Print Assumptions C133_refs_once.

Theorem C133_response_errors : forall (T E X : Type) (u : unicode) (goSchema : option T -> list string -> outcome (goschema X)),
  (forall s p, goSchema s p <> OutOfFuel /\ goSchema s p <> Panic) ->
  forall (op : string) (rs : list (string * option (response_ref T E))),
  (exists r, generateResponseDefinitions u goSchema op rs = Ok r) \/
  (generateResponseDefinitions u goSchema op rs = Panic /\ exists st rf, In (st, Some (rf, None)) rs) \/
  (exists e, generateResponseDefinitions u goSchema op rs = Err e /\ exists st rr, In (st, Some rr) rs /\
    exists re, snd rr = Some re /\
  ((exists c x tag e0, In (c, x) (re_contents re) /\ tagged c tag /\
      goSchema (co_schema x) [(op ++ st ++ tag ++ "Response")%string] = Err e0 /\
      e = mkErr (e_marks e0) ("error generating request body definition: " ++ e_text e0)%string) \/
   (exists h s e0, In (h, s) (re_headers re) /\ goSchema s [] = Err e0 /\
      e = mkErr (e_marks e0) ("error generating response header definition: " ++ e_text e0)%string) \/
   (exists e0, isGoTypeReference (fst rr) = true /\ refPathToGoType u (fst rr) = Err e0 /\
      e = mkErr (e_marks e0) ("error turning reference (" ++ fst rr ++ ") into a Go type: " ++ e_text e0)%string))).
Proof. exact (fun T E X u goSchema ends => @responses_outcome T E X u goSchema ends). Qed.
Print Assumptions C133_response_errors.

Example C133_add_pet : forall u : unicode,
  (forall c x, In (c, x) add_pet -> body_typed u at_ref to_go "AddPet" c x) /\
  (forall c c' tag, In c (map fst add_pet) -> In c' (map fst add_pet) -> tagged c tag -> tagged c' tag -> c = c') /\
  generateBodyDefinitions u at_ref to_go formed "AddPet" (Some (true, add_pet)) = Ok
  ([mkBody true (Some (mkGo "Pet" "#/components/schemas/Pet")) "JSON" "application/json" true [];
    mkBody true (Some (mkGo "AddPetFormdataBody" "struct {Name string} with form tags")) "Formdata" "application/x-www-form-urlencoded" false
      [("name", tt)];
    mkBody true None "" "text/csv" false []],
   [("AddPetFormdataBody", mkGo "" "struct {Name string} with form tags")]).
Proof. exact (fun u => conj (add_pet_typed u) (conj add_pet_apart (add_pet_defined u))). Qed.

Example C133_faults : forall u : unicode, generateResponseDefinitions u to_go "AddPet" faults = Ok
  [mkResponse "200" "" [mkContentDef None "text/csv" ""] [] "";
   mkResponse "404" "broken" [mkContentDef (Some (mkGo "" "any")) "application/json" "JSON"]
     [mkHeader "X-Id" (schemaNameToTypeName u "X-Id") (mkGo "" "string")] "Fault";
   mkResponse "500" "broken" [mkContentDef (Some (mkGo "" "any")) "application/json" "JSON"] [] ""].
Proof. exact faults_defined. Qed.
