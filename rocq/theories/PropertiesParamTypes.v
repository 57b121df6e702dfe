(** Properties of the parameters of operations in Go: C134. *)
From Verif Require Import Prelude Strings Version Util GenName GenNameProofs GenType RespCase OpBodiesSpec
  ParamTypes ParamTypesSpec ParamTypesProofs ParamTypesWitness.
Local Open Scope string_scope.
Local Open Scope list_scope.

(** *** C134 *)

(** Style and explode are what the document says, and otherwise what OpenAPI says
    for the place; other places make the generator panic. *)
Theorem C134_style : forall {T X} (p : param T X),
  ((pa_style p <> "" -> style p = Ok (pa_style p)) /\
   (pa_style p = "" -> (listed (pa_in p) -> style p = Ok "simple") /\ (formlike (pa_in p) -> style p = Ok "form") /\
      (~ listed (pa_in p) -> ~ formlike (pa_in p) -> style p = Panic))) /\
  ((forall b, pa_explode p = Some b -> explode p = Ok b) /\
   (pa_explode p = None -> (listed (pa_in p) -> explode p = Ok false) /\ (formlike (pa_in p) -> explode p = Ok true) /\
      (~ listed (pa_in p) -> ~ formlike (pa_in p) -> explode p = Panic))).
Proof. exact @styles. Qed.
Print Assumptions C134_style.

(** The type of the parameters has one field for each of them, in order;
    parameters with additional properties get types of their own before it. *)
Theorem C134_fields : forall {T X} u opId d (query header cookie : list (param T X)),
  (forall p, In p (query ++ header ++ cookie) -> known p) -> exists own fs,
  generateParamsTypes u opId d query header cookie = Ok (own ++ [((opId ++ "Params")%string, TStruct d fs)]) /\
  own_types u (opId ++ "Params") (query ++ header ++ cookie) own /\
  Forall2 (field_for u (opId ++ "Params")) (query ++ header ++ cookie) fs.
Proof. exact @params_types. Qed.
Print Assumptions C134_fields.

(** A single parameter whose style is not known is a panic. *)
Theorem C134_unknown : forall {T X} u opId d (query header cookie : list (param T X)) p,
  In p (query ++ header ++ cookie) -> ~ known p -> generateParamsTypes u opId d query header cookie = Panic.
Proof. exact @params_panic. Qed.
Print Assumptions C134_unknown.

(** All types an operation needs: its parameter type, if there is any parameter
    but those in the path, and what parameters and bodies bring along. *)
Theorem C134_types : forall {T X} u opId d (query header cookie path : list (param T X)) bodies,
  let mine := flat_map (fun p => ps_types (pa_schema p)) in
  let brought := mine query ++ mine header ++ mine cookie ++ mine path ++ List.concat bodies in
  (query = [] -> header = [] -> cookie = [] -> generateTypeDefs u opId d query header cookie path bodies = Ok ([], brought)) /\
  (forall p ts, In p query \/ In p header \/ In p cookie -> generateParamsTypes u opId d query header cookie = Ok ts ->
     generateTypeDefs u opId d query header cookie path bodies = Ok (ts, brought)).
Proof. exact @type_defs. Qed.
Print Assumptions C134_types.

(** The generated code speaks of the field by the name it has, *)
Theorem C134_names : forall {T X} u tn (p : param T X) f,
  field_for u tn p f -> (forall n, pa_go p <> Some (Some n)) -> fieldName u f = goName u p.
Proof. exact @field_name. Qed.
Print Assumptions C134_names.

(** but not if the name is given by [x-go-name]: the field has this name, the code
    uses its camel case. *)
Theorem C134_names_refuted : forall u, exists p : param unit unit, known p /\
  forall tn f, field_for u tn p f -> fieldName u f = "pet_id" /\ goName u p = "PetId".
Proof. exact names_differ. Qed.
Print Assumptions C134_names_refuted.

(** Fields should have different names. Parameters may have the same name in
    different places, and then the struct has two fields of this name. *)
Theorem C134_distinct_refuted : forall {T X} u opId d (query header cookie : list (param T X)) p q,
  (forall p, In p (query ++ header ++ cookie) -> known p) ->
  In p query -> In q (header ++ cookie) -> pa_name p = pa_name q -> pa_go p = None -> pa_go q = None ->
  exists own fs, generateParamsTypes u opId d query header cookie = Ok (own ++ [((opId ++ "Params")%string, TStruct d fs)]) /\
    ~ NoDup (map (fieldName u) fs).
Proof. exact @same_twice. Qed.
Print Assumptions C134_distinct_refuted.

(** The variable of a parameter is its name with a small letter, or, if that is a
    keyword, with a [p] before: a variable in either case. *)
Theorem C134_variable : forall {T X} u low (p : param T X) c d t,
  goName u p = String c t -> small c d -> all alnum t = true ->
  (~ In (String d t) go_keywords -> goVariableName u low p = Ok (String d t) /\ variable (String d t)) /\
  (In (String d t) go_keywords -> goVariableName u low p = Ok (String "p" (String c t)) /\ variable (String "p" (String c t))).
Proof. exact @variable_name. Qed.
Print Assumptions C134_variable.

(** Different parameters can have the same variable though their names are
    different in Go, and a name of separators only makes the generator panic. *)
Theorem C134_variable_refuted : forall u low,
  (exists p q : param unit unit, goName u p <> goName u q /\
     goVariableName u low p = Ok "pType" /\ goVariableName u low q = Ok "pType") /\
  (exists p : param unit unit, pa_name p = "_" /\ goVariableName u low p = Panic).
Proof. exact variables_clash. Qed.
Print Assumptions C134_variable_refuted.

(** A parameter with contents is read as JSON if there is one content and that is
    JSON, and passed through otherwise. *)
Theorem C134_kinds : forall {T X} (p : param T X),
  (isJson p = true <-> exists c, pa_contents p = [c] /\ json_like c) /\
  (isPassThrough p = true <-> pa_contents p <> [] /\ ~ exists c, pa_contents p = [c] /\ json_like c).
Proof. exact @kinds. Qed.
Print Assumptions C134_kinds.

Example C134_pets : forall u,
  generateParamsTypes u "FindPets" "Finds pets" [plain_param "limit" "query" None] [rich] [plain_param "limit" "cookie" None]
  = Ok [("FindPetsParams_XTrace", TParam (mkPS true "" [tt] tt));
        ("FindPetsParams", TStruct "Finds pets"
          [mkProp "" "limit" false (mkPS false "" [] tt) true None;
           mkProp "Trace" "X-Trace" true (mkPS true "FindPetsParams_XTrace" [tt] tt) false None;
           mkProp "" "limit" false (mkPS false "" [] tt) true None])] /\
  (forall p, In p [plain_param "limit" "query" None; rich; plain_param "limit" "cookie" None] -> known p) /\
  explode rich = Ok true /\ isJson rich = true /\ isPassThrough rich = false /\
  style (plain_param "id" "body" None) = Panic.
Proof. exact pets_params. Qed.
Example C134_variables : forall u low, exists p q : param unit unit,
  goName u p = "Limit" /\ small "L" "l" /\ goVariableName u low p = Ok "limit" /\
  goName u q = "Range" /\ goVariableName u low q = Ok "pRange".
Proof. exact variables_case. Qed.
