(** Properties of the types and constants generated for OpenAPI schemas: C97 to
    C100. GenTypeSpec.v says what a schema should become. *)
From Verif Require Gocode.
From Verif Require Import Prelude Strings Version Util GenName GenNameProofs GenSpellProofs GenType GenTypeSpec GenTypeProofs
  GenDeclProofs GenEnumProofs GenMergeProofs GenEmbedProofs GenTypeFacts PropertiesGenName.
Local Open Scope string_scope.
Local Open Scope list_scope.

Definition no_env : string -> schema := fun _ => zero_schema.

(** *** C97 *)

(** The Go type of a schema is the one of the specification: for every schema
    without [allOf], for which see C98. *)
Theorem C97_type : forall u env n r path,
  path_ok path -> simple_ref r -> depth_ref r <= n ->
  exists g, generateGoSchema u env n (Some r) path = Ok g /\
    g_type g = render (ty u env path r) /\
    typeDecl g = (if enum_of r && Nat.ltb 1 (length path) then enum_name u path else render (ty u env path r)) /\
    g_desc g = b_desc (s_base (value env r)) /\ g_alias g = alias_of r /\ g_skip g = skips r /\
    map view (additionalTypeDefs g)
    = map sview (inner_defs u env true path r ++ if enum_of r && Nat.ltb 1 (length path) then own u env path [] r else []).
Proof. exact type_text. Qed.
Print Assumptions C97_type.

(** The struct of an object has one field for each property and no others; its
    name, tag and pointer are those of [field_of]. Of a union it has the raw
    message, whatever the elements. *)
Theorem C97_fields : forall u env path b props items addl any one,
  objectlike b = true -> (props <> [] \/ any <> None \/ one <> None) ->
  exists fs ad un, body u env path (Sch b props items addl None any one) = GStruct fs ad un /\
    length fs = length props /\
    (forall n r, In (n, r) props ->
       In (field_of u env (b_required b) n r (used u env (path ++ [n]) [] r)) fs) /\
    (forall f, In f fs -> exists n r, In (n, r) props /\
       f = field_of u env (b_required b) n r (used u env (path ++ [n]) [] r)) /\
    (ad <> None <-> (b_has b = true \/ addl <> None)) /\
    (un = true <-> exists r, In r (elements any) \/ In r (elements one)).
Proof. exact fields_props. Qed.
Print Assumptions C97_fields.

(** Fields and declarations are in the order of the names. *)
Theorem C97_order : forall A (l : list (string * A)),
  sorted (map fst (by_key l)) /\ length (by_key l) = length l /\ forall x, In x (by_key l) <-> In x l.
Proof. exact (fun A l => conj (by_key_sorted l) (conj (by_key_length l) (fun x => by_key_in x l))). Qed.
Print Assumptions C97_order.

(** The text of all types of a document. *)
Theorem C97_file : forall u env same n l,
  doc_ok l -> doc_depth l <= n -> NoDup (dnames (doc_decls u env l)) ->
  exists ts, generateTypesForSchemas u env n l = Ok ts /\
    generateTypes same ts = Ok (String.concat "" (map decl_text (doc_decls u env l)) ++ newline)%string.
Proof. exact file_text. Qed.
Print Assumptions C97_file.

(** What is refused. *)
Theorem C97_unknown : forall u env n b props items addl any one path,
  ~ In (b_type b) known_types ->
  generateGoSchema u env (S n) (Some (Inl (Sch b props items addl None any one))) path
  = Err (wrap ("error resolving primitive type: unhandled Schema type: " ++ b_type b)%string
           (new_err ("unhandled Schema type: " ++ b_type b))).
Proof. exact unknown_type. Qed.
Print Assumptions C97_unknown.

Theorem C97_format : forall u env n b props items addl any one path,
  (b_type b = "number" /\ ~ In (b_format b) ["double"; "float"; ""] \/ b_type b = "boolean" /\ b_format b <> "") ->
  exists e, generateGoSchema u env (S n) (Some (Inl (Sch b props items addl None any one))) path = Err e /\
    e_text e = ("error resolving primitive type: "
                ++ if String.eqb (b_type b) "number" then "invalid number format: " ++ b_format b
                   else "invalid format (" ++ b_format b ++ ") for boolean")%string.
Proof. exact bad_format. Qed.
Print Assumptions C97_format.

Definition panel_base (required : list string) : base :=
  mkBase "object" "" "A panel." [] required false false false false false false false false false false.
Definition count_base : base :=
  mkBase "integer" "int32" "" [] [] false true false false false false false false false false.
Definition panel : list (string * sref) :=
  [("title", strs);
   ("kind", enum_schema ["row"; "graph"]);
   ("size", Inl (Sch count_base [] None None None None None));
   ("links", Inl (Sch (plain_base "array") [] (Some (Ref "#/components/schemas/Link")) None None None None))].
Definition panel_doc : list (string * sref) :=
  [("Panel", Inl (Sch (panel_base ["title"; "links"]) panel None None None None None));
   ("Link", Inl (object_of [("url", strs)]))].

Definition value_of (l : list sref) : sref := Inl (Sch (plain_base "") [] None None None None (Some l)).
(** An enum among the elements of a union: the type of the element is written as
    the name an enum has at that place, except at the top. *)
Definition enum_union_doc : list (string * sref) :=
  [("Kind", value_of [enum_schema ["a"]; strs]); ("Row", Inl (object_of [("v", value_of [enum_schema ["b"; "c"]])]))].

Definition union_doc : list (string * sref) :=
  [("Value", value_of [strs; Inl (Sch (plain_base "array") [] (Some (Ref "#/components/schemas/Row")) None None None None)]);
   ("Row", Inl (object_of [("v", value_of [strs])]))].

Example C97_cases :
  doc_ok panel_doc /\ doc_depth panel_doc = 3 /\
  dnames (doc_decls ascii_only no_env panel_doc) = ["Link"; "Panel"; "PanelKind"] /\
  map render (map (dty) (doc_decls ascii_only no_env panel_doc)) =
    ["struct {
    Url *string`json:""url,omitempty""`
}"; "struct {
    Kind *PanelKind`json:""kind,omitempty""`
    Links []Link`json:""links""`
    Size *int32`json:""size""`
    Title string`json:""title""`
}"; "string"] /\
  doc_ok union_doc /\ dnames (doc_decls ascii_only no_env union_doc) = ["Row"; "RowV0"; "Row_V"; "Value"; "Value0"; "Value1"] /\
  map render (map (dty) (doc_decls ascii_only no_env union_doc)) =
    ["struct {
    V *Row_V`json:""v,omitempty""`
}"; "string"; "struct {
union json.RawMessage
}"; "struct {
union json.RawMessage
}"; "string"; "[]Row"] /\
  doc_ok enum_union_doc /\
  dnames (doc_decls ascii_only no_env enum_union_doc) = ["Kind"; "Kind0"; "Kind1"; "Row"; "RowV0"; "Row_V"] /\
  map render (map dty (doc_decls ascii_only no_env enum_union_doc)) =
    ["struct {
union json.RawMessage
}"; "string"; "string"; "struct {
    V *Row_V`json:""v,omitempty""`
}"; "RowV"; "struct {
union json.RawMessage
}"].
Proof.
  split; [|split; [reflexivity|split; [reflexivity|split; [reflexivity|split; [|split; [reflexivity|split; [reflexivity|split; [|split; reflexivity]]]]]]]].
  3: { intros p [<-|[<-|[]]]; (split; [reflexivity|]); cbn; repeat split; auto; try (right; right; discriminate). }
  2: { intros p [<-|[<-|[]]]; (split; [reflexivity|]); cbn; repeat split; auto; try (right; right; discriminate).
       exists "Row". repeat split. }
  intros p [<-|[<-|[]]]; (split; [reflexivity|]); cbn; repeat split; auto; try (right; right; discriminate).
  exists "Link". repeat split.
Qed.

(** References are read exactly so: local ones of depth four name the type of
    their last part, and all others are errors. *)
Theorem C97_references : forall u r t,
  refPathToGoType u r = Ok t <-> exists n, local_ref r n /\ t = schemaNameToTypeName u n.
Proof. exact reference_named. Qed.
Print Assumptions C97_references.
Theorem C97_references_total : forall u r,
  exists t, refPathToGoType u r = Ok t \/ exists e, refPathToGoType u r = Err e.
Proof. exact reference_total. Qed.
Print Assumptions C97_references_total.
Example C97_references_cases : local_ref "#/components/schemas/foo" "foo".
Proof. exists "", "components", "schemas". repeat split. Qed.

(** *** C94, for the types of nested schemas *)

(** These are named by paths. Paths of lower camel case names have different type
    names; without the underscores they may have the same. *)
Theorem C94_paths_partial : forall u p q, Forall camel p -> Forall camel q -> p <> [] -> q <> [] ->
  pathToTypeName u p = String.concat "_" (map capital p) /\
  (pathToTypeName u p = pathToTypeName u q -> p = q).
Proof. exact (fun u p q P Q NP NQ => conj (path_exact u p P) (paths_apart u p q P Q NP NQ)). Qed.
Print Assumptions C94_paths_partial.
Theorem C94_paths_refuted : forall u, camel "a" /\ camel "b" /\ camel "aB" /\
  Gocode.strip (pathToTypeName u ["a"; "b"]) = Gocode.strip (pathToTypeName u ["aB"]).
Proof. exact paths_meet. Qed.
Print Assumptions C94_paths_refuted.

(** *** C98 *)

(** Documented: a composed schema has the properties of all its parts. A
    composition of references only, without properties of its own, makes the
    generator panic; references to names with an underscore are ignored; of a part
    that is a composition itself the own properties are lost; and of an [anyOf],
    of the schema or a part, nothing is left. *)
Theorem C98_all_parts_refuted :
  (forall u env n path any one it ad b r l,
     ref_of r <> "" -> contains (last_part (split_str (ref_of r) "/")) "_" = false ->
     generateGoSchema u env (S n) (Some (Inl (Sch b [] it ad (Some (r :: l)) any one))) path = Panic) /\
  (forall u env n path b p ps it ad r,
     ref_of r <> "" -> contains (last_part (split_str (ref_of r) "/")) "_" = true -> objectlike b = true ->
     generateGoSchema u env (S n) (Some (Inl (Sch b (p :: ps) it ad (Some [r]) None None))) path
     = match generateGoSchema u env (S n) (Some (Inl (Sch b (p :: ps) it ad None None None))) path with
       | Ok g => Ok (with_oapi (Some (Sch b (p :: ps) it ad (Some [r]) None None)) g)
       | o => o
       end) /\
  (forall env, exists part m,
     In "own" (map fst (s_props part)) /\
     merge_loop env (mergeAllOf env 5) (object_of [("x", strs)]) [Inl part] = Ok m /\
     lookup "own" (s_props m) = None /\ lookup "deep" (s_props m) <> None) /\
  (forall env mergeAll l acc m, l <> [] -> merge_loop env mergeAll acc l = Ok m -> s_anyOf m = None).
Proof. exact (conj compose_panics (conj compose_underscore (conj compose_nested compose_any))). Qed.
Print Assumptions C98_all_parts_refuted.

(** What holds: when the first part is inline and no part is a composition itself,
    an object that agrees with its parts becomes the type of the schema with all
    properties, the last one of a name winning, all required names, and the [oneOf]
    elements of all. *)
Theorem C98_merged_partial : forall u env b props items addl part rest any one path,
  path_ok path -> let s := Sch b props items addl (Some (Inl part :: rest)) any one in
  let parts := parts_of env (Inl part :: rest) in
  objectlike b = true ->
  simple (Sch b props None addl None None one) -> (forall t, In t parts -> simple t) ->
  is_map props -> (forall t, In t parts -> agree b (s_base t) /\ is_map (s_props t)) ->
  one_addl (Sch b props items addl None any one :: parts) ->
  exists P one', is_map P /\ (forall k, lookup k P = latest k props parts) /\
  elements one' = elements one ++ flat_map (fun t => elements (s_oneOf t)) parts /\
  let m := Sch (merged_base b parts) P None (last_addl addl parts) None None one' in
  forall n, depth m <= n ->
  exists g, generateGoSchema u env (S n) (Some (Inl s)) path = Ok (with_oapi (Some s) g) /\ good u env path (Inl m) g.
Proof. exact compose. Qed.
Print Assumptions C98_merged_partial.

(** When all parts are references, an object becomes the type of the schema in
    which each part is a property of its name, unless that has an underscore, *)
Theorem C98_embedded_partial : forall u env b ps it ad l any one,
  ps <> [] -> objectlike b = true -> Forall (fun r => ref_of r <> "") l ->
  exists P, P <> [] /\ (is_map ps -> is_map P) /\ (forall k, lookup k P = embeds env k (lookup k ps) l) /\
    forall n path, generateGoSchema u env (S n) (Some (Inl (Sch b ps it ad (Some l) any one))) path
      = match generateGoSchema u env (S n) (Some (Inl (Sch b P it ad None any one))) path with
        | Ok g => Ok (with_oapi (Some (Sch b ps it ad (Some l) any one)) g)
        | o => o
        end.
Proof. exact embed. Qed.
Print Assumptions C98_embedded_partial.
(** and such a property is an embedded field: it has a comment and a name only. *)
Theorem C98_part_partial : forall u env n path first name d,
  exists g, generateGoSchema u env (S n) (Some (embedded d)) path = Ok g /\
    own_type u path g = g /\ additionalTypeDefs g = [] /\
    genField u first (mkP name d false false false false false, g)
    = ((if String.eqb d "" then ""
        else (if first then "" else newline) ++ stringWithTypeNameToGoComment d (schemaNameToTypeName u name) ++ newline)
       ++ "    " ++ schemaNameToTypeName u name ++ " ")%string.
Proof. exact embedded_field. Qed.
Print Assumptions C98_part_partial.

(** Parts that do not agree with the schema are refused. *)
Theorem C98_agree_partial : forall env mergeAll l acc m,
  s_allOf acc = None -> Forall (fun s => s_allOf s = None) (parts_of env l) ->
  merge_loop env mergeAll acc l = Ok m -> Forall (fun s => agree (s_base acc) (s_base s)) (parts_of env l).
Proof. exact merge_agree. Qed.
Print Assumptions C98_agree_partial.

Definition part_a : schema := object_of [("a", strs); ("x", strs)].
Definition part_b : schema := Sch (mkBase "object" "" "" [] ["b"] false false false false false false false false false false)
  [("b", Inl (Sch count_base [] None None None None None))] None None None None None.

Example C98_cases :
  agree (plain_base "object") (s_base part_a) /\ agree (plain_base "object") (s_base part_b) /\
  one_addl [object_of []; part_a; part_b] /\
  match generateGoSchema ascii_only no_env 5
          (Some (Inl (Sch (plain_base "object") [("x", strs)] None None (Some [Inl part_a; Inl part_b]) None None))) ["T"] with
  | Ok g => g_type g = "struct {
    A *string`json:""a,omitempty""`
    B *int32`json:""b""`
    X *string`json:""x,omitempty""`
}"
  | _ => False
  end /\
  (* the order of the parts matters: a reference before an inline part is also embedded *)
  match generateGoSchema ascii_only (fun _ => part_b) 5
          (Some (Inl (Sch (plain_base "object") [("x", strs)] None None (Some [Ref (ref_to "Bar"); Inl part_a]) None None))) ["T"],
        generateGoSchema ascii_only (fun _ => part_b) 5
          (Some (Inl (Sch (plain_base "object") [("x", strs)] None None (Some [Inl part_a; Ref (ref_to "Bar")]) None None))) ["T"] with
  | Ok g, Ok h => g_type g = "struct {
    Bar 
    A *string`json:""a,omitempty""`
    B *int32`json:""b""`
    X *string`json:""x,omitempty""`
}" /\ g_type h = "struct {
    A *string`json:""a,omitempty""`
    B *int32`json:""b""`
    X *string`json:""x,omitempty""`
}"
  | _, _ => False
  end.
Proof. unfold agree, types_agree, one_addl. cbn. repeat split; auto. Qed.

Example C98_embedded_cases :
  match generateGoSchema ascii_only (fun _ => part_b) 5
          (Some (Inl (Sch (plain_base "object") [("x", strs)] None None (Some [Ref (ref_to "Bar"); Ref (ref_to "my_part")]) None None))) ["T"] with
  | Ok g => g_type g = "struct {
    Bar 
    X *string`json:""x,omitempty""`
}"
  | _ => False
  end /\
  embeds (fun _ => part_b) "Bar" None [Ref (ref_to "Bar"); Ref (ref_to "my_part")] = Some (embedded "") /\
  embeds (fun _ => part_b) "my_part" None [Ref (ref_to "Bar"); Ref (ref_to "my_part")] = None.
Proof. vm_compute. auto. Qed.

(** *** C99 *)

(** A type that is used may not be declared: inside additional properties, inside
    the elements of a union, and for enums that are elements of a union. *)
Theorem C99_declared_refuted : forall u env,
  (doc_ok lost_doc /\ NoDup (dnames (doc_decls u env lost_doc)) /\
   exists d id, In d (doc_decls u env lost_doc) /\ In id (ids (dty d)) /\
     ~ In id builtins /\ ~ In id (dnames (doc_decls u env lost_doc))) /\
  (doc_ok lost_union /\ NoDup (dnames (doc_decls u env lost_union)) /\
   exists d id, In d (doc_decls u env lost_union) /\ In id (ids (dty d)) /\
     ~ In id builtins /\ ~ In id (dnames (doc_decls u env lost_union))) /\
  (doc_ok lost_enum /\ NoDup (dnames (doc_decls u env lost_enum)) /\
   exists d id, In d (doc_decls u env lost_enum) /\ In id (ids (dty d)) /\
     ~ In id builtins /\ ~ In id (dnames (doc_decls u env lost_enum))).
Proof. exact (fun u env => conj (lost u env) (conj (lost_in_union u env) (lost_as_element u env))). Qed.
Print Assumptions C99_declared_refuted.

(** What holds: it is declared, when all references are to components and no
    declarations are needed inside objects within additional properties or inside
    the elements of unions. *)
Theorem C99_declared_partial : forall u env l,
  doc_ok l -> (forall p, In p l -> kept_ref false (snd p)) ->
  (forall p r, In p l -> In r (refs_ref (snd p)) -> exists n, r = ref_to n /\ In n (map fst l)) ->
  forall d id, In d (doc_decls u env l) -> In id (ids (dty d)) ->
  In id builtins \/ In id (dnames (doc_decls u env l)).
Proof. exact doc_resolved. Qed.
Print Assumptions C99_declared_partial.

(** Whatever the schemas: no name is declared twice and none is left out, and
    documents are refused only where different schemas have the same name. *)
Theorem C99_unique_partial : forall same ts us,
  unique_types same [] ts = Ok us ->
  NoDup (tnames us) /\ (forall d, In d us -> In d ts) /\ (forall n, In n (tnames ts) -> In n (tnames us)).
Proof.
  exact (fun same ts us H => let (A, BC) := unique_sound same ts [] us H in let (B, C) := BC in
    conj A (conj (fun d I => proj1 (B d I)) (fun n I => match C n I with or_introl F => match F with end | or_intror G => G end))).
Qed.
Print Assumptions C99_unique_partial.

Theorem C99_refused_partial : forall same ts e,
  unique_types same [] ts = Err e ->
  exists a d b f, ts = a ++ d :: b /\ In f ([] ++ a) /\ fst (fst f) = fst (fst d) /\
    same (g_oapi (snd f)) (g_oapi (snd d)) = false /\
    e_text e = ("duplicate typename '" ++ fst (fst d) ++ "' detected, can't auto-rename, please use x-go-name to specify your own name for one of them")%string.
Proof. exact (fun same ts e => unique_fails same ts [] e). Qed.
Print Assumptions C99_refused_partial.

Example C99_cases :
  (forall p, In p panel_doc -> kept_ref false (snd p)) /\
  (forall p r, In p panel_doc -> In r (refs_ref (snd p)) -> exists n, r = ref_to n /\ In n (map fst panel_doc)) /\
  flat_map (fun d => ids (dty d)) (doc_decls ascii_only no_env panel_doc)
  = ["string"; "PanelKind"; "Link"; "int32"; "string"; "string"] /\
  unique_types (fun _ _ => false) [] [("A", "", plain "any" "" true None); ("A", "", plain "int" "" true None)]
  = Err (new_err "duplicate typename 'A' detected, can't auto-rename, please use x-go-name to specify your own name for one of them").
Proof.
  split; [|split; [|split; reflexivity]].
  - intros p [<-|[<-|[]]]; cbn; repeat split; intros q [].
  - intros p r [<-|[<-|[]]]; cbn; intros I; [|destruct I]. destruct I as [<-|[]]. exists "Link". split; [reflexivity|]. cbn. auto.
Qed.

(** *** C100 *)

(** Two types can define the same constant, and a constant can have the name of a
    type; a value with a quote makes no literal, one with a backslash another
    value. *)
Theorem C100_constants_refuted :
  (forall u env, doc_ok clash_doc /\ NoDup (dnames (doc_decls u env clash_doc)) /\
     ~ NoDup (flat_map const_names (doc_decls u env clash_doc)) /\
     exists c, In c (flat_map const_names (doc_decls u env clash_doc)) /\ In c (dnames (doc_decls u env clash_doc))) /\
  go_string (literal (GId "string") "a""b") = None /\
  exists w, go_string (literal (GId "string") "a\nb") = Some w /\ w <> "a\nb".
Proof. exact (conj clash literal_wrong). Qed.
Print Assumptions C100_constants_refuted.

(** What holds: the constants of a file are those of its enums; *)
Theorem C100_file_partial : forall u env n l,
  doc_ok l -> doc_depth l <= n -> NoDup (dnames (doc_decls u env l)) ->
  (forall d, In d (doc_decls u env l) -> good_consts (snd (fst d))) ->
  exists ts, generateTypesForSchemas u env n l = Ok ts /\
    generateEnums u ts = (newline ++ String.concat "" (map consts_text (doc_decls u env l)) ++ newline)%string.
Proof. exact file_consts. Qed.
Print Assumptions C100_file_partial.

(** a type that more than one schema needs has its constants once, as it is
    declared once (C99); *)
Theorem C100_once_partial : forall u same ts us,
  unique_types same [] ts = Ok us ->
  generateEnums u ts = (newline ++ String.concat "" (map enum_text (flat_map (enum_entry u) us)) ++ newline)%string.
Proof. exact enums_once. Qed.
Print Assumptions C100_once_partial.

(** an enum has one constant for each value, named after it (C95); *)
Theorem C100_exact_partial : forall u b,
  enumlike b = true -> NoDup (b_enum b) ->
  (forall v, In v (b_enum b) -> word (schemaNameToTypeName u v)) -> apart u (b_enum b) ->
  constants u b = combine (numbered [] (map (schemaNameToTypeName u) (b_enum b))) (b_enum b) /\
  good_consts (constants u b) /\ map snd (constants u b) = b_enum b.
Proof. exact constants_exact. Qed.
Print Assumptions C100_exact_partial.

(** within a type they are different; *)
Theorem C100_distinct_partial : forall d, good_consts (snd (fst d)) -> NoDup (const_names d).
Proof. exact const_names_distinct. Qed.
Print Assumptions C100_distinct_partial.

(** and they have the values of the enum, if these need no escapes. *)
Theorem C100_literal_partial : forall v, all no_escape v = true ->
  go_string (literal (GId "string") v) = Some v.
Proof. exact literal_value. Qed.
Print Assumptions C100_literal_partial.

Example C100_cases :
  (forall d, In d (doc_decls ascii_only no_env panel_doc) -> good_consts (snd (fst d))) /\
  map consts_text (doc_decls ascii_only no_env panel_doc) = [""; ""; "
// Defines values for PanelKind.
const (

  PanelKindGraph PanelKind = ""graph""
  PanelKindRow PanelKind = ""row""
)
"] /\ all no_escape "graph" = true.
Proof.
  split; [|split; reflexivity].
  intros d [<-|[<-|[<-|[]]]]; try (split; constructor).
  - vm_compute. eexists _, _. repeat split.
  - repeat constructor. vm_compute. eexists _, _. repeat split.
  - vm_compute. intros [Q|[]]; discriminate.
  - repeat constructor. intros [].
Qed.
