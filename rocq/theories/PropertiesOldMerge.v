(** C135: compositions merged in the old way; C136: configurations of the generator. *)
From Verif Require Import Prelude Strings Version GenName GenTypeSpec GenTypeFacts PropertiesGenName RespCase GenType OldMerge
  OldMergeSpec OldMergeProofs OldMergeWitness.
Local Open Scope string_scope.
Local Open Scope list_scope.

(** *** C135 *)

(** A property collides exactly if one of the same name has another type or is
    required when it is not, and is appended otherwise. *)
Theorem C135_collides : forall ps p,
  (exists e, In e ps /\ p_name (fst e) = p_name (fst p) /\
     (typeDecl (snd e) <> typeDecl (snd p) \/ p_req (fst e) <> p_req (fst p))) <->
  addProperty ps p = Err (new_err ("property '" ++ p_name (fst p) ++ "' already exists with a different type")%string).
Proof. exact collision. Qed.
Print Assumptions C135_collides.
Theorem C135_added : forall ps p, (forall e, In e ps -> agree e p) <-> addProperty ps p = Ok (ps ++ [p]).
Proof. exact appended. Qed.
Print Assumptions C135_added.

(** Compatible parts are merged: the properties are those of all parts, and the
    struct embeds references and has the fields of the other parts. *)
Theorem C135_merged : forall u gen path l gs,
  Forall2 (fun r g => gen r path = Ok g) l gs -> named_refs u l -> compatible gs ->
  exists lines a,
    written u ["struct {"] (combine l gs) lines /\ first_addl gs a /\
    mergeSchemasV1 u gen path l
    = Ok (GSch (String.concat newline (lines ++ ["}"])) "" "" false false [] (flat_map g_props gs)
               (existsb g_has gs) a [] [] None).
Proof. exact merged_ok. Qed.
Print Assumptions C135_merged.

(** Only compatible parts are merged. *)
Theorem C135_compatible : forall u gen path l m, mergeSchemasV1 u gen path l = Ok m ->
  exists gs, Forall2 (fun r g => gen r path = Ok g) l gs /\ compatible gs /\ named_refs u l.
Proof. exact merged_only. Qed.
Print Assumptions C135_compatible.

(** "It's safe to merge the fields of two schemas with overlapping properties if
    those properties are identical": the property is there twice, and the struct
    has its field twice. *)
Theorem C135_union_refuted : forall u env, exists m,
  mergeSchemasV1 u (part_schema u env) ["T"] [with_id; with_id] = Ok m /\
  map (fun p => p_name (fst p)) (g_props m) = ["id"; "id"].
Proof. exact field_twice. Qed.
Print Assumptions C135_union_refuted.

(** The types that the additional properties of a part need are not kept. *)
Theorem C135_types_refuted : forall u env, exists g m td,
  part_schema u env deep_addl ["T"] = Ok g /\ In td (additionalTypeDefs g) /\
  mergeSchemasV1 u (part_schema u env) ["T"] [deep_addl] = Ok m /\
  g_addl m = fst (fst td) /\ additionalTypeDefs m = [].
Proof. exact type_lost. Qed.
Print Assumptions C135_types_refuted.

Example C135_pets :
  let open_id := Inl (Sch (plain_base "object") [("tag", strs)] None (Some strs) None None None) in
  let env := fun _ : string => object_of [("id", strs)] in
  match mergeSchemasV1 ascii_only (part_schema ascii_only env) ["T"] [Ref (ref_to "Pet"); open_id; open_id] with
  | Ok g => g_has g = true /\ g_addl g = "string" /\ g_type g = "struct {
   // Embedded struct due to allOf(#/components/schemas/Pet)
   Pet `yaml:"",inline""`
   // Embedded fields due to inline allOf schema
    Tag *string`json:""tag,omitempty""`
AdditionalProperties map[string]string `json:""-""`
   // Embedded fields due to inline allOf schema
    Tag *string`json:""tag,omitempty""`
}"
  | _ => False
  end /\
  mergeSchemasV1 ascii_only (part_schema ascii_only env) ["T"] [Inl (object_of [("id", strs)]); Inl (object_of [("id", Inl (object_of []))])]
  = Err (new_err "error merging properties: property 'id' already exists with a different type").
Proof. vm_compute. repeat split; reflexivity. Qed.

(** *** C136 *)

(** A configuration is accepted if it names a package and asks for at most one of
    three kinds of servers. *)
Theorem C136_accepted : forall n g,
  validate n g = Ok tt <-> n <> "" /\ one_server [ge_chi g; ge_echo g; ge_gin g].
Proof. exact accepted_iff. Qed.
Print Assumptions C136_accepted.
Theorem C136_refused : forall n g,
  (n = "" -> validate n g = Err (new_err "package name must be specified")) /\
  (n <> "" -> ~ one_server [ge_chi g; ge_echo g; ge_gin g] ->
   validate n g = Err (new_err "only one server type is supported at a time")).
Proof. exact refused. Qed.
Print Assumptions C136_refused.

(** "Only one server type should be specified at a time": a fourth kind is not
    counted. *)
Theorem C136_one_server_refuted : exists n g, validate n g = Ok tt /\ ~ one_server (servers g).
Proof. exact two_servers. Qed.
Print Assumptions C136_one_server_refuted.

(** Defaults are only given if nothing is asked for. *)
Theorem C136_defaults : forall g,
  (nothing_set g -> updateDefaults g = mkGen false true false false false false true true) /\
  (~ nothing_set g -> updateDefaults g = g).
Proof. exact defaults. Qed.
Print Assumptions C136_defaults.

Example C136_cases :
  validate "api" (updateDefaults (mkGen false false false false false false false false)) = Ok tt /\
  updateDefaults (mkGen false false false false false true false false) = mkGen false false false false false true false false /\
  is_ok (validate "api" (mkGen true true false false false false false false)) = false.
Proof. repeat split; reflexivity. Qed.
