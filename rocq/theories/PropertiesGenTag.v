(** Fields with extensions (C128). *)
From Coq Require Import Permutation.
From Verif Require Import Prelude Strings Version GenName GenNameProofs GenType GenTypeProofs GenTypeFacts GenGlobals PropertiesGenName
  GenTag GenTagProofs GenTagFacts.
Local Open Scope string_scope.
Local Open Scope list_scope.

(** The exact text of a field: its comments, its name, its type and its tags,
    sorted by key, one for each key that is wanted. Extensions of another type than
    the one expected count as absent. *)
Theorem C128_exact : forall u noptr first p, proper p -> exists kvs name why,
  sorted (map fst kvs) /\ NoDup (map fst kvs) /\ (forall k v, In (k, v) kvs <-> wants noptr p k v) /\
  text_or p "x-go-name" (schemaNameToTypeName u (q_json p)) name /\ text_or p "x-deprecated-reason" "" why /\
  genTagged u noptr first p =
    ((if String.eqb (q_desc p) "" then ""
      else (if first then "" else newline) ++ stringWithTypeNameToGoComment (q_desc p) (schemaNameToTypeName u (q_json p)) ++ newline)
     ++ (if q_dep p then deprecationComment why ++ newline else "")
     ++ "    " ++ name ++ " " ++ ((if pointer noptr p then "*" else "") ++ q_decl p) ++ tags_written kvs)%string.
Proof. exact tagged_exact. Qed.
Print Assumptions C128_exact.

(** Each property has its field, in the order of the properties. *)
Theorem C128_each : forall u noptr ps, length (genFieldsFromProperties u noptr ps) = length ps /\
  forall i p, nth_error ps i = Some p -> nth_error (genFieldsFromProperties u noptr ps) i = Some (genTagged u noptr (Nat.eqb i 0) p).
Proof. exact fields_each. Qed.
Print Assumptions C128_each.

(** Go reads from the tags what is wanted and nothing else, if keys and values can
    be written in tags at all. *)
Theorem C128_read_partial : forall u noptr first p, proper p ->
  (forall k v, wants noptr p k v -> good_key k /\ all_chars value_char v = true) ->
  exists head tags, genTagged u noptr first p = (head ++ (if String.eqb tags "" then "" else "`" ++ tags ++ "`"))%string /\
    forall k v, tag_lookup tags k = Some v <-> wants noptr p k v.
Proof. exact read_back. Qed.
Print Assumptions C128_read_partial.

(** The order in which Go ranges over the extensions, and over the tags that are
    asked for, makes no difference. *)
Theorem C128_order : forall p x, proper p -> same_exts (q_exts p) x ->
  forall u noptr first, genTagged u noptr first (with_exts p x) = genTagged u noptr first p.
Proof. exact order_same. Qed.
Print Assumptions C128_order.

(** Fields without extensions are those that C97 is about. *)
Theorem C128_plain : forall u first p g,
  genTagged u false first (mkProp (p_name p) (p_desc p) (typeDecl g) (g_skip g) (p_req p) (p_null p) (p_ro p) (p_wo p) false (p_dep p) [])
  = genField u first (p, g).
Proof. exact as_before. Qed.
Print Assumptions C128_plain.

(** A name with a quote in it is not escaped: Go reads another. *)
Theorem C128_read_refuted : forall u, exists p v head tags, proper p /\ wants false p "json" v /\
  genTagged u false true p = (head ++ "`" ++ tags ++ "`")%string /\ tag_lookup tags "json" = Some "a" /\ v <> "a".
Proof. exact quote_refuted. Qed.
Print Assumptions C128_read_refuted.

(** One tag that is asked for with something else than a text makes all of them
    disappear, without an error. *)
Theorem C128_dropped_refuted : exists p m k s, proper p /\ In ("x-oapi-codegen-extra-tags", EMap m) (q_exts p) /\ In (k, EStr s) m /\
  forall v, ~ In (k, v) (fieldTags false p).
Proof. exact dropped_refuted. Qed.
Print Assumptions C128_dropped_refuted.

(** The comment of a field that is given another name has the old one, and two
    fields can be given one name. *)
Example C128_named :
  genFieldsFromProperties ascii_only false
    [case_prop "who" [("x-go-name", EStr "Owner")];
     mkProp "by" "" "int" false false false false false true true
       [("x-oapi-codegen-extra-tags", EMap [("yaml", EStr "y"); ("db", EStr "d")]); ("x-go-name", EStr "Owner"); ("x-deprecated-reason", EStr "old")];
     mkProp "c" "" "int" false false false false false true false [("x-omitempty", EBool false); ("x-go-json-ignore", EBool true)];
     mkProp "d" "" "" false false false false false false false []]
  = ["// Who Says who.
    Owner string`json:""who""`";
     "// Deprecated: old
    Owner *int`db:""d"" form:""by,omitempty"" json:""by,omitempty"" yaml:""y""`";
     "    C *int`form:""c"" json:""-""`";
     "    D "].
Proof. vm_compute. reflexivity. Qed.
Example C128_proper : proper (case_prop "who" [("x-oapi-codegen-extra-tags", EMap [("yaml", EStr "y"); ("db", EStr "d")])]) /\
  same_exts [("a", EMap [("yaml", EStr "y"); ("db", EStr "d")]); ("b", ENull)] [("b", ENull); ("a", EMap [("db", EStr "d"); ("yaml", EStr "y")])] /\
  tag_lookup "db:""d"" json:""by,omitempty""" "json" = Some "by,omitempty" /\ tag_lookup "db:""d""" "json" = None /\ good_key "json".
Proof.
  split; [|split; [|repeat split; discriminate]].
  - apply case_proper; [repeat constructor; intros []|]. intros k m [E|[]]. injection E as <- <-.
    constructor; [intros [E|[]]; discriminate E|repeat constructor; intros []].
  - exists [("b", ENull); ("a", EMap [("yaml", EStr "y"); ("db", EStr "d")])]. split; [apply perm_swap|].
    constructor; [split; [reflexivity|constructor]|]. constructor; [split; [reflexivity|apply same_map, perm_swap]|constructor].
Qed.
