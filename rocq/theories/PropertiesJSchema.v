(** C51, C52, C67: JSON Schema output. *)
From Verif Require Import Prelude JSchema JSchemaProofs JSchemaSem.
Local Open Scope string_scope.
Local Open Scope list_scope.

Definition str (s : string) : node := NLit (LStr s).
(** An OpenAPI document with the given component schemas. *)
Definition doc (cs : list (string * node)) : node :=
  NFile [NStruct [("openapi", str "3.0.0");
                  ("info", NStruct [("title", str "x"); ("version", str "0.0")]);
                  ("paths", NStruct []);
                  ("components", NStruct [("schemas", NStruct cs)])]].
Definition at_component (c : string) (p : list step) : list step :=
  Idx 0 :: Lab "components" :: Lab "schemas" :: Lab c :: p.

Ltac good := repeat first [apply g_file | apply g_struct | apply g_list | apply g_lit | constructor | exact I | reflexivity].

(** *** C51 *)

(** For every document and every path in it: below keywords the conversion
    leaves alone the document is unchanged; nodes that are not schema objects
    keep their labels or length; schema objects lose exactly the OpenAPI-only
    keywords, keep all other labels in order, and a nullable type becomes the
    list of the type and null. *)
Theorem C51_conversion_partial :
  forall d out, oapiToJSchema d = Ok out -> good d ->
  forall p m, nav d p = Some m -> outcome_at (role_at true d p) m (nav out p).
Proof. exact (fun d out H G p m => conversion true d out p m H G). Qed.
Print Assumptions C51_conversion_partial.

Theorem C51_removed_partial :
  forall d out, oapiToJSchema d = Ok out -> good d ->
  forall p, role_at true d p = Dropped -> nav out p = None.
Proof. exact (fun d out H G p => dropped_gone true d out p H G). Qed.
Print Assumptions C51_removed_partial.

(** The conversion succeeds unless a schema object has an unknown type: an
    outermost one is reported as an error, a nested one as a panic. *)
Theorem C51_outcomes_partial :
  forall d, good d -> distinct d ->
  match oapiToJSchema d with
  | Ok _ => forall outer l, ~ offender true outer d l
  | Err e => exists l, offender true true d l /\ e = new_err ("unrecognized schema node type " ++ lit_text l)%string
  | Panic => exists l, offender true false d l
  | OutOfFuel => False
  end.
Proof. exact (outcomes true). Qed.
Print Assumptions C51_outcomes_partial.

Definition ex_obj : node :=
  NStruct [("type", str "object"); ("description", str "d"); ("nullable", NLit LTrue);
           ("properties", NStruct [
              ("nullable", NStruct [("type", str "string"); ("deprecated", NLit LTrue); ("nullable", NLit LFalse)]);
              ("type", NStruct [("type", str "array"); ("items", NStruct [("nullable", NLit LTrue); ("type", str "integer")])])]);
           ("default", NStruct [("nullable", str "data"); ("type", str "string")])].

Example C51_conversion_ex :
  good (doc [("A", ex_obj)]) /\
  role_at true (doc [("A", ex_obj)]) (at_component "A" []) = Converted true /\
  role_at true (doc [("A", ex_obj)]) (at_component "A" [Lab "properties"]) = Walked /\
  role_at true (doc [("A", ex_obj)]) (at_component "A" [Lab "properties"; Lab "type"; Lab "items"]) = Converted false /\
  role_at true (doc [("A", ex_obj)]) (at_component "A" [Lab "default"]) = Kept /\
  role_at true (doc [("A", ex_obj)]) (at_component "A" [Lab "nullable"]) = Dropped /\
  oapiToJSchema (doc [("A", ex_obj)]) = Ok (doc [("A",
    NStruct [("type", NList [str "object"; str "null"]); ("description", str "d");
             ("properties", NStruct [
                ("nullable", NStruct [("type", str "string")]);
                ("type", NStruct [("type", str "array"); ("items", NStruct [("type", NList [str "integer"; str "null"])])])]);
             ("default", NStruct [("nullable", str "data"); ("type", str "string")]);
             ("$schema", str "http://json-schema.org/draft-04/schema#")])]).
Proof. split; [good|]. repeat split; vm_compute; reflexivity. Qed.

Example C51_outcomes_ex :
  (* unknown type at the top, and below a schema object *)
  oapiToJSchema (doc [("A", NStruct [("type", str "null")])]) = Err (new_err "unrecognized schema node type null") /\
  oapiToJSchema (doc [("A", NStruct [("type", str "array"); ("items", NStruct [("type", str "null")])])]) = Panic.
Proof. split; vm_compute; reflexivity. Qed.

(** Data in a schema without a literal type is taken for a schema if it has a
    field "type": an enum value loses a field. *)
Theorem C51_data_changed_refuted :
  exists d out p v, oapiToJSchema d = Ok out /\ good d /\ distinct d /\
    nav d (at_component "A" [Lab "enum"; Idx 0]) = Some (NStruct [("type", str "string"); ("example", v)]) /\
    p = at_component "A" [Lab "enum"; Idx 0; Lab "example"] /\
    nav d p = Some v /\ nav out p = None.
Proof.
  exists (doc [("A", NStruct [("enum", NList [NStruct [("type", str "string"); ("example", str "v")]])])]).
  eexists. exists (at_component "A" [Lab "enum"; Idx 0; Lab "example"]), (str "v").
  split; [vm_compute; reflexivity|]. split; [good|].
  split.
  - repeat first [apply d_file | apply d_struct | apply d_list | apply d_lit | constructor]; cbn; intuition congruence.
  - repeat split; vm_compute; reflexivity.
Qed.
Print Assumptions C51_data_changed_refuted.

(** *** C52 *)

(** $schema is added to the schema objects that no typed schema object
    encloses, and to no other node. *)
Theorem C52_outermost_partial :
  forall d out p fs,
    oapiToJSchema d = Ok out -> good d -> no_own_schema d -> nav d p = Some (NStruct fs) ->
    (match nav out p with
     | Some (NStruct fs') => first "$schema" fs' <> None
     | _ => False
     end <-> role_at true d p = Converted true).
Proof. exact schema_field_at. Qed.
Print Assumptions C52_outermost_partial.

Example C52_outermost_ex :
  let d := doc [("A", ex_obj)] in
  exists out fs, oapiToJSchema d = Ok out /\ good d /\
    nav d (at_component "A" [Lab "properties"; Lab "nullable"]) = Some (NStruct fs) /\
    role_at true d (at_component "A" [Lab "properties"; Lab "nullable"]) = Converted false /\
    nav out (at_component "A" [Lab "properties"; Lab "nullable"; Lab "$schema"]) = None /\
    nav out (at_component "A" [Lab "$schema"]) <> None.
Proof.
  cbv zeta. eexists. eexists. split; [vm_compute; reflexivity|]. split; [good|].
  split; [vm_compute; reflexivity|]. split; [vm_compute; reflexivity|]. split; vm_compute; [reflexivity|discriminate].
Qed.

(** Not the root only: schemas nested in a component without a literal type
    get it too, and so does every component. *)
Theorem C52_root_only_refuted :
  exists d out, oapiToJSchema d = Ok out /\ good d /\ distinct d /\
    nav out [Idx 0; Lab "$schema"] = None /\
    nav out (at_component "A" [Lab "allOf"; Idx 0; Lab "$schema"]) <> None /\
    nav out (at_component "A" [Lab "allOf"; Idx 1; Lab "$schema"]) <> None /\
    nav out (at_component "B" [Lab "$schema"]) <> None.
Proof.
  exists (doc [("A", NStruct [("allOf", NList [NStruct [("type", str "string")]; NStruct [("type", str "object")]])]);
               ("B", NStruct [("type", str "string")])]).
  eexists. split; [vm_compute; reflexivity|]. split; [good|].
  split.
  - repeat first [apply d_file | apply d_struct | apply d_list | apply d_lit | constructor]; cbn; intuition congruence.
  - repeat split; vm_compute; congruence.
Qed.
Print Assumptions C52_root_only_refuted.

(** *** C67 *)

(** For schemas of the shape the converter is written for, the JSON Schema
    accepts exactly the data the OpenAPI schema accepts, whatever the other
    constraint keywords mean. *)
Theorem C67_same_data_partial :
  forall other root n n' d,
    schema n -> good n -> scan root n = Ok n' ->
    accepts other true n d = accepts other false n' d.
Proof. exact same_data. Qed.
Print Assumptions C67_same_data_partial.

Definition ex_s : node :=
  NStruct [("type", str "array"); ("nullable", NLit LTrue); ("minItems", NLit (LNum "1"));
           ("items", NStruct [("anyOf", NList [NStruct [("type", str "string"); ("nullable", NLit LTrue)];
                                               NStruct [("type", str "boolean")]])])].
Definition no_other : string -> node -> json -> bool := fun _ _ _ => true.

Example C67_same_data_ex :
  schema ex_s /\ good ex_s /\
  exists n', scan true ex_s = Ok n' /\
    accepts no_other true ex_s JNull = true /\ accepts no_other false n' JNull = true /\
    accepts no_other false n' (JArr [JNull; JBool true]) = true /\
    accepts no_other false n' (JArr [JInt 3]) = false /\
    (* unconverted, the JSON Schema reading differs *)
    accepts no_other false ex_s JNull = false.
Proof.
  split; [|split; [good|]].
  - eapply s_typed; [repeat constructor; cbn; intuition congruence|reflexivity| |].
    + intros k v I M. cbn in I.
      destruct I as [E|[E|[E|[E|[]]]]]; inversion E; subst; first [discriminate M|reflexivity].
    + intros k v I M. cbn in I.
      destruct I as [E|[E|[E|[E|[]]]]]; inversion E; subst; try discriminate M.
      apply u_items. eapply s_untyped; [repeat constructor; cbn; intuition congruence|reflexivity| |].
      * intros k v [E'|[]] _. inversion E'; subst. apply u_list; [reflexivity|].
        intros s [<-|[<-|[]]]; (eapply s_typed; [repeat constructor; cbn; intuition congruence|reflexivity| |]);
        intros k v I M0; cbn in I; repeat (destruct I as [I|I]; [inversion I; subst; discriminate M0|]); contradiction.
      * intros k v [E'|[]] M'. inversion E'; subst. discriminate M'.
  - eexists. split; [vm_compute; reflexivity|]. repeat split; vm_compute; reflexivity.
Qed.

(** A combinator beside a type is not converted: null is accepted by the
    OpenAPI schema and refused by its JSON Schema. *)
Theorem C67_combinators_refuted :
  exists n n', good n /\ distinct n /\ scan true n = Ok n' /\
    (forall other, accepts other true n JNull = true /\ accepts other false n' JNull = false).
Proof.
  exists (NStruct [("type", str "string"); ("nullable", NLit LTrue);
                   ("allOf", NList [NStruct [("type", str "string"); ("nullable", NLit LTrue)]])]).
  eexists. split; [good|]. split.
  - repeat first [apply d_file | apply d_struct | apply d_list | apply d_lit | constructor]; cbn; intuition congruence.
  - split; [vm_compute; reflexivity|]. intro other. split; vm_compute; reflexivity.
Qed.
Print Assumptions C67_combinators_refuted.
