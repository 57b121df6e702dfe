(** Documents for OpBodies.v. *)
From Verif Require Import Prelude Strings Version GenName GenType OpDefs GenNameProofs RespCase RespCaseProofs OpBodies OpBodiesSpec OpBodiesProofs.
Local Open Scope string_scope.
Local Open Scope list_scope.

(** Schemas that are references or else the texts of their types. *)
Definition at_ref (s : string) : string := if has_prefix s "#" then s else "".
Definition to_go (s : option string) (_ : list string) : outcome (goschema string) :=
  Ok (mkGo "" (match s with Some t => t | None => "any" end)).
Definition formed (x : string) : string := (x ++ " with form tags")%string.
Lemma to_go_settled s p : settled (to_go s p).
Proof. split; discriminate. Qed.

Definition plain_content (s : string) : content string unit := mkContent (Some s) [].
Definition add_pet : list (string * content string unit) :=
  [("text/csv", plain_content "string"); ("application/x-www-form-urlencoded", mkContent (Some "struct {Name string}") [("name", tt)]);
   ("application/json", plain_content "#/components/schemas/Pet")].

Lemma tag_one c t t' : tagged c t -> tagged c t' -> t = t'.
Proof. intros H H'. destruct (body_tag_iff c) as [B _]. apply B in H, H'. congruence. Qed.
Lemma tag_is c t : body_tag c = Some t -> tagged c t.
Proof. apply body_tag_iff. Qed.
Lemma no_tag c t : body_tag c = None -> tagged c t -> False.
Proof. intros N H. apply body_tag_iff in H. congruence. Qed.

Lemma add_pet_typed u c x : In (c, x) add_pet -> body_typed u at_ref to_go "AddPet" c x.
Proof.
  intros I tag _. cbn [add_pet In] in I. destruct I as [I|[I|[I|[]]]]; injection I as <- <-; cbn [co_schema plain_content];
    eexists; eexists; (split; [reflexivity|]); (split; [reflexivity|]); unfold stands_for.
  - eexists. cbn. reflexivity.
  - eexists. cbn. reflexivity.
  - exists (schemaNameToTypeName u "Pet"). reflexivity.
Qed.
Lemma add_pet_apart c c' tag : In c (map fst add_pet) -> In c' (map fst add_pet) -> tagged c tag -> tagged c' tag -> c = c'.
Proof.
  intros I I' H H'. apply body_tag_iff in H, H'. cbn in I, I'.
  destruct I as [<-|[<-|[<-|[]]]]; destruct I' as [<-|[<-|[<-|[]]]]; try reflexivity; vm_compute in H, H'; congruence.
Qed.
Lemma add_pet_defined u : generateBodyDefinitions u at_ref to_go formed "AddPet" (Some (true, add_pet)) = Ok
  ([mkBody true (Some (mkGo "Pet" "#/components/schemas/Pet")) "JSON" "application/json" true [];
    mkBody true (Some (mkGo "AddPetFormdataBody" "struct {Name string} with form tags")) "Formdata" "application/x-www-form-urlencoded" false
      [("name", tt)];
    mkBody true None "" "text/csv" false []],
   [("AddPetFormdataBody", mkGo "" "struct {Name string} with form tags")]).
Proof.
  unfold generateBodyDefinitions. cbn -[schemaNameToTypeName].
  unfold refPathToGoType. cbn -[schemaNameToTypeName].
  rewrite (word_name u "Pet") by (exists "P"%char, "et"; auto). reflexivity.
Qed.

Definition two_json : list (string * content string unit) :=
  [("application/json", plain_content "struct {A int}"); ("application/vnd.api+json", plain_content "struct {B int}")].
Lemma collide u : exists (cs : list (string * content string unit)) defs types,
  NoDup (map fst cs) /\ (forall c x, In (c, x) cs -> body_typed u at_ref to_go "AddPet" c x) /\
  generateBodyDefinitions u at_ref to_go formed "AddPet" (Some (true, cs)) = Ok (defs, types) /\
  ~ NoDup (map fst types) /\
  exists b b', In b defs /\ In b' defs /\ b_content b <> b_content b' /\ b_tag b <> "" /\ suffix b = suffix b' /\
    body_type_name "AddPet" b = body_type_name "AddPet" b'.
Proof.
  exists two_json. eexists. eexists. split; [repeat (constructor; [cbn; intuition discriminate|]); constructor|]. split.
  { intros c x I tag _. cbn [two_json In] in I. destruct I as [I|[I|[]]]; injection I as <- <-; cbn [co_schema plain_content];
      eexists; eexists; (split; [reflexivity|]); (split; [reflexivity|]); eexists; reflexivity. }
  split; [reflexivity|]. split; [cbn; intros N; inversion N as [|? ? N1 _]; apply N1; left; reflexivity|].
  eexists. eexists. split; [left; reflexivity|]. split; [right; left; reflexivity|]. repeat split; discriminate.
Qed.
Lemma without_schema u : exists body : list (string * content string unit),
  NoDup (map fst body) /\ generateBodyDefinitions u at_ref to_go formed "AddPet" (Some (true, body)) = Panic.
Proof. exists [("application/json", mkContent None [])]. split; [constructor; [intros []|constructor]|reflexivity]. Qed.

Definition faults : list (string * option (response_ref string unit)) :=
  [("500", Some ("#/components/responses/Fault", Some (mkWritten (Some "broken") [("application/json", mkContent None [])] [])));
   ("404", Some ("#/components/responses/Fault", Some (mkWritten (Some "broken") [("application/json", mkContent None [])] [("X-Id", Some "string")])));
   ("default", None); ("200", Some ("", Some (mkWritten None [("text/csv", plain_content "string")] [])))].
Lemma faults_defined u : generateResponseDefinitions u to_go "AddPet" faults = Ok
  [mkResponse "200" "" [mkContentDef None "text/csv" ""] [] "";
   mkResponse "404" "broken" [mkContentDef (Some (mkGo "" "any")) "application/json" "JSON"]
     [mkHeader "X-Id" (schemaNameToTypeName u "X-Id") (mkGo "" "string")] "Fault";
   mkResponse "500" "broken" [mkContentDef (Some (mkGo "" "any")) "application/json" "JSON"] [] ""].
Proof.
  unfold generateResponseDefinitions. cbn -[schemaNameToTypeName]. unfold refPathToGoType. cbn -[schemaNameToTypeName].
  rewrite (word_name u "Fault") by (exists "F"%char, "ault"; auto). cbn -[schemaNameToTypeName]. reflexivity.
Qed.
