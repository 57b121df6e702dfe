(** Documents for RespCase.v. *)
From Verif Require Import Prelude Strings Version GenName GenType OpDefs GenNameProofs GenTypeFacts GoJsonProofs RespCase RespCaseSpec
  RespCaseProofs.
Local Open Scope string_scope.
Local Open Scope list_scope.

(** Schemas that are the names of their types. *)
Definition own_type (s : string) (_ : list string) : outcome (string * string) := Ok (s, "").
Definition no_ref (s : string) : string := "".

Lemma own_settled s p : settled (own_type s p).
Proof. split; discriminate. Qed.
Lemma own_typed u rs : typed u no_ref own_type rs.
Proof. intros n cs c s _ _. split; [exists (s, ""); reflexivity|discriminate]. Qed.
Lemma own_declared u s n d : declared u no_ref own_type s n d <-> d = s.
Proof.
  split.
  - intros [g [r [t [E [R ->]]]]]. injection E as <- <-. cbn in R. subst t. reflexivity.
  - intros ->. exists s, "", "". repeat split.
Qed.

Definition pets : responses string :=
  [("default", Some [("application/json", Some "Problem"); ("text/plain", Some "string")]);
   ("404", Some [("application/json", Some "Missing")]);
   ("200", Some [("application/yaml", Some "Pets"); ("application/json", Some "Pets")]);
   ("4XX", Some [("application/json", Some "Fault")]); ("204", None)].
Lemma status_name k : 100 <= k <= 999 -> valid_name (itoa k).
Proof. intros K. left. exists k. auto. Qed.
Lemma range_name k : 1 <= k <= 5 -> valid_name (itoa k ++ "XX").
Proof. intros K. right. left. exists k. auto. Qed.
Ltac distinct := repeat (constructor; [cbn; intuition discriminate|]); constructor.
Ltac name_of :=
  first [ right; right; reflexivity
        | match goal with |- valid_name ?n => let k := eval vm_compute in (numeral 0 n) in
            first [ apply (status_name k); lia | fail 1 ] end
        | apply (range_name 1); lia | apply (range_name 2); lia | apply (range_name 3); lia
        | apply (range_name 4); lia | apply (range_name 5); lia ].
Lemma pets_proper : proper pets.
Proof.
  split; [distinct|]. split.
  - repeat (apply Forall_cons; [cbn [fst]; name_of|]). constructor.
  - intros n cs I. cbn [pets In] in I.
    repeat (destruct I as [I|I]; [injection I as <- <- || discriminate I; distinct|]). destruct I.
Qed.

(** One response with two contents that are read alike. *)
Definition twice : responses string :=
  [("200", Some [("application/json", Some "Pet"); ("application/problem+json", Some "Problem")])].
Lemma twice_proper : proper twice.
Proof.
  split; [distinct|]. split; [repeat (apply Forall_cons; [cbn [fst]; name_of|]); constructor|].
  intros n cs I. destruct I as [I|[]]. injection I as <- <-. distinct.
Qed.
(** One whose content is JSON by its suffix. *)
Definition vendor : responses string := [("200", Some [("application/vnd.api+json", Some "Pet")])].
Lemma vendor_proper : proper vendor.
Proof.
  split; [distinct|]. split; [repeat (apply Forall_cons; [cbn [fst]; name_of|]); constructor|].
  intros n cs I. destruct I as [I|[]]. injection I as <- <-. distinct.
Qed.

Lemma last_wins u : exists (rs : responses string) cs ds,
  proper rs /\ typed u no_ref own_type rs /\
  responseCases u no_ref own_type "FindPet" rs = Ok cs /\ getResponseTypeDefinitions u no_ref own_type "FindPet" rs = Ok ds /\
  has_content u no_ref own_type rs "200" "json" "application/json" "Pet" /\
  (exists f, run cs 200 "application/json" = Some ("json", "Problem", f)) /\
  ~ NoDup (map r_type ds).
Proof.
  assert (C : toCamelCase u "200" = "200") by (rewrite camel_valid by name_of; reflexivity).
  exists twice. eexists. eexists. split; [exact twice_proper|]. split; [apply own_typed|].
  split; [unfold responseCases, getResponseTypeDefinitions; cbn -[toCamelCase]; reflexivity|].
  split; [unfold getResponseTypeDefinitions; cbn -[toCamelCase]; reflexivity|].
  split.
  { exists [("application/json", Some "Pet"); ("application/problem+json", Some "Problem")], "Pet".
    split; [left; reflexivity|]. split; [left; reflexivity|]. split; [cbn; tauto|]. apply own_declared. reflexivity. }
  split; [eexists; cbn -[toCamelCase]; reflexivity|].
  cbn -[toCamelCase]. intros N. inversion N as [|? ? N1 _]. apply N1. left. reflexivity.
Qed.

Lemma vendor_unread u : exists (rs : responses string) cs,
  proper rs /\ typed u no_ref own_type rs /\ responseCases u no_ref own_type "FindPet" rs = Ok cs /\
  In ("200", Some [("application/vnd.api+json", Some "Pet")]) rs /\ isMediaTypeJson "application/vnd.api+json" = true /\
  run cs 200 "application/vnd.api+json" = None.
Proof.
  exists vendor. eexists. split; [exact vendor_proper|]. split; [apply own_typed|].
  split; [unfold responseCases, getResponseTypeDefinitions; cbn; reflexivity|]. split; [left; reflexivity|]. split; reflexivity.
Qed.

Lemma pets_read u : exists cs, responseCases u no_ref own_type "FindPet" pets = Ok cs /\
  map (fun q => run cs (fst q) (snd q))
    [(200, "application/json; charset=utf-8"); (200, "application/yaml"); (404, "application/json"); (410, "application/json");
     (500, "application/json"); (500, "text/plain"); (404, "application/yaml")]
  = [Some ("json", "Pets", "JSON200"); Some ("yaml", "Pets", "YAML200"); Some ("json", "Missing", "JSON404");
     Some ("json", "Fault", "JSON4XX"); Some ("json", "Problem", "JSONDefault"); None; None].
Proof.
  assert (C : forall n, valid_name n -> toCamelCase u n = (if String.eqb n "default" then "Default" else n)) by (intros; apply camel_valid; assumption).
  eexists. split; [unfold responseCases, getResponseTypeDefinitions; cbn -[toCamelCase]; reflexivity|].
  rewrite !C by name_of. reflexivity.
Qed.

Lemma pets_text u : exists t, genResponseUnmarshal u no_ref own_type "FindPet" [("default", Some [("application/json", Some "Problem"); ("text/plain", Some "string")])] = Ok t /\
  t = String.concat (String (ascii_of_N 10) "")
    ["switch {";
     "case strings.Contains(rsp.Header.Get(" ++ quoted "Content-Type" ++ "), " ++ quoted "json" ++ ") && true:";
     "var dest Problem"; "if err := json.Unmarshal(bodyBytes, &dest); err != nil { "; " return nil, err "; "}";
     "response.JSONDefault = &dest"; ""; "case true:"; "// Content-type (text/plain) unsupported"; ""; "}"; ""]%string.
Proof.
  assert (C : toCamelCase u "default" = "Default") by (rewrite camel_valid by name_of; reflexivity).
  eexists. split; [|reflexivity]. unfold genResponseUnmarshal, responseCases, getResponseTypeDefinitions.
  cbn -[toCamelCase]. rewrite C. reflexivity.
Qed.
