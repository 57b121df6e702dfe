(** Parameters that show what goes wrong. *)
From Verif Require Import Prelude Strings Version Util GenName GenNameProofs GenType RespCase OpBodiesSpec
  ParamTypes ParamTypesSpec ParamTypesProofs.
Local Open Scope string_scope.
Local Open Scope list_scope.

Definition plain_param (name place : string) (go : option (option string)) : param unit unit :=
  mkPa name false (mkPS false "" [] tt) "" place None "" [] true go.

Lemma names_differ u : exists p : param unit unit, known p /\
  forall tn f, field_for u tn p f -> fieldName u f = "pet_id" /\ goName u p = "PetId".
Proof.
  exists (plain_param "id" "query" (Some (Some "pet_id"))). split; [right; right; left; reflexivity|].
  intros tn f F. destruct (field_given u tn _ f "pet_id" F eq_refl) as [A B]. split; [exact A|]. rewrite B. reflexivity.
Qed.
Lemma variables_clash u low :
  (exists p q : param unit unit, goName u p <> goName u q /\
     goVariableName u low p = Ok "pType" /\ goVariableName u low q = Ok "pType") /\
  (exists p : param unit unit, pa_name p = "_" /\ goVariableName u low p = Panic).
Proof.
  split.
  - exists (plain_param "type" "path" None), (plain_param "p_type" "path" None).
    split; [|split; reflexivity]. intros H. cbv in H. discriminate.
  - exists (plain_param "_" "path" None). split; reflexivity.
Qed.

(** Pets by name, with limits, a header, and a cookie. *)
Definition rich : param unit unit :=
  mkPa "X-Trace" true (mkPS true "" [tt] tt) "" "header" (Some true) "Trace" ["application/json"] false None.
Lemma pets_params u :
  generateParamsTypes u "FindPets" "Finds pets" [plain_param "limit" "query" None] [rich] [plain_param "limit" "cookie" None]
  = Ok [("FindPetsParams_XTrace", TParam (mkPS true "" [tt] tt));
        ("FindPetsParams", TStruct "Finds pets"
          [mkProp "" "limit" false (mkPS false "" [] tt) true None;
           mkProp "Trace" "X-Trace" true (mkPS true "FindPetsParams_XTrace" [tt] tt) false None;
           mkProp "" "limit" false (mkPS false "" [] tt) true None])] /\
  (forall p, In p [plain_param "limit" "query" None; rich; plain_param "limit" "cookie" None] -> known p) /\
  explode rich = Ok true /\ isJson rich = true /\ isPassThrough rich = false /\
  style (plain_param "id" "body" None) = Panic.
Proof.
  split; [reflexivity|]. split; [|repeat split; reflexivity].
  intros p [<-|[<-|[<-|[]]]]; right; [right; left|left; right|right; right]; reflexivity.
Qed.
Lemma variables_case u low : exists p q : param unit unit,
  goName u p = "Limit" /\ small "L" "l" /\ goVariableName u low p = Ok "limit" /\
  goName u q = "Range" /\ goVariableName u low q = Ok "pRange".
Proof. exists (plain_param "limit" "path" None), (plain_param "range" "path" None). repeat split; reflexivity. Qed.
