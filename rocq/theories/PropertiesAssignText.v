(** C122: the text of the error of [AssignableTo]. *)
From Verif Require Import Prelude CueFrag Assign AssignText AssignTextFacts.
From Coq Require Import Permutation.
Local Open Scope string_scope.
Local Open Scope list_scope.

(** The same call may return another text, as the errors are kept in a map. *)
Theorem C122_order_refuted : forall pstr kstr printed, exists sch T m l, assignable sch T = Ok (AErrs m) /\ Permutation m l /\
  assignErrs_Error pstr kstr printed m <> assignErrs_Error pstr kstr printed l.
Proof. exact (fun pstr kstr printed => ex_intro _ _ (ex_intro _ _ (order pstr kstr printed))). Qed.
Print Assumptions C122_order_refuted.

(** In every order, the text has one line for each error and none besides; each line
    begins with the path of its error, and what follows tells which rule is broken. *)
Theorem C122_text_partial : forall pstr kstr printed sch T m, assignable sch T = Ok (AErrs m) -> forall l, Permutation m l ->
  m <> [] /\
  assignErrs_Error pstr kstr printed l = String.concat (String (ascii_of_nat 10) EmptyString) (map (message pstr kstr printed) l) /\
  (forall e, In e m -> exists rest, message pstr kstr printed e = (pstr (fst e) ++ ": " ++ rest)%string) /\
  forall p r r', message pstr kstr printed (p, r) = message pstr kstr printed (p, r') ->
    r = r' \/ (exists a b c d, r = MKind a b /\ r' = MKind c d) \/ (exists a b, r = MMulti a /\ r' = MMulti b).
Proof. exact text_exact. Qed.
Print Assumptions C122_text_partial.

(** A schema with two misfits. *)
Example C122_case :
  let pstr p := match p with [SField l] => l | _ => "" end in
  exists m, assignable order_schema (GV (GStruct [("b", GString)])) = Ok (AErrs m) /\
  assignErrs_Error pstr (fun _ => "") (fun _ => ("", "")) m =
    ("a: field present in schema, absent from Go type" ++ String (ascii_of_nat 10) "b: field present in Go type, absent from schema")%string.
Proof. eexists. split; vm_compute; reflexivity. Qed.
