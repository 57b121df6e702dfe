(** C10: what the compatibility check guarantees about data. *)
From Verif Require Import Prelude CueFrag CueSem CueProofs Compat CompatFacts.
Local Open Scope string_scope.
Local Open Scope list_scope.

(** *** C10 *)

(** Dropping a default (or relaxing a constant) passes the check, though data that
    relied on it is no longer valid. *)
Theorem C10_default_dropped_refuted :
  exists p s d, wf p /\ wf s /\ simple p = true /\ simple s = true /\
    ThemaCompatible p s = true /\ valid p d /\ ~ valid s d.
Proof. exact default_dropped. Qed.
Print Assumptions C10_default_dropped_refuted.

(** So does adding a disjunct that makes old data ambiguous, though the data is
    still a member of the new schema. *)
Theorem C10_ambiguous_refuted :
  exists p s d, wf p /\ wf s /\ ThemaCompatible p s = true /\
    valid p d /\ inst p d = true /\ inst s d = true /\ ~ valid s d.
Proof. exact ambiguous. Qed.
Print Assumptions C10_ambiguous_refuted.

(** Every data the old schema admits as it stands is admitted by the new one. *)
Theorem C10_membership_partial :
  forall p s d, ThemaCompatible p s = true -> inst p d = true -> inst s d = true.
Proof. exact member_kept. Qed.
Print Assumptions C10_membership_partial.

(** And so along a whole sequence of minor versions. *)
Theorem C10_sequence_partial :
  forall l p d s, compat_chain p l -> inst p d = true -> In s (p :: l) -> inst s d = true.
Proof. exact chain_member. Qed.
Print Assumptions C10_sequence_partial.

(** Data completed with the defaults of the old schema is valid for the new one,
    unchanged. *)
Theorem C10_completed_partial :
  forall p s d r, wf p -> simple s = true -> ThemaCompatible p s = true ->
    eval p (Some d) = Con r -> eval s (Some r) = Con r.
Proof. exact completed_kept. Qed.
Print Assumptions C10_completed_partial.

(** The documented claim holds when disjunctions range over scalars and the new
    schema still fills the fields the old one filled. *)
Theorem C10_valid_partial :
  forall p s d, simple p = true -> simple s = true ->
    ThemaCompatible p s = true -> keeps s p = true -> valid p d -> valid s d.
Proof. exact valid_kept. Qed.
Print Assumptions C10_valid_partial.

Example C10_case :
  wf old_schema /\ simple old_schema = true /\ simple new_schema = true /\
  ThemaCompatible old_schema new_schema = true /\ keeps new_schema old_schema = true /\
  ThemaCompatible new_schema old_schema = false /\
  keeps without_default with_default = false /\
  valid old_schema (DStruct [("name", DAtom (AString "a"))]) /\
  eval new_schema (Some (DStruct [("name", DAtom (AString "a"))])) =
    Con (DStruct [("name", DAtom (AString "a")); ("mode", DAtom (AString "foo")); ("sizes", DList [])]) /\
  compat_chain old_schema [new_schema] /\
  inst old_schema (DStruct [("name", DAtom (AString "a")); ("mode", DAtom (AString "bar"));
                            ("sizes", DList [DAtom (AInt 3)])]) = true.
Proof.
  split.
  { cbn. repeat split; repeat constructor; cbn; intuition congruence. }
  do 6 (split; [reflexivity|]). split; [eexists; reflexivity|]. split; [reflexivity|].
  split; [split; [reflexivity|exact I]|reflexivity].
Qed.

(** The outcomes recorded in testdata/invalidlineage/compat. *)
Definition cl (fs : list (string * bool * val)) : val := VStruct fs None.
Definition enum (d : string) (l : list string) : val :=
  VOr (map (fun x => (String.eqb x d, VAtom (AString x))) l).
Definition int32 : val := VRange (Some (-2147483648)%Z) (Some 2147483647%Z).

Example C10_testdata :
  (* add-optional *)
  ThemaCompatible (cl [("firstfield", false, VType TString)])
    (cl [("firstfield", false, VType TString); ("getsAdded", true, int32)]) = true /\
  (* add-required *)
  ThemaCompatible (cl [("firstfield", false, VType TString)])
    (cl [("firstfield", false, VType TString); ("added", false, int32)]) = false /\
  (* change-default *)
  ThemaCompatible (cl [("aunion", false, enum "foo" ["foo"; "bar"])])
    (cl [("aunion", false, enum "foo" ["foo"; "bar"; "baz"])]) = true /\
  ThemaCompatible (cl [("aunion", false, enum "foo" ["foo"; "bar"; "baz"])])
    (cl [("aunion", false, enum "baz" ["foo"; "bar"; "baz"])]) = false /\
  (* optional-to-required *)
  ThemaCompatible (cl [("toUpgrade", true, VType TString)]) (cl [("toUpgrade", false, VType TString)]) = false /\
  (* remove-optional, remove-required *)
  ThemaCompatible (cl [("firstfield", false, VType TString); ("getsRemoved", true, int32)])
    (cl [("firstfield", false, VType TString)]) = false /\
  ThemaCompatible (cl [("firstfield", false, VType TString); ("getsRemoved", false, int32)])
    (cl [("firstfield", false, VType TString)]) = false /\
  (* union-reduction *)
  ThemaCompatible (cl [("crossKind2", false, VOr [(false, VType TString); (false, int32)])])
    (cl [("crossKind2", false, VType TString)]) = false /\
  (* expand: an optional field with a default is added, then its enum widened *)
  ThemaCompatible (cl [("init", false, VType TString); ("optional", true, VType TInt)])
    (cl [("init", false, VType TString); ("optional", true, VType TInt);
         ("withDefault", true, enum "foo" ["foo"; "bar"])]) = true.
Proof. vm_compute. repeat split. Qed.
