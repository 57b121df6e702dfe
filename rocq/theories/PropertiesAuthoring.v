(** C114: what the authoring guide says about changes between schemas. *)
From Verif Require Import Prelude Version VersionProofs ValidateErr Native Split Lineage LineageProofs BindFacts.
From Verif Require Import CueFrag CueSem CueProofs HydrateSem CueEval CueEvalSem CueEvalWitness
  Authoring AuthoringProofs AuthoringFacts AuthoringWitness.
Local Open Scope string_scope.
Local Open Scope list_scope.

(** *** C114 *)

(** A bound lineage gets one more schema, which differs from the last one by
    compatible changes: it can be published as a further minor version and as
    nothing else. *)
Theorem C114_compatible_partial :
  forall errs id fv name ss ls opts l a b def body a' b' def' body',
    BindLineage (cue_fragment errs) id fv CLinDef
      (Atom (CLin name (ss ++ [((Some a, Some b), (def, body))]) ls)) opts = Ok l ->
    negb fv && existsb is_skip opts = false -> flat_map lenses_of opts = [] ->
    vle (a, b) (a', b') -> counts_ok (l_allv l ++ [(a', b')]) = true ->
    widens def def' ->
    let again := BindLineage (cue_fragment errs) id fv CLinDef
      (Atom (CLin name (ss ++ [((Some a, Some b), (def, body)); ((Some a', Some b'), (def', body'))]) ls)) opts in
    (b' <> 0%N -> exists l', again = Ok l' /\ l_allv l' = l_allv l ++ [(a', b')]) /\
    (b' = 0%N -> again = Err (mkErr [ErrInvalidLineage] (major_text (a', b') (a, b)))).
Proof. exact publish_compatible. Qed.
Print Assumptions C114_compatible_partial.

(** With a breaking change among the changes it is the other way round: only as
    the first schema of a new major version. *)
Theorem C114_breaking_partial :
  forall errs id fv name ss ls opts l a b def body a' b' def' body',
    BindLineage (cue_fragment errs) id fv CLinDef
      (Atom (CLin name (ss ++ [((Some a, Some b), (def, body))]) ls)) opts = Ok l ->
    negb fv && existsb is_skip opts = false -> flat_map lenses_of opts = [] ->
    vle (a, b) (a', b') -> counts_ok (l_allv l ++ [(a', b')]) = true ->
    breaks def def' ->
    let again := BindLineage (cue_fragment errs) id fv CLinDef
      (Atom (CLin name (ss ++ [((Some a, Some b), (def, body)); ((Some a', Some b'), (def', body'))]) ls)) opts in
    (b' = 0%N -> exists l', again = Ok l' /\ l_allv l' = l_allv l ++ [(a', b')]) /\
    (b' <> 0%N -> again = Err (mkErr [ErrInvalidLineage] (minor_text (a', b') (a, b)))).
Proof. exact publish_breaking. Qed.
Print Assumptions C114_breaking_partial.

(** No change is of both sorts, and a compatible one keeps every data the old
    schema admits as it stands. *)
Theorem C114_kinds_partial :
  forall v v', widens v v' -> ~ breaks v v' /\ (forall d, inst v d = true -> inst v' d = true).
Proof. exact kinds_disjoint. Qed.
Print Assumptions C114_kinds_partial.

(** "give secondfield a default": old data stays valid, yet the schema is rejected
    as 0.1, and accepted as 1.0 although that "will make this lineage invalid". *)
Theorem C114_default_refuted :
  exists l' body errs id,
    (forall d, valid first_only d -> valid (second false int42) d) /\
    BindLineage (cue_fragment errs) id false CLinDef (Atom (CLin "Ship"
      [((Some 0, Some 0), (first_only, body)); ((Some 0, Some 1), (second false int42, body))]%N [])) []
      = Err (mkErr [ErrInvalidLineage] (minor_text (0, 1) (0, 0))%N) /\
    BindLineage (cue_fragment errs) id false CLinDef (Atom (CLin "Ship"
      [((Some 0, Some 0), (first_only, body)); ((Some 1, Some 0), (second false int42, body))]%N [])) [] = Ok l'.
Proof. exact guide_default. Qed.
Print Assumptions C114_default_refuted.

(** So it is for every closed struct and every added field with a default. *)
Theorem C114_default_partial :
  forall name fs body l v body' errs id x,
    ~ has_field l fs -> eval v None = Con x ->
    let with_default ma mi := BindLineage (cue_fragment errs) id false CLinDef
      (Atom (CLin name [((Some 0, Some 0), (VStruct fs None, body));
                        ((Some ma, Some mi), (VStruct (fs ++ [(l, false, v)]) None, body'))]%N [])) [] in
    (forall d, valid (VStruct fs None) d -> valid (VStruct (fs ++ [(l, false, v)]) None) d) /\
    with_default 0%N 1%N = Err (mkErr [ErrInvalidLineage] (minor_text (0, 1) (0, 0))%N) /\
    exists r, with_default 1%N 0%N = Ok r.
Proof. exact default_added. Qed.
Print Assumptions C114_default_partial.

(** "Once a default value is published, changing it is always considered a breaking
    change": replacing it is, removing it is not, although data that relied on it
    is no longer valid. *)
Theorem C114_default_removed_refuted :
  exists d old new errs id l,
    breaks old (VStruct [("n", false, VOr [(true, VAtom (AInt 2)); (false, VType TInt)])] None) /\
    old = VStruct [("n", false, VOr [(true, VAtom d); (false, VType TInt)])] None /\
    new = VStruct [("n", false, VType TInt)] None /\
    (exists r, eval old (Some (DStruct [])) = Con r) /\ (forall r, eval new (Some (DStruct [])) <> Con r) /\
    BindLineage (cue_fragment errs) id false CLinDef (Atom (CLin "n"
      [((Some 0, Some 0), (old, old)); ((Some 0, Some 1), (new, new))]%N [])) [] = Ok l.
Proof. exact default_removed. Qed.
Print Assumptions C114_default_removed_refuted.

Example C114_case :
  widens old_ship new_ship /\ breaks old_ship less_ship /\
  widens first_only (second true (VType TInt)) /\ breaks first_only (second false (VType TInt)) /\
  is_ok (ship_bind (CLin "Ship" [((Some 0, Some 0), (old_ship, old_ship)); ((Some 0, Some 1), (new_ship, new_ship));
    ((Some 1, Some 0), (less_ship, less_ship))]%N [])) = true /\
  (* the guide, in its order: required; optional; a new major; that with an optional field *)
  ship_bind (ship 0 1 (second false (VType TInt))) = Err (mkErr [ErrInvalidLineage] (minor_text (0, 1) (0, 0))%N) /\
  is_ok (ship_bind (ship 0 1 (second true (VType TInt)))) = true /\
  is_ok (ship_bind (ship 1 0 (second false (VType TInt)))) = true /\
  ship_bind (ship 1 0 (second true (VType TInt))) = Err (mkErr [ErrInvalidLineage] (major_text (1, 0) (0, 0))%N) /\
  counts_ok ([(0, 0)] ++ [(0, 1)])%N = true /\ counts_ok ([(0, 0); (0, 1)] ++ [(1, 0)])%N = true.
Proof.
  split; [exact ship_widens|]. split; [exact ship_breaks|]. split; [exact guide_optional|].
  split; [exact guide_required|]. vm_compute. repeat split.
Qed.
