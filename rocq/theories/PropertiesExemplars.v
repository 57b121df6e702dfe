(** C119: the exemplar lineages (Exemplars.v). *)
From Verif Require Import Prelude Version ValidateErr Split Lineage Translate.
From Verif Require Import CueFrag CueSem HydrateSem CueEval CueEvalFacts WalkProofs Exemplars ExemplarProofs ExemplarFacts.
Local Open Scope string_scope.
Local Open Scope list_scope.

(** Refuted: data valid for a schema of an exemplar translates to its other
    schemas. Not so where a lens emits a lacuna, where one names a field that does
    not exist ([input.anion]), where a value is not allowed in the older schema
    (whose default is not chosen instead, contrary to the comment), and where the
    body of a lens is commented out. *)
Theorem C119_translates_refuted : exists errs,
  (exists l s t i, of_exemplar errs narrowing l /\ all_schemas l = [s; t] /\
     validate (cue_fragment errs) s (CV (embed (DStruct [("boolish", txt "yes")]))) = Ok i /\ forall rm fuel, to_error errs rm fuel i t) /\
  (exists l s t i, of_exemplar errs defaultchange l /\ all_schemas l = [s; t] /\
     validate (cue_fragment errs) s (CV (embed (DStruct [("aunion", txt "baz")]))) = Ok i /\ forall rm fuel, to_error errs rm fuel i t) /\
  (exists l s t i, of_exemplar errs expand l /\ nth_error (all_schemas l) 2 = Some s /\ nth_error (all_schemas l) 3 = Some t /\
     validate (cue_fragment errs) t (CV (embed (DStruct [("init", txt "x"); ("withDefault", txt "baz")]))) = Ok i /\
     forall rm fuel, to_error errs rm fuel i s) /\
  (exists l s t i, of_exemplar errs disjunct l /\ all_schemas l = [s; t] /\
     validate (cue_fragment errs) t (CV (embed (DStruct [("rootfield", DStruct [("branch", DAtom (AInt 1)); ("branchone", txt "x")])]))) = Ok i /\
     forall rm fuel, to_error errs rm fuel i s).
Proof. exact exemplars_fail. Qed.
Print Assumptions C119_translates_refuted.

(** They all bind, with the options of [All] and of their factories. *)
Theorem C119_bind_partial : forall errs id fv name x, In (name, x) exemplars ->
  exists l l', BindLineage (cue_fragment errs) id fv CLinDef (Atom x) (nameOpts name) = Ok l /\
    BindLineage (cue_fragment errs) id fv CLinDef (Atom x) (factoryOpts name []) = Ok l' /\ l_name l = name /\ l_name l' = name.
Proof. exact exemplars_bind. Qed.
Print Assumptions C119_bind_partial.

(** In [rename] everything translates, both ways, and comes back the same. *)
Theorem C119_rename_partial : forall errs l, of_exemplar errs rename l ->
  exists s t, all_schemas l = [s; t] /\ s_v s = (0, 0)%N /\ s_v t = (1, 0)%N /\
  forall rm fuel, renames errs rm fuel s t "before" "after" /\ renames errs rm fuel t s "after" "before".
Proof. exact rename_exact. Qed.
Print Assumptions C119_rename_partial.

(** In [narrowing] booleans and the strings ["true"] and ["false"] become booleans,
    and other strings are an error; booleans stay booleans on the way back. *)
Theorem C119_narrowing_partial : forall errs l, of_exemplar errs narrowing l ->
  exists s t, all_schemas l = [s; t] /\ s_v s = (0, 0)%N /\ s_v t = (1, 0)%N /\
  forall rm fuel,
  (forall d i, dwf d -> validate (cue_fragment errs) s (CV (embed d)) = Ok i ->
     (exists b, (d = DStruct [("boolish", DAtom (ABool b))] \/ d = DStruct [("boolish", txt (if b : bool then "true" else "false"))]) /\
        to_data errs rm fuel i t (DStruct [("properbool", DAtom (ABool b))])) \/
     (exists y, d = DStruct [("boolish", txt y)] /\ y <> "true" /\ y <> "false" /\ to_error errs rm fuel i t)) /\
  (forall d i, dwf d -> validate (cue_fragment errs) t (CV (embed d)) = Ok i ->
     exists b, d = DStruct [("properbool", DAtom (ABool b))] /\ to_data errs rm fuel i s (DStruct [("boolish", DAtom (ABool b))])).
Proof. exact narrowing_exact. Qed.
Print Assumptions C119_narrowing_partial.

(** In [defaultchange] no data of 0.0 translates to 1.0, and only ["bar"] translates
    back. *)
Theorem C119_defaultchange_partial : forall errs l, of_exemplar errs defaultchange l ->
  exists s t, all_schemas l = [s; t] /\ s_v s = (0, 0)%N /\ s_v t = (1, 0)%N /\ forall rm fuel,
  (forall d i, dwf d -> validate (cue_fragment errs) s (CV (embed d)) = Ok i -> to_error errs rm fuel i t) /\
  (forall d i, dwf d -> validate (cue_fragment errs) t (CV (embed d)) = Ok i ->
     (d = DStruct [("aunion", txt "bar")] /\ to_data errs rm fuel i s (DStruct [("aunion", txt "foo")])) \/
     (d <> DStruct [("aunion", txt "bar")] /\ to_error errs rm fuel i s)).
Proof. exact defaultchange_exact. Qed.
Print Assumptions C119_defaultchange_partial.

(** In [expand] data keeps exactly the fields the target schema has, whichever the
    two schemas are, except that ["baz"] does not translate out of 0.3. *)
Theorem C119_expand_partial : forall errs l, of_exemplar errs expand l ->
  map s_v (all_schemas l) = [(0, 0); (0, 1); (0, 2); (0, 3)]%N /\
  forall rm fuel j k s t d i, nth_error (all_schemas l) j = Some s -> nth_error (all_schemas l) k = Some t -> dwf d ->
    validate (cue_fragment errs) s (CV (embed d)) = Ok i ->
    exists df, d = DStruct df /\
      ((j = 3 /\ k < 3 /\ lookup "withDefault" df = Some (txt "baz") /\ to_error errs rm fuel i t) \/
       (~ (j = 3 /\ k < 3 /\ lookup "withDefault" df = Some (txt "baz")) /\
        exists df', to_data errs rm fuel i t (DStruct df') /\
        forall f, lookup f df' = if existsb (String.eqb f) (firstn (S k) ["init"; "optional"; "withDefault"]) then lookup f df else None)).
Proof. exact expand_exact. Qed.
Print Assumptions C119_expand_partial.

(** In [disjunct] data is valid when it has one of the first two branches, the
    number of the branch being optional. It translates to itself with the number of
    the branch and not at all without; nothing translates back. *)
Theorem C119_disjunct_partial : forall errs l, of_exemplar errs disjunct l ->
  exists s t, all_schemas l = [s; t] /\ s_v s = (0, 0)%N /\ s_v t = (0, 1)%N /\
  (forall d, dwf d ->
    (exists i, validate (cue_fragment errs) s (CV (embed d)) = Ok i) <->
    (exists n f x df, In (n, f) branches /\ In df (branch_data n f x) /\ d = DStruct [("rootfield", DStruct df)])) /\
  (forall rm fuel df i, dwf (DStruct df) ->
    validate (cue_fragment errs) s (CV (embed (DStruct [("rootfield", DStruct df)]))) = Ok i ->
    (lookup "branch" df <> None -> to_data errs rm fuel i t (DStruct [("rootfield", DStruct df)])) /\
    (lookup "branch" df = None -> to_error errs rm fuel i t)) /\
  forall rm fuel d i, validate (cue_fragment errs) t (CV (embed d)) = Ok i -> to_error errs rm fuel i s.
Proof. exact disjunct_exact. Qed.
Print Assumptions C119_disjunct_partial.

(** Valid data of each of them. *)
Definition has_data (x : cval) (k : nat) (d : data) : Prop :=
  dwf d /\ exists l s i, of_exemplar (fun _ => VCue []) x l /\ nth_error (all_schemas l) k = Some s /\
    validate (cue_fragment (fun _ => VCue [])) s (CV (embed d)) = Ok i.
Example C119_cases :
  has_data rename 0 (DStruct [("unchanged", txt "u"); ("before", txt "b")]) /\
  has_data rename 1 (DStruct [("after", txt "b"); ("unchanged", txt "u")]) /\
  has_data narrowing 0 (DStruct [("boolish", DAtom (ABool true))]) /\
  has_data narrowing 1 (DStruct [("properbool", DAtom (ABool false))]) /\
  has_data defaultchange 0 (DStruct []) /\ has_data defaultchange 1 (DStruct [("aunion", txt "bar")]) /\
  has_data expand 3 (DStruct [("optional", DAtom (AInt 3)); ("init", txt "x"); ("withDefault", txt "bar")]) /\
  has_data disjunct 0 (DStruct [("rootfield", DStruct [("branchtwo", txt "x")])]) /\
  has_data disjunct 1 (DStruct [("rootfield", DStruct [("branchthree", DStruct [("branchthreeinner", DAtom (AInt 1))])])]).
Proof.
  repeat apply conj; try (cbn; repeat constructor; cbn; intuition discriminate).
  all: match goal with |- exists l s i, of_exemplar _ ?x l /\ nth_error _ ?k = _ /\ _ => exists (ex_lin x 0), (sch x 0 k) end.
  all: eexists; split; [apply ex_of; lazy -[run_body run_lacunas]; reflexivity|]; split; [lazy -[run_body run_lacunas]; reflexivity|].
  all: apply validate_ok; split; [vm_compute|]; reflexivity.
Qed.
