(** Properties of hydration and dehydration: C33, C34. *)
From Verif Require Import Prelude CueFrag CueSem CueProofs Hydrate HydrateSem HydrateProofs HydrateFacts DehydrateFacts
  HydrateDeep HydrateErr DehydrateExact.
Local Open Scope string_scope.
Local Open Scope list_scope.

(** *** C33: Hydrate fills defaults and keeps the instance valid *)

(** What Hydrate does on every instance whose data has none of the field names of
    [#SchemaDef]: the data stays, two fields [version] and [schema] are added,
    the latter with what the schema yields without any data. If the schema needs
    data, the result is not concrete. *)
Theorem C33_exact_partial : forall n a b body df,
  no_label "version" df -> no_label "schema" df -> no_label "examples" df ->
  exists v, Hydrate (S n) (schema_def a b body) (embed (DStruct df)) = Ok v
    /\ eval v None =
       match eval body None with
       | Bot => Bot
       | Inc => Inc
       | Con x => Con (DStruct (df ++ [("version", version_data a b); ("schema", x)]))
       end.
Proof. exact hydrate_adds. Qed.
Print Assumptions C33_exact_partial.

(** So the result of Hydrate is never an instance of a schema that is closed, as
    schemas are, and has no field called version. *)
Theorem C33_never_valid : forall n a b fs df v x,
  no_label "version" df -> no_label "schema" df -> no_label "examples" df ->
  field_of "version" fs = None ->
  Hydrate (S n) (schema_def a b (VStruct fs None)) (embed (DStruct df)) = Ok v ->
  eval v None = Con x -> ~ valid (VStruct fs None) x.
Proof. exact hydrate_never_valid. Qed.
Print Assumptions C33_never_valid.

(** The documented claim fails: of the empty instance of [{a: *"x" | string}]
    Hydrate makes data without [a], and not an instance of the schema. *)
Theorem C33_refuted : exists body d,
  eval body (Some d) = Con (DStruct [("a", DAtom (AString "x"))])
  /\ forall n, exists v df, Hydrate (S n) (schema_def 0 0 body) (embed d) = Ok v
       /\ eval v None = Con (DStruct df) /\ lookup "a" df = None /\ ~ valid body (DStruct df).
Proof.
  exists body1, (DStruct []). split; [reflexivity|]. intros n.
  destruct (hydrate_foreign_fields n) as [v [E1 E2]]. exists v. eexists. split; [exact E1|].
  split; [exact E2|]. split; [reflexivity|]. intros [r Hr]. discriminate.
Qed.
Print Assumptions C33_refuted.

(** A valid instance whose data has a field [version] becomes an error. *)
Theorem C33_conflict_refuted : exists body d,
  valid body d /\ forall n, Hydrate (S (S n)) (schema_def 0 0 body) (embed d) = Ok VBot.
Proof.
  exists body2, (DStruct [("version", DAtom (AString "v1"))]). split; [|exact hydrate_conflict].
  eexists. reflexivity.
Qed.
Print Assumptions C33_conflict_refuted.

(** Hydrate panics on a valid instance. *)
Theorem C33_panic_refuted : exists body d,
  valid body d /\ forall n, Hydrate (S (S (S n))) (schema_def 0 0 body) (embed d) = Panic.
Proof. exists body3, data3. split; [|exact hydrate_panics]. eexists. reflexivity. Qed.
Print Assumptions C33_panic_refuted.

(** With any data at all, as long as it does not conflict with the definition: what
    Hydrate returns is the data unified with the fields of [#SchemaDef], the body
    of the schema applied to the field [schema] of the data. *)
Theorem C33_names_partial : forall a b body d r,
  simple body = true -> hydrates false body = true -> wf body -> dwf d ->
  eval (VStruct [("version", false, VList [VAtom (AInt a); VAtom (AInt b)] None);
                 ("schema", false, body);
                 ("examples", true, VStruct [] (Some body))] (Some VTop)) (Some d) = Con r ->
  exists n0, forall n, n0 < n ->
  exists w, Hydrate n (schema_def a b body) (embed d) = Ok w /\ eval w None = Con r.
Proof.
  intros a b body d r H1 H2 H3 H4 H5. exists (S (S (vdepth body))). intros n L.
  exact (hydrate_open a b body d r n L H1 H2 H3 H4 H5).
Qed.
Print Assumptions C33_names_partial.

(** What [doHydrate] would do if it were given the schema body: exactly the data
    with the defaults filled in, for structs of any depth whose disjunctions are of
    scalars, with the conditions of [hydrates] on patterns and open lists at odd
    levels. *)
Theorem C33_body_partial : forall fs rest d r,
  simple (VStruct fs rest) = true -> hydrates true (VStruct fs rest) = true -> wf (VStruct fs rest) -> dwf d ->
  eval (VStruct fs rest) (Some d) = Con r ->
  exists n0, forall n, n0 < n ->
  exists w, doHydrate n (VStruct fs rest) (embed d) = Ok w /\ eval w None = Con r.
Proof.
  intros fs rest d r H1 H2 H3 H4 H5. exists (vdepth (VStruct fs rest)). intros n L.
  exact (body_hydrated_deep fs rest d r n L H1 H2 H3 H4 H5).
Qed.
Print Assumptions C33_body_partial.

(** Without the condition on patterns the defaults under them are not filled in. *)
Theorem C33_pattern_refuted : exists s d r,
  eval s (Some d) = Con r /\ deq r d = false
  /\ forall n, doHydrate (S n) s (embed d) = Ok (embed d) /\ eval (embed d) None = Con d.
Proof.
  exists body7, (DStruct [("a", DStruct [])]), (DStruct [("a", DStruct [("on", DAtom (ABool true))])]).
  split; [reflexivity|]. split; [reflexivity|]. intros n. split; [apply hydrate_pattern|reflexivity].
Qed.
Print Assumptions C33_pattern_refuted.

(** No error gets out: if hydration fails the instance stays as it is. *)
Theorem C33_no_error : forall n under raw,
  (forall e, Hydrate n under raw <> Err e) /\
  (forall e, doHydrate n under raw = Err e -> Hydrate n under raw = Ok raw).
Proof. intros n under raw. split; apply (hydrate_no_error n under raw). Qed.
Print Assumptions C33_no_error.

(** A list with an element that completes no alternative is such a failure, and the
    field that holds it stays as it is. *)
Theorem C33_no_branch_partial : forall n es u x l,
  k_eqb (kind u) k_bottom = false -> fst (expr u) = true ->
  (forall b y, In b (snd (expr u)) -> eval (unify b (embed x)) None <> Con y) ->
  doHydrate (S n) (VList es (Some u)) (embed (DList (x :: l))) = Err (mkErr [] "no branch is found for list") /\
  forall k rest,
    doHydrate (S (S n)) (embed (DStruct [(k, DList (x :: l))])) (VStruct [(k, false, VList es (Some u))] rest)
    = Ok (VStruct [(k, false, VList es (Some u))] rest).
Proof.
  intros n es u x l K H1 H2. split; [|intros k rest].
  - exact (unfit_list n es u x l K (conj H1 H2)).
  - exact (unfit_field n k es u x l rest K (conj H1 H2)).
Qed.
Print Assumptions C33_no_branch_partial.

Example C33_no_branch_case :
  let u := VOr [(false, VType TString); (false, VType TInt)] in
  k_eqb (kind u) k_bottom = false /\ fst (expr u) = true /\
  (forall b y, In b (snd (expr u)) -> eval (unify b (embed (DAtom ANull))) None <> Con y) /\
  Hydrate 5 (VList [] (Some u)) (embed (DList [DAtom ANull])) = Ok (embed (DList [DAtom ANull])).
Proof.
  split; [reflexivity|]. split; [reflexivity|]. split; [|reflexivity].
  intros b y [<-|[<-|[]]]; discriminate.
Qed.

Definition nested : val :=
  VStruct [("name", false, VType TString);
           ("size", false, def_or (VAtom (AInt 3)) (VType TInt));
           ("opts", false, VStruct [("on", false, def_or (VAtom (ABool true)) (VType TBool));
                                    ("tag", true, VType TString);
                                    ("rows", false, VList [] (Some (VStruct [
                                       ("h", false, def_or (VAtom (AInt 1)) (VType TInt));
                                       ("o", false, VStruct [("z", false, def_or (VAtom (AInt 0)) (VType TInt))] None)
                                       ] None)))] None)] None.
Definition nested_data : data :=
  DStruct [("name", DAtom (AString "n"));
           ("opts", DStruct [("tag", DAtom (AString "t"));
                             ("rows", DList [DStruct []; DStruct [("h", DAtom (AInt 5)); ("o", DStruct [])]])])].

Example C33_case :
  simple nested = true /\ hydrates true nested = true /\ hydrates false nested = true /\ wf nested /\ dwf nested_data
  /\ eval nested (Some nested_data)
     = Con (DStruct [("name", DAtom (AString "n"));
                     ("opts", DStruct [("tag", DAtom (AString "t"));
                        ("rows", DList [DStruct [("h", DAtom (AInt 1)); ("o", DStruct [("z", DAtom (AInt 0))])];
                                        DStruct [("h", DAtom (AInt 5)); ("o", DStruct [("z", DAtom (AInt 0))])]]);
                        ("on", DAtom (ABool true))]);
                     ("size", DAtom (AInt 3))]).
Proof.
  split; [reflexivity|]. split; [reflexivity|]. split; [reflexivity|]. split; [|split; [|reflexivity]].
  - cbn. repeat split; repeat constructor; cbn; intuition discriminate.
  - cbn. repeat split; repeat constructor; cbn; intuition discriminate.
Qed.

(** Data with a field [schema] of its own: the schema is applied there. *)
Example C33_names_case :
  eval (VStruct [("version", false, VList [VAtom (AInt 0); VAtom (AInt 1)] None);
                 ("schema", false, nested);
                 ("examples", true, VStruct [] (Some nested))] (Some VTop))
       (Some (DStruct [("schema", DStruct [("name", DAtom (AString "n")); ("opts", DStruct [("rows", DList [])])]);
                       ("x", DAtom ANull)]))
  = Con (DStruct [("schema", DStruct [("name", DAtom (AString "n"));
                                      ("opts", DStruct [("rows", DList []); ("on", DAtom (ABool true))]);
                                      ("size", DAtom (AInt 3))]);
                  ("x", DAtom ANull); ("version", DList [DAtom (AInt 0); DAtom (AInt 1)])]).
Proof. reflexivity. Qed.

Example C33_exact_case : no_label "version" [("a", DAtom ANull)]
  /\ no_label "schema" [("a", DAtom ANull)] /\ no_label "examples" [("a", DAtom ANull)].
Proof. repeat split; intros [H|[]]; discriminate. Qed.

(** *** C34: Dehydrate removes defaults and nothing else *)

(** On every instance whose data has none of the field names of [#SchemaDef]
    Dehydrate returns the data unchanged. *)
Theorem C34_exact_partial : forall n a b body df, NoDup (map fst df) ->
  no_label "version" df -> no_label "schema" df -> no_label "examples" df ->
  Dehydrate (S n) (schema_def a b body) (embed (DStruct df)) = Ok (embed (DStruct df)).
Proof. exact dehydrate_same. Qed.
Print Assumptions C34_exact_partial.

(** The documented claim fails: a default stays. *)
Theorem C34_refuted : exists v d,
  is_default v d
  /\ forall n, Dehydrate (S n) (schema_def 0 0 (VStruct [("a", false, v)] None)) (embed (DStruct [("a", d)]))
               = Ok (embed (DStruct [("a", d)])).
Proof.
  exists (def_or (str "x") (VType TString)), (DAtom (AString "x")). split; [exact is_default_x|].
  intros n. apply dehydrate_same; [repeat constructor; intros []| | |]; intros [H|[]]; discriminate.
Qed.
Print Assumptions C34_refuted.

(** And a value that is no default is changed, making the instance invalid. *)
Theorem C34_changes_refuted : exists body d,
  valid body (DStruct [("schema", DAtom d)])
  /\ forall n, Dehydrate (S (S n)) (schema_def 0 0 body) (embed (DStruct [("schema", DAtom d)]))
               = Ok (embed (DStruct [("schema", DStruct [])]))
     /\ ~ valid body (DStruct [("schema", DStruct [])]).
Proof.
  exists body4, (AString "foo"). split; [eexists; reflexivity|]. intros n. split; [apply dehydrate_changes|].
  intros [r H]. discriminate.
Qed.
Print Assumptions C34_changes_refuted.

(** What [doDehydrate] would do if it were given the schema body: nothing but
    remove defaults, for schemas whose disjunctions are of scalars and whose open
    lists have no elements of their own. *)
Theorem C34_body_partial : forall s d r,
  simple s = true -> plain_lists s = true -> live s = true -> wf s -> dwf d ->
  eval s (Some d) = Con r -> exists n0, forall n, n0 < n ->
  exists v eq, doDehydrate n s (embed d) = Ok (v, eq)
    /\ if eq then is_default s d else exists d', v = embed d' /\ trims s d d'.
Proof.
  intros s d r H1 H2 H3 H4 H5 H6. exists (vdepth s). exact (body_dehydrated s d r H1 H2 H3 H4 H5 H6).
Qed.
Print Assumptions C34_body_partial.

(** And all of them: if disjunctions have at most one default, a scalar, the result
    is the data without the defaults, in the order of the schema. *)
Theorem C34_body_exact_partial : forall s d r,
  simple s = true -> plain_lists s = true -> live s = true -> one_default s = true -> wf s -> dwf d ->
  eval s (Some d) = Con r -> exists n0, forall n, n0 < n ->
  match trim s d with
  | None => exists v, doDehydrate n s (embed d) = Ok (v, true)
  | Some d' => doDehydrate n s (embed d) = Ok (embed d', false)
  end.
Proof.
  intros s d r H1 H2 H3 H4 H5 H6 H7. exists (vdepth s). exact (body_exact s d r H1 H2 H3 H4 H5 H6 H7).
Qed.
Print Assumptions C34_body_exact_partial.

Theorem C34_no_error : forall n under raw,
  (forall e, Dehydrate n under raw <> Err e) /\
  (forall e, doDehydrate n under raw = Err e -> Dehydrate n under raw = Ok raw).
Proof. intros n under raw. split; apply (hydrate_no_error n under raw). Qed.
Print Assumptions C34_no_error.

(** Without the condition on lists values are changed. *)
Theorem C34_prefix_refuted : exists s d d',
  valid s d /\ ~ valid s d' /\ forall n, doDehydrate (S (S (S n))) s (embed d) = Ok (embed d', false).
Proof.
  exists body6, (DStruct [("l", DList [DAtom (AInt 1)])]), (DStruct [("l", DList [DStruct []])]).
  split; [eexists; reflexivity|]. split; [intros [r H]; discriminate|exact dehydrate_prefix].
Qed.
Print Assumptions C34_prefix_refuted.

(** Removing the default of an optional field loses it: the schema does not fill
    it in again. *)
Theorem C34_optional_refuted : exists s d d' r r',
  (forall n, doDehydrate (S (S n)) s (embed d) = Ok (embed d', false))
  /\ eval s (Some d) = Con r /\ eval s (Some d') = Con r' /\ deq r r' = false.
Proof.
  exists body5, (DStruct [("a", DAtom (AString "x"))]), (DStruct []). eexists. eexists.
  split; [exact dehydrate_loses|]. split; [reflexivity|]. split; reflexivity.
Qed.
Print Assumptions C34_optional_refuted.

Definition listed : val :=
  VStruct [("size", false, def_or (VAtom (AInt 3)) (VType TInt));
           ("items", false, VList [] (Some (VStruct [("on", false, def_or (VAtom (ABool true)) (VType TBool))] None)))] None.
Definition listed_data : data :=
  DStruct [("size", DAtom (AInt 3)); ("items", DList [DStruct [("on", DAtom (ABool true))];
                                                      DStruct [("on", DAtom (ABool false))]])].

Example C34_case :
  simple listed = true /\ plain_lists listed = true /\ live listed = true /\ wf listed /\ dwf listed_data
  /\ eval listed (Some listed_data) = Con listed_data
  /\ doDehydrate 5 listed (embed listed_data)
     = Ok (embed (DStruct [("items", DList [DStruct []; DStruct [("on", DAtom (ABool false))]])]), false).
Proof.
  split; [reflexivity|]. split; [reflexivity|]. split; [reflexivity|].
  split; [cbn; repeat split; repeat constructor; cbn; intuition discriminate|].
  split; [cbn; repeat split; repeat constructor; cbn; intuition discriminate|].
  split; reflexivity.
Qed.

Example C34_exact_case :
  one_default listed = true
  /\ trim listed listed_data = Some (DStruct [("items", DList [DStruct []; DStruct [("on", DAtom (ABool false))]])])
  /\ trim listed (DStruct [("items", DList []); ("size", DAtom (AInt 4))])
     = Some (DStruct [("size", DAtom (AInt 4)); ("items", DList [])]).
Proof. repeat split; reflexivity. Qed.
