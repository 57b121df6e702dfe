(** C05-C09, C14, C17, C18, C22, C23, C63: what [BindLineage] accepts. *)
From Verif Require Import Prelude Version VersionProofs Search SearchProofs
  ValidateErr Native Split Lineage LineageProofs WalkProofs GoLensProofs BindFacts Toy.
From Coq Require Import Sorting.Sorted.
Local Open Scope string_scope.
Local Open Scope list_scope.

(** *** C05 *)
Theorem C05_schema_lookup :
  forall (V : Type) (ev : evaluator V) (l : lineage V), bound ev l -> forall v,
    ((exists s, In s (all_schemas l) /\ s_v s = v) ->
       exists s, lin_schema l v = Ok s /\ In s (all_schemas l) /\ s_v s = v) /\
    ((forall s, In s (all_schemas l) -> s_v s <> v) ->
       exists e, lin_schema l v = Err e /\ err_is e ErrVersionNotExist = true).
Proof. exact @schema_lookup. Qed.
Print Assumptions C05_schema_lookup.

(** [SchemaP] returns the same schema and panics where [Schema] fails. *)
Theorem C05_schema_or_panic :
  forall (V : Type) (ev : evaluator V) (l : lineage V), bound ev l -> forall v,
    ((exists s, In s (all_schemas l) /\ s_v s = v) ->
       exists s, schemaP l v = Ok s /\ In s (all_schemas l) /\ s_v s = v) /\
    ((forall s, In s (all_schemas l) -> s_v s <> v) -> schemaP l v = Panic).
Proof. exact @schema_lookup_p. Qed.
Print Assumptions C05_schema_or_panic.

(** The lineage 0.0, 0.1, 1.0, 2.0 of the examples. *)
Example lin4 : exists l, tbind (tlin ss4 []) [] = Ok l /\ bound toy l /\
  map s_v (all_schemas l) = [(0, 0); (0, 1); (1, 0); (2, 0)]%N.
Proof.
  destruct (tbind (tlin ss4 []) []) as [l|e| |] eqn:E; try (vm_compute in E; discriminate).
  exists l. split; [reflexivity|]. split; [exact (tbind_bound _ _ _ E)|].
  vm_compute in E. injection E as <-. reflexivity.
Qed.

(** *** C06: refuted *)
Theorem C06_strictly_increasing_refuted :
  exists (V : Type) (ev : evaluator V) (l : lineage V),
    bound ev l /\ ~ StronglySorted vlt (map s_v (all_schemas l)).
Proof. exact dup_versions_bind. Qed.
Print Assumptions C06_strictly_increasing_refuted.

(** Missing: equal neighbouring versions are not excluded. *)
Theorem C06_non_decreasing_partial :
  forall (V : Type) (ev : evaluator V) (l : lineage V), bound ev l ->
    StronglySorted vle (map s_v (all_schemas l)).
Proof. exact @bound_sorted. Qed.
Print Assumptions C06_non_decreasing_partial.

(** *** C07: refuted, both for the first version and for the steps *)
Theorem C07_consecutive_refuted :
  exists (V : Type) (ev : evaluator V) (l : lineage V),
    bound ev l /\ ~ dense (map s_v (all_schemas l)) /\
    exists l', bound ev l' /\ nth_error (map s_v (all_schemas l')) 0 = Some (0, 0)%N /\
      StronglySorted vlt (map s_v (all_schemas l')) /\ ~ dense (map s_v (all_schemas l')).
Proof. exact not_dense_bind. Qed.
Print Assumptions C07_consecutive_refuted.

Example C07_dense_is_satisfiable : dense [(0, 0); (0, 1); (1, 0); (2, 0)]%N.
Proof.
  split; [reflexivity|]. intros a b [i [H1 H2]].
  destruct i as [|[|[|[|i]]]]; cbn in H1, H2; try discriminate; injection H1 as <-; injection H2 as <-;
    cbn; auto.
Qed.

(** *** C08 *)
Theorem C08_compatibility_rule :
  forall (V : Type) (ev : evaluator V) id fv lindef e opts raw uni es,
    shape_accepted ev lindef e raw uni -> ev_schemas ev uni = Some es ->
    let skip := negb fv && existsb is_skip opts in
    (* accepted: the rule holds and the schemas are the declared ones in order *)
    (forall l, BindLineage ev id fv lindef e opts = Ok l ->
       schemas_rule ev skip es /\ Forall2 (entry_def ev) es (l_sch l)) /\
    (* the rule is sufficient as far as schemas are concerned *)
    (schemas_rule ev skip es -> flat_map lenses_of opts = [] -> ev_lenses ev uni = None ->
       exists l, BindLineage ev id fv lindef e opts = Ok l) /\
    (* a violation is an error *)
    (~ schemas_rule ev skip es ->
       exists x, BindLineage ev id fv lindef e opts = Err x /\
         (err_is x ErrInvalidLineage = true \/ err_is x ErrInvalidSchemasOrder = true)).
Proof. exact @bind_schemas_rule. Qed.
Print Assumptions C08_compatibility_rule.

(** Order violations carry ErrInvalidSchemasOrder, the others ErrInvalidLineage. *)
Theorem C08_error_kind :
  forall (V : Type) (ev : evaluator V) id fv lindef e opts raw uni es x,
    shape_accepted ev lindef e raw uni -> ev_schemas ev uni = Some es ->
    let skip := negb fv && existsb is_skip opts in
    ~ schemas_rule ev skip es ->
    BindLineage ev id fv lindef e opts = Err x ->
    (e_marks x = [ErrInvalidSchemasOrder] /\ order_offence es) \/
    (e_marks x = [ErrInvalidLineage] /\
       ((exists e, In e es /\ entry_v e = None) \/ (skip = false /\ compat_offence ev es))).
Proof. exact @bind_schemas_err. Qed.
Print Assumptions C08_error_kind.

Example C08_cases :
  shape_accepted toy TLinDef (Atom (tlin ss4 [])) (tlin ss4 []) (tlin ss4 []) /\
  is_ok (tbind (tlin ss4 []) []) = true /\
  (* 0.1 drops accepted data; 1.0 is compatible; wrong order; not concrete *)
  tbind (tlin [(0, 0, [1]); (0, 1, [2])]%N []) [] = Err (mkErr [ErrInvalidLineage] ("schema 0.1 is not backwards compatible with schema 0.0:" ++ newline)%string) /\
  tbind (tlin [(0, 0, [1]); (1, 0, [1; 2])]%N []) [] = Err (mkErr [ErrInvalidLineage] "schema 1.0 must be backwards incompatible with schema 0.0: introduce a breaking change, or redeclare as version 0.1") /\
  tbind (tlin [(0, 0, [1]); (0, 2, [1]); (0, 1, [1])]%N []) [] = Err (mkErr [ErrInvalidSchemasOrder] "schema version 0.1 is not greater than previous schema version 0.2") /\
  is_ok (tbind (tlin [(0, 0, [1]); (0, 1, [2])]%N []) [OSkipBuggyChecks]) = true.
Proof. vm_compute. repeat split. Qed.

(** *** C09 *)
Theorem C09_old_data_stays_valid :
  forall (V : Type) (ev : evaluator V) fv opts id lindef e l data,
    BindLineage ev id fv lindef e opts = Ok l ->
    negb fv && existsb is_skip opts = false ->
    StronglySorted vlt (map s_v (all_schemas l)) ->
    (* the compatibility check is sound for this data *)
    (forall a b, In a (all_schemas l) -> In b (all_schemas l) ->
       ev_subsumes ev (sd_def (s_sd b)) (sd_def (s_sd a)) = true ->
       conforms ev a data -> conforms ev b data) ->
    forall s1 s2, In s1 (all_schemas l) -> In s2 (all_schemas l) ->
      fst (s_v s1) = fst (s_v s2) -> vle (s_v s1) (s_v s2) ->
      (exists i, validate ev s1 data = Ok i) -> exists i, validate ev s2 data = Ok i.
Proof. exact @old_data_valid. Qed.
Print Assumptions C09_old_data_stays_valid.

(** The soundness hypothesis holds of the example evaluator. *)
Example C09_case :
  (forall a b, ev_subsumes toy (sd_def (s_sd b)) (sd_def (s_sd a)) = true ->
     conforms toy a (TDat 1) -> conforms toy b (TDat 1)) /\
  exists l s1 s2, tbind (tlin ss4 []) [] = Ok l /\ nth_error (all_schemas l) 0 = Some s1 /\
    nth_error (all_schemas l) 1 = Some s2 /\ is_ok (validate toy s1 (TDat 1)) = true.
Proof.
  split; [intros a b; apply (toy_sound 1)|].
  destruct (tbind (tlin ss4 []) []) as [l|e| |] eqn:E; try (vm_compute in E; discriminate).
  vm_compute in E. injection E as <-. do 3 eexists. repeat split.
Qed.

(** *** C14 *)
Theorem C14_first_latest_all :
  forall (V : Type) (ev : evaluator V) (l : lineage V), bound ev l ->
    exists f t, first l = Ok f /\ latest l = Ok t /\
      nth_error (all_schemas l) 0 = Some f /\
      nth_error (all_schemas l) (length (all_schemas l) - 1) = Some t /\
      latestVersion l = Ok (s_v t) /\
      map s_sd (all_schemas l) = l_sch l /\
      forall s, In s (all_schemas l) -> vle (s_v f) (s_v s) /\ vle (s_v s) (s_v t).
Proof. exact @first_latest_all. Qed.
Print Assumptions C14_first_latest_all.

(** *** C17 *)
Theorem C17_go_lenses_exact :
  forall (V : Type) (ev : evaluator V) id fv lindef e opts raw uni vs ls,
    schemas_accepted ev fv lindef e opts raw uni vs ->
    StronglySorted vlt vs -> nth_error vs 0 = Some synv0 ->
    flat_map lenses_of opts = ls -> ls <> [] ->
    go_lens_spec vs ls (BindLineage ev id fv lindef e opts) /\
    (exact_lenses vs ls -> exists l, BindLineage ev id fv lindef e opts = Ok l).
Proof. exact @bind_go_lenses. Qed.
Print Assumptions C17_go_lenses_exact.

Example C17_cases :
  is_ok (tbind (tlin ss4 []) [OImperativeLenses exact4]) = true /\
  is_ok (tbind (tlin ss4 []) [OImperativeLenses (rev exact4)]) = true /\
  tbind (tlin ss4 []) [OImperativeLenses (tl exact4)] =
    Err (mkErr [ErrMissingLenses] (missing_message [((0, 1), (0, 0))]%N)) /\
  exact_lenses [(0, 0); (0, 1); (1, 0); (2, 0)]%N exact4 /\
  schemas_accepted toy false TLinDef (Atom (tlin ss4 [])) [OImperativeLenses exact4]
    (tlin ss4 []) (tlin ss4 []) [(0, 0); (0, 1); (1, 0); (2, 0)]%N.
Proof.
  split; [vm_compute; reflexivity|]. split; [vm_compute; reflexivity|]. split; [vm_compute; reflexivity|].
  split.
  - assert (S : strict_vs [(0, 0); (0, 1); (1, 0); (2, 0)]%N) by solve_sorted.
    apply (proj1 (completeness_ok _ exact4 (build_lensmap exact4) S eq_refl)). vm_compute. reflexivity.
  - split; [repeat split|].
    eexists. split; [vm_compute; reflexivity|]. split; [|vm_compute; reflexivity].
    apply (proj1 (check_schemas_rule toy (mkCfg false []) _)). eexists. vm_compute. reflexivity.
Qed.

(** *** C18: refuted. An excess minor upgrade (0.0 to 0.1) is explained as a wrong
    successor, an excess lens across majors (0.1 to 2.0) as a minor upgrade. *)
Theorem C18_reasons_refuted :
  exists (V : Type) (ev : evaluator V) (lindef : V) (e : cexpr V) (ls : list implens)
         (x : err) (rs : list (lensID * lens_reason)),
    BindLineage ev 0 false lindef e [OImperativeLenses ls] = Err x /\
    err_is x ErrErroneousLenses = true /\ e_text x = erroneous_message rs /\
    In (((0, 0), (0, 1)), RSuccessor (0, 1))%N rs /\
    In (((0, 1), (2, 0)), RMinorAutomatic)%N rs.
Proof. exact swapped_reasons. Qed.
Print Assumptions C18_reasons_refuted.

(** What holds: no panic, and the exact explanation in every case. Missing from
    the documented claim: the last two cases are the wrong way round. *)
Theorem C18_reasons_partial :
  forall allv l, StronglySorted vlt allv ->
    (~ In (il_to l) allv -> lens_reason_of allv l = Ok (RNoSuchVersion (il_to l))) /\
    (In (il_to l) allv -> ~ In (il_from l) allv -> lens_reason_of allv l = Ok (RNoSuchVersion (il_from l))) /\
    (In (il_to l) allv -> In (il_from l) allv ->
       (il_to l = il_from l -> lens_reason_of allv l = Ok RSelf) /\
       (vlt (il_to l) (il_from l) ->
          exists p, adjacent allv p (il_from l) /\ lens_reason_of allv l = Ok (RPredecessor p)) /\
       (vlt (il_from l) (il_to l) -> fst (il_from l) = fst (il_to l) ->
          exists s, adjacent allv (il_from l) s /\ lens_reason_of allv l = Ok (RSuccessor s)) /\
       (vlt (il_from l) (il_to l) -> fst (il_from l) <> fst (il_to l) ->
          lens_reason_of allv l = Ok RMinorAutomatic)).
Proof. exact lens_reason_exact. Qed.
Print Assumptions C18_reasons_partial.

Example C18_case :
  lens_reason_of [(0, 0); (0, 1); (1, 0)]%N (m 1 0 0 0) = Ok (RPredecessor (0, 1))%N /\
  lens_reason_of [(0, 0); (0, 1); (1, 0)]%N (m 1 0 5 0) = Ok (RNoSuchVersion (5, 0))%N.
Proof. vm_compute. auto. Qed.

(** *** C22 *)
Theorem C22_cue_lens_order :
  forall (V : Type) (ev : evaluator V) id fv lindef e opts raw uni vs ls,
    schemas_accepted ev fv lindef e opts raw uni vs ->
    flat_map lenses_of opts = [] -> ev_lenses ev uni = Some ls ->
    match BindLineage ev id fv lindef e opts with
    | Ok l => cue_lenses_ok ls /\ l_lenses l = ls /\ l_lensmap l = []
    | Err x => ~ cue_lenses_ok ls /\
        (e_marks x = [ErrInvalidLensesOrder] \/
         (e_marks x = [ErrInvalidLineage] /\ exists l, In l ls /\ (cl_to l = None \/ cl_from l = None)))
    | _ => False
    end.
Proof. exact @bind_cue_lenses. Qed.
Print Assumptions C22_cue_lens_order.

Example C22_cases :
  is_ok (tbind (tlin [(0, 0, [1]); (1, 0, [2])] [((0, 0), (1, 0), [(2, 1)]); ((1, 0), (0, 0), [(1, 2)])])%N []) = true /\
  tbind (tlin [(0, 0, [1]); (1, 0, [2])] [((1, 0), (0, 0), [(1, 2)]); ((0, 0), (1, 0), [(2, 1)])])%N [] =
    Err (mkErr [ErrInvalidLensesOrder] "lens version [to: 0.0, from: 1.0] is not greater than previous lens version [to: 1.0, from: 0.0]") /\
  tbind (TLin "x" [((Some 0, Some 0), ([1], [1]))] [((Some (0, 0), None), ([], []))])%N [] =
    Err (mkErr [ErrInvalidLineage] "failed to decode lens version ").
Proof. vm_compute. auto. Qed.

(** *** C23: refuted, both for missing and for duplicate lenses *)
Theorem C23_cue_lens_completeness_refuted :
  (exists (V : Type) (ev : evaluator V) (l : lineage V) id,
     bound ev l /\ strict_from_zero l /\ l_lensmap l = [] /\
     entailed (map s_v (all_schemas l)) id /\
     forall c, In c (l_lenses l) -> (cl_from c, cl_to c) <> (Some (fst id), Some (snd id))) /\
  (exists (V : Type) (ev : evaluator V) (l : lineage V) c,
     bound ev l /\ strict_from_zero l /\
     nth_error (l_lenses l) 0 = Some c /\ nth_error (l_lenses l) 1 = Some c).
Proof. exact (conj incomplete_cue_lenses_bind duplicate_cue_lenses_bind). Qed.
Print Assumptions C23_cue_lens_completeness_refuted.

(** *** C63 *)
Theorem C63_bind_options :
  forall fv opts,
    skipbuggychecks (make_cfg fv opts) = negb fv && existsb is_skip opts /\
    implenses (make_cfg fv opts) = flat_map lenses_of opts.
Proof. exact options_spec. Qed.
Print Assumptions C63_bind_options.

Example C63_case :
  make_cfg false [OImperativeLenses [m 0 1 0 0]; OSkipBuggyChecks; OImperativeLenses [m 1 0 0 1]]%N =
    mkCfg true [m 0 1 0 0; m 1 0 0 1]%N /\
  make_cfg true [OSkipBuggyChecks] = mkCfg false [].
Proof. vm_compute. auto. Qed.
