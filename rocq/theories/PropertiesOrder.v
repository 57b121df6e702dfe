(** C115: the order of declarations. *)
From Verif Require Import Prelude Version VersionProofs ValidateErr Native Split Lineage LineageProofs
  WalkProofs GoLensProofs BindFacts WalkFacts Toy OrderProofs.
From Coq Require Import Sorting.Sorted Sorting.Permutation.
Local Open Scope string_scope.
Local Open Scope list_scope.

(** *** C115 *)

(** The documented orders are "recommended but not required"; without them the
    lineage does not bind. *)
Theorem C115_order_free_refuted :
  exists (V : Type) (ev : evaluator V) lindef e1 e2 e3 l es es2 ls ls3,
    BindLineage ev 0 false lindef (Atom e1) [] = Ok l /\
    ev_schemas ev e1 = Some es /\ ev_schemas ev e2 = Some es2 /\ Permutation es es2 /\
    ev_lenses ev e2 = ev_lenses ev e1 /\
    ev_schemas ev e3 = Some es /\ ev_lenses ev e1 = Some ls /\ ev_lenses ev e3 = Some ls3 /\ Permutation ls ls3 /\
    BindLineage ev 0 false lindef (Atom e2) [] = Err (mkErr [ErrInvalidSchemasOrder] (order_text (0, 0) (1, 0))%N) /\
    BindLineage ev 0 false lindef (Atom e3) [] = Err (mkErr [ErrInvalidLensesOrder] (lens_order_text ((0, 0), (1, 0)) ((1, 0), (0, 0)))%N).
Proof. exact order_required. Qed.
Print Assumptions C115_order_free_refuted.

(** Of all orders of the same schemas one is accepted at most. *)
Theorem C115_schemas_partial :
  forall (V : Type) (ev : evaluator V) id fv lindef e opts l es id' fv' lindef' e' opts' l' es',
    BindLineage ev id fv lindef e opts = Ok l -> BindLineage ev id' fv' lindef' e' opts' = Ok l' ->
    ev_schemas ev (l_uni l) = Some es -> ev_schemas ev (l_uni l') = Some es' -> Permutation es es' ->
    map s_v (all_schemas l) = map s_v (all_schemas l') /\
    (NoDup (map s_v (all_schemas l)) -> es = es').
Proof. exact @one_schema_order. Qed.
Print Assumptions C115_schemas_partial.

(** And of all orders of the same CUE lenses. *)
Theorem C115_cue_lenses_partial :
  forall (V : Type) (ev : evaluator V) id fv lindef e opts l id' fv' lindef' e' opts' l',
    BindLineage ev id fv lindef e opts = Ok l -> BindLineage ev id' fv' lindef' e' opts' = Ok l' ->
    flat_map lenses_of opts = [] -> flat_map lenses_of opts' = [] ->
    Permutation (l_lenses l) (l_lenses l') ->
    map (fun x => (cl_to x, cl_from x)) (l_lenses l) = map (fun x => (cl_to x, cl_from x)) (l_lenses l') /\
    (NoDup (map (fun x => (cl_to x, cl_from x)) (l_lenses l)) -> l_lenses l = l_lenses l').
Proof. exact @one_lens_order. Qed.
Print Assumptions C115_cue_lenses_partial.

(** Go lenses are free: any order, in any number of options, gives the same
    lineage or an error of the same kind. *)
Theorem C115_go_lenses_partial :
  forall (V : Type) (ev : evaluator V) id fv lindef e opts opts' raw uni vs,
    schemas_accepted ev fv lindef e opts raw uni vs ->
    StronglySorted vlt vs -> nth_error vs 0 = Some synv0 ->
    existsb is_skip opts = existsb is_skip opts' ->
    flat_map lenses_of opts <> [] -> Permutation (flat_map lenses_of opts) (flat_map lenses_of opts') ->
    match BindLineage ev id fv lindef e opts, BindLineage ev id fv lindef e opts' with
    | Ok l, Ok l' =>
        (forall i, lens_lookup (l_lensmap l) i = lens_lookup (l_lensmap l') i) /\
        l' = mkLin (l_id l) (l_name l) (l_raw l) (l_uni l) (l_sch l) (l_allv l) (l_lenses l) (l_lensmap l')
    | Err x, Err x' => e_marks x = e_marks x'
    | _, _ => False
    end.
Proof. exact @lens_set. Qed.
Print Assumptions C115_go_lenses_partial.

Example C115_case :
  Permutation (flat_map lenses_of [OImperativeLenses exact4])
              (flat_map lenses_of [OImperativeLenses [m 1 0 2 0; m 2 0 1 0]; OImperativeLenses [m 0 1 0 0; m 0 1 1 0; m 1 0 0 1]]%N) /\
  is_ok (tbind (tlin ss4 []) [OImperativeLenses [m 1 0 2 0; m 2 0 1 0]; OImperativeLenses [m 0 1 0 0; m 0 1 1 0; m 1 0 0 1]]%N) = true /\
  schemas_accepted toy false TLinDef (Atom (tlin ss4 [])) [OImperativeLenses exact4]
    (tlin ss4 []) (tlin ss4 []) [(0, 0); (0, 1); (1, 0); (2, 0)]%N.
Proof.
  split; [|split; [vm_compute; reflexivity|exact ss4_accepted]].
  apply (Permutation_trans (l' := [m 1 0 2 0; m 2 0 1 0; m 0 1 0 0; m 1 0 0 1; m 0 1 1 0]%N)).
  - change (Permutation ([m 0 1 0 0; m 1 0 0 1; m 0 1 1 0] ++ [m 2 0 1 0; m 1 0 2 0])%N
      ([m 1 0 2 0; m 2 0 1 0] ++ [m 0 1 0 0; m 1 0 0 1; m 0 1 1 0])%N).
    eapply Permutation_trans; [apply Permutation_app_comm|]. apply Permutation_app_tail. apply perm_swap.
  - change (Permutation ([m 1 0 2 0; m 2 0 1 0; m 0 1 0 0] ++ [m 1 0 0 1; m 0 1 1 0])%N
      ([m 1 0 2 0; m 2 0 1 0; m 0 1 0 0] ++ [m 0 1 1 0; m 1 0 0 1])%N).
    apply Permutation_app_head. apply perm_swap.
Qed.
