(** C129: operations left out by their tags ([OpFilter.v]). *)
From Verif Require Import Prelude Prune PruneProofs PruneWitness OpFilter OpFilterProofs OpFilterWitness.
Local Open Scope string_scope.
Local Open Scope list_scope.

(** An operation stays exactly if it has none of the excluded tags and, if any tag
    is included, one of the included ones. Paths, their parameters and components
    are as they were. *)
Theorem C129_exact :
  forall excluded included d, methods_once d ->
    td_comps (filterOperationsByTag excluded included d) = td_comps d /\
    Forall2 (fun e e' => fst e' = fst e /\ thinned excluded included (snd e) (snd e'))
            (td_paths d) (td_paths (filterOperationsByTag excluded included d)).
Proof. exact filter_exact. Qed.
Print Assumptions C129_exact.

(** Filtering again changes nothing. *)
Theorem C129_again :
  forall excluded included d, methods_once d ->
    filterOperationsByTag excluded included (filterOperationsByTag excluded included d) = filterOperationsByTag excluded included d.
Proof. exact filter_again. Qed.
Print Assumptions C129_again.

(** In whichever order Go goes through the operations of a path, and so through
    the names it collects, the outcome is the same. *)
Theorem C129_order :
  forall tags exclude i names, (forall n, In n names <-> In n (names_to_remove i tags exclude)) ->
    fold_left (fun i n => setOperation n i) names i = include_item tags exclude i.
Proof. exact include_order. Qed.
Print Assumptions C129_order.

(** Refuted: nothing is generated for operations that are left out. All operations
    can go, and a component that only belongs to their path stays. *)
Theorem C129_parameters_refuted :
  exists d excluded, methods_once d /\
    (forall l i m o, In (l, i) (td_paths d) -> In (m, Some o) (i_ops i) -> ~ stays excluded [] (t_tags o)) /\
    forall fuel, exists d' n, prepare (2 + fuel) excluded [] false d = Ok d' /\ defines d' KSchema n.
Proof. exact parameters_stay. Qed.
Print Assumptions C129_parameters_refuted.

(** Code is generated for what the operations that stay, and parameters of paths,
    want. If components do not refer to one another in circles, it is generated for
    nothing else. Missing: circles, as in C118. *)
Theorem C129_left_partial :
  forall excluded included d fuel d', methods_once d -> prepare fuel excluded included false d = Ok d' ->
    (forall k n, defines (plain_doc d) k n -> wanted excluded included d k n -> defines d' k n) /\
    ((exists rank : kind -> string -> nat, forall k n k' n', comp_at false (plain_doc d) k' n' (addr k n) -> rank k' n' < rank k n) ->
     forall k n, defines d' k n <-> defines (plain_doc d) k n /\ wanted excluded included d k n).
Proof. exact prepared_left. Qed.
Print Assumptions C129_left_partial.

(** Without pruning the filtered document is used with all its components; with
    pruning there is an outcome as well. *)
Theorem C129_total :
  forall excluded included d fuel,
    prepare fuel excluded included true d = Ok (plain_doc (filterOperationsByTag excluded included d)) /\
    (size (plain_doc d) < fuel -> exists d', prepare fuel excluded included false d = Ok d').
Proof.
  exact (fun excluded included d fuel => conj (prepared_unpruned excluded included d fuel) (prepared_total excluded included false d fuel)).
Qed.
Print Assumptions C129_total.

Example C129_pets :
  methods_once pets_doc /\ (forall k n k' n', comp_at false (plain_doc pets_doc) k' n' (addr k n) -> 0 < 0) /\
  (forall fuel, stays ["admin"] ["public"] ["pets"; "public"] /\ ~ stays ["admin"] ["public"] ["admin"; "public"] /\
     ~ stays ["admin"] ["public"] [] /\
     (exists d', prepare (2 + fuel) ["admin"] ["public"] false pets_doc = Ok d' /\
        defines d' KSchema "Pet" /\ defines d' KSchema "Id" /\ ~ defines d' KSchema "Gone" /\ ~ defines d' KSchema "New")).
Proof. exact (conj pets_once (conj (fun k n k' n' H => False_ind _ (pets_flat k n k' n' H)) pets_case)). Qed.
