(** C118: pruning. *)
From Verif Require Import Prelude Prune PruneProofs PruneWitness.
Local Open Scope string_scope.
Local Open Scope list_scope.

(** *** C118 *)

(** Refuted: a schema that refers to itself stays although nothing uses it. *)
Theorem C118_unused_refuted :
  exists d n, defines d KSchema n /\ ~ used d KSchema n /\
    forall fuel, exists d', pruneUnusedComponents (S fuel) d = Ok d' /\ defines d' KSchema n.
Proof. exact unused_stays. Qed.
Print Assumptions C118_unused_refuted.

(** Refuted: in a document where every reference leads somewhere, a schema goes
    that the content of a header refers to, and one that a discriminator maps to. *)
Theorem C118_dangling_refuted :
  (exists d, resolves d /\ forall fuel, exists d' n,
     pruneUnusedComponents (2 + fuel) d = Ok d' /\ path_at true d' (addr KSchema n) /\ ~ defines d' KSchema n) /\
  (exists d m, resolves d /\ path_at false d (addr KSchema m) /\ forall fuel, exists d' n,
     pruneUnusedComponents (2 + fuel) d = Ok d' /\ comp_at true d' KSchema m (addr KSchema n) /\ ~ defines d' KSchema n).
Proof. exact dangling. Qed.
Print Assumptions C118_dangling_refuted.

(** Pruning ends after at most as many rounds as there are components, and one. *)
Theorem C118_ends :
  forall d fuel, size d < fuel -> exists d', pruneUnusedComponents fuel d = Ok d'.
Proof. exact (fun d fuel => prune_total fuel d). Qed.
Print Assumptions C118_ends.

(** What stays is the largest set of components in which each, security schemes
    aside, is referred to from a path or from another of the set, at the places
    the walk goes to. The definitions that stay are as they were. *)
Theorem C118_exact_partial :
  forall fuel d d', pruneUnusedComponents fuel d = Ok d' ->
    exists keep, d' = restrict keep d /\ forall k n, keep k n = true <-> exists P, supported d P /\ P k n.
Proof. exact prune_exact. Qed.
Print Assumptions C118_exact_partial.

(** What is used stays; no reference at those places is left without its component;
    and pruning again changes nothing. *)
Theorem C118_used_partial :
  forall fuel d d', pruneUnusedComponents fuel d = Ok d' ->
    (forall k n, defines d k n -> used d k n -> defines d' k n) /\
    (forall k n, defines d k n ->
       path_at false d' (addr k n) \/ (exists k' n', comp_at false d' k' n' (addr k n)) -> defines d' k n) /\
    (forall f, pruneUnusedComponents (S f) d' = Ok d').
Proof.
  exact (fun fuel d d' E => conj (fun k n => used_kept fuel d d' k n E)
          (conj (fun k n => seen_resolves fuel d d' k n E) (fun f => prune_again fuel f d d' E))).
Qed.
Print Assumptions C118_used_partial.

(** Where components do not refer to one another in circles, exactly what is used
    stays. *)
Theorem C118_acyclic_partial :
  forall fuel d d' (rank : kind -> string -> nat), pruneUnusedComponents fuel d = Ok d' ->
    (forall k n k' n', comp_at false d k' n' (addr k n) -> rank k' n' < rank k n) ->
    forall k n, defines d' k n <-> defines d k n /\ used d k n.
Proof. exact acyclic_exact. Qed.
Print Assumptions C118_acyclic_partial.

Example C118_case :
  (forall k n k' n', comp_at false chain_doc k' n' (addr k n) -> chain_rank k' n' < chain_rank k n) /\
  (forall fuel, exists d', pruneUnusedComponents (2 + fuel) chain_doc = Ok d' /\
     defines d' KSchema "A" /\ defines d' KSchema "B" /\ ~ defines d' KSchema "C").
Proof. exact chain_case. Qed.
