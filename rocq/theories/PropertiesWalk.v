(** C11-C13, C15, C16, C35, C36: walking lineages, ValidateAny, IsAppendOnly. *)
From Verif Require Import Prelude Version VersionProofs Search SearchProofs
  ValidateErr Native Split Lineage LineageProofs WalkProofs GoLensProofs BindFacts WalkFacts WalkDupProofs Toy.
From Coq Require Import Sorting.Sorted.
Local Open Scope string_scope.
Local Open Scope list_scope.

(** *** C11 *)
Theorem C11_neighbours :
  forall (V : Type) (ev : evaluator V) (l : lineage V), bound ev l -> strict_from_zero l ->
    (forall i s, nth_error (all_schemas l) i = Some s ->
       successor s = Ok (nth_error (all_schemas l) (S i)) /\
       predecessor s = Ok (match i with 0 => None | S j => nth_error (all_schemas l) j end)) /\
    (forall s t, In s (all_schemas l) -> In t (all_schemas l) ->
       (successor s = Ok (Some t) <-> predecessor t = Ok (Some s))) /\
    (exists f, first l = Ok f /\ forall fuel, length (all_schemas l) <= fuel ->
       follow successor fuel (Some f) = Ok (all_schemas l)) /\
    (exists t, latest l = Ok t /\ forall fuel, length (all_schemas l) <= fuel ->
       follow predecessor fuel (Some t) = Ok (rev (all_schemas l))).
Proof. exact @neighbours. Qed.
Print Assumptions C11_neighbours.

Example C11_case : exists l, tbind (tlin ss4 []) [] = Ok l /\ bound toy l /\ strict_from_zero l /\
  length (all_schemas l) = 4.
Proof.
  destruct (tbind (tlin ss4 []) []) as [l|e| |] eqn:E; try (vm_compute in E; discriminate).
  exists l. split; [reflexivity|]. split; [exact (tbind_bound _ _ _ E)|].
  vm_compute in E. injection E as <-. split; [|reflexivity].
  split; [cbn; solve_sorted|]. eexists. split; reflexivity.
Qed.

(** *** C12: refuted, both for termination and for absence of panics *)
Theorem C12_walk_terminates_refuted :
  (exists (V : Type) (ev : evaluator V) (l : lineage V) f,
     bound ev l /\ first l = Ok f /\ forall fuel, follow successor fuel (Some f) = OutOfFuel) /\
  (exists (V : Type) (ev : evaluator V) (l : lineage V) f,
     bound ev l /\ first l = Ok f /\ predecessor f = Panic).
Proof. exact (conj loop_follow pred_panics). Qed.
Print Assumptions C12_walk_terminates_refuted.

(** What holds of every bound lineage: Successor never panics and stays in the
    lineage, and is nil exactly for schemas of the largest version. Missing: its
    result may have the receiver's own version. *)
Theorem C12_successor_partial :
  forall (V : Type) (ev : evaluator V) (l : lineage V) s, bound ev l -> In s (all_schemas l) ->
    exists o, successor s = Ok o /\
      (forall t, o = Some t -> In t (all_schemas l)) /\
      (o = None <-> forall t, In t (all_schemas l) -> vle (s_v t) (s_v s)).
Proof. exact @successor_total. Qed.
Print Assumptions C12_successor_partial.

(** Predecessor panics exactly for a schema of the smallest version when that is
    not 0.0, and otherwise returns the next smaller version. *)
Theorem C12_predecessor_partial :
  forall (V : Type) (ev : evaluator V) (l : lineage V) s, bound ev l -> In s (all_schemas l) ->
    match predecessor s with
    | Ok None => s_v s = synv0
    | Ok (Some t) => In t (all_schemas l) /\ vlt (s_v t) (s_v s) /\
        forall u, In u (all_schemas l) -> vlt (s_v u) (s_v s) -> vle (s_v u) (s_v t)
    | Panic => s_v s <> synv0 /\ forall u, In u (all_schemas l) -> vle (s_v s) (s_v u)
    | _ => False
    end.
Proof. exact @predecessor_total. Qed.
Print Assumptions C12_predecessor_partial.

(** The walk from First: it ends exactly if no version but the largest is
    declared twice, and then visits the first schema of each version, in order. *)
Theorem C12_walk_partial :
  forall (V : Type) (ev : evaluator V) (l : lineage V), bound ev l ->
    exists f, first l = Ok f /\
    (((exists s, head l s /\ stuck l s) /\ forall fuel, follow successor fuel (Some f) = OutOfFuel) \/
     ((forall s, head l s -> ~ stuck l s) /\
      exists r, StronglySorted vlt (map s_v r) /\ (forall t, In t r <-> head l t) /\
        forall fuel, length (all_schemas l) <= fuel -> follow successor fuel (Some f) = Ok r)).
Proof. exact @walk_every. Qed.
Print Assumptions C12_walk_partial.

(** Both cases occur: 0.0, 0.0, 0.1 is walked for ever, 0.0, 0.1, 0.1 is not. *)
Example C12_walks :
  (exists l f, tbind loop_lin [] = Ok l /\ first l = Ok f /\ stuck l f /\ follow successor 9 (Some f) = OutOfFuel) /\
  (exists l f r, tbind (tlin [(0, 0, [1]); (0, 1, [1]); (0, 1, [1])] [])%N [] = Ok l /\ first l = Ok f /\
     follow successor 9 (Some f) = Ok r /\ map s_v r = [(0, 0); (0, 1)]%N /\ length (all_schemas l) = 3).
Proof.
  split.
  - destruct (tbind loop_lin []) as [l|e| |] eqn:E; try (vm_compute in E; discriminate).
    vm_compute in E. injection E as <-. do 2 eexists. split; [reflexivity|]. split; [reflexivity|].
    split; [|vm_compute; reflexivity]. split.
    + exists 0, 1. do 2 eexists. split; [discriminate|]. split; [reflexivity|]. split; [reflexivity|]. split; reflexivity.
    + intros K. assert (X := K _ (or_intror (or_intror (or_introl eq_refl)))). vm_compute in X.
      destruct X as [[X|[_ X]]|X]; discriminate X.
  - destruct (tbind (tlin [(0, 0, [1]); (0, 1, [1]); (0, 1, [1])] [])%N []) as [l|e| |] eqn:E; try (vm_compute in E; discriminate).
    vm_compute in E. injection E as <-. do 3 eexists. split; [reflexivity|]. split; [reflexivity|].
    split; [vm_compute; reflexivity|]. split; reflexivity.
Qed.

(** *** C13: refuted. In 0.0, 0.1, 1.0, 2.0 LatestInMajor of 0.0 is 1.0, and of
    2.0 it panics. *)
Theorem C13_latest_in_major_refuted :
  exists (V : Type) (ev : evaluator V) (l : lineage V) s t u,
    bound ev l /\ strict_from_zero l /\
    In s (all_schemas l) /\ s_v s = (0, 0)%N /\ latestInMajor s = Ok t /\ s_v t = (1, 0)%N /\
    latestVersionInSequence l 0 = Ok (1, 0)%N /\ In (0, 1)%N (map s_v (all_schemas l)) /\
    In u (all_schemas l) /\ s_v u = (2, 0)%N /\ latestInMajor u = Panic /\
    latestVersionInSequence l 2 = Panic.
Proof. exact latest_in_major_wrong. Qed.
Print Assumptions C13_latest_in_major_refuted.

(** The exact behaviour: the smallest version of a larger major, or a panic when
    there is none. So the documented result is never returned. *)
Theorem C13_latest_in_major_partial :
  forall (V : Type) (ev : evaluator V) (l : lineage V) s, bound ev l -> In s (all_schemas l) ->
    (fst (s_v s) + 1 < 2 ^ 64)%N ->
    match latestInMajor s with
    | Ok t => In t (all_schemas l) /\ (fst (s_v s) < fst (s_v t))%N /\
        forall u, In u (all_schemas l) -> (fst (s_v s) < fst (s_v u))%N -> vle (s_v t) (s_v u)
    | Panic => forall u, In u (all_schemas l) -> (fst (s_v u) <= fst (s_v s))%N
    | _ => False
    end.
Proof. exact @latest_in_major_exact. Qed.
Print Assumptions C13_latest_in_major_partial.

(** *** C15 *)
Theorem C15_validate_any :
  forall (V : Type) (ev : evaluator V) (l : lineage V) data fuel,
    bound ev l -> StronglySorted vlt (map s_v (all_schemas l)) ->
    (forall s, In s (all_schemas l) -> validate ev s data <> Panic) ->
    length (all_schemas l) <= fuel ->
    (validateAny ev fuel l data = Ok None /\
       forall s, In s (all_schemas l) -> exists e, validate ev s data = Err e) \/
    (exists s i, In s (all_schemas l) /\ validate ev s data = Ok i /\
       i_raw i = data /\ i_sch i = s /\ i_valid i = true /\
       (forall t j, In t (all_schemas l) -> validate ev t data = Ok j -> vle (s_v s) (s_v t)) /\
       validateAny ev fuel l data = Ok (Some i)).
Proof. exact @validate_any_spec. Qed.
Print Assumptions C15_validate_any.

Example C15_cases : exists l i, tbind (tlin ss4 []) [] = Ok l /\
  validateAny toy 4 l (TDat 3) = Ok (Some i) /\ s_v (i_sch i) = (1, 0)%N /\
  validateAny toy 4 l (TDat 9) = Ok None /\
  (forall s, In s (all_schemas l) -> validate toy s (TDat 9) <> Panic).
Proof.
  destruct (tbind (tlin ss4 []) []) as [l|e| |] eqn:E; try (vm_compute in E; discriminate).
  vm_compute in E. injection E as <-. do 2 eexists. split; [reflexivity|].
  split; [vm_compute; reflexivity|]. split; [reflexivity|]. split; [vm_compute; reflexivity|].
  intros s [<-|[<-|[<-|[<-|[]]]]]; vm_compute; discriminate.
Qed.

(** *** C16: refuted. With a duplicate version ValidateAny loops for ever although
    a schema validates the data; or it returns nil without having tried it. *)
Theorem C16_validate_any_total_refuted :
  (exists (V : Type) (ev : evaluator V) (l : lineage V) data s i,
     bound ev l /\ In s (all_schemas l) /\ validate ev s data = Ok i /\
     forall fuel, validateAny ev fuel l data = OutOfFuel) /\
  (exists (V : Type) (ev : evaluator V) (l : lineage V) data s i,
     bound ev l /\ In s (all_schemas l) /\ validate ev s data = Ok i /\
     forall fuel, 0 < fuel -> validateAny ev fuel l data = Ok None).
Proof. exact (conj validate_any_loops validate_any_misses). Qed.
Print Assumptions C16_validate_any_total_refuted.

(** What it does on every bound lineage. Only the first schema of each version is
    tried, in order. The first that validates the data is the answer; a version
    that does not, and is declared twice and is not the largest, is tried for ever.
    [passed l data s]: the versions before [s] are declared once and fail. *)
Theorem C16_exact_partial :
  forall (V : Type) (ev : evaluator V) (l : lineage V) data, bound ev l ->
    (forall s, In s (all_schemas l) -> validate ev s data <> Panic) ->
    (exists s i, head l s /\ passed ev l data s /\ validate ev s data = Ok i /\
       forall fuel, length (all_schemas l) <= fuel -> validateAny ev fuel l data = Ok (Some i)) \/
    ((forall s, head l s -> ~ stuck l s /\ exists e, validate ev s data = Err e) /\
       forall fuel, length (all_schemas l) <= fuel -> validateAny ev fuel l data = Ok None) \/
    (exists s, head l s /\ passed ev l data s /\ stuck l s /\ (exists e, validate ev s data = Err e) /\
       forall fuel, validateAny ev fuel l data = OutOfFuel).
Proof. exact @validate_any_every. Qed.
Print Assumptions C16_exact_partial.

(** On 0.0, 0.0, 0.1: found at once, or never. *)
Example C16_cases : exists l i, tbind loop_lin [] = Ok l /\ length (all_schemas l) = 3 /\
  (forall s, In s (all_schemas l) -> validate toy s (TDat 1) <> Panic /\ validate toy s (TDat 3) <> Panic) /\
  validateAny toy 9 l (TDat 1) = Ok (Some i) /\ validateAny toy 9 l (TDat 3) = OutOfFuel.
Proof.
  destruct (tbind loop_lin []) as [l|e| |] eqn:E; try (vm_compute in E; discriminate).
  vm_compute in E. injection E as <-. do 2 eexists. split; [reflexivity|]. split; [reflexivity|].
  split; [intros s [<-|[<-|[<-|[]]]]; split; vm_compute; discriminate|]. split; vm_compute; reflexivity.
Qed.

(** *** C35 *)
Theorem C35_append_only :
  forall (V : Type) (ev : evaluator V) (old new : lineage V),
    (isAppendOnly ev old new = Ok tt <-> extends ev old new) /\
    (isAppendOnly ev old new = Ok tt \/ exists e, isAppendOnly ev old new = Err e).
Proof. exact @append_only_spec. Qed.
Print Assumptions C35_append_only.

Theorem C35_append_only_order :
  forall (V : Type) (ev : evaluator V),
    (forall v, ev_subsumes_raw ev v v = true) ->
    (forall x y z, ev_subsumes_raw ev x y = true -> ev_subsumes_raw ev y z = true ->
       ev_subsumes_raw ev x z = true) ->
    (forall l, isAppendOnly ev l l = Ok tt) /\
    (forall a b c, isAppendOnly ev a b = Ok tt -> isAppendOnly ev b c = Ok tt ->
       isAppendOnly ev a c = Ok tt) /\
    (forall a b, isAppendOnly ev a b = Ok tt -> isAppendOnly ev b a = Ok tt ->
       Forall2 (same_schema ev) (all_schemas a) (all_schemas b)).
Proof. exact @append_only_order. Qed.
Print Assumptions C35_append_only_order.

Example C35_cases : exists a b c, tbind (tlin [(0, 0, [1])]%N []) [] = Ok a /\
  tbind (tlin [(0, 0, [1]); (0, 1, [1; 2])]%N []) [] = Ok b /\
  tbind (tlin [(0, 0, [1; 2]); (0, 1, [1; 2])]%N []) [] = Ok c /\
  isAppendOnly toy a b = Ok tt /\ is_ok (isAppendOnly toy b a) = false /\ is_ok (isAppendOnly toy a c) = false.
Proof.
  do 3 eexists. split; [vm_compute; reflexivity|]. split; [vm_compute; reflexivity|].
  split; [vm_compute; reflexivity|]. vm_compute. auto.
Qed.

(** *** C36: refuted *)
Theorem C36_published_refuted :
  exists (V : Type) (ev : evaluator V) (old new new' : lineage V),
    bound ev old /\ bound ev new /\ bound ev new' /\
    isAppendOnly ev old new = Ok tt /\ map s_v (all_schemas old) <> map s_v (all_schemas new) /\
    isAppendOnly ev old new' = Ok tt /\ map s_v (all_schemas old) = map s_v (all_schemas new') /\
    exists i o n data, nth_error (all_schemas old) i = Some o /\ nth_error (all_schemas new') i = Some n /\
      is_ok (validate ev o data) = true /\ is_ok (validate ev n data) = false.
Proof. exact append_only_changes. Qed.
Print Assumptions C36_published_refuted.
