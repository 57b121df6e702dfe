(** C24, C25: positions computed by the CUE library. *)
From Verif Require Import Prelude Version VersionProofs Search SearchProofs
  ValidateErr Native Split Lineage LineageProofs WalkProofs GoLensProofs BindFacts NativeProofs Toy.
Local Open Scope Z_scope.

(** *** C24 *)
Theorem C24_native_positions :
  forall vs, dense vs ->
    (forall i v, nth_error vs i = Some v -> (fst v <= 2)%N -> flatidx vs v = Some (Z.of_nat i)) /\
    ((forall v, In v vs -> (fst v <= 2)%N) -> Z.of_nat (length vs) <= max64 -> counts_ok vs = true).
Proof. exact native_positions. Qed.
Print Assumptions C24_native_positions.

Example C24_case : dense [(0, 0); (0, 1); (1, 0); (2, 0); (2, 1)]%N /\
  flatidx [(0, 0); (0, 1); (1, 0); (2, 0); (2, 1)]%N (2, 1)%N = Some 4.
Proof.
  split; [|reflexivity]. split; [reflexivity|]. intros a b [i [H1 H2]].
  destruct i as [|[|[|[|[|i]]]]]; cbn in H1, H2; try discriminate; injection H1 as <-; injection H2 as <-;
    cbn; auto.
Qed.

(** [_counts] itself, from two schemas on: one entry per major, the number of
    versions in it. *)
Theorem C24_counts :
  forall vs, dense vs -> (2 <= length vs)%nat -> (forall v, In v vs -> (fst v <= 2)%N) ->
  forall m c, nth_error (counts vs) (N.to_nat m) = c ->
    ((exists v, In v vs /\ fst v = m) -> c = Some (of_major m vs)) /\
    ((forall v, In v vs -> fst v <> m) -> c = None).
Proof. exact native_counts. Qed.
Print Assumptions C24_counts.

Example C24_counts_case : counts [(0, 0); (0, 1); (1, 0); (2, 0); (2, 1)]%N = [2; 1; 2].
Proof. reflexivity. Qed.

(** *** C25: refuted from four majors on: 0.0, 0.1, 1.0, 2.0, 3.0 satisfies every
    rule and is rejected; 0.0, 1.0, 2.0, 3.0 is accepted and 3.0 gets the position
    of 2.0. *)
Theorem C25_native_positions_refuted :
  (exists (vs : list version),
     dense vs /\ counts_ok vs = false /\
     exists (V : Type) (ev : evaluator V) lindef e raw es x,
       raw_uni ev lindef e = Ok (raw, raw) /\ ev_schemas ev raw = Some es /\
       map entry_v es = map Some vs /\ schemas_rule ev false es /\ ev_final ev raw = true /\
       BindLineage ev 0 false lindef e [] = Err x /\ err_is x ErrInvalidLineage = true) /\
  (exists (V : Type) (ev : evaluator V) (l : lineage V) i s,
     bound ev l /\ dense (map s_v (all_schemas l)) /\
     nth_error (all_schemas l) i = Some s /\
     flatidx (map s_v (all_schemas l)) (s_v s) <> Some (Z.of_nat i)).
Proof. exact (conj native_rejects native_wrong_index). Qed.
Print Assumptions C25_native_positions_refuted.

(** From major 3 on no position is right, all are too small; and with a major 3,
    the lineage is rejected as soon as major 2 has fewer versions than major 0. *)
Theorem C25_every_position :
  forall vs, dense vs ->
    (forall i v, nth_error vs i = Some v -> (3 <= fst v)%N ->
       exists z, flatidx vs v = Some z /\ z < Z.of_nat i) /\
    ((exists v, In v vs /\ fst v = 3%N) -> of_major 2 vs < of_major 0 vs -> counts_ok vs = false).
Proof. exact native_wrong. Qed.
Print Assumptions C25_every_position.

Example C25_every_position_cases :
  flatidx [(0, 0); (1, 0); (2, 0); (2, 1); (3, 0)]%N (3, 0)%N = Some 3 /\
  counts_ok [(0, 0); (1, 0); (2, 0); (2, 1); (3, 0)]%N = true /\
  of_major 2 [(0, 0); (0, 1); (1, 0); (2, 0); (3, 0)]%N = 1 /\
  of_major 0 [(0, 0); (0, 1); (1, 0); (2, 0); (3, 0)]%N = 2 /\
  counts_ok [(0, 0); (0, 1); (1, 0); (2, 0); (3, 0)]%N = false.
Proof. repeat split. Qed.

(** [_counts] with a single schema. *)
Theorem C25_single_count_refuted :
  exists vs, dense vs /\ counts_ok vs = true /\ nth_error (counts vs) 0 <> Some (of_major 0 vs).
Proof.
  exists [(0, 0)%N]. split; [|split; [reflexivity|discriminate]]. split; [reflexivity|].
  intros a b [i [H1 H2]]. destruct i as [|[|i]]; discriminate.
Qed.
Print Assumptions C25_single_count_refuted.
