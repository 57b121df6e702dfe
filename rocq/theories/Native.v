(** The parts of the CUE library [lineage.cue] that compute with version
    numbers: [_counts], [_basis], [_flatidx]. *)
From Verif Require Import Prelude Version.
Local Open Scope Z_scope.

Definition sumZ (l : list Z) : Z := fold_right Z.add 0 l.

(** [lineage.cue:121] [_pos]: 0 followed by the index of every schema whose
    major number is larger than that of the schema before it. [i] is the index
    in [list.Drop(SS, 1)], [prev] is [SS[i]]. *)
Fixpoint pos_from (i : Z) (prev : version) (rest : list version) : list Z :=
  match rest with
  | [] => []
  | v :: r =>
      (if (fst prev <? fst v)%N then [i + 1] else []) ++ pos_from (i + 1) v r
  end.

(** [lineage.cue:122-124]: entry [i] is [_pos[i+1] - list.Sum(_pos[0:i+1])];
    [seen] is [list.Sum(list.Slice(_pos, 0, i+1))], the sum up to and including
    the current entry. *)
Fixpoint counts_from (seen : Z) (rest : list Z) (total last : Z) : list Z :=
  match rest with
  | [] => [total - last]
  | p :: r => (p - seen) :: counts_from (seen + p) r total p
  end.

(** [lineage.cue:112-127] [_counts]. [vs] are the versions in [_schemas]; an
    empty [schemas] list is replaced by a single schema ([lineage.cue:91-93]). *)
Definition counts (vs : list version) : list Z :=
  match vs with
  | [] | [_] => [0]
  | v :: r =>
      counts_from 0 (pos_from 0 v r) (Z.of_nat (length vs)) 0
  end.

(** [lineage.cue:144-146] [_basis]: 0, then for each further major the sum of
    the counts before it. *)
Fixpoint basis_from (acc : Z) (cs : list Z) : list Z :=
  match cs with
  | [] => []
  | [_] => []
  | c :: r => (acc + c) :: basis_from (acc + c) r
  end.
Definition basis (cs : list Z) : list Z := 0 :: basis_from 0 cs.

(** [lineage.cue:193-197] [_flatidx]: [_basis[v[0]] + v[1]]; indexing outside
    the list is an error ([None]). *)
Definition flatidx (vs : list version) (v : version) : option Z :=
  match nth_error (basis (counts vs)) (N.to_nat (fst v)) with
  | Some b => Some (b + Z.of_N (snd v))
  | None => None
  end.

Definition max64 : Z := 18446744073709551615.

(** [lineage.cue:115]: [_counts: [...uint64] & list.MinItems(1)]. A value
    outside [uint64] makes the lineage erroneous. *)
Definition counts_ok (vs : list version) : bool :=
  forallb (fun c => (0 <=? c) && (c <=? max64)) (counts vs).
