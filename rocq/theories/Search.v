(** Binary search over version lists. *)
From Verif Require Import Prelude Version.

(** Go [sort.Search(n, f)] (sort/search.go):
    [i, j := 0, n; for i < j { h := (i+j)/2; if !f(h) { i = h+1 } else { j = h } }; return i].
    The predicate may panic. [fuel] bounds the iterations. *)
Fixpoint search_loop (fuel : nat) (f : nat -> outcome bool) (i j : nat) : outcome nat :=
  if Nat.ltb i j then
    match fuel with
    | O => OutOfFuel
    | S k =>
        let h := Nat.div (i + j) 2 in
        b <- f h ;;
        if negb b then search_loop k f (h + 1) j else search_loop k f i h
    end
  else Ok i.

Definition sort_search (n : nat) (f : nat -> outcome bool) : outcome nat :=
  search_loop (S n) f 0 n.

(** [lineage.go:276-278] [searchSynv]. *)
Definition searchSynv (a : list version) (x : version) : outcome nat :=
  sort_search (length a) (fun i => ai <- index a i ;; Ok (negb (vless ai x))).

(** [lineage.go:280-283] [synvExists]. *)
Definition synvExists (a : list version) (x : version) : outcome bool :=
  i <- searchSynv a x ;;
  if Nat.ltb i (length a) then
    ai <- index a i ;; Ok (veqb ai x)
  else Ok false.
