(** C137: lists of parameters that share arrays. *)
From Verif Require Import Prelude SliceParams SliceParamsSpec SliceParamsProofs.
Local Open Scope list_scope.

(** The parameters of an operation are filtered into slices that share no array
    with the query parameters, and are those of each place. *)
Theorem C137_operation : forall (A : Type) (zero : A) room sorted at_place h ps h' o, valid h ps ->
  operation A zero room sorted at_place h ps = (h', o) ->
  valid_op h' o /\ apart o /\
  read h' (op_path o) = sorted (filter (at_place "path"%string) (read h ps)) /\
  read h' (op_header o) = filter (at_place "header"%string) (read h ps) /\
  read h' (op_query o) = filter (at_place "query"%string) (read h ps) /\
  read h' (op_cookie o) = filter (at_place "cookie"%string) (read h ps).
Proof. exact @operation_ok. Qed.
Print Assumptions C137_operation.

(** However often and in which order the lists are asked for, and whatever room
    arrays have, every list that was returned is right after the last call. *)
Theorem C137_calls : forall (A : Type) (zero : A) room sorted at_place h ps h1 o l h' ss, valid h ps ->
  operation A zero room sorted at_place h ps = (h1, o) -> calls A zero room o h1 l = (h', ss) ->
  Forall2 (fun (all : bool) s => read h' s =
     filter (at_place "query"%string) (read h ps) ++ filter (at_place "header"%string) (read h ps) ++
     filter (at_place "cookie"%string) (read h ps) ++
     (if all then sorted (filter (at_place "path"%string) (read h ps)) else [])) l ss.
Proof. exact @operation_calls. Qed.
Print Assumptions C137_calls.

(** The same for any slices of which the query parameters share no array; the
    operation's own lists stay as they are. *)
Theorem C137_stay : forall (A : Type) (zero : A) room o h l h' ss, valid_op h o -> apart o ->
  calls A zero room o h l = (h', ss) ->
  Forall2 (fun b s => read h' s = wanted h o b) l ss /\
  read h' (op_query o) = read h (op_query o) /\ read h' (op_header o) = read h (op_header o) /\
  read h' (op_cookie o) = read h (op_cookie o) /\ read h' (op_path o) = read h (op_path o).
Proof. exact @calls_stay. Qed.
Print Assumptions C137_stay.

(** Every operation of a path sees the global parameters and its own, although all
    append to the same slice; the global ones stay as they are. *)
Theorem C137_global : forall (A : Type) (zero : A) room global locals h h' rs, valid h global ->
  with_global A zero room global h locals = (h', rs) ->
  map fst rs = map (fun l => read h global ++ l) locals /\ read h' global = read h global.
Proof. exact @global_ok. Qed.
Print Assumptions C137_global.

(** Capacities double; numbers stand for parameters, tens for their places. The
    query parameters have room for one more, so calls write into their array. *)
Definition twice (cap n : nat) : nat := 2 * cap - n.
Definition place (p : string) (n : nat) : bool :=
  Nat.eqb (Nat.div n 10)
    (if String.eqb p "query" then 1 else if String.eqb p "header" then 2 else if String.eqb p "cookie" then 3 else 4).
Definition given : heap nat := mkHeap (fun a => if Nat.eqb a 0 then [11; 21; 41; 12; 31; 13; 42] else []) 1.

Example C137_case :
  valid given (mkSlice 0 7) /\
  (let (h1, o) := operation nat 0 twice (@rev nat) place given (mkSlice 0 7) in
   let (h2, ss) := calls nat 0 twice o h1 [false; true; false] in
   length (cells h1 (op_query o)) = 4 /\ cells h2 (op_query o) = [11; 12; 13; 21] /\
   map (read h2) ss = [[11; 12; 13; 21; 31]; [11; 12; 13; 21; 31; 42; 41]; [11; 12; 13; 21; 31]]).
Proof. split; [split; cbn; lia|]. vm_compute. repeat split; reflexivity. Qed.

(** What was read at once is right, but the first slice has changed by the end. *)
Example C137_global_case :
  let h := mkHeap (fun _ => [1; 2; 3; 0]) 1 in
  let (h', rs) := with_global nat 0 twice (mkSlice 0 3) h [[4]; [5]] in
  valid h (mkSlice 0 3) /\
  map fst rs = [[1; 2; 3; 4]; [1; 2; 3; 5]] /\ map (fun r => read h' (snd r)) rs = [[1; 2; 3; 5]; [1; 2; 3; 5]].
Proof. vm_compute. repeat split; lia. Qed.
