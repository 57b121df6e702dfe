(** Lists of parameters as slices that share arrays:
    [internal/deepmap/oapi-codegen/pkg/codegen/operations.go]. Everywhere else in
    this model a slice is the list of its elements. *)
From Verif Require Import Prelude.
Local Open Scope list_scope.

Section Slices.
Variable A : Type.
Variable zero : A.
(** How many more elements than needed [append] makes room for when it takes a new
    array, from the old capacity and the length needed (Go's runtime). *)
Variable room : nat -> nat -> nat.

(** Arrays, by number; those from [h_next] on are not used. *)
Record heap := mkHeap { h_cells : nat -> list A; h_next : nat }.

(** A slice that starts at the start of its array and whose capacity is the
    array's, as all in these functions do. A nil slice has an empty array. *)
Record slice := mkSlice { sl_arr : nat; sl_len : nat }.

Definition set_cells (f : nat -> list A) (a : nat) (c : list A) : nat -> list A :=
  fun b => if Nat.eqb b a then c else f b.
Definition cells (h : heap) (s : slice) : list A := h_cells h (sl_arr s).
Definition read (h : heap) (s : slice) : list A := firstn (sl_len s) (cells h s).

(** [append(s, xs...)] of Go: in place if the array has room, else in a new one. *)
Definition append (h : heap) (s : slice) (xs : list A) : heap * slice :=
  let n := sl_len s + length xs in
  let c := cells h s in
  if Nat.leb n (length c) then
    (mkHeap (set_cells (h_cells h) (sl_arr s) (firstn (sl_len s) c ++ xs ++ skipn n c)) (h_next h),
     mkSlice (sl_arr s) n)
  else
    (mkHeap (set_cells (h_cells h) (h_next h)
               (firstn (sl_len s) c ++ xs ++ repeat zero (room (length c) n))) (S (h_next h)),
     mkSlice (h_next h) n).

(** A nil slice, with an array of its own. *)
Definition nil_slice (h : heap) : heap * slice :=
  (mkHeap (set_cells (h_cells h) (h_next h) []) (S (h_next h)), mkSlice (h_next h) 0).

(** [operations.go:475-483] [FilterParameterDefinitionByType]: a loop of appends. *)
Fixpoint filter_loop (keep : A -> bool) (h : heap) (out : slice) (ps : list A) : heap * slice :=
  match ps with
  | [] => (h, out)
  | p :: r => if keep p then let (h', out') := append h out [p] in filter_loop keep h' out' r
              else filter_loop keep h out r
  end.
Definition filterParams (keep : A -> bool) (h : heap) (ps : slice) : heap * slice :=
  let (h', out) := nil_slice h in filter_loop keep h' out (read h ps).

(** The slices of an [OperationDefinition], [operations.go:212-215]. *)
Record opParams := mkOp { op_path : slice; op_header : slice; op_query : slice; op_cookie : slice }.

(** The slices made for an operation, [operations.go:529-552]: each is filtered from
    all parameters, and those of the path are sorted into a slice made for them
    ([utils.go:481-498] [SortParamsByPath], here any function of the list). *)
Definition make_slice (h : heap) (l : list A) : heap * slice :=
  (mkHeap (set_cells (h_cells h) (h_next h) l) (S (h_next h)), mkSlice (h_next h) (length l)).
Definition operation (sorted : list A -> list A) (at_place : string -> A -> bool) (h : heap) (ps : slice)
  : heap * opParams :=
  let (h1, p0) := filterParams (at_place "path"%string) h ps in
  let (h2, p) := make_slice h1 (sorted (read h1 p0)) in
  let (h3, hd) := filterParams (at_place "header"%string) h2 ps in
  let (h4, q) := filterParams (at_place "query"%string) h3 ps in
  let (h5, c) := filterParams (at_place "cookie"%string) h4 ps in
  (h5, mkOp p hd q c).

(** [operations.go:229-233] [Params]; [operations.go:820-822] of
    [GenerateParamsTypes] is the same. *)
Definition params (o : opParams) (h : heap) : heap * slice :=
  let (h1, r1) := append h (op_query o) (read h (op_header o)) in
  append h1 r1 (read h1 (op_cookie o)).

(** [operations.go:236-241] [AllParams] *)
Definition allParams (o : opParams) (h : heap) : heap * slice :=
  let (h1, r1) := append h (op_query o) (read h (op_header o)) in
  let (h2, r2) := append h1 r1 (read h1 (op_cookie o)) in
  append h2 r2 (read h2 (op_path o)).

(** Calls one after the other, [true] for [AllParams]; all slices they return. *)
Fixpoint calls (o : opParams) (h : heap) (l : list bool) : heap * list slice :=
  match l with
  | [] => (h, [])
  | all :: r =>
      let (h', s) := (if all then allParams o h else params o h) in
      let (h'', ss) := calls o h' r in
      (h'', s :: ss)
  end.

(** [operations.go:527] in the loop over the operations of a path: the global
    parameters with those of each operation; what is read of them at once, and the
    slices. *)
Fixpoint with_global (global : slice) (h : heap) (locals : list (list A)) : heap * list (list A * slice) :=
  match locals with
  | [] => (h, [])
  | l :: r =>
      let (h', s) := append h global l in
      let (h'', ss) := with_global global h' r in
      (h'', (read h' s, s) :: ss)
  end.
End Slices.
Arguments mkHeap {A}. Arguments h_cells {A}. Arguments h_next {A}. Arguments cells {A}. Arguments read {A}.
