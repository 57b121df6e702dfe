(** When slices are what they seem to be. *)
From Verif Require Import Prelude SliceParams.
Local Open Scope list_scope.

Section Spec.
Context {A : Type}.
(** A slice lies within an array in use. *)
Definition valid (h : heap A) (s : slice) : Prop := sl_arr s < h_next h /\ sl_len s <= length (cells h s).

(** The query parameters share no array with the others. *)
Definition apart (o : opParams) : Prop :=
  sl_arr (op_query o) <> sl_arr (op_header o) /\ sl_arr (op_query o) <> sl_arr (op_cookie o) /\
  sl_arr (op_query o) <> sl_arr (op_path o).
Definition valid_op (h : heap A) (o : opParams) : Prop :=
  valid h (op_query o) /\ valid h (op_header o) /\ valid h (op_cookie o) /\ valid h (op_path o).

(** What a call is to return. *)
Definition wanted (h : heap A) (o : opParams) (all : bool) : list A :=
  read h (op_query o) ++ read h (op_header o) ++ read h (op_cookie o) ++
  (if all then read h (op_path o) else []).
End Spec.
