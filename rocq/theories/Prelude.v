(** Outcomes of Go calls and error values, shared by the whole model. *)
From Coq Require Export String Ascii NArith ZArith Bool Lia List.
Export ListNotations.
Global Open Scope list_scope.

(** The sentinel errors of [errors/errors.go:49-127] that the modelled code
    marks errors with or returns. *)
Inductive sentinel :=
| ErrInvalidData
| ErrInvalidLens
| ErrLensIncomplete
| ErrLensResultIsInvalidData
| ErrValueNotExist
| ErrValueNotALineage
| ErrInvalidLineage
| ErrInvalidSchemasOrder
| ErrInvalidLensesOrder
| ErrMissingLenses
| ErrErroneousLenses
| ErrVersionNotExist
| ErrMalformedSyntacticVersion.

Definition sentinel_eqb (a b : sentinel) : bool :=
  match a, b with
  | ErrInvalidData, ErrInvalidData
  | ErrInvalidLens, ErrInvalidLens
  | ErrLensIncomplete, ErrLensIncomplete
  | ErrLensResultIsInvalidData, ErrLensResultIsInvalidData
  | ErrValueNotExist, ErrValueNotExist
  | ErrValueNotALineage, ErrValueNotALineage
  | ErrInvalidLineage, ErrInvalidLineage
  | ErrInvalidSchemasOrder, ErrInvalidSchemasOrder
  | ErrInvalidLensesOrder, ErrInvalidLensesOrder
  | ErrMissingLenses, ErrMissingLenses
  | ErrErroneousLenses, ErrErroneousLenses
  | ErrVersionNotExist, ErrVersionNotExist
  | ErrMalformedSyntacticVersion, ErrMalformedSyntacticVersion => true
  | _, _ => false
  end.

Definition sentinel_eq_dec (a b : sentinel) : {a = b} + {a <> b}.
Proof. decide equality. Defined.

(** A Go [error]. [e_marks] is the set of sentinels for which [errors.Is]
    answers true: the sentinels the error was [errors.Mark]ed with, plus those of
    the error it wraps with [%w]. [e_text] stands for the message; messages are
    kept only where a property speaks about them. *)
Record err := mkErr { e_marks : list sentinel; e_text : string }.

(** [errors.Is(e, s)]. *)
Definition err_is (e : err) (s : sentinel) : bool :=
  existsb (sentinel_eqb s) (e_marks e).

(** [errors.Mark(e, s)]. *)
Definition mark (e : err) (s : sentinel) : err :=
  mkErr (s :: e_marks e) (e_text e).

(** [fmt.Errorf("... %w", e)]: marks are inherited. *)
Definition wrap (t : string) (e : err) : err := mkErr (e_marks e) t.

(** A fresh unmarked error ([fmt.Errorf] without [%w]). *)
Definition new_err (t : string) : err := mkErr [] t.

(** Outcome of a Go call returning [(T, error)]. [Panic] is a Go panic (index
    out of range, nil dereference, explicit [panic]). [OutOfFuel] marks that the
    model's loop bound was exhausted; it is not a behaviour of the code. *)
Inductive outcome (A : Type) :=
| Ok (a : A)
| Err (e : err)
| Panic
| OutOfFuel.
Arguments Ok {A} a.
Arguments Err {A} e.
Arguments Panic {A}.
Arguments OutOfFuel {A}.

Definition bind {A B} (x : outcome A) (f : A -> outcome B) : outcome B :=
  match x with
  | Ok a => f a
  | Err e => Err e
  | Panic => Panic
  | OutOfFuel => OutOfFuel
  end.

Notation "x <- e1 ;; e2" := (bind e1 (fun x => e2))
  (at level 61, e1 at next level, right associativity).

Definition is_ok {A} (x : outcome A) : bool :=
  match x with Ok _ => true | _ => false end.

(** Go slice indexing [l[i]]: panics out of range. *)
Definition index {A} (l : list A) (i : nat) : outcome A :=
  match nth_error l i with
  | Some a => Ok a
  | None => Panic
  end.

(** Go slice indexing with a signed index expression such as [l[k-1]]. *)
Definition indexZ {A} (l : list A) (i : Z) : outcome A :=
  if (i <? 0)%Z then Panic else index l (Z.to_nat i).
