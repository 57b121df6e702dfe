(** Finding the schema of data in CUE: [traverse.cue], on the fragment of CueFrag.v.
    Nothing in /repo calls these. *)
From Verif Require Import Prelude Version CueFrag CueSem CueEval.
Local Open Scope string_scope.
Local Open Scope list_scope.

(** [lin.schemas]: the version and the [_#schema] of each. *)
Definition cue_schemas (lin : cval) : list ((option N * option N) * val) :=
  match lin with
  | CLin _ ss _ => map (fun s => (fst s, fst (snd s))) ss
  | _ => []
  end.

(** [(inst & sch._#schema) != _|_], [traverse.cue:18], [30]: the comparison with bottom
    sees conflicts, not missing values. Unification commutes in CUE; the operands are
    taken in the order of [#ValidFor]. *)
Definition not_bottom (v : val) : bool := not_bot (eval v None).

(** [traverse.cue:25-31] [#ValidFor]: the element 0 of the versions of the matching
    schemas; an index out of range is bottom ([None]). *)
Definition valid_for (lin : cval) (inst : val) : option (option N * option N) :=
  match filter (fun s => not_bottom (unify (snd s) inst)) (cue_schemas lin) with
  | [] => None
  | s :: _ => Some (fst s)
  end.

(** [traverse.cue:13-23] [#SearchAndValidate]: its [v] and its [inst]; the [lin] it
    returns is the one given. The field [inst] of the struct in the comprehension,
    [inst: inst & sch._#schema], is its own innermost scope, so the reference to [inst]
    in it is to that very field and not to the argument: CUE resolves [x: x & y] to
    [y]. The argument counts in the guard only. *)
Definition search_and_validate (lin : cval) (inst : val) : option ((option N * option N) * val) :=
  match filter (fun s => not_bottom (unify (snd s) inst)) (cue_schemas lin) with
  | [] => None
  | s :: _ => Some (fst s, snd s)
  end.
