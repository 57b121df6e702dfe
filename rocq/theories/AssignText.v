(** [assignable.go:344-360]: what the error of [assignable] reads like. *)
From Verif Require Import Prelude CueFrag Assign.
Local Open Scope string_scope.
Local Open Scope list_scope.

(** ["\n"] *)
Definition line_end : string := String (ascii_of_nat 10) EmptyString.

Section Text.
(** [cue.Path.String], [cue.Kind.String], and the [slen], [glen], [sval] and [gval]
    that two of the messages print, which [Assign.v] does not keep: all part of CUE. *)
Variable pstr : path -> string.
Variable kstr : kinds -> string.
Variable printed : path -> string * string.

(** The messages, by line. *)
Definition message (e : path * amsg) : string :=
  let p := pstr (fst e) in
  let '(a, b) := printed (fst e) in
  match snd e with
  | MKind sk gk => p ++ ": is kind " ++ kstr sk ++ " in schema, but kind " ++ kstr gk ++ " in Go type"            (* :106 *)
  | MStructDisj => p ++ ": contains disjunction over struct types, but Go type is not any"                        (* :125 *)
  | MMulti sk => p ++ ": allows multiple basic CUE types " ++ kstr sk ++ ", may only correspond to interface{}/any" (* :134 *)
  | MAbsentGo => p ++ ": field present in schema, absent from Go type"                                            (* :158 *)
  | MAbsentSchema => p ++ ": field present in Go type, absent from schema"                                        (* :171 *)
  | MComplexList => p ++ ": schema is a complex disjunction of list types, may only correspond to interface{}/any" (* :185 *)
  | MClosedList => p ++ ": list is closed in schema, Go type must be an array, not slice"                         (* :195 *)
  | MOpenList => p ++ ": list is open in schema, Go type must be a slice, not array"                              (* :197 *)
  | MLen => p ++ ": incompatible list lengths in schema (" ++ a ++ ") and Go type (" ++ b ++ ")"                  (* :205 *)
  | MListTypes => p ++ ": schema is list with multiple types, not representable in Go"                            (* :231 *)
  | MAnyType => p ++ ": schema is list of multiple types; not representable in Go"                                (* :256 *)
  | MScalar => p ++ ": schema type " ++ a ++ " not subsumed by Go type " ++ b                                     (* :273 *)
  end%string.

(** The loop of [assignable.go:349-357]: [n] is [len(m)] and [i] the counter. The
    second argument of [Fprint] is a string, so that no space is added. *)
Fixpoint error_loop (n i : nat) (l : list string) : string :=
  match l with
  | [] => ""
  | e :: r => ((if Nat.eqb i (n - 1) then e else e ++ line_end) ++ error_loop n (S i) r)%string
  end.

(** [assignable.go:346-360], for the entries in the order in which Go ranges over
    the map. *)
Definition assignErrs_Error (m : list (path * amsg)) : string :=
  error_loop (length m) 0 (map message m).
End Text.
