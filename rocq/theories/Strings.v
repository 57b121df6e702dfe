(** The functions of Go's [strings] package used by the modelled code. These are
    standard-library functions (not in /repo), specified on byte strings. *)
From Verif Require Import Prelude.

(** [strings.HasPrefix(s, p)]. *)
Definition has_prefix (s p : string) : bool := String.prefix p s.

(** [strings.HasSuffix(s, p)]. *)
Fixpoint has_suffix (s p : string) : bool :=
  String.eqb s p ||
  match s with
  | EmptyString => false
  | String _ r => has_suffix r p
  end.

(** [strings.Contains(s, p)]. *)
Fixpoint contains (s p : string) : bool :=
  String.prefix p s ||
  match s with
  | EmptyString => false
  | String _ r => contains r p
  end.

(** [strings.Split(s, sep)] for a non-empty separator: separators are found left
    to right and do not overlap. [skip] counts the bytes of a separator just
    found that remain to be dropped. *)
Fixpoint split_aux (sep : string) (skip : nat) (s : string) : list string :=
  match s with
  | EmptyString => [EmptyString]
  | String c r =>
      match skip with
      | S k => split_aux sep k r
      | O =>
          if String.prefix sep s
          then EmptyString :: split_aux sep (String.length sep - 1) r
          else match split_aux sep 0 r with
               | [] => [String c EmptyString] (* not reachable *)
               | p :: ps => String c p :: ps
               end
      end
  end.
Definition split_str (s sep : string) : list string := split_aux sep 0 s.
