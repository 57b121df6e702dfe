(** The lines of a summary. *)
From Verif Require Import Prelude Strings GenName GenCommentProofs.
Local Open Scope string_scope.
Local Open Scope list_scope.

(** A summary has these lines: the last may end with a newline, and one that does
    not is not empty. *)
Definition has_lines (s : string) (ls : list string) : Prop :=
  ls <> [] /\ Forall (fun l => no_nl l = true) ls /\
  (s = (String.concat newline ls ++ newline)%string \/ (s = String.concat newline ls /\ List.last ls "" <> "")).
