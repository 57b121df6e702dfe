(** [internal/compat/compat.go] and [schema.go:Validate] on the CUE fragment of
    CueFrag.v. *)
From Verif Require Import Prelude CueFrag.
Local Open Scope string_scope.
Local Open Scope list_scope.

(** [internal/compat/compat.go:13-15]; [true] is a nil error. *)
Definition ThemaCompatible (p s : val) : bool := subs s p.
