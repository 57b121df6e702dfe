(** The summary of an operation as a comment:
    [internal/deepmap/oapi-codegen/pkg/codegen/operations.go]. *)
From Verif Require Import Prelude Strings Util GenName.
Local Open Scope string_scope.
Local Open Scope list_scope.

(** [operations.go:258-268] *)
Definition summaryAsComment (summary : string) : string :=
  if String.eqb summary "" then ""
  else
    let trimmed := trim_suffix summary newline in
    let parts := split_str trimmed newline in
    String.concat newline (map (fun p => ("// " ++ p)%string) parts).
