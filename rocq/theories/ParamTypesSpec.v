(** What the types of parameters should be. *)
From Verif Require Import Prelude Strings Version Util GenName GenNameProofs GenType ParamTypes.
Local Open Scope string_scope.
Local Open Scope list_scope.

(** The places of parameters, and the styles that they have without saying. *)
Definition listed (p : string) : Prop := p = "path" \/ p = "header".
Definition formlike (p : string) : Prop := p = "query" \/ p = "cookie".

(** Keywords of Go. *)
Definition go_keywords : list string :=
  ["break"; "default"; "func"; "interface"; "select"; "case"; "defer"; "go"; "map"; "struct"; "chan"; "else"; "goto";
   "package"; "switch"; "const"; "fallthrough"; "if"; "range"; "type"; "continue"; "for"; "import"; "return"; "var"].

(** A variable: a small letter, then letters and digits; no keyword. *)
Definition variable (v : string) : Prop :=
  (exists c t, v = String c t /\ lowerc c = true /\ all alnum t = true) /\ ~ In v go_keywords.

(** The small letter of a capital. *)
Definition small (c d : ascii) : Prop := upperc c = true /\ N_of_ascii d = (N_of_ascii c + 32)%N.

Section Spec.
Context {T X : Type}.
Variable u : unicode.

(** The field [f] of the type [typeName] for the parameter [p]. *)
Definition field_for (typeName : string) (p : param T X) (f : prop T X) : Prop :=
  pr_description f = pa_description p /\ pr_json f = pa_name p /\ pr_required f = pa_required p /\ pr_go f = pa_go p /\
  (pr_form f = true <-> pa_style p = "form" \/ (pa_style p = "" /\ formlike (pa_in p))) /\
  ps_has (pr_schema f) = ps_has (pa_schema p) /\ ps_types (pr_schema f) = ps_types (pa_schema p) /\
  ps_rest (pr_schema f) = ps_rest (pa_schema p) /\
  (ps_has (pa_schema p) = false -> ps_ref (pr_schema f) = ps_ref (pa_schema p)) /\
  (ps_has (pa_schema p) = true -> ps_ref (pr_schema f) = (typeName ++ "_" ++ goName u p)%string).

(** The types of their own that parameters need, in the order of the parameters. *)
Inductive own_types (typeName : string) : list (param T X) -> list (string * typ T X) -> Prop :=
| own_nil : own_types typeName [] []
| own_none p l ts : ps_has (pa_schema p) = false -> own_types typeName l ts -> own_types typeName (p :: l) ts
| own_some p l ts : ps_has (pa_schema p) = true -> own_types typeName l ts ->
    own_types typeName (p :: l) (((typeName ++ "_" ++ goName u p)%string, TParam (pa_schema p)) :: ts).
End Spec.
