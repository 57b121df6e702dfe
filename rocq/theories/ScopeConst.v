(** The constants of the security schemes:
    [internal/deepmap/oapi-codegen/pkg/codegen/codegen.go] and its templates. *)
From Verif Require Import Prelude Strings Util GenName GenType Gocode.
Local Open Scope string_scope.
Local Open Scope list_scope.

(** [codegen.go:420-435]: the keys of the map, sorted. An operation is its
    [SecurityDefinitions] ([operations.go:190-206]), each the [ProviderName] and the
    [Scopes]. *)
Definition providerNames (u : unicode) (ops : list (list (string * list string))) : outcome (list string) :=
  names <- omap (fun def => sanitizeGoIdentity u (fst def)) (flat_map (fun op => op) ops) ;;
  Ok (map fst (by_key (map (fun n => (n, tt)) (nodup string_dec names)))).

(** One line of [templates/constants.tmpl:3-5]: the name and the text between the
    quotes. *)
Definition scopesConstant (u : unicode) (providerName : string) : outcome (string * string) :=
  n <- sanitizeGoIdentity u providerName ;;
  Ok ((uppercaseFirst u n ++ "Scopes")%string, (providerName ++ ".Scopes")%string).

(** [codegen.go:415-438] and [templates/constants.tmpl:1-7], the declared constants
    in their order without the text around them. *)
Definition generateConstants (u : unicode) (ops : list (list (string * list string)))
  : outcome (list (string * string)) :=
  names <- providerNames u ops ;; omap (scopesConstant u) names.

(** The constant an operation uses for a security definition:
    [templates/chi/chi-middleware.tmpl:43], [gorilla/gorilla-middleware.tmpl:43],
    [echo/echo-wrappers.tmpl:29] and [gin/gin-wrappers.tmpl:43]. *)
Definition scopesUsed (u : unicode) (def : string * list string) : outcome string :=
  n <- sanitizeGoIdentity u (fst def) ;; Ok (uppercaseFirst u n ++ "Scopes")%string.
