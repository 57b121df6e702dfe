(** What the old way of merging compositions is to do, and what a configuration
    is to be. *)
From Verif Require Import Prelude Strings Version GenName RespCase GenType OldMerge.
Local Open Scope string_scope.
Local Open Scope list_scope.

(** Properties of the same name have the same type and are both required or both
    not ("Two identical fields will not collide, but two properties by the same
    name, but different definition, will collide"). *)
Definition agree (p q : pinfo * gsch) : Prop :=
  p_name (fst p) = p_name (fst q) ->
  typeDecl (snd p) = typeDecl (snd q) /\ p_req (fst p) = p_req (fst q).

(** All properties agree, and all additional properties have the same type. *)
Definition compatible (gs : list gsch) : Prop :=
  (forall p q, In p (flat_map g_props gs) -> In q (flat_map g_props gs) -> agree p q) /\
  (forall g h, In g gs -> In h gs -> g_has g = true -> g_has h = true -> g_addl g = g_addl h).

(** The type of additional properties is that of the first part having some. *)
Definition first_addl (gs : list gsch) (a : string) : Prop :=
  ((forall g, In g gs -> g_has g = false) /\ a = "") \/
  exists before g after, gs = before ++ g :: after /\ (forall h, In h before -> g_has h = false)
                         /\ g_has g = true /\ a = g_addl g.

(** The line of a part's additional properties. *)
Definition addl_line (a : string) : string :=
  ("AdditionalProperties map[string]" ++ a ++ " " ++ backquote ++ "json:" ++ dquote ++ "-" ++ dquote ++ backquote)%string.

(** The lines of the struct, from those written before: references are embedded,
    other parts have their fields written, and additional properties are written
    unless they have been. *)
Inductive written (u : unicode) : list string -> list (sref * gsch) -> list string -> Prop :=
| w_end before : written u before [] before
| w_ref before r g t rest after :
    isGoTypeReference (ref_of r) = true -> refPathToGoType u (ref_of r) = Ok t ->
    written u (before ++ [("   // Embedded struct due to allOf(" ++ ref_of r ++ ")")%string;
                          ("   " ++ t ++ " " ++ backquote ++ "yaml:" ++ dquote ++ ",inline" ++ dquote ++ backquote)%string])
              rest after ->
    written u before ((r, g) :: rest) after
| w_inline before r g extra rest after :
    isGoTypeReference (ref_of r) = false ->
    let fields := "   // Embedded fields due to inline allOf schema" :: genFields u (g_props g) in
    (g_has g = true /\ ~ In (addl_line (g_addl g)) (before ++ fields) /\ extra = [addl_line (g_addl g)] \/
     (g_has g = false \/ In (addl_line (g_addl g)) (before ++ fields)) /\ extra = []) ->
    written u (before ++ fields ++ extra) rest after ->
    written u before ((r, g) :: rest) after.

(** A reference that is a Go type has a name. *)
Definition named_refs (u : unicode) (l : list sref) : Prop :=
  forall r, In r l -> isGoTypeReference (ref_of r) = true -> exists t, refPathToGoType u (ref_of r) = Ok t.

(** At most one kind of server. *)
Definition servers (g : generate) : list bool := [ge_chi g; ge_echo g; ge_gin g; ge_gorilla g].
Definition one_server (l : list bool) : Prop := length (filter (fun b => b) l) <= 1.
Definition nothing_set (g : generate) : Prop :=
  servers g = [false; false; false; false] /\ ge_strict g = false /\ ge_client g = false /\
  ge_models g = false /\ ge_spec g = false.
