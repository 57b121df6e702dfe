(** Pruning of unused components: [internal/deepmap/oapi-codegen/pkg/codegen/prune.go].

    Go maps are association lists, nil pointers are [None]. The types are those of
    kin-openapi that [prune.go] walks over, cut down to the places where a
    reference can be written. Left out: the headers of the [encoding] of a media
    type and extensions, which [prune.go] does not look at either. *)
From Verif Require Import Prelude.
Local Open Scope string_scope.
Local Open Scope list_scope.

(** [openapi3.SchemaRef] and [openapi3.Schema]. [mapping] is the mapping of the
    discriminator, from values to references. *)
Inductive sref := SRef (ref : string) (value : option scm)
with scm := Scm (oneOf anyOf allOf : list (option sref)) (not_ items : option sref)
              (properties : list (string * option sref)) (additional : option sref)
              (mapping : list (string * string)).

(** [ExampleRef], [LinkRef], [SecuritySchemeRef]: nothing below them is walked. *)
Record lref := mkL { l_ref : string; l_value : bool }.

(** The other references. *)
Record oref (A : Type) := mkO { o_ref : string; o_value : option A }.
Arguments mkO {A}. Arguments o_ref {A}. Arguments o_value {A}.

(** [openapi3.MediaType]. *)
Record media := mkMedia { m_schema : option sref; m_examples : list (string * option lref) }.

(** [openapi3.Parameter]; [openapi3.Header] embeds it. *)
Record param := mkParam {
  p_schema : option sref;
  p_examples : list (string * option lref);
  p_content : list (string * option media)
}.

(** [openapi3.RequestBody] and [openapi3.Response]. *)
Definition body := list (string * option media).
Record response := mkResp {
  s_headers : list (string * option (oref param));
  s_content : list (string * option media);
  s_links : list (string * option lref)
}.

(** [openapi3.Operation], [openapi3.CallbackRef] and [openapi3.PathItem]. The
    operations of an item are listed in the order of [prune.go:273-281]. *)
Inductive oper := Oper (params : list (option (oref param))) (reqBody : option (oref body))
                    (responses : list (string * option (oref response)))
                    (callbacks : list (string * option cref))
with cref := CRef (ref : string) (value : option (list (string * item)))
with item := Item (params : list (option (oref param))) (ops : list (option oper)).

(** [openapi3.Components] and [openapi3.T]. *)
Record components := mkComps {
  c_schemas : list (string * option sref);
  c_params : list (string * option (oref param));
  c_headers : list (string * option (oref param));
  c_bodies : list (string * option (oref body));
  c_responses : list (string * option (oref response));
  c_security : list (string * option lref);
  c_examples : list (string * option lref);
  c_links : list (string * option lref);
  c_callbacks : list (string * option cref)
}.
Record swagger := mkSwagger { d_paths : list (string * item); d_comps : option components }.

(** *** [prune.go:24-378] the walk, with the function of [findComponentRefs]
    ([prune.go:380-392]): a reference is recorded and not followed. *)
Definition on {A} (f : A -> list string) (o : option A) : list string :=
  match o with None => [] | Some a => f a end.
Definition visit {A} (ref : string) (value : option A) (f : A -> list string) : list string :=
  if negb (ref =? "") then [ref] else on f value.

(** [prune.go:111-150] [walkSchemaRef]. *)
Fixpoint walkSchemaRef (r : sref) : list string :=
  match r with
  | SRef ref value =>
      if negb (ref =? "") then [ref] else match value with None => [] | Some s => walkSchema s end
  end
with walkSchema (s : scm) : list string :=
  match s with
  | Scm one any all not_ items props add _ =>
      flat_map (on walkSchemaRef) one ++ flat_map (on walkSchemaRef) any ++ flat_map (on walkSchemaRef) all ++
      on walkSchemaRef not_ ++ on walkSchemaRef items ++
      flat_map (fun f => on walkSchemaRef (snd f)) props ++ on walkSchemaRef add
  end.

(** [prune.go:310-378] [walkSecuritySchemeRef], [walkLinkRef], [walkExampleRef]. *)
Definition walkLeaf (r : lref) : list string := if negb (l_ref r =? "") then [l_ref r] else [].

(** [prune.go:175-184, 206-215, 241-250]. *)
Definition walkMedia (m : media) : list string :=
  on walkSchemaRef (m_schema m) ++ flat_map (fun e => on walkLeaf (snd e)) (m_examples m).
Definition walkContent (c : list (string * option media)) : list string :=
  flat_map (fun m => on walkMedia (snd m)) c.

(** [prune.go:152-187] [walkParameterRef]. *)
Definition walkParameterRef (r : oref param) : list string :=
  visit (o_ref r) (o_value r) (fun p =>
    on walkSchemaRef (p_schema p) ++ flat_map (fun e => on walkLeaf (snd e)) (p_examples p) ++
    walkContent (p_content p)).

(** [prune.go:287-308] [walkHeaderRef]. *)
Definition walkHeaderRef (r : oref param) : list string :=
  visit (o_ref r) (o_value r) (fun p => on walkSchemaRef (p_schema p)).

(** [prune.go:189-218] [walkRequestBodyRef]. *)
Definition walkRequestBodyRef (r : oref body) : list string :=
  visit (o_ref r) (o_value r) walkContent.

(** [prune.go:220-257] [walkResponseRef]. *)
Definition walkResponseRef (r : oref response) : list string :=
  visit (o_ref r) (o_value r) (fun p =>
    flat_map (fun h => on walkHeaderRef (snd h)) (s_headers p) ++ walkContent (s_content p) ++
    flat_map (fun k => on walkLeaf (snd k)) (s_links p)).

(** [prune.go:43-64] [walkOperation], [prune.go:259-285] [walkCallbackRef] and the
    walk over an item ([prune.go:29-36, 269-282]). *)
Fixpoint walkOperation (o : oper) : list string :=
  match o with
  | Oper params rb rs cs =>
      flat_map (on walkParameterRef) params ++ on walkRequestBodyRef rb ++
      flat_map (fun r => on walkResponseRef (snd r)) rs ++
      flat_map (fun c => on walkCallbackRef (snd c)) cs
  end
with walkCallbackRef (c : cref) : list string :=
  match c with
  | CRef ref value =>
      if negb (ref =? "") then [ref]
      else match value with None => [] | Some is => flat_map (fun i => walkItem (snd i)) is end
  end
with walkItem (i : item) : list string :=
  match i with
  | Item params ops => flat_map (on walkParameterRef) params ++ flat_map (on walkOperation) ops
  end.

(** [prune.go:66-109] [walkComponents]. *)
Definition walkComponents (c : components) : list string :=
  flat_map (fun e => on walkSchemaRef (snd e)) (c_schemas c) ++
  flat_map (fun e => on walkParameterRef (snd e)) (c_params c) ++
  flat_map (fun e => on walkHeaderRef (snd e)) (c_headers c) ++
  flat_map (fun e => on walkRequestBodyRef (snd e)) (c_bodies c) ++
  flat_map (fun e => on walkResponseRef (snd e)) (c_responses c) ++
  flat_map (fun e => on walkLeaf (snd e)) (c_security c) ++
  flat_map (fun e => on walkLeaf (snd e)) (c_examples c) ++
  flat_map (fun e => on walkLeaf (snd e)) (c_links c) ++
  flat_map (fun e => on walkCallbackRef (snd e)) (c_callbacks c).

(** [prune.go:24-41] [walkSwagger] and [prune.go:380-392] [findComponentRefs]. *)
Definition findComponentRefs (d : swagger) : list string :=
  flat_map (fun p => walkItem (snd p)) (d_paths d) ++ on walkComponents (d_comps d).

(** [prune.go:9-16]. *)
Fixpoint stringInSlice (a : string) (l : list string) : bool :=
  match l with
  | [] => false
  | b :: r => if b =? a then true else stringInSlice a r
  end.

(** One loop of [removeOrphanedComponents]: what stays, and how many go. *)
Definition sweep {A} (prefix : string) (refs : list string) (m : list (string * A)) : list (string * A) * nat :=
  let m' := filter (fun e => stringInSlice (prefix ++ fst e) refs) m in
  (m', length m - length m').

(** [prune.go:394-477] [removeOrphanedComponents]; the security schemes stay. *)
Definition removeOrphanedComponents (d : swagger) (refs : list string) : swagger * nat :=
  match d_comps d with
  | None => (d, 0)
  | Some c =>
      let (s, n1) := sweep "#/components/schemas/" refs (c_schemas c) in
      let (p, n2) := sweep "#/components/parameters/" refs (c_params c) in
      let (b, n3) := sweep "#/components/requestBodies/" refs (c_bodies c) in
      let (r, n4) := sweep "#/components/responses/" refs (c_responses c) in
      let (h, n5) := sweep "#/components/headers/" refs (c_headers c) in
      let (e, n6) := sweep "#/components/examples/" refs (c_examples c) in
      let (k, n7) := sweep "#/components/links/" refs (c_links c) in
      let (cb, n8) := sweep "#/components/callbacks/" refs (c_callbacks c) in
      (mkSwagger (d_paths d) (Some (mkComps s p h b r (c_security c) e k cb)),
       n1 + n2 + n3 + n4 + n5 + n6 + n7 + n8)
  end.

(** [prune.go:479-487] [pruneUnusedComponents]. *)
Fixpoint pruneUnusedComponents (fuel : nat) (d : swagger) : outcome swagger :=
  match fuel with
  | O => OutOfFuel
  | S f =>
      let (d', n) := removeOrphanedComponents d (findComponentRefs d) in
      if Nat.ltb n 1 then Ok d' else pruneUnusedComponents f d'
  end.
