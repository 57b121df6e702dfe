(** Operations left out by their tags:
    [internal/deepmap/oapi-codegen/pkg/codegen/filter.go] and [codegen.go] beside it. *)
From Verif Require Import Prelude Prune.
Local Open Scope string_scope.
Local Open Scope list_scope.

(** [openapi3.Operation] with its tags. Those of callbacks are in the operation;
    nothing here looks at them. *)
Record top := mkTop { t_tags : list string; t_oper : oper }.
(** [openapi3.PathItem]: an operation, or [nil], for each method. *)
Record titem := mkItem { i_params : list (option (oref param)); i_ops : list (string * option top) }.
Record tdoc := mkTdoc { td_paths : list (string * titem); td_comps : option components }.

(** What pruning sees of a document. *)
Definition plain_item (i : titem) : item :=
  Item (i_params i) (map (fun e => option_map t_oper (snd e)) (i_ops i)).
Definition plain_doc (d : tdoc) : swagger :=
  mkSwagger (map (fun e => (fst e, plain_item (snd e))) (td_paths d)) (td_comps d).

(** [filter.go:34-46] *)
Definition operationHasTag (op : option top) (tags : list string) : bool :=
  match op with
  | None => false
  | Some o => existsb (fun has => existsb (fun want => has =? want) tags) (t_tags o)
  end.

(** [filter.go:18-31]. The names are in no particular order there, which makes no
    difference (C129_order). [pathItem.Operations()] has the methods with an operation,
    [SetOperation] takes one away. *)
Definition names_to_remove (i : titem) (tags : list string) (exclude : bool) : list string :=
  flat_map (fun e => match snd e with
                     | None => []
                     | Some _ => if Bool.eqb (operationHasTag (snd e) tags) exclude then [fst e] else []
                     end) (i_ops i).
Definition setOperation (name : string) (i : titem) : titem :=
  mkItem (i_params i) (map (fun e => if fst e =? name then (fst e, None) else e) (i_ops i)).
Definition include_item (tags : list string) (exclude : bool) (i : titem) : titem :=
  fold_left (fun i n => setOperation n i) (names_to_remove i tags exclude) i.
Definition includeOperationsWithTags (tags : list string) (exclude : bool) (d : tdoc) : tdoc :=
  mkTdoc (map (fun e => (fst e, include_item tags exclude (snd e))) (td_paths d)) (td_comps d).
(** [filter.go:14-16] *)
Definition excludeOperationsWithTags (tags : list string) (d : tdoc) : tdoc := includeOperationsWithTags tags true d.

(** [filter.go:5-12], with [ExcludeTags] and [IncludeTags] ([configuration.go:84-85]). *)
Definition filterOperationsByTag (excluded included : list string) (d : tdoc) : tdoc :=
  let d := match excluded with [] => d | _ => excludeOperationsWithTags excluded d end in
  match included with [] => d | _ => includeOperationsWithTags included false d end.

(** [codegen.go:107-110]: what the code is generated from. *)
Definition prepare (fuel : nat) (excluded included : list string) (skipPrune : bool) (d : tdoc) : outcome swagger :=
  let d := plain_doc (filterOperationsByTag excluded included d) in
  if skipPrune then Ok d else pruneUnusedComponents fuel d.
