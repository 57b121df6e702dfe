(** Compositions that the old way of merging makes wrong structs of. *)
From Verif Require Import Prelude Strings Version GenName GenTypeFacts RespCase GenType OldMerge OldMergeSpec OldMergeProofs.
Local Open Scope string_scope.
Local Open Scope list_scope.

(** [GenerateGoSchema] of parts that are no compositions. *)
Definition part_schema (u : unicode) (env : string -> schema) (r : sref) (path : list string) : outcome gsch :=
  generateGoSchema u env 4 (Some r) path.

(** Two parts with the same property. *)
Definition with_id : sref := Inl (object_of [("id", strs)]).

Lemma field_twice : forall u env, exists m,
  mergeSchemasV1 u (part_schema u env) ["T"] [with_id; with_id] = Ok m /\
  map (fun p => p_name (fst p)) (g_props m) = ["id"; "id"].
Proof. intros u env. eexists. split; reflexivity. Qed.

(** A part whose additional properties are objects with additional properties. *)
Definition deep_addl : sref :=
  Inl (Sch (plain_base "object") [("id", strs)] None
        (Some (Inl (Sch (plain_base "object") [("name", strs)] None (Some strs) None None None))) None None None).

Lemma type_lost : forall u env, exists g m td,
  part_schema u env deep_addl ["T"] = Ok g /\ In td (additionalTypeDefs g) /\
  mergeSchemasV1 u (part_schema u env) ["T"] [deep_addl] = Ok m /\
  g_addl m = fst (fst td) /\ additionalTypeDefs m = [].
Proof.
  intros u env. do 3 eexists. split; [reflexivity|]. split; [left; reflexivity|].
  split; [reflexivity|]. split; reflexivity.
Qed.

(** Configurations with two kinds of servers. *)
Lemma two_servers : exists n g, validate n g = Ok tt /\ ~ one_server (servers g).
Proof.
  exists "api", (mkGen true false false true false false false false). split; [reflexivity|].
  cbv. intros X. inversion X as [|? Y]. inversion Y.
Qed.
