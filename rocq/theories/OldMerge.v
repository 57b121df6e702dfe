(** Compositions as they were merged in the past:
    [internal/deepmap/oapi-codegen/pkg/codegen/merge_schemas_v1.go] and
    [schema.go], used with the option [OldMergeSchemas]
    ([merge_schemas.go:13-20]). *)
From Verif Require Import Prelude Strings Version Util GenName RespCase GenType.
Local Open Scope string_scope.
Local Open Scope list_scope.

Section Old.
Variable u : unicode.
(** [GenerateGoSchema] of a part; in GenType.v for the present way of merging. *)
Variable gen : sref -> list string -> outcome gsch.

(** [schema.go:219-221] *)
Definition propertiesEqual (a b : pinfo * gsch) : bool :=
  String.eqb (p_name (fst a)) (p_name (fst b)) && String.eqb (typeDecl (snd a)) (typeDecl (snd b))
  && Bool.eqb (p_req (fst a)) (p_req (fst b)).

(** [schema.go:53-67] *)
Definition addProperty (ps : list (pinfo * gsch)) (p : pinfo * gsch) : outcome (list (pinfo * gsch)) :=
  match find (fun e => String.eqb (p_name (fst e)) (p_name (fst p)) && negb (propertiesEqual e p)) ps with
  | Some e => Err (new_err ("property '" ++ p_name (fst e) ++ "' already exists with a different type"))
  | None => Ok (ps ++ [p])
  end.
Fixpoint addProperties (ps qs : list (pinfo * gsch)) : outcome (list (pinfo * gsch)) :=
  match qs with
  | [] => Ok ps
  | q :: r => ps' <- because "error merging properties: " (addProperty ps q) ;; addProperties ps' r
  end.

(** One round of the loop, [merge_schemas_v1.go:13-52]: properties, whether there
    are additional ones, and their type. *)
Definition old_step (path : list string) (st : list (pinfo * gsch) * bool * string) (r : sref)
  : outcome (list (pinfo * gsch) * bool * string) :=
  let '(ps, has, addl) := st in
  _ <- (if isGoTypeReference (ref_of r)
        then because "error converting reference path to a go type: " (refPathToGoType u (ref_of r)) else Ok "") ;;
  g <- because "error generating Go schema in allOf: " (gen r path) ;;
  ps' <- addProperties ps (g_props g) ;;
  if g_has g then
    if has then
      if String.eqb (g_addl g) addl then Ok (ps', has, addl)
      else Err (new_err "additional properties in allOf have incompatible types")
    else Ok (ps', true, g_addl g)
  else Ok (ps', has, addl).
Fixpoint old_loop (path : list string) (st : list (pinfo * gsch) * bool * string) (l : list sref)
  : outcome (list (pinfo * gsch) * bool * string) :=
  match l with
  | [] => Ok st
  | r :: rest => st' <- old_step path st r ;; old_loop path st' rest
  end.

(** [merge_schemas_v1.go:66-111]: the lines of the struct. *)
Fixpoint old_lines (path : list string) (parts : list string) (l : list sref) : outcome (list string) :=
  match l with
  | [] => Ok (parts ++ ["}"])
  | r :: rest =>
      if isGoTypeReference (ref_of r) then
        t <- refPathToGoType u (ref_of r) ;;
        old_lines path (parts ++ [("   // Embedded struct due to allOf(" ++ ref_of r ++ ")")%string;
                                  ("   " ++ t ++ " " ++ backquote ++ "yaml:" ++ dquote ++ ",inline" ++ dquote ++ backquote)%string]) rest
      else
        g <- gen r path ;;
        let parts' := parts ++ ["   // Embedded fields due to inline allOf schema"] ++ genFields u (g_props g) in
        let line := ("AdditionalProperties map[string]" ++ g_addl g ++ " " ++ backquote ++ "json:" ++ dquote ++ "-"
                     ++ dquote ++ backquote)%string in
        old_lines path (if g_has g && negb (stringInArray line parts') then parts' ++ [line] else parts') rest
  end.
Definition genStructFromAllOf (path : list string) (l : list sref) : outcome string :=
  ls <- old_lines path ["struct {"] l ;; Ok (String.concat newline ls).

(** [merge_schemas_v1.go:11-61] *)
Definition mergeSchemasV1 (path : list string) (l : list sref) : outcome gsch :=
  st <- old_loop path ([], false, "") l ;;
  let '(ps, has, addl) := st in
  t <- because "unable to generate aggregate type for AllOf: " (genStructFromAllOf path l) ;;
  Ok (GSch t "" "" false false [] ps has addl [] [] None).
End Old.

(** *** configuration.go *)

(** [configuration.go:24-33] *)
Record generate := mkGen {
  ge_chi : bool; ge_echo : bool; ge_gin : bool; ge_gorilla : bool; ge_strict : bool; ge_client : bool;
  ge_models : bool; ge_spec : bool }.

(** [configuration.go:93-102], of [Generate]. *)
Definition updateDefaults (g : generate) : generate :=
  match g with
  | mkGen false false false false false false false false => mkGen false true false false false false true true
  | _ => g
  end.

(** [configuration.go:105-125] *)
Definition validate (packageName : string) (g : generate) : outcome unit :=
  if String.eqb packageName "" then Err (new_err "package name must be specified")
  else
    let n := (if ge_chi g then 1 else 0) + (if ge_echo g then 1 else 0) + (if ge_gin g then 1 else 0) in
    if Nat.ltb 1 n then Err (new_err "only one server type is supported at a time") else Ok tt.
