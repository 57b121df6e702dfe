(** The package-level variables of the code generator
    ([internal/deepmap/oapi-codegen/pkg/codegen]) and the calls of [Generate] that
    share them.

    What a call makes of its own arguments is left open: a [body] is any
    computation that consults the variables. *)
From Verif Require Import Prelude Strings Version Util GenName GenType.
Local Open Scope string_scope.
Local Open Scope list_scope.

(** [configuration.go:34-74] *)
Record compat := mkCompat {
  OldMergeSchemas : bool; OldEnumConflicts : bool; OldAliasing : bool;
  DisableFlattenAdditionalProperties : bool; DisableRequiredReadOnlyAsPointer : bool;
  AlwaysPrefixEnumValues : bool;
  ApplyChiMiddlewareFirstToLast : bool; ApplyGorillaMiddlewareFirstToLast : bool
}.

(** [configuration.go:13-21, 76-90]: the options that are read from the global copy,
    and those the variables are set from. *)
Record opts := mkOpts {
  o_compat : compat; o_addl : list (string * string); o_client : string;
  o_suffix : string; o_imports : list (string * string)
}.

(** [openapi3.T]: of a component whether it is a reference, and its [x-go-name]
    ([None] inside: not a string). [sp_components] is absent if it is [nil]. *)
Record component := mkComponent { cp_ref : bool; cp_name : option (option string) }.
Record components := mkComponents {
  cs_schemas : list (string * component); cs_parameters : list (string * component);
  cs_responses : list (string * component); cs_bodies : list (string * component)
}.
Definition spec := option components.

(** [codegen.go:45-56] *)
Record goImport := mkImport { gi_name : string; gi_path : string }.

(** [codegen.go:39-42, 70], [template_helpers.go:41, 280]. [g_writing]: a goroutine is
    assigning to the map [TemplateFunctions]. *)
Record globals := mkGlobals {
  g_opts : opts; g_spec : option spec; g_imports : list (string * goImport);
  g_suffix : string; g_writing : bool
}.

(** Their values when the program starts. *)
Definition zero : globals :=
  mkGlobals (mkOpts (mkCompat false false false false false false false false) [] "" "" []) None [] "Response" false.

(** [codegen.go:72-95] *)
Fixpoint get {A} (k : string) (l : list (string * A)) : option A :=
  match l with [] => None | (n, a) :: r => if String.eqb n k then Some a else get k r end.
Fixpoint number (paths : list string) (names : list (string * string)) : list (string * string) :=
  match paths with
  | [] => names
  | p :: r =>
      number r (match get p names with
                | Some _ => names
                | None => (p, "externalRef" ++ itoa (length names))%string :: names
                end)
  end.
Definition constructImportMapping (m : list (string * string)) : list (string * goImport) :=
  let names := number (map fst (by_key (map (fun p => (snd p, tt)) m))) [] in
  map (fun p => (fst p, mkImport (match get (snd p) names with Some n => n | None => "" end) (snd p))) m.

(** *** What a call does *)

(** Assignments, and accesses of the map. [ATest] looks whether the global client
    name is empty; if not, the assignment after it is skipped. *)
Inductive act :=
| AOpts (o : opts) | ASpec (s : spec) | AImports (m : list (string * goImport))
| ASuffix (x : string) | ATest | AClient | AMapBegin | AMapEnd | AMapRange.

(** Reading the variables, and the result. *)
Inductive body :=
| BDone (r : outcome string)
| BCompat (k : compat -> body)
| BAddl (k : list (string * string) -> body)
| BClient (k : string -> body)
| BSuffix (k : string -> body)
| BImports (k : list (string * goImport) -> body)
| BSpec (k : option spec -> body).

Record call := mkCall { c_opts : opts; c_spec : spec; c_body : body }.

(** [codegen.go:100-123], then the rest of [Generate]. [c_spec] is the document as
    pruning leaves it. *)
Record thread := mkThread { t_acts : list act; t_body : body }.
Definition generate (c : call) : thread :=
  mkThread
    ([AOpts (c_opts c); ASpec (c_spec c); AImports (constructImportMapping (o_imports (c_opts c)))]
     ++ (if String.eqb (o_suffix (c_opts c)) "" then [] else [ASuffix (o_suffix (c_opts c))])
     ++ [ATest; AClient; AMapBegin; AMapEnd; AMapRange])
    (c_body c).

(** [template_helpers.go:41], [defaultClientTypeName] *)
Definition defaultClientTypeName : string := "Client".
Definition set_client (x : string) (o : opts) : opts := mkOpts (o_compat o) (o_addl o) x (o_suffix o) (o_imports o).

(** One access by one goroutine; [None]: [fatal error: concurrent map writes], or
    [concurrent map iteration and map write], which end the program. *)
Definition advance (g : globals) (t : thread) : option (globals * thread) :=
  match t_acts t with
  | a :: r =>
      let t' := mkThread r (t_body t) in
      match a with
      | AOpts o => Some (mkGlobals o (g_spec g) (g_imports g) (g_suffix g) (g_writing g), t')
      | ASpec s => Some (mkGlobals (g_opts g) (Some s) (g_imports g) (g_suffix g) (g_writing g), t')
      | AImports m => Some (mkGlobals (g_opts g) (g_spec g) m (g_suffix g) (g_writing g), t')
      | ASuffix x => Some (mkGlobals (g_opts g) (g_spec g) (g_imports g) x (g_writing g), t')
      | ATest => Some (g, if String.eqb (o_client (g_opts g)) "" then t' else mkThread (tl r) (t_body t))
      | AClient => Some (mkGlobals (set_client defaultClientTypeName (g_opts g)) (g_spec g) (g_imports g) (g_suffix g) (g_writing g), t')
      | AMapBegin => if g_writing g then None
                     else Some (mkGlobals (g_opts g) (g_spec g) (g_imports g) (g_suffix g) true, t')
      | AMapEnd => Some (mkGlobals (g_opts g) (g_spec g) (g_imports g) (g_suffix g) false, t')
      | AMapRange => if g_writing g then None else Some (g, t')
      end
  | [] =>
      Some (g, mkThread []
        match t_body t with
        | BDone r => BDone r
        | BCompat k => k (o_compat (g_opts g))
        | BAddl k => k (o_addl (g_opts g))
        | BClient k => k (o_client (g_opts g))
        | BSuffix k => k (g_suffix g)
        | BImports k => k (g_imports g)
        | BSpec k => k (g_spec g)
        end)
  end.

(** Goroutines: the schedule says who makes the next access. *)
Fixpoint replace (i : nat) (t : thread) (ts : list thread) : list thread :=
  match i, ts with
  | _, [] => []
  | O, _ :: r => t :: r
  | S i, x :: r => x :: replace i t r
  end.
Fixpoint run (schedule : list nat) (g : globals) (ts : list thread) : option (globals * list thread) :=
  match schedule with
  | [] => Some (g, ts)
  | i :: r =>
      match nth_error ts i with
      | None => run r g ts
      | Some t =>
          match advance g t with
          | None => None
          | Some (g', t') => run r g' (replace i t' ts)
          end
      end
  end.
Definition returned (t : thread) (r : outcome string) : Prop := t_acts t = [] /\ t_body t = BDone r.

(** *** References *)
Section Ref.
Variable u : unicode.

(** [utils.go:751-767] and its copies for the other kinds ([769-820]), with
    [extension.go:24-33]. *)
Definition rename (name : string) (c : component) : outcome string :=
  if cp_ref c then Ok (schemaNameToTypeName u name)
  else match cp_name c with
       | None => Ok (schemaNameToTypeName u name)
       | Some (Some n) => Ok n
       | Some None => Err (new_err "invalid value for ""x-go-type"": failed to convert type")
       end.

(** [utils.go:825-859]. Without document, or without components, the lookup
    dereferences [nil]. *)
Definition findSchemaNameByRefPath (r : string) (s : option spec) : outcome string :=
  match split_str r "/" with
  | [a; b; kind; name] =>
      if negb (String.eqb a hash) then Ok ""
      else if negb (String.eqb b "components") then Ok ""
      else
        let look (f : components -> list (string * component)) :=
          match s with
          | Some (Some cs) => match get name (f cs) with Some c => rename name c | None => Ok "" end
          | _ => Panic
          end in
        if String.eqb kind "schemas" then look cs_schemas
        else if String.eqb kind "parameters" then look cs_parameters
        else if String.eqb kind "responses" then look cs_responses
        else if String.eqb kind "requestBodies" then look cs_bodies
        else Ok ""
  | _ => Ok ""
  end.

(** [utils.go:323-347]: a reference that begins with [#]. *)
Definition localRef (r : string) (local : bool) (k : outcome string -> body) : body :=
  let parts := split_str r "/" in
  let depth := length parts in
  if Nat.eqb depth 4 || (negb local && Nat.eqb depth 2) then
    BSpec (fun s => k
      match findSchemaNameByRefPath r s with
      | Ok "" => Ok (schemaNameToTypeName u (last_part parts))
      | Ok name => Ok name
      | Err e => Err (new_err ("error finding ref: " ++ r ++ " in spec: " ++ e_text e))
      | Panic => Panic
      | OutOfFuel => OutOfFuel
      end)
  else k (Err (new_err ("unexpected reference depth: " ++ itoa depth ++ " for ref: " ++ r
                        ++ " local: " ++ (if local then "true" else "false")))).

(** [utils.go:318-363]: [r[0]] panics for the empty string. *)
Definition refPathToGoTypeG (r : string) (k : outcome string -> body) : body :=
  if String.eqb r "" then k Panic
  else if has_prefix r hash then localRef r true k
  else
    let parts := split_str r hash in
    match parts with
    | [remote; flat] =>
        BImports (fun m =>
          match get remote m with
          | None => k (Err (new_err ("unrecognized external reference '" ++ remote
              ++ "'; please provide the known import for this reference using option --import-mapping")))
          | Some gi => localRef (hash ++ flat) false (fun o =>
              k (match o with Ok t => Ok (gi_name gi ++ "." ++ t)%string | o => o end))
          end)
    | _ => k (Err (new_err ("unsupported reference: " ++ r)))
    end.

(** *** Calls by thema *)

(** [encoding/gocode/gen.go:101-118] *)
Definition thema_opts : opts := mkOpts (mkCompat false false false false false true false false) [] "" "" [].

(** Documents made from CUE have components, and no [x-go-name]. *)
Definition plain_spec (s : spec) : Prop :=
  exists cs, s = Some cs /\
    forall n c, In (n, c) (cs_schemas cs ++ cs_parameters cs ++ cs_responses cs ++ cs_bodies cs) -> cp_name c = None.

(** Generating types reads the document only to find the names of references
    ([utils.go:337]) and the imports for those and for the import statements
    ([codegen.go:249], [utils.go:354]). The client name and the suffix are for clients
    of operations, which these documents have not. *)
Inductive types_body : body -> Prop :=
| tb_done r : types_body (BDone r)
| tb_compat k : (forall c, types_body (k c)) -> types_body (BCompat k)
| tb_addl k : (forall l, types_body (k l)) -> types_body (BAddl k)
| tb_imports k : (forall m, types_body (k m)) -> types_body (BImports k)
| tb_ref r k : (forall o, types_body (k o)) -> types_body (refPathToGoTypeG r k).

Definition by_thema (c : call) : Prop := c_opts c = thema_opts /\ plain_spec (c_spec c) /\ types_body (c_body c).
End Ref.
