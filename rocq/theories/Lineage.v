(** Lineages, schemas and the checks of [BindLineage]. *)
From Verif Require Import Prelude Version Search ValidateErr Native Split.
Local Open Scope string_scope.
Local Open Scope list_scope.

(** [bind.go:53-59]: (From, To). *)
Definition lensID : Type := version * version.
Definition lid (from to : version) : lensID := (from, to).
Definition lid_eqb (a b : lensID) : bool := veqb (fst a) (fst b) && veqb (snd a) (snd b).

(** [surface.go:92-95] [ImperativeLens]. A Go function is represented by an
    identifier whose meaning is given where it is called ([Translate.v]); [None]
    is the nil function. *)
Record implens := mkImplens { il_to : version; il_from : version; il_mapper : option N }.

(** [surface.go:170-173] [bindConfig]. *)
Record bindConfig := mkCfg { skipbuggychecks : bool; implenses : list implens }.

Inductive bindOption := OSkipBuggyChecks | OImperativeLenses (ls : list implens).

(** [surface.go:190-197, 215-219]: applying one option. [forceVerify] is the
    environment switch [envvars.ForceVerify]. *)
Definition apply_opt (forceVerify : bool) (c : bindConfig) (o : bindOption) : bindConfig :=
  match o with
  | OSkipBuggyChecks =>
      if negb forceVerify then mkCfg true (implenses c) else c
  | OImperativeLenses ls => mkCfg (skipbuggychecks c) (implenses c ++ ls)
  end.

(** [lineage.go:59-62]. *)
Definition make_cfg (forceVerify : bool) (opts : list bindOption) : bindConfig :=
  fold_left (apply_opt forceVerify) opts (mkCfg false []).

(** Result of looking up a field: [Exists] false, or [IsConcrete] false, or
    concrete. *)
Inductive fstate := FAbsent | FNonConcrete | FConcrete.

Section Lineage.
Context {V : Type}.

(** [schema.go:25-36] [schemaDef]; the back link to the lineage is added by
    [schema] below. *)
Record schema_def := mkSch { sd_v : version; sd_ref : V; sd_def : V }.

(** A lens declared in CUE: its decoded versions ([None] when [Decode] fails)
    and its value. *)
Record cue_lens := mkLens { cl_to : option version; cl_from : option version; cl_val : V }.

(** An element of the [schemas] list: the two components of its version ([None]
    when not concrete) and its value. *)
Record schema_entry := mkEntry { se_major : option N; se_minor : option N; se_val : V }.

(** The CUE evaluator as used by thema. Every theorem is about an arbitrary
    one. *)
Record evaluator := mkEvaluator {
  ev_unify : V -> V -> V;                 (* a.Unify(b) *)
  ev_embed : V -> V -> V;                 (* the struct {a, b} embedding a and b *)
  ev_subsumes : V -> V -> bool;           (* a.Subsume(b, Raw(), All()) == nil *)
  ev_subsumes_raw : V -> V -> bool;       (* a.Subsume(b, Raw()) == nil *)
  ev_validate : V -> option verr;         (* v.Validate(Concrete(true)); None = nil *)
  ev_schdef : V -> V;                     (* v.LookupPath("_#schema") *)
  ev_sch : V -> V;                        (* v.LookupPath("schema") *)
  ev_exists : V -> bool;                  (* v.Exists() *)
  ev_path : V -> string;                  (* v.Path().String() *)
  ev_refpath : V -> string;               (* path of v.ReferencePath() *)
  ev_field : V -> string -> fstate;       (* v.LookupPath(f): Exists, IsConcrete *)
  ev_name : V -> string;                  (* v.LookupPath("name").String() *)
  ev_final : V -> bool;                   (* v.Validate(Final()) == nil, apart from
                                             the constraints of Native.v *)
  ev_valid : V -> bool;                   (* v.Validate(Concrete(false)) == nil *)
  ev_schemas : V -> option (list schema_entry); (* v.LookupPath("schemas").List() *)
  ev_lenses : V -> option (list cue_lens);      (* v.LookupPath("lenses").List() *)
  ev_lens_result : V -> V -> V;           (* (lens & {input: i}).result *)
  ev_lacunas : V -> V -> list N;          (* lacunas of the lens whose condition holds for input i *)
  ev_bottom : V -> bool;                  (* v.Err() != nil *)
  ev_default : V -> V;                    (* v.Default() *)
  ev_json_ok : V -> bool;                 (* json.Marshal(v) succeeds *)
  ev_struct : V -> bool                   (* v is accepted by the argument inst: {...} of #Translate *)
}.

Variable ev : evaluator.

(** *** Checks *)

(** [bind.go:129-141]. The path is printed with [%q]; that it holds nothing to be
    escaped is a simplification. *)
Definition checkExists (raw : V) : outcome unit :=
  let p := ev_path ev raw in
  if negb (ev_exists ev raw) then
    if negb (String.eqb p "") then
      Err (mkErr [ErrValueNotExist] ("not a lineage: no cue value at path """ ++ p ++ """")%string)
    else Err (mkErr [ErrValueNotExist] "cue value does not exist")
  else Ok tt.

(** [bind.go:147-155]: loop over ["name"] and ["schemas"]. *)
Fixpoint check_fields (raw : V) (fs : list string) : outcome unit :=
  match fs with
  | [] => Ok tt
  | f :: r =>
      match ev_field ev raw f with
      | FAbsent => Err (mkErr [ErrValueNotALineage] ("not a lineage, missing #Lineage." ++ f)%string)
      | FNonConcrete => Err (mkErr [ErrInvalidLineage] ("invalid lineage, #Lineage." ++ f ++ " must be concrete")%string)
      | FConcrete => check_fields raw r
      end
  end.

(** The concrete versions of a schema list; [None] if some component is not
    concrete. *)
Fixpoint entry_versions (es : list schema_entry) : option (list version) :=
  match es with
  | [] => Some []
  | e :: r =>
      match se_major e, se_minor e, entry_versions r with
      | Some a, Some b, Some vs => Some ((a, b) :: vs)
      | _, _, _ => None
      end
  end.

(** Constraints of [#Lineage] modelled here: at least one schema
    ([lineage.cue:42]) and [_counts] in range. With a version that is not concrete
    [_counts] is incomplete, which is not an error. *)
Definition native_ok (uni : V) : bool :=
  match ev_schemas ev uni with
  | None => false
  | Some [] => false
  | Some es =>
      match entry_versions es with
      | Some vs => counts_ok vs
      | None => true
      end
  end.

(** [bind.go:143-172]. *)
Definition checkLineageShape (raw uni : V) : outcome unit :=
  _ <- check_fields raw ["name"; "schemas"] ;;
  if ev_final ev uni && native_ok uni then Ok tt
  else Err (mkErr [ErrInvalidLineage] "not an instance of thema.#Lineage").

(** [bind.go:175-186]. *)
Definition checkNativeValidity (raw uni : V) : outcome unit :=
  if negb (ev_valid ev raw) then Err (mkErr [ErrInvalidLineage] "lineage is invalid")
  else if negb (ev_valid ev uni) then Err (mkErr [ErrInvalidLineage] "lineage is invalid")
  else Ok tt.

(** [internal/compat/compat.go:13-15]: nil is [true]. *)
Definition themaCompatible (p s : V) : bool := ev_subsumes ev s p.

Definition newline : string := String (ascii_of_nat 10) EmptyString.
Definition tab : string := String (ascii_of_nat 9) EmptyString.

(** The texts of [bind.go:123], [100] and [104]. What CUE says about the
    incompatibility follows the last one; it is left out. *)
Definition order_text (v prev : version) : string :=
  ("schema version " ++ vstring v ++ " is not greater than previous schema version " ++ vstring prev)%string.
Definition major_text (v prev : version) : string :=
  ("schema " ++ vstring v ++ " must be backwards incompatible with schema " ++ vstring prev ++
   ": introduce a breaking change, or redeclare as version " ++ vstring (fst prev, snd prev + 1)%N)%string.
Definition minor_text (v prev : version) : string :=
  ("schema " ++ vstring v ++ " is not backwards compatible with schema " ++ vstring prev ++ ":" ++ newline)%string.

(** [bind.go:117-127]. *)
Definition checkSchemasOrder (prev : option schema_def) (curr_v : version) : outcome unit :=
  match prev with
  | None => Ok tt
  | Some p =>
      if vless curr_v (sd_v p) then Err (mkErr [ErrInvalidSchemasOrder] (order_text curr_v (sd_v p))) else Ok tt
  end.

(** One iteration of [bind.go:73-112]. *)
Definition check_one (cfg : bindConfig) (prev : option schema_def) (e : schema_entry)
  : outcome schema_def :=
  match se_major e, se_minor e with
  | Some a, Some b =>
      let v := (a, b) in
      _ <- checkSchemasOrder prev v ;;
      let sch := mkSch v (se_val e) (ev_schdef ev (se_val e)) in
      match prev with
      | Some p =>
          if negb (skipbuggychecks cfg) then
            let compat := themaCompatible (sd_def p) (sd_def sch) in
            if (snd v =? 0)%N && compat then
              Err (mkErr [ErrInvalidLineage] (major_text v (sd_v p)))
            else if negb (snd v =? 0)%N && negb compat then
              Err (mkErr [ErrInvalidLineage] (minor_text v (sd_v p)))
            else Ok sch
          else Ok sch
      | None => Ok sch
      end
  | _, _ => Err (mkErr [ErrInvalidLineage] "#SchemaDef.version must have concrete major and minor versions")
  end.

Fixpoint check_schemas (cfg : bindConfig) (prev : option schema_def) (es : list schema_entry)
  : outcome (list schema_def) :=
  match es with
  | [] => Ok []
  | e :: r =>
      s <- check_one cfg prev e ;;
      rest <- check_schemas cfg (Some s) r ;;
      Ok (s :: rest)
  end.

(** [bind.go:65-115] [checkGoValidity]: the schema list. [allv] is the list of
    its versions. *)
Definition checkGoValidity (cfg : bindConfig) (uni : V) : outcome (list schema_def) :=
  match ev_schemas ev uni with
  | None => Panic
  | Some es => check_schemas cfg None es
  end.

(** *** Lens checks *)

(** The text of [bind.go:341] and [347]; lenses are pairs (to, from). *)
Definition lens_order_text (curr prev : version * version) : string :=
  ("lens version [to: " ++ vstring (fst curr) ++ ", from: " ++ vstring (snd curr) ++
   "] is not greater than previous lens version [to: " ++ vstring (fst prev) ++ ", from: " ++ vstring (snd prev) ++ "]")%string.

(** [bind.go:330-352] [doCheck]. *)
Definition doCheck (prev : option (version * version)) (curr : version * version) : outcome unit :=
  match prev with
  | None => Ok tt
  | Some (pto, pfrom) =>
      let '(cto, cfrom) := curr in
      if vless cto pto then Err (mkErr [ErrInvalidLensesOrder] (lens_order_text curr (pto, pfrom)))
      else if veqb pto cto && vless cfrom pfrom then Err (mkErr [ErrInvalidLensesOrder] (lens_order_text curr (pto, pfrom)))
      else Ok tt
  end.

(** [bind.go:315-328, 354-364] [newLensVersionDef]: (to, from). The text goes on
    with the version and the lens as CUE prints them. *)
Definition newLensVersionDef (l : cue_lens) : outcome (version * version) :=
  match cl_to l with
  | None => Err (mkErr [ErrInvalidLineage] "failed to decode lens version ")
  | Some t =>
      match cl_from l with
      | None => Err (mkErr [ErrInvalidLineage] "failed to decode lens version ")
      | Some f => Ok (t, f)
      end
  end.

Fixpoint check_cue_lenses (prev : option (version * version)) (ls : list cue_lens) : outcome unit :=
  match ls with
  | [] => Ok tt
  | l :: r =>
      curr <- newLensVersionDef l ;;
      _ <- doCheck prev curr ;;
      check_cue_lenses (Some curr) r
  end.

(** Go [map[lensID]bool] as the list of keys present. *)
Definition mem_lid (id : lensID) (m : list lensID) : bool := existsb (lid_eqb id) m.
Definition delete_lid (id : lensID) (m : list lensID) : list lensID :=
  filter (fun x => negb (lid_eqb id x)) m.

Definition il_id (l : implens) : lensID := lid (il_from l) (il_to l).

(** [bind.go:61-63] [lensID.String]. *)
Definition lid_string (id : lensID) : string :=
  (vstring (fst id) ++ " -> " ++ vstring (snd id))%string.

(** [bind.go:220-229]: collect the identifiers; duplicates and nil mappers are
    rejected with unmarked errors. *)
Fixpoint collect_lenses (all : list lensID) (ls : list implens) : outcome (list lensID) :=
  match ls with
  | [] => Ok all
  | l :: r =>
      if mem_lid (il_id l) all then Err (new_err ("duplicate Go migration " ++ lid_string (il_id l)))
      else match il_mapper l with
           | None => Err (new_err ("nil Go migration func for " ++ lid_string (il_id l)))
           | Some _ => collect_lenses (il_id l :: all) r
           end
  end.

(** [bind.go:233-256]: walk the schemas after the first; returns the missing
    identifiers and the map with the expected ones deleted. *)
Fixpoint expect_lenses (prior : version) (vs : list version) (all missing : list lensID)
  : list lensID * list lensID :=
  match vs with
  | [] => (missing, all)
  | v :: r =>
      let revid := lid v prior in
      let '(missing, all) :=
        if mem_lid revid all then (missing, delete_lid revid all) else (missing ++ [revid], all) in
      let '(missing, all) :=
        if negb (fst v =? fst prior)%N then
          let fwdid := lid prior v in
          if mem_lid fwdid all then (missing, delete_lid fwdid all) else (missing ++ [fwdid], all)
        else (missing, all) in
      expect_lenses v r all missing
  end.

(** The explanations of [bind.go:279-297]. *)
Inductive lens_reason :=
| RNoSuchVersion (v : version)
| RSelf
| RPredecessor (pred : version)
| RSuccessor (succ : version)
| RMinorAutomatic.

(** [bind.go:279-297]: explanation for one excess lens. *)
Definition lens_reason_of (allv : list version) (l : implens) : outcome lens_reason :=
  let from := il_from l in
  let to := il_to l in
  te <- synvExists allv to ;;
  if negb te then Ok (RNoSuchVersion to) else
  fe <- synvExists allv from ;;
  if negb fe then Ok (RNoSuchVersion from) else
  if veqb to from then Ok RSelf else
  if vless to from then
    i <- searchSynv allv from ;;
    p <- indexZ allv (Z.of_nat i - 1) ;; Ok (RPredecessor p)
  else if negb (fst to =? fst from)%N then Ok RMinorAutomatic
  else
    i <- searchSynv allv from ;;
    s <- index allv (i + 1) ;; Ok (RSuccessor s).

(** [bind.go:273-298]: the explanations, in the order of the slice. *)
Fixpoint erroneous_reasons (allv : list version) (all : list lensID) (ls : list implens)
  : outcome (list (lensID * lens_reason)) :=
  match ls with
  | [] => Ok []
  | l :: r =>
      if mem_lid (il_id l) all then
        x <- lens_reason_of allv l ;;
        rest <- erroneous_reasons allv all r ;;
        Ok ((il_id l, x) :: rest)
      else erroneous_reasons allv all r
  end.

(** [bind.go:261-266]: message for missing lenses. *)
Definition missing_text (missing : list lensID) : string :=
  ("Go migrations not provided for the following version pairs:" ++ newline ++
   String.concat "" (map (fun id => tab ++ lid_string id ++ newline) missing))%string.

(** [bind.go:280-296]: one explanation. *)
Definition reason_text (id : lensID) (r : lens_reason) : string :=
  (tab ++ lid_string id ++
   match r with
   | RNoSuchVersion v => " (schema version " ++ vstring v ++ " does not exist)"
   | RSelf => " (self-migrations not allowed)"
   | RPredecessor p => " (" ++ vstring p ++ " is predecessor of " ++ vstring (fst id) ++ ", not " ++ vstring (snd id) ++ ")"
   | RSuccessor p => " (" ++ vstring p ++ " is successor of " ++ vstring (fst id) ++ ", not " ++ vstring (snd id) ++ ")"
   | RMinorAutomatic => " (minor version upgrades are handled automatically)"
   end)%string.

(** [bind.go:272-299]: message for erroneous lenses. *)
Definition erroneous_text (rs : list (lensID * lens_reason)) : string :=
  ("Go migrations erroneously provided for the following version pairs:" ++ newline ++
   String.concat "" (map (fun p => reason_text (fst p) (snd p)) rs))%string.

(** Lens map [map[lensID]ImperativeLens] as an association list; later
    assignments come first. *)
Definition lensmap := list (lensID * implens).
Fixpoint lens_lookup (m : lensmap) (id : lensID) : option implens :=
  match m with
  | [] => None
  | (k, l) :: r => if lid_eqb id k then Some l else lens_lookup r id
  end.

(** [bind.go:302-305]. *)
Definition build_lensmap (ls : list implens) : lensmap :=
  fold_left (fun m l => (il_id l, l) :: m) ls [].

(** [bind.go:217-308] [checkGoLensCompleteness]. [vs] are the versions of
    [ml.schlist], which equals [ml.allv]. [ml.schlist[1:]] panics on an empty
    list. *)
Definition checkGoLensCompleteness (vs : list version) (ls : list implens) : outcome lensmap :=
  all <- collect_lenses [] ls ;;
  match vs with
  | [] => Panic
  | _ :: rest =>
      let '(missing, all') := expect_lenses synv0 rest all [] in
      match missing with
      | _ :: _ => Err (mkErr [ErrMissingLenses] (missing_text missing))
      | [] =>
          match all' with
          | _ :: _ =>
              rs <- erroneous_reasons vs all' ls ;;
              Err (mkErr [ErrErroneousLenses] (erroneous_text rs))
          | [] => Ok (build_lensmap ls)
          end
      end
  end.

(** [bind.go:188-215] [checkLensesOrder]; the result is [ml.lensmap]. *)
Definition checkLensesOrder (cfg : bindConfig) (uni : V) (vs : list version) : outcome lensmap :=
  match implenses cfg with
  | _ :: _ => checkGoLensCompleteness vs (implenses cfg)
  | [] =>
      match ev_lenses ev uni with
      | None => Ok []
      | Some ls => _ <- check_cue_lenses None ls ;; Ok []
      end
  end.

(** *** BindLineage *)

(** [lineage.go:66-112]: the values [raw] and [uni]. [lindef] is #Lineage, [e]
    the candidate. *)
Definition raw_uni (lindef : V) (e : cexpr V) : outcome (V * V) :=
  let orig := cval e in
  vlist <- AppendSplit (ev_subsumes_raw ev) e AndOp ;;
  if Nat.ltb 1 (length vlist) then
    let others := filter (fun v => negb (String.eqb (ev_refpath ev v) "#Lineage")) vlist in
    if Nat.eqb (length others) (length vlist) then
      Ok (orig, ev_unify ev lindef orig)
    else
      raw <- match others with
             | [_] => Ok orig
             | a :: b :: r => Ok (fold_left (ev_unify ev) r (ev_unify ev a b))
             | [] => Panic
             end ;;
      if Nat.eqb (length others) (length vlist - 1) then Ok (raw, orig)
      else Ok (raw, ev_unify ev lindef raw)
  else Ok (orig, ev_unify ev lindef orig).

(** [lineage.go:22-44] [baseLineage]. [l_id] is the identity of the pointer.
    [l_lenses] is the list at [uni.lenses], as [#Translate] sees it. *)
Record lineage := mkLin {
  l_id : N;
  l_name : string;
  l_raw : V;
  l_uni : V;
  l_sch : list schema_def;
  l_allv : list version;
  l_lenses : list cue_lens;
  l_lensmap : lensmap
}.

(** [lineage.go:53-153] [BindLineage], without the locking (see [Runtime.v]).
    [id] is the identity of the allocated lineage. *)
Definition BindLineage (id : N) (forceVerify : bool) (lindef : V) (e : cexpr V)
    (opts : list bindOption) : outcome lineage :=
  let cfg := make_cfg forceVerify opts in
  ru <- raw_uni lindef e ;;
  let '(raw, uni) := ru in
  _ <- checkExists raw ;;
  _ <- checkLineageShape raw uni ;;
  _ <- checkNativeValidity raw uni ;;
  schlist <- checkGoValidity cfg uni ;;
  let allv := map sd_v schlist in
  lm <- checkLensesOrder cfg uni allv ;;
  Ok (mkLin id (ev_name ev (cval e)) raw uni schlist allv
        (match ev_lenses ev uni with Some ls => ls | None => [] end) lm).

(** *** Lineage and schema methods *)

(** A [*schemaDef]: the lineage it belongs to, its place in [allsch] (which is
    its identity) and its content. *)
Record schema := mkSchema { s_lin : lineage; s_idx : nat; s_sd : schema_def }.

Definition s_v (s : schema) : version := sd_v (s_sd s).

(** [lin.allsch[i]]. *)
Definition sch_at (l : lineage) (i : nat) : outcome schema :=
  sd <- index (l_sch l) i ;; Ok (mkSchema l i sd).

(** [lineage.go:205-211] [All]. *)
Definition all_schemas (l : lineage) : list schema :=
  map (fun p => mkSchema l (fst p) (snd p)) (combine (seq 0 (length (l_sch l))) (l_sch l)).

(** [lineage.go:192-194] [Latest] and [198-200] [First]. *)
Definition latest (l : lineage) : outcome schema :=
  if Nat.eqb (length (l_sch l)) 0 then Panic else sch_at l (length (l_sch l) - 1).
Definition first (l : lineage) : outcome schema := sch_at l 0.

(** [lineage.go:270-272] [schema]. *)
Definition schema_v (l : lineage) (v : version) : outcome schema :=
  i <- searchSynv (l_allv l) v ;; sch_at l i.

(** [lineage.go:256-264] [Schema]. *)
Definition lin_schema (l : lineage) (v : version) : outcome schema :=
  b <- synvExists (l_allv l) v ;;
  if negb b then Err (mkErr [ErrVersionNotExist] "") else schema_v l v.

(** [surface.go:101-107] [SchemaP]. *)
Definition schemaP (l : lineage) (v : version) : outcome schema :=
  match lin_schema l v with
  | Err _ => Panic
  | o => o
  end.

(** [surface.go:113-115] [LatestVersion]. *)
Definition latestVersion (l : lineage) : outcome version :=
  s <- latest l ;; Ok (s_v s).

(** [schema.go:111-117] [successor]: nil is [None]. *)
Definition successor (s : schema) : outcome (option schema) :=
  let allv := l_allv (s_lin s) in
  last <- indexZ allv (Z.of_nat (length allv) - 1) ;;
  if veqb last (s_v s) then Ok None
  else
    i <- searchSynv allv (s_v s) ;;
    succv <- index allv (i + 1) ;;
    n <- schema_v (s_lin s) succv ;;
    Ok (Some n).

(** [schema.go:128-134] [predecessor]: nil is [None]. *)
Definition predecessor (s : schema) : outcome (option schema) :=
  let allv := l_allv (s_lin s) in
  if veqb (s_v s) synv0 then Ok None
  else
    i <- searchSynv allv (s_v s) ;;
    predv <- indexZ allv (Z.of_nat i - 1) ;;
    n <- schema_v (s_lin s) predv ;;
    Ok (Some n).

Definition wrap64 (n : N) : N := (n mod 18446744073709551616)%N.

(** [schema.go:139-141] [LatestInMajor]. *)
Definition latestInMajor (s : schema) : outcome schema :=
  i <- searchSynv (l_allv (s_lin s)) (wrap64 (fst (s_v s) + 1), 0%N) ;;
  sch_at (s_lin s) i.

(** [surface.go:123-129] [LatestVersionInSequence]. *)
Definition latestVersionInSequence (l : lineage) (seqv : N) : outcome version :=
  s <- lin_schema l (seqv, 0%N) ;;
  n <- latestInMajor s ;;
  Ok (s_v n).

(** [instance.go:36-46] [Instance]. *)
Record instance := mkInst { i_raw : V; i_name : string; i_sch : schema; i_valid : bool }.

(** [schema.go:74-100] [Validate]. *)
Definition validate (s : schema) (data : V) : outcome instance :=
  let x := ev_unify ev (sd_def (s_sd s)) data in
  match ev_validate ev x with
  | Some e =>
      m <- mungeValidateErr (l_name (s_lin s)) (s_v s) e ;;
      Err (munged_err m)
  | None => Ok (mkInst data "" s true)
  end.

(** [lineage.go:242-251] [ValidateAny]: the loop; nil is [None]. *)
Fixpoint validateAny_loop (fuel : nat) (s : option schema) (data : V) : outcome (option instance) :=
  match s with
  | None => Ok None
  | Some sch =>
      match fuel with
      | O => OutOfFuel
      | S f =>
          match validate sch data with
          | Ok i => Ok (Some i)
          | Err _ => n <- successor sch ;; validateAny_loop f n data
          | Panic => Panic
          | OutOfFuel => OutOfFuel
          end
      end
  end.
Definition validateAny (fuel : nat) (l : lineage) (data : V) : outcome (option instance) :=
  s <- schema_v l synv0 ;; validateAny_loop fuel (Some s) data.

(** [internal/cuetil/equal.go:8-18] [Equal]: nil is [true]. *)
Definition cue_equal (a b : V) : bool := ev_subsumes_raw ev a b && ev_subsumes_raw ev b a.

(** [lineage.go:305-315]. *)
Fixpoint append_only_loop (olds news : list schema) : outcome unit :=
  match olds with
  | [] => Ok tt
  | o :: olds' =>
      match news with
      | [] => Panic
      | n :: news' =>
          if cue_equal (ev_sch ev (sd_ref (s_sd o))) (ev_sch ev (sd_ref (s_sd n)))
          then append_only_loop olds' news'
          else Err (new_err "schemas differ")
      end
  end.

(** [lineage.go:296-318] [IsAppendOnly]. *)
Definition isAppendOnly (old new : lineage) : outcome unit :=
  let olds := all_schemas old in
  let news := all_schemas new in
  if Nat.ltb (length news) (length olds) then Err (new_err "schemas can't be deleted once published")
  else append_only_loop olds news.

(** [schema.go:229-238] [schemaIs]: pointer equality. *)
Definition schemaIs (a b : schema) : bool :=
  N.eqb (l_id (s_lin a)) (l_id (s_lin b)) && Nat.eqb (s_idx a) (s_idx b).

End Lineage.
Arguments schema_def V : clear implicits.
Arguments cue_lens V : clear implicits.
Arguments schema_entry V : clear implicits.
Arguments evaluator V : clear implicits.
Arguments lineage V : clear implicits.
Arguments schema V : clear implicits.
Arguments instance V : clear implicits.
