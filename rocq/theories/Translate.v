(** Translating instances: [Instance.Translate] with CUE lenses ([#Translate])
    and with Go lenses ([translateGo]). *)
From Verif Require Import Prelude Version Search ValidateErr Native Split Lineage.
Local Open Scope string_scope.
Local Open Scope list_scope.

(** CUE builtin [list.Range(start, limit, -1)]: error ([None]) when [start] is
    smaller than [limit]. *)
Definition list_range_down (start limit : Z) : option (list Z) :=
  if (start <? limit)%Z then None
  else Some (map (fun k => (start - Z.of_nat k)%Z) (seq 0 (Z.to_nat (start - limit)))).

(** CUE builtin [list.Slice(l, i, j)]. *)
Definition list_slice {A} (l : list A) (i j : Z) : option (list A) :=
  if ((i <? 0) || (j <? i) || (Z.of_nat (length l) <? i) || (Z.of_nat (length l) <? j))%Z then None
  else Some (firstn (Z.to_nat (j - i)) (skipn (Z.to_nat i) l)).

(** CUE list index. *)
Definition list_at {A} (l : list A) (i : Z) : option A :=
  if (i <? 0)%Z then None else nth_error l (Z.to_nat i).

Section Translate.
Context {V : Type}.
Variable ev : evaluator V.

(** [surface.go:70-95]: what the Go function of a lens does when called with an
    instance and the target schema; nil instance is [None]. *)
Variable run_mapper : N -> instance V -> schema V -> outcome (option (instance V)).

(** *** CUE half *)

(** [lineage.cue:95-96] [_forwardLenses] and [_backwardLenses]. A lens whose
    versions are not concrete is in neither. *)
Definition lens_fwd (l : cue_lens V) : bool :=
  match cl_to l, cl_from l with Some t, Some f => (fst f <? fst t)%N | _, _ => false end.
Definition lens_bwd (l : cue_lens V) : bool :=
  match cl_to l, cl_from l with Some t, Some f => (fst t <=? fst f)%N | _, _ => false end.
Definition forwardLenses (l : lineage V) : list (cue_lens V) := filter lens_fwd (l_lenses l).
Definition backwardLenses (l : lineage V) : list (cue_lens V) := filter lens_bwd (l_lenses l).

(** [translate.cue:4-9] [#TranslatedInstance]. *)
Record tstep := mkStep { ts_from : version; ts_to : version; ts_result : V; ts_lacunas : list N }.

(** The fields of the closed [#Lacuna] ([lacuna.cue:17-48]). *)
Definition lacuna_fields : list string :=
  ["condition"; "sourceFields"; "targetFields"; "message"; "type"].

(** [translate.cue:75, 118]
    [[for lac in _lens.lacunas if lac.condition {lac.lacuna}]]: for each of the
    lacunas whose condition holds, its field [lacuna] is looked up, and no such field
    in a closed struct is an error that makes the step erroneous. *)
Definition step_lacunas (emitted : list N) : option (list N) :=
  match emitted with
  | [] => Some []
  | _ => if existsb (String.eqb "lacuna") lacuna_fields then Some emitted else None
  end.

(** [translate.cue:56-72, 98-116]: applying a lens, with the guards on its
    versions; the result and the schema are embedded in one struct. A CUE error
    is [None]. *)
Definition apply_lens (lens : cue_lens V) (prior : V) (from to : version) (schdef : V) : option tstep :=
  match cl_from lens, cl_to lens with
  | Some f, Some t =>
      if veqb f from && veqb t to then
        let r := ev_embed ev (ev_lens_result ev (cl_val lens) prior) schdef in
        if ev_bottom ev r then None
        else
          match step_lacunas (ev_lacunas ev (cl_val lens) prior) with
          | Some lac => Some (mkStep from to r lac)
          | None => None
          end
      else None
  | _, _ => None
  end.

(** [translate.cue:45-76]: one backward step to the schema at [pos]. *)
Definition back_step (l : lineage V) (prior : V) (from : version) (pos : Z) : option tstep :=
  match list_at (l_sch l) pos with
  | None => None
  | Some sd =>
      match flatidx (l_allv l) (sd_v sd) with
      | None => None
      | Some k =>
          match list_at (backwardLenses l) k with
          | None => None
          | Some lens => apply_lens lens prior from (sd_v sd) (sd_def sd)
          end
      end
  end.

(** [translate.cue:84-121]: one forward step to schema [sd]. *)
Definition fwd_step (l : lineage V) (prior : V) (from : version) (sd : schema_def V) : option tstep :=
  if (fst from =? fst (sd_v sd))%N then
    let r := ev_embed ev prior (sd_def sd) in
    if ev_bottom ev r then None else Some (mkStep from (sd_v sd) r [])
  else if (fst from <? fst (sd_v sd))%N then
    match list_at (forwardLenses l) (Z.of_N (fst (sd_v sd)) - 1) with
    | None => None
    | Some lens => apply_lens lens prior from (sd_v sd) (sd_def sd)
    end
  else None.

(** The [_accum] list without its first element. *)
Fixpoint run_steps {A} (step : V -> version -> A -> option tstep) (prior : V) (from : version)
    (xs : list A) : option (list tstep) :=
  match xs with
  | [] => Some []
  | x :: r =>
      match step prior from x with
      | None => None
      | Some t =>
          match run_steps step (ts_result t) (ts_to t) r with
          | None => None
          | Some ts => Some (t :: ts)
          end
      end
  end.

(** [translate.cue:26-131] [#Translate]: the field [out.steps]. *)
Definition cue_steps (l : lineage V) (inst : V) (from to : version) : option (list tstep) :=
  match cmpSV from to with
  | Some 1%Z =>
      match flatidx (l_allv l) from, flatidx (l_allv l) to with
      | Some hi, Some lo =>
          match list_range_down (hi - 1) (lo - 1) with
          | Some ps => run_steps (back_step l) inst from ps
          | None => None
          end
      | _, _ => None
      end
  | Some (-1)%Z =>
      match flatidx (l_allv l) from, flatidx (l_allv l) to with
      | Some lo, Some hi =>
          match list_slice (l_sch l) (lo + 1) (hi + 1) with
          | Some sds => run_steps (fwd_step l) inst from sds
          | None => None
          end
      | _, _ => None
      end
  | Some _ => Some []
  | None => None
  end.

(** [translate.cue:39-42]: [out.result.result]. *)
Definition cue_result (inst : V) (steps : list tstep) : V :=
  match steps with
  | [] => inst
  | s :: r => ts_result (last r s)
  end.

(** The fields of [out] ([translate.cue:36-43]). [Instance.Translate] looks up
    ["lacunas"] among them ([instance.go:232-233]); when the lookup fails the slice
    stays empty. *)
Definition out_fields : list string := ["steps"; "result"].
Definition out_lacunas (steps : list tstep) : list N :=
  if existsb (String.eqb "lacunas") out_fields then flat_map ts_lacunas steps else [].

(** [instance.go:214-253]: the CUE path of [Translate]. The call of
    [#Translate] fails, and [Translate] panics, when [inst] is not a struct. An
    error in a step makes [out] erroneous. *)
Definition translateCUE (i : instance V) (to : version) : outcome (instance V * list N) :=
  let l := s_lin (i_sch i) in
  match lin_schema l to with
  | Err _ => Panic
  | Panic => Panic
  | OutOfFuel => OutOfFuel
  | Ok newsch =>
      if negb (ev_struct ev (i_raw i)) then Panic else
      match cue_steps l (i_raw i) (s_v (i_sch i)) to with
      | None => Err (mkErr [ErrInvalidLens] "")
      | Some steps =>
          let raw := ev_default ev (cue_result (i_raw i) steps) in
          if negb (ev_json_ok ev raw) then
            Err (mkErr [ErrLensIncomplete] "lens produced a non-concrete result")
          else
            match validate ev newsch raw with
            | Ok r => Ok (r, out_lacunas steps)
            | Err e => Err (mark e ErrLensResultIsInvalidData)
            | Panic => Panic
            | OutOfFuel => OutOfFuel
            end
      end
  end.

(** *** Go half *)

(** [instance.go:105-113] the shared part of [AsSuccessor]; [tr] is
    [Translate]. A nil successor is dereferenced. *)
Definition asSuccessor_with (tr : instance V -> version -> outcome (instance V * list N))
    (i : instance V) : outcome (instance V * list N) :=
  if negb (i_valid i) then Panic else
  n <- successor (i_sch i) ;;
  match n with
  | None => Panic
  | Some nsch =>
      if (fst (s_v nsch) =? fst (s_v (i_sch i)))%N
      then Ok (mkInst (i_raw i) (i_name i) nsch (i_valid i), [])
      else tr i (s_v nsch)
  end.

(** [instance.go:267-302]: the loop of [translateGo]; [from], [lm] and [to] are
    fixed, [sch] and [ti] change. *)
Fixpoint go_loop (tr : instance V -> version -> outcome (instance V * list N))
    (lm : lensmap) (from to : version) (fuel : nat) (sch : schema V) (ti : instance V)
  : outcome (instance V * list N) :=
  if veqb (s_v sch) to then Ok (ti, []) else
  match fuel with
  | O => OutOfFuel
  | S f =>
      n <- (if vless to from then predecessor sch else successor sch) ;;
      match n with
      | None => Panic
      | Some nsch =>
          if vless to from || negb (fst (s_v sch) =? fst (s_v nsch))%N then
            let mlid := lid (s_v sch) (s_v nsch) in
            match lens_lookup lm mlid with
            | None => Panic
            | Some il =>
                match il_mapper il with
                | None => Panic
                | Some mp =>
                    match run_mapper mp ti nsch with
                    | Err e => Err (wrap ("error executing " ++ lid_string mlid ++ " migration: " ++ e_text e)%string e)
                    | Panic => Panic
                    | OutOfFuel => OutOfFuel
                    | Ok None => Err (new_err "lens returned a nil instance")
                    | Ok (Some rti) =>
                        if negb (i_valid rti) then Panic
                        else if negb (veqb (s_v (i_sch rti)) (s_v nsch)) then
                          Err (new_err ("lens returned an instance of the wrong schema version: expected "
                                        ++ vstring (s_v nsch) ++ ", got " ++ vstring (s_v (i_sch rti)))%string)
                        else go_loop tr lm from to f nsch rti
                    end
                end
            end
          else
            match asSuccessor_with tr ti with
            | Ok (rti, _) => go_loop tr lm from to f nsch rti
            | Err _ => Panic
            | Panic => Panic
            | OutOfFuel => OutOfFuel
            end
      end
  end.

(** [instance.go:207-254, 256-305] [Translate] and [translateGo]. [lacunas] nil
    is the empty list. *)
Fixpoint translate (fuel : nat) (i : instance V) (to : version) : outcome (instance V * list N) :=
  match fuel with
  | O => OutOfFuel
  | S f =>
      if negb (i_valid i) then Panic else
      match l_lensmap (s_lin (i_sch i)) with
      | [] => translateCUE i to
      | lm =>
          let from := s_v (i_sch i) in
          if veqb to from then Ok (i, [])
          else go_loop (translate f) lm from to f (i_sch i) i
      end
  end.

(** [instance.go:101-113] and [117-120]. *)
Definition asSuccessor (fuel : nat) (i : instance V) : outcome (instance V * list N) :=
  asSuccessor_with (translate fuel) i.
Definition asPredecessor (fuel : nat) (i : instance V) : outcome (instance V * list N) :=
  if negb (i_valid i) then Panic else
  p <- predecessor (i_sch i) ;;
  match p with
  | None => Panic
  | Some psch => translate fuel i (s_v psch)
  end.
End Translate.
