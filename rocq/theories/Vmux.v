(** The version multiplexers of package vmux. *)
From Verif Require Import Prelude Version Search ValidateErr Native Split Lineage Translate.
Local Open Scope string_scope.
Local Open Scope list_scope.

Section Vmux.
Context {V B T : Type}.
Variable ev : evaluator V.
(** Go lens functions, as in [Translate.v]. *)
Variable rm : N -> instance V -> schema V -> outcome (option (instance V)).
(** [Decoder.Decode] and [Encoder.Encode] of the codec passed by the caller. *)
Variable dec : B -> outcome V.
Variable enc : V -> outcome B.

(** [vmux/mux.go:16-18]: the loop over [Successor]. *)
Fixpoint allv_loop (fuel : nat) (s : option (schema V)) : outcome (list string) :=
  match s with
  | None => Ok []
  | Some sch =>
      match fuel with
      | O => OutOfFuel
      | S f => n <- successor sch ;; r <- allv_loop f n ;; Ok (vstring (s_v sch) :: r)
      end
  end.

(** [vmux/mux.go:14-20] [allvstr]. *)
Definition allvstr (fuel : nat) (l : lineage V) : outcome string :=
  s <- schemaP l (0, 0)%N ;;
  vl <- allv_loop fuel (Some s) ;;
  Ok (String.concat ", " vl).

(** [vmux/mux.go:22-24] [latest]. *)
Definition mux_latest (l : lineage V) : outcome (schema V) :=
  v <- latestVersion l ;; schemaP l v.

(** [vmux/untyped.go:45-53] and [vmux/typed.go:45-63]: the loop over
    [Predecessor]. The result is the instance of the first schema that validates
    the data. *)
Fixpoint mux_loop (fuel : nat) (sch : schema V) (isch : option (schema V)) (v : V)
  : outcome (option (instance V)) :=
  match isch with
  | None => Ok None
  | Some s =>
      match fuel with
      | O => OutOfFuel
      | S f =>
          let next := n <- predecessor s ;; mux_loop f sch n v in
          if veqb (s_v s) (s_v sch) then next
          else match validate ev s v with
               | Ok i => Ok (Some i)
               | Err _ => next
               | Panic => Panic
               | OutOfFuel => OutOfFuel
               end
      end
  end.

(** [vmux/untyped.go:55], [vmux/typed.go:65]. *)
Definition no_match_err (vs : string) (sch : schema V) (e : err) : err :=
  wrap ("data invalid against all versions (" ++ vs ++ "), error against "
        ++ vstring (s_v sch) ++ ": " ++ e_text e)%string e.

(** [vmux/untyped.go:28-56]: the function returned by [NewUntypedMux]; [vs] is
    the prepared string. *)
Definition untyped_fn (fuel : nat) (sch : schema V) (vs : string) (b : B)
  : outcome (instance V * list N) :=
  match dec b with
  | Err e => Err e
  | Panic => Panic
  | OutOfFuel => OutOfFuel
  | Ok v =>
      match validate ev sch v with
      | Ok i => Ok (i, [])
      | Panic => Panic
      | OutOfFuel => OutOfFuel
      | Err e =>
          s <- mux_latest (s_lin sch) ;;
          o <- mux_loop fuel sch (Some s) v ;;
          match o with
          | Some i => translate ev rm fuel i (s_v sch)
          | None => Err (no_match_err vs sch e)
          end
      end
  end.

(** [vmux/untyped.go:23-57] [NewUntypedMux]. *)
Definition newUntypedMux (fuel : nat) (sch : schema V)
  : outcome (B -> outcome (instance V * list N)) :=
  vs <- allvstr fuel (s_lin sch) ;; Ok (untyped_fn fuel sch vs).

(** [instance.go:145-148] [TypedInstance] and [schema.go:240-244]
    [unaryTypedSchema]: [newfn] and [cue.Value.Decode] into a [T] are given by
    [nt] and [dcd], which returns the value written to and the error. *)
Record tschema := mkTyped { ts_schema : schema V; ts_newfn : T; ts_decode : V -> T -> T * option err }.
Record tinstance := mkTInst { ti_inst : instance V; ti_tsch : tschema }.

(** [schema.go:254-264] [ValidateTyped]. *)
Definition validateTyped (ts : tschema) (v : V) : outcome tinstance :=
  i <- validate ev (ts_schema ts) v ;; Ok (mkTInst i ts).

(** [instance.go:19-30] [BindInstanceType]; [inst.Schema()] checks the instance. *)
Definition bindInstanceType (i : instance V) (ts : tschema) : outcome tinstance :=
  if negb (i_valid i) then Panic
  else if negb (schemaIs (ts_schema ts) (i_sch i)) then
    Err (new_err "typed schema is not derived from instance's schema")
  else Ok (mkTInst i ts).

(** [vmux/typed.go:28-66]. *)
Definition typed_fn (fuel : nat) (ts : tschema) (vs : string) (b : B)
  : outcome (tinstance * list N) :=
  let sch := ts_schema ts in
  match dec b with
  | Err e => Err e
  | Panic => Panic
  | OutOfFuel => OutOfFuel
  | Ok v =>
      match validateTyped ts v with
      | Ok i => Ok (i, [])
      | Panic => Panic
      | OutOfFuel => OutOfFuel
      | Err e =>
          s <- mux_latest (s_lin sch) ;;
          o <- mux_loop fuel sch (Some s) v ;;
          match o with
          | Some i =>
              r <- translate ev rm fuel i (s_v sch) ;;
              match bindInstanceType (fst r) ts with
              | Ok ti => Ok (ti, snd r)
              | Err _ => Panic
              | Panic => Panic
              | OutOfFuel => OutOfFuel
              end
          | None => Err (no_match_err vs sch e)
          end
      end
  end.

(** [vmux/typed.go:23-67] [NewTypedMux]. *)
Definition newTypedMux (fuel : nat) (ts : tschema)
  : outcome (B -> outcome (tinstance * list N)) :=
  vs <- allvstr fuel (s_lin (ts_schema ts)) ;; Ok (typed_fn fuel ts vs).

(** [vmux/byte.go:20-30] [NewByteMux]: the results are the bytes (nil is
    [None]), the lacunas and the error. *)
Definition newByteMux (fuel : nat) (sch : schema V)
  : outcome (B -> outcome (option B * list N * option err)) :=
  f <- newUntypedMux fuel sch ;;
  Ok (fun b =>
    match f b with
    | Err e => Ok (None, [], Some e)
    | Panic => Panic
    | OutOfFuel => OutOfFuel
    | Ok (ti, lac) =>
        if negb (i_valid ti) then Panic else
        match enc (i_raw ti) with
        | Ok ob => Ok (Some ob, lac, None)
        | Err e => Ok (None, lac, Some e)
        | Panic => Panic
        | OutOfFuel => OutOfFuel
        end
    end).

(** [instance.go:163-170] [Value]. *)
Definition tvalue (ti : tinstance) : outcome (T * option err) :=
  if negb (i_valid (ti_inst ti)) then Panic
  else Ok (ts_decode (ti_tsch ti) (i_raw (ti_inst ti)) (ts_newfn (ti_tsch ti))).

(** [vmux/value.go:21-31] [NewValueMux]. *)
Definition newValueMux (fuel : nat) (ts : tschema)
  : outcome (B -> outcome (T * list N * option err)) :=
  f <- newTypedMux fuel ts ;;
  Ok (fun b =>
    match f b with
    | Err e => Ok (ts_newfn ts, [], Some e)
    | Panic => Panic
    | OutOfFuel => OutOfFuel
    | Ok (ti, lac) => t <- tvalue ti ;; Ok (fst t, lac, snd t)
    end).
End Vmux.
Arguments tschema V T : clear implicits.
Arguments tinstance V T : clear implicits.
