(** Turning CUE errors into validation errors. *)
From Verif Require Import Prelude Version Strings.
Local Open Scope string_scope.

(** A source position ([token.Pos]): file name and printed form. *)
Record pos := mkPos { p_file : string; p_str : string }.

(** An argument of a CUE error message: the dynamic types the code
    distinguishes by type assertion ([validate.go:128,155,184]). A [cue.Kind] is
    a bit set. *)
Inductive cue_arg := AStr (s : string) | AKind (k : N) | AOther.

(** One [errors.Error] of CUE as seen through [InputPositions], [Path] and
    [Msg]. *)
Record cue_err := mkCueErr {
  ce_pos : list pos;
  ce_path : list string;
  ce_msg : string;
  ce_vals : list cue_arg
}.

(** What [cue.Value.Validate] may return besides nil: a CUE error (a list, as
    flattened by [errors.Errors]), or a foreign error. *)
Inductive verr := VCue (es : list cue_err) | VOther (e : err).

(** [errors/errors.go:9-30]. *)
Inductive vcode := KindConflict | OutOfBounds | MissingField | ExcessField.

(** [validate.go:286-289] [coords]; the schema is represented by the lineage name
    and version that [coords.String] prints. *)
Record coords := mkCoords { c_lin : string; c_v : version; c_path : list string }.

(** [validate.go:291-293]. *)
Definition coords_string (c : coords) : string :=
  "<" ++ c_lin c ++ "@v" ++ vstring (c_v c) ++ ">." ++ join "." (c_path c).

(** [validate.go:15-20] [onesidederr] and [56-61] [twosidederr]. *)
Inductive ventry :=
| OneSided (schpos datapos : list pos) (code : vcode) (c : coords) (val : string)
| TwoSided (schpos datapos : list pos) (code : vcode) (c : coords) (sv dv : string).

Definition entry_code (e : ventry) : vcode :=
  match e with OneSided _ _ k _ _ => k | TwoSided _ _ k _ _ _ => k end.
Definition entry_coords (e : ventry) : coords :=
  match e with OneSided _ _ _ c _ => c | TwoSided _ _ _ c _ _ => c end.

(** [validate.go:253-273] [splitTokens]. *)
Definition splitTokens (l : list pos) : list pos * list pos :=
  (filter (fun p => has_suffix (p_file p) ".cue") l,
   filter (fun p => negb (has_suffix (p_file p) ".cue")) l).

(** Go [s[k:]]: panics when [k > len(s)]. *)
Definition slice_from {A} (l : list A) (k : nat) : outcome (list A) :=
  if Nat.ltb (length l) k then Panic else Ok (skipn k l).

(** [validate.go:275-284] [trimThemaPath]; [i] is the loop index. *)
Fixpoint trim_loop (i : nat) (rest parts : list string) : outcome (list string) :=
  match rest with
  | [] => slice_from parts 1
  | s :: r =>
      if String.eqb s "schemas" then slice_from parts (i + 3)
      else trim_loop (S i) r parts
  end.
Definition trimThemaPath (parts : list string) : outcome (list string) :=
  trim_loop 0 parts parts.

(** [validate.go:217-236]. *)
Definition schErrMsgFormatMap : list (string * string) :=
  [ ("int & >=0 & <=255", "uint8");
    ("int & >=0 & <=65535", "uint16");
    ("int & >=0 & <=4294967295", "uint32");
    ("int & >=0 & <=18446744073709551615", "uint64");
    (">=0 & <=255 & int", "uint8");
    (">=0 & <=65535 & int", "uint16");
    (">=0 & <=4294967295 & int", "uint32");
    (">=0 & <=18446744073709551615 & int", "uint64");
    ("int & >=-128 & <=127", "int8");
    (">=-128 & <=127 & int", "int8");
    ("int & >=-32768 & <=32767", "int16");
    (">=-32768 & <=32767 & int", "int16");
    ("int & >=-2147483648 & <=2147483647", "int32");
    (">=-2147483648 & <=2147483647 & int", "int32");
    ("int & >=-9223372036854775808 & <=9223372036854775807", "int64");
    (">=-9223372036854775808 & <=9223372036854775807 & int", "int64");
    (">=-340282346638528859811704183484516925440 & <=340282346638528859811704183484516925440", "float32");
    (">=-1.797693134862315708145274237317043567981E+308 & <=1.797693134862315708145274237317043567981E+308", "float64") ].

Fixpoint lookup_str {A} (k : string) (m : list (string * A)) : option A :=
  match m with
  | [] => None
  | (k', v) :: r => if String.eqb k k' then Some v else lookup_str k r
  end.

(** Loop body of [validate.go:242-248]. *)
Definition readable_part (part : string) : string :=
  match lookup_str part schErrMsgFormatMap with
  | Some m => m
  | None => part
  end.

(** [validate.go:238-251] [humanReadableCUEType]. *)
Definition humanReadableCUEType (value : string) : string :=
  join " | " (map readable_part (split_str value " | ")).

(** [validate.go:154] and [181]: the data value comes first in the message. *)
Definition data_first (ps : list pos) : bool :=
  match ps with
  | p :: _ :: _ => negb (has_suffix (p_file p) ".cue")
  | _ => false
  end.

(** [cue.Kind.IsAnyOf]. *)
Definition is_any_of (a b : N) : bool := negb (N.eqb (N.land a b) 0).

(** [validate.go:117-213]: the entry produced for one CUE error, [None] when
    the error is skipped (every [break] out of the switch). *)
Definition munge_one (name : string) (v : version) (ee : cue_err) : outcome (option ventry) :=
  let ps := ce_pos ee in
  let '(schpos, datapos) := splitTokens ps in
  path <- trimThemaPath (ce_path ee) ;;
  let x := mkCoords name v path in
  Ok match ce_vals ee with
     | [a] =>
         match a with
         | AStr val =>
             if contains (ce_msg ee) "incomplete" then
               Some (OneSided schpos datapos MissingField x (humanReadableCUEType val))
             else if contains (ce_msg ee) "not allowed" then
               Some (OneSided schpos datapos ExcessField x (humanReadableCUEType val))
             else None
         | _ => None
         end
     | [a; b] =>
         let '(s, d) := if data_first ps then (b, a) else (a, b) in
         match s, d with
         | AStr schval, AStr dataval =>
             Some (TwoSided schpos datapos OutOfBounds x (humanReadableCUEType schval) dataval)
         | _, _ => None
         end
     | [a; b; c; e] =>
         let '(s, d, sk, dk) := if data_first ps then (b, a, e, c) else (a, b, c, e) in
         match s, d, sk, dk with
         | AStr schval, AStr dataval, AKind schkind, AKind datakind =>
             let code := if is_any_of datakind schkind then OutOfBounds else KindConflict in
             Some (TwoSided schpos datapos code x (humanReadableCUEType schval) dataval)
         | _, _, _, _ => None
         end
     | _ => None
     end.

Fixpoint munge_all (name : string) (v : version) (es : list cue_err) : outcome (list ventry) :=
  match es with
  | [] => Ok []
  | e :: r =>
      o <- munge_one name v e ;;
      rest <- munge_all name v r ;;
      Ok match o with Some x => x :: rest | None => rest end
  end.

(** Printed positions, each on its own line ([validate.go:29,34,67,72]). *)
Definition nl : string := String (ascii_of_nat 10) "".
Definition tab : string := String (ascii_of_nat 9) "".
Definition pos_lines (ps : list pos) : string :=
  fold_right (fun p acc => nl ++ tab ++ tab ++ p_str p ++ acc) "" ps.

(** [validate.go:22-50] and [63-76] [Error]. *)
Definition entry_text (e : ventry) : string :=
  match e with
  | OneSided schpos datapos code c val =>
      coords_string c ++ ": validation failed, data is not an instance:" ++
      match code with
      | MissingField =>
          nl ++ tab ++ "schema specifies that field exists with type `" ++ val ++ "`" ++
          pos_lines schpos ++ nl ++ tab ++ "but field was absent from data" ++ pos_lines datapos
      | ExcessField =>
          nl ++ tab ++ "schema is closed and does not specify field" ++ pos_lines schpos ++
          nl ++ tab ++ "but field exists in data with value `" ++ val ++ "`" ++ pos_lines datapos
      | _ => ""
      end
  | TwoSided schpos datapos _ c sv dv =>
      coords_string c ++ ": validation failed, data is not an instance:" ++
      nl ++ tab ++ "schema expected `" ++ sv ++ "`" ++ pos_lines schpos ++
      nl ++ tab ++ "but data contained `" ++ dv ++ "`" ++ pos_lines datapos
  end.

(** [validate.go:99-107] [validationFailure.Error]. *)
Definition failure_text (es : list ventry) : string :=
  fold_right (fun e acc => entry_text e ++ nl ++ acc) "" es.

(** The value returned by [mungeValidateErr]: a [validationFailure] (a slice,
    wrapped in a non-nil interface even when the slice is nil), or the foreign
    error unchanged. *)
Inductive munged := MFailure (es : list ventry) | MForeign (e : err).

(** [validate.go:110-215] [mungeValidateErr]. *)
Definition mungeValidateErr (name : string) (v : version) (x : verr) : outcome munged :=
  match x with
  | VOther e => Ok (MForeign e)
  | VCue es => l <- munge_all name v es ;; Ok (MFailure l)
  end.

(** The [error] seen by callers; [validationFailure.Unwrap] is
    [ErrInvalidData] ([validate.go:95-97]). *)
Definition munged_err (m : munged) : err :=
  match m with
  | MFailure es => mkErr [ErrInvalidData] (failure_text es)
  | MForeign e => e
  end.
