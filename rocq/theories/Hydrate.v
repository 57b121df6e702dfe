(** [hydrate.go] and [Instance.Hydrate], [Instance.Dehydrate] of
    [instance.go:59-97], on the CUE fragment of CueFrag.v. *)
From Verif Require Import Prelude CueFrag CueSem.
Local Open Scope string_scope.
Local Open Scope list_scope.

(** An error of the CUE API; its text is not modelled. *)
Definition cue_err : err := mkErr [] "".

(** [v.List()]: the elements of a list; [None] is an error. *)
Definition list_elems (v : val) : option (list val) :=
  match fst (default v) with
  | VList es _ => Some es
  | _ => None
  end.

(** [Validate(cue.Concrete(true)) == nil]. *)
Definition concrete (v : val) : bool :=
  match eval v None with Con _ => true | _ => false end.

(** [hydrate.go:248-261]. *)
Definition getBranch (sch data : val) : outcome val :=
  let '(op, defs) := expr sch in
  if op then
    match find (fun d => concrete (unify d data)) defs with
    | Some d => Ok d
    | None => Err (mkErr [] "no branch is found for list")
    end
  else Ok sch.

Definition list_kind (v : val) : bool := k_eqb (kind v) k_of_list.
Definition struct_kind (v : val) : bool := k_eqb (kind v) k_of_struct.

(** [hydrate.go:12-71]. The recursive calls take the data in the
    place of the schema and the schema in the place of the data ([33], [57]).
    The [data] returned along with an error is used by no caller and left out.
    [sch.Context().NewList] fails if one of the values is an error. *)
Fixpoint doHydrate (n : nat) (sch data : val) : outcome val :=
  match n with
  | O => OutOfFuel
  | S n =>
      if list_kind sch then
        match any_index sch with
        | Some ele =>
            if k_eqb (kind ele) k_bottom then Panic
            else
              match list_elems data with
              | None => Panic
              | Some es =>
                  l <- (fix each (es : list val) : outcome (list val) :=
                          match es with
                          | [] => Ok []
                          | e :: t =>
                              ref <- getBranch ele e ;;
                              match doHydrate n e ref with
                              | Ok r => l <- each t ;; Ok (r :: l)
                              | Err _ => each t
                              | Panic => Panic
                              | OutOfFuel => OutOfFuel
                              end
                          end) es ;;
                  if is_bot (mk_list l None) then Err cue_err else Ok (mk_list l None)
              end
        | None => Ok (unify data sch)
        end
      else if struct_kind sch then
        match fields sch with
        | None => Err cue_err
        | Some fs =>
            (fix each (fs : list (string * bool * val)) (data : val) : outcome val :=
               match fs with
               | [] => Ok data
               | f :: t =>
                   match lookup_field data (flabel f) with
                   | Some lv =>
                       match doHydrate n lv (fval f) with
                       | Ok res => each t (fill data (flabel f) res)
                       | Err _ => each t data
                       | Panic => Panic
                       | OutOfFuel => OutOfFuel
                       end
                   | None =>
                       if fopt f then each t data
                       else each t (fill data (flabel f) (fval f))
                   end
               end) fs data
        end
      else Ok (unify data sch)
  end.

(** [hydrate.go:86-113]. [Kind] of a list that is not closed is
    bottom, so that only closed lists meet the test of line 88. *)
Definition empty_list (v : val) : bool := match v with VList [] None => true | _ => false end.

Definition getDefault (v : val) : val * bool :=
  let '(d, ex) := default v in
  if ex && empty_list d then
    let '(op, vals) := expr v in
    (d, op && existsb empty_list vals)
  else (d, ex).

(** [hydrate.go:115-121]. *)
Definition isCueValueEqual (inputdef input : val) : bool :=
  let '(d, ex) := getDefault inputdef in
  ex && subs_default input d && subs_default d input.

(** The value of [CompileString("")]: [172]. *)
Definition empty_struct : val := VStruct [] (Some VTop).

(** [data.Fields()]: regular fields. *)
Definition reg_fields (v : val) : list (string * bool * val) :=
  match fields v with
  | Some fs => filter (fun f => negb (fopt f)) fs
  | None => []
  end.

Definition mem_str (l : string) (ls : list string) : bool := existsb (String.eqb l) ls.

(** [hydrate.go:169-246]. *)
Fixpoint doDehydrate (n : nat) (sch data : val) : outcome (val * bool) :=
  match n with
  | O => OutOfFuel
  | S n =>
      if struct_kind sch then
        let fs := match fields sch with Some fs => fs | None => [] end in
        rv <- (fix each (fs : list (string * bool * val)) (rv : val) : outcome val :=
                 match fs with
                 | [] => Ok rv
                 | f :: t =>
                     match lookup_field data (flabel f) with
                     | Some lv =>
                         match doDehydrate n (fval f) lv with
                         | Ok (re, isEqual) =>
                             if isEqual then each t rv else each t (fill rv (flabel f) re)
                         | Err _ => each t rv
                         | Panic => Panic
                         | OutOfFuel => OutOfFuel
                         end
                     | None => each t rv
                     end
                 end) fs empty_struct ;;
        Ok (fold_left (fun rv f =>
              if mem_str (flabel f) (map flabel fs) then rv else fill rv (flabel f) (fval f))
              (reg_fields data) rv, false)
      else if list_kind sch then
        if isCueValueEqual sch data then Ok (empty_struct, true)
        else
          match any_index sch with
          | Some ele =>
              if k_eqb (kind ele) k_bottom then Ok (empty_struct, true)
              else
                match list_elems data with
                | None => Ok (empty_struct, true)
                | Some es =>
                    l <- (fix each (es : list val) : outcome (list val) :=
                            match es with
                            | [] => Ok []
                            | e :: t =>
                                match getBranch ele e with
                                | Ok ref =>
                                    match doDehydrate n ref e with
                                    | Ok (re, isEqual) =>
                                        l <- each t ;; Ok ((if isEqual then e else re) :: l)
                                    | Err _ => l <- each t ;; Ok (e :: l)
                                    | Panic => Panic
                                    | OutOfFuel => OutOfFuel
                                    end
                                | _ => l <- each t ;; Ok (e :: l)
                                end
                            end) es ;;
                    if is_bot (mk_list l None) then Err cue_err else Ok (mk_list l None, false)
                end
          | None => Ok (data, false)
          end
      else Ok (data, isCueValueEqual sch data)
  end.

(** [schema.go:Underlying] of version [a.b] with body [body]: the value of the
    [#SchemaDef] ([lineage.cue:207-240]) itself, not of its field [schema]
    ([instance.go:63], [85]). [Fields] leaves hidden fields out, so [_join] and
    [_#schema] do not occur. *)
Definition schema_def (a b : Z) (body : val) : val :=
  VStruct [("version", false, VList [VAtom (AInt a); VAtom (AInt b)] None);
           ("schema", false, body);
           ("examples", true, VStruct [] (Some body))] None.

(** [instance.go:59-75]: the new [raw]. The instance itself is returned on
    errors. *)
Definition Hydrate (n : nat) (under raw : val) : outcome val :=
  match doHydrate n under raw with
  | Ok ni => Ok ni
  | Err _ => Ok raw
  | Panic => Panic
  | OutOfFuel => OutOfFuel
  end.

(** [instance.go:82-96]. *)
Definition Dehydrate (n : nat) (under raw : val) : outcome val :=
  match doDehydrate n under raw with
  | Ok (ni, _) => Ok ni
  | Err _ => Ok raw
  | Panic => Panic
  | OutOfFuel => OutOfFuel
  end.
