(** [assignable.go]: is a schema assignable to a Go type? On the CUE fragment of
    CueFrag.v. *)
From Verif Require Import Prelude CueFrag.
Local Open Scope string_scope.
Local Open Scope list_scope.

(** Go types. [GInt lo hi] are the sized integers, [GBigInt] is [big.Int],
    [GNumber] is [big.Float]. The fields of a struct are known by their JSON
    names. Floats, channels, functions, complex numbers and embedded fields are
    left out. *)
Inductive gty :=
| GAny
| GString
| GBool
| GBytes
| GInt (lo hi : Z)
| GBigInt
| GNumber
| GStruct (fs : list (string * gty))
| GSlice (g : gty)
| GArray (n : nat) (g : gty)
| GMap (g : gty)
| GPtr (g : gty).

(** [*null | v], which [EncodeType] makes of pointers, slices and maps
    ([assignable.go:69-72,96-98]). *)
Definition null_or (v : val) : val :=
  match v with
  | VOr ds => VOr ((true, VAtom ANull) :: ds)
  | _ => VOr [(true, VAtom ANull); (false, v)]
  end.

(** [ctx.EncodeType], part of CUE: the value standing for a Go type. *)
Fixpoint encode (g : gty) : val :=
  match g with
  | GAny => VTop
  | GString => VType TString
  | GBool => VType TBool
  | GBytes => VType TBytes
  | GInt lo hi => VRange (Some lo) (Some hi)
  | GBigInt => VType TInt
  | GNumber => VType TNumber
  | GStruct fs => VStruct (map (fun f : string * gty => (fst f, false, encode (snd f))) fs) None
  | GSlice g => null_or (VList [] (Some (encode g)))
  | GArray n g => VList (repeat (encode g) n) None
  | GMap g => null_or (VStruct [] (Some (encode g)))
  | GPtr g => null_or (encode g)
  end.

(** Selectors of a path; [SAny] is [cue.AnyIndex]. *)
Inductive sel := SField (l : string) | SAny.
Definition path := list sel.

(** The messages of [assignable.go], without their path. *)
Inductive amsg :=
| MKind (sk gk : kinds)        (* :106 is kind %s in schema, but kind %s in Go type *)
| MStructDisj                  (* :125 contains disjunction over struct types *)
| MMulti (sk : kinds)          (* :134 allows multiple basic CUE types *)
| MAbsentGo                    (* :158 field present in schema, absent from Go type *)
| MAbsentSchema                (* :171 field present in Go type, absent from schema *)
| MComplexList                 (* :185 schema is a complex disjunction of list types *)
| MClosedList                  (* :195 list is closed in schema, Go type must be an array *)
| MOpenList                    (* :197 list is open in schema, Go type must be a slice *)
| MLen                         (* :205 incompatible list lengths *)
| MListTypes                   (* :231 schema is list with multiple types *)
| MAnyType                     (* :256 schema is list of multiple types *)
| MScalar.                     (* :273 schema type %v not subsumed by Go type %v *)

(** [assignable.go:286-297]. *)
Definition is_null_val (v : val) : bool :=
  match v with VAtom ANull => true | _ => false end.

Definition stripLeadNull (v : val) : val :=
  let '(isor, vals) := expr v in
  if isor then
    match find (fun x => negb (is_null_val x)) vals with
    | Some x => x
    | None => v
    end
  else v.

(** [Value.Len] and [IsConcrete] of it: the length of a closed list is a number,
    that of an open one a bound, and for anything else it is an error value, which
    counts as concrete. *)
Definition len_concrete (v : val) : bool :=
  match v with VList _ (Some _) => false | _ => true end.

(** [glen.Subsume(slen)], for the two of the same concreteness. An error value is
    subsumed by anything. *)
Definition len_subsumes (g s : val) : bool :=
  match g, s with
  | VList es None, VList es' None => Nat.eqb (List.length es) (List.length es')
  | VList es (Some _), VList es' (Some _) => Nat.leb (List.length es) (List.length es')
  | _, _ => true
  end.

(** [Value.List]: the fixed elements; none when it fails, as the error is dropped
    ([assignable.go:219,247]). *)
Definition list_elems (v : val) : list val :=
  match v with VList es _ => es | _ => [] end.

(** [lastval.Subsume(los, cue.Schema())] and the other way round. *)
Definition mutual (a b : val) : bool := subs_default a b && subs_default b a.

(** [assignable.go:224-240]: [Some (los, lastval)] after the loop over the further
    elements, [None] when two neighbours differ. *)
Fixpoint elems_loop (los lastval : val) (es : list val) : option (val * val) :=
  match es with
  | [] => Some (los, lastval)
  | e :: r => if mutual lastval e then elems_loop e e r else None
  end.

Section Check.
(** The recursive call of [check] ([assignable.go:89]). *)
Variable check : val -> val -> path -> outcome (list (path * amsg)).

(** [assignable.go:148-167]: the loop over the fields of the schema; returns what
    is left of the Go fields. *)
Fixpoint fields_loop (p : path) (ss : list (string * bool * val)) (gmap : list (string * val))
  : outcome (list (path * amsg) * list (string * val)) :=
  match ss with
  | [] => Ok ([], gmap)
  | f :: r =>
      let p' := p ++ [SField (flabel f)] in
      match find (fun x => String.eqb (flabel f) (fst x)) gmap with
      | None =>
          x <- fields_loop p r gmap ;;
          Ok ((p', MAbsentGo) :: fst x, snd x)
      | Some (_, gval) =>
          es <- check gval (fval f) p' ;;
          x <- fields_loop p r (filter (fun x => negb (String.eqb (flabel f) (fst x))) gmap) ;;
          Ok (es ++ fst x, snd x)
      end
  end.

(** [assignable.go:142-173], with [structToSlice] and [structToMap] (:306-347),
    which panic when [Fields] fails. The leftover Go fields are recorded under
    their bare label (:171), not under [p]. *)
Definition checkstruct (ogval osval : val) (p : path) : outcome (list (path * amsg)) :=
  match fields osval, fields ogval with
  | Some ss, Some gs =>
      x <- fields_loop p ss (map (fun f => (flabel f, fval f)) gs) ;;
      Ok (fst x ++ map (fun lv : string * val => ([SField (fst lv)], MAbsentSchema)) (snd x))
  | _, _ => Panic
  end.

(** [assignable.go:193-264], after [sval] was replaced. [VBot] is the zero
    [cue.Value], and what a failed [LookupPath] returns. *)
Definition checklist_body (gval sval : val) (p : path) : outcome (list (path * amsg)) :=
  if negb (Bool.eqb (len_concrete gval) (len_concrete sval)) then
    Ok [(p, if len_concrete sval then MClosedList else MOpenList)]
  else if negb (len_subsumes gval sval) then Ok [(p, MLen)]
  else
    let es := list_elems sval in
    match (match es with [] => Some (VBot, VBot) | e :: r => elems_loop VBot e r end) with
    | None => Ok [(p, MListTypes)]
    | Some (los, lastval) =>
        if len_concrete gval then
          match list_elems gval with
          | [] => Ok []
          | log :: _ => check log los (p ++ [SAny])
          end
        else
          let los := match any_index sval with Some u => u | None => VBot end in
          if match es with [] => true | _ => mutual lastval los end then
            check (match any_index gval with Some u => u | None => VBot end) los (p ++ [SAny])
          else Ok [(p, MAnyType)]
    end.

(** [assignable.go:175-192]. *)
Definition checklist (gval sval : val) (p : path) : outcome (list (path * amsg)) :=
  if snd (default sval) then
    let evals := snd (expr sval) in
    if Nat.ltb 2 (List.length evals) then Ok [(p, MComplexList)]
    else match evals with
         | [] => Panic
         | e :: _ => checklist_body gval e p
         end
  else checklist_body gval sval p.

(** [assignable.go:266-275]. *)
Definition checkscalar (gval sval : val) (p : path) : outcome (list (path * amsg)) :=
  if subs_default gval sval then Ok [] else Ok [(p, MScalar)].

(** [cue.TopKind ^ cue.NullKind]. *)
Definition k_any : kinds := no_null k_top.

(** [sk&scalarKinds == sk] (:132). *)
Definition only_scalar (k : kinds) : bool := negb (k_list k) && negb (k_struct k).

Definition single_scalar (k : kinds) : bool :=
  existsb (k_eqb k) (map k_of_type [TFloat; TInt; TString; TBytes; TBool; TNumber]).

(** The body of [check], [assignable.go:89-140]. The case of [cue.NullKind] (:129)
    cannot be taken: null was removed from [sk]. *)
Definition check_body (ogval sval : val) (p : path) : outcome (list (path * amsg)) :=
  let sk := no_null (kind sval) in
  let gk := no_null (kind ogval) in
  let schemaHadNull := k_null (kind sval) in
  let gval := stripLeadNull ogval in
  if negb (k_eqb sk gk) && negb (k_eqb gk k_any) then Ok [(p, MKind sk gk)]
  else if k_eqb gk k_any then Ok []
  else if k_eqb sk k_of_list then checklist gval sval p
  else if single_scalar sk then checkscalar (if schemaHadNull then ogval else gval) sval p
  else if k_eqb sk k_of_struct then
    if fst (expr sval) then Ok [(p, MStructDisj)] else checkstruct gval sval p
  else if only_scalar sk then Ok [(p, MMulti sk)]
  else Panic.
End Check.

Fixpoint check (n : nat) (gval sval : val) (p : path) : outcome (list (path * amsg)) :=
  match n with
  | O => OutOfFuel
  | S n => check_body (check n) gval sval p
  end.

(** Writing to the map [errs], keyed by path: a later entry replaces an earlier
    one. *)
Definition sel_eqb (a b : sel) : bool :=
  match a, b with
  | SField x, SField y => String.eqb x y
  | SAny, SAny => true
  | _, _ => false
  end.

Fixpoint path_eqb (a b : path) : bool :=
  match a, b with
  | [], [] => true
  | x :: a', y :: b' => sel_eqb x y && path_eqb a' b'
  | _, _ => false
  end.

Definition put (m : list (path * amsg)) (e : path * amsg) : list (path * amsg) :=
  filter (fun x => negb (path_eqb (fst x) (fst e))) m ++ [e].

Definition errs_of (writes : list (path * amsg)) : list (path * amsg) := fold_left put writes [].

Fixpoint vsize (v : val) : nat :=
  match v with
  | VOr ds => S (list_sum (map (fun d : bool * val => vsize (snd d)) ds))
  | VList es r => S (list_sum (map vsize es) + match r with Some u => vsize u | None => 0 end)
  | VStruct fs r =>
      S (list_sum (map (fun f : string * bool * val => vsize (snd f)) fs)
         + match r with Some u => vsize u | None => 0 end)
  | _ => 1
  end.

(** The Go value handed to [AssignableTo]: a value of some type, a nil pointer to
    some type, or the nil interface. *)
Inductive gvalue := GV (g : gty) | GNilPtr (g : gty) | GNil.

(** What [assignable] returns. *)
Inductive aresult :=
| ANil
| APointerDepth                        (* ErrPointerDepth *)
| ANotStruct                           (* must provide struct-kinded type *)
| AErrs (m : list (path * amsg)).

(** [reflect.ValueOf(T).Elem()] of a pointer: the type pointed to, [None] for the
    invalid value. *)
Definition deref (T : gvalue) : option gty :=
  match T with
  | GV (GPtr g) => Some g
  | GV g => Some g
  | GNilPtr _ => None
  | GNil => None
  end.

(** [assignable.go:45-60] and :277-283. *)
Definition assignable (sch : val) (T : gvalue) : outcome aresult :=
  match deref T with
  | Some (GPtr _) => Ok APointerDepth
  | Some (GStruct fs) =>
      w <- check (S (vsize sch)) (encode (GStruct fs)) sch [] ;;
      Ok (match w with [] => ANil | _ => AErrs (errs_of w) end)
  | _ => Ok ANotStruct
  end.
