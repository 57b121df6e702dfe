(** Data in values of generated Go types: how [encoding/json] reads JSON into
    them and writes them, and the types as the passes of
    [encoding/gocode/decorators.go] leave them.

    The generated code has types only ([gen.go:121], [decorators.go:139-143]
    removes all functions), so reading and writing data with them is what
    [encoding/json] does for their kinds and tags. That package is not part of
    /repo; the model follows its documentation. *)
From Verif Require Import Prelude Strings Version Util GenName GenNameProofs GenType GenTypeSpec.
Require Import ZArith.
Local Open Scope string_scope.
Local Open Scope list_scope.

(** *** JSON *)

(** Simplified: numbers are integers. *)
Inductive json :=
| JNull
| JBool (b : bool)
| JNum (z : Z)
| JStr (s : string)
| JArr (l : list json)
| JObj (ms : list (string * json)).

(** *** Go values *)

(** [VNil] is the nil pointer, slice, map or interface. A struct value has the
    fields that [encoding/json] sees, under the names it knows them by. *)
Inductive gval :=
| VNil
| VBool (b : bool)
| VNum (z : Z)
| VStr (s : string)
| VPtr (v : gval)
| VSlice (l : list gval)
| VMap (l : list (string * gval))
| VStruct (fs : list (string * gval))
| VAny (j : json).

(** *** Numbers *)

(** The nearest number with [p] binary digits; ties to even. Simplified: no
    overflow, and a float is written in full (Go writes the shortest decimal that
    reads back as the same float). *)
Definition round_bits (p : Z) (z : Z) : Z :=
  let m := Z.abs z in
  if (m <=? 2 ^ p)%Z then z
  else
    let e := (Z.log2 m + 1 - p)%Z in
    let q := (m / 2 ^ e)%Z in
    let r := (m mod 2 ^ e)%Z in
    let h := (2 ^ (e - 1))%Z in
    let q' := if (h <? r)%Z || ((h =? r)%Z && Z.odd q) then (q + 1)%Z else q in
    (Z.sgn z * (q' * 2 ^ e))%Z.

(** *** Predeclared types *)

Inductive basic := BBool | BInt (lo hi : Z) | BFloat (p : Z) | BStr | BAny.

Definition signed (n : Z) : basic := BInt (- 2 ^ (n - 1)) (2 ^ (n - 1) - 1).
Definition unsigned (n : Z) : basic := BInt 0 (2 ^ n - 1).

(** [int] and [uint] have 64 bits. Declared types have capital letters, so they do
    not shadow these. *)
Definition basics : list (string * basic) :=
  [("bool", BBool); ("string", BStr); ("any", BAny);
   ("int", signed 64); ("int64", signed 64); ("int32", signed 32); ("int16", signed 16); ("int8", signed 8);
   ("uint", unsigned 64); ("uint64", unsigned 64); ("uint32", unsigned 32); ("uint16", unsigned 16);
   ("uint8", unsigned 8); ("float64", BFloat 53); ("float32", BFloat 24)].

(** What [any] holds after reading: numbers are [float64], and the members of
    objects are written in the order of their names. *)
Fixpoint any_json (j : json) : json :=
  match j with
  | JNum z => JNum (round_bits 53 z)
  | JArr l => JArr (map any_json l)
  | JObj ms => JObj (by_key (map (fun m => (fst m, any_json (snd m))) ms))
  | _ => j
  end.

Definition mismatch {A} : outcome A := Err (new_err "json: cannot unmarshal value").

(** [null] leaves values that cannot be nil alone. *)
Definition dec_basic (b : basic) (old : gval) (j : json) : outcome gval :=
  match b, j with
  | BAny, JNull => Ok VNil
  | BAny, _ => Ok (VAny (any_json j))
  | _, JNull => Ok old
  | BBool, JBool x => Ok (VBool x)
  | BStr, JStr s => Ok (VStr s)
  | BInt lo hi, JNum z => if (lo <=? z)%Z && (z <=? hi)%Z then Ok (VNum z) else mismatch
  | BFloat p, JNum z => Ok (VNum (round_bits p z))
  | _, _ => mismatch
  end.

Definition zero_basic (b : basic) : gval :=
  match b with
  | BBool => VBool false
  | BInt _ _ | BFloat _ => VNum 0
  | BStr => VStr ""
  | BAny => VNil
  end.

Definition enc_basic (v : gval) : outcome json :=
  match v with
  | VNil => Ok JNull
  | VBool b => Ok (JBool b)
  | VNum z => Ok (JNum z)
  | VStr s => Ok (JStr s)
  | VAny j => Ok j
  | _ => OutOfFuel
  end.

(** *** Fields *)

Definition comma : ascii := ",".

(** The part of a tag before the first comma, and the part after it. *)
Fixpoint cut_tag (s : string) : string * string :=
  match s with
  | EmptyString => ("", "")
  | String c r =>
      if Ascii.eqb c comma then ("", r) else let (a, b) := cut_tag r in (String c a, b)
  end.

(** [isValidTag]: characters other than letters and digits that names in tags may
    have. Simplified: ASCII. *)
Definition tag_char (c : ascii) : bool :=
  alnum c || existsb (Ascii.eqb c) (list_ascii_of_string "!#$%&()*+-./:;<=>?@[]^_{|}~ ").
Definition valid_tag (s : string) : bool := negb (String.eqb s "") && all tag_char s.

Definition exported (n : string) : bool := match n with String c _ => upperc c | EmptyString => false end.

(** Options are separated by commas. *)
Definition has_option (o opts : string) : bool := existsb (String.eqb o) (split_str opts ",").

(** What [encoding/json] makes of a field: nothing when it is not exported or its
    tag is [-]; the name and whether it has [omitempty]. Simplified: the option
    [string] is ignored, and embedded fields have no name here. *)
Definition json_field (f : fld * gty) : list (string * (bool * gty)) :=
  let (f, t) := f in
  if exported (f_name f) then
    match f_tag f with
    | None => [(f_name f, (false, t))]
    | Some g =>
        if String.eqb g "-" then []
        else let (n, o) := cut_tag g in
             [(if valid_tag n then n else f_name f, (has_option "omitempty" o, t))]
    end
  else [].

Definition count (n : string) (l : list (string * (bool * gty))) : nat :=
  length (filter (fun f => String.eqb (fst f) n) l).

(** Of fields with the same name none is seen. Simplified: a field with a tag does
    not win against one without. *)
Definition visible (fs : list (fld * gty)) : list (string * (bool * gty)) :=
  let l := flat_map json_field fs in filter (fun f => Nat.eqb (count (fst f) l) 1) l.

Definition lower_ascii (c : ascii) : ascii :=
  if upperc c then ascii_of_N (N_of_ascii c + 32) else c.
Fixpoint folded (s : string) : string :=
  match s with EmptyString => "" | String c r => String (lower_ascii c) (folded r) end.

(** The field for a member: the one with its name, else the first one whose name
    is equal up to case. *)
Definition field_for (vs : list (string * (bool * gty))) (k : string) : option (string * (bool * gty)) :=
  match find (fun f => String.eqb (fst f) k) vs with
  | Some f => Some f
  | None => find (fun f => String.eqb (folded (fst f)) (folded k)) vs
  end.

Definition is_empty (v : gval) : bool :=
  match v with
  | VNil | VBool false | VStr "" | VSlice [] | VMap [] => true
  | VNum z => Z.eqb z 0
  | _ => false
  end.

Definition is_byte (t : gty) : bool := match t with GId n => String.eqb n "byte" | _ => false end.

(** *** Reading and writing *)

(** A function on all elements, and on all elements one after the other. *)
Fixpoint each {A B} (f : A -> outcome B) (l : list A) : outcome (list B) :=
  match l with
  | [] => Ok []
  | x :: r => y <- f x ;; ys <- each f r ;; Ok (y :: ys)
  end.
Fixpoint steps {A B} (f : B -> A -> outcome B) (y : B) (l : list A) : outcome B :=
  match l with
  | [] => Ok y
  | x :: r => y <- f y x ;; steps f y r
  end.

Section Types.
(** The declared types. *)
Variable T : string -> option gty.

Fixpoint zero (n : nat) (t : gty) : gval :=
  match n with
  | O => VNil
  | S n =>
      match t with
      | GPtr _ | GSlice _ | GMap _ => VNil
      | GStruct fs _ _ => VStruct (map (fun f => (fst f, zero n (snd (snd f)))) (visible fs))
      | GId k | GAs k _ =>
          match lookup k basics with
          | Some b => zero_basic b
          | None => match T k with Some t => zero n t | None => VNil end
          end
      end
  end.

Definition old_field (vs : list (string * gval)) (k : string) : gval :=
  match lookup k vs with Some v => v | None => VNil end.

(** [json.Unmarshal] into a variable of type [t] that holds [old]. Simplified: the
    first mismatch is an error (Go reads the rest first), elements of slices are
    always read into zero values, and byte slices are not covered. [OutOfFuel]
    also stands for types that are not covered. *)
Fixpoint dec (n : nat) (t : gty) (old : gval) (j : json) {struct n} : outcome gval :=
  match n with
  | O => OutOfFuel
  | S n =>
      match t with
      | GId k | GAs k _ =>
          match lookup k basics with
          | Some b => dec_basic b old j
          | None => match T k with Some t => dec n t old j | None => OutOfFuel end
          end
      | GPtr t =>
          match j with
          | JNull => Ok VNil
          | _ => v <- dec n t (match old with VPtr v => v | _ => zero n t end) j ;; Ok (VPtr v)
          end
      | GSlice t =>
          match j with
          | JNull => Ok VNil
          | JArr l =>
              if is_byte t then OutOfFuel else
              vs <- each (dec n t (zero n t)) l ;;
              Ok (VSlice vs)
          | _ => if is_byte t then OutOfFuel else mismatch
          end
      | GMap t =>
          match j with
          | JNull => Ok VNil
          | JObj ms =>
              vs <- steps (fun vs m => v <- dec n t (zero n t) (snd m) ;; Ok (put (fst m) v vs))
                     (match old with VMap vs => vs | _ => [] end) ms ;;
              Ok (VMap vs)
          | _ => mismatch
          end
      | GStruct fs _ _ =>
          match j with
          | JNull => Ok old
          | JObj ms =>
              vs <- steps (fun vs m =>
                       match field_for (visible fs) (fst m) with
                       | None => Ok vs
                       | Some (k, (_, t)) => v <- dec n t (old_field vs k) (snd m) ;; Ok (put k v vs)
                       end) (match old with VStruct vs => vs | _ => [] end) ms ;;
              Ok (VStruct vs)
          | _ => mismatch
          end
      end
  end.

(** [json.Marshal] of a value of type [t]. *)
Fixpoint enc (n : nat) (t : gty) (v : gval) {struct n} : outcome json :=
  match n with
  | O => OutOfFuel
  | S n =>
      match t, v with
      | GId k, _ | GAs k _, _ =>
          match lookup k basics with
          | Some _ => enc_basic v
          | None => match T k with Some t => enc n t v | None => OutOfFuel end
          end
      | GPtr _, VNil | GSlice _, VNil | GMap _, VNil => Ok JNull
      | GPtr t, VPtr v => enc n t v
      | GSlice t, VSlice vs =>
          l <- each (enc n t) vs ;;
          Ok (JArr l)
      | GMap t, VMap vs =>
          l <- each (fun v => j <- enc n t (snd v) ;; Ok (fst v, j)) (by_key vs) ;;
          Ok (JObj l)
      | GStruct fs _ _, VStruct vs =>
          l <- each (fun f => let '(k, (_, t)) := f in j <- enc n t (old_field vs k) ;; Ok (k, j))
                 (filter (fun f => negb (fst (snd f) && is_empty (old_field vs (fst f)))) (visible fs)) ;;
          Ok (JObj l)
      | _, _ => OutOfFuel
      end
  end.

(** Data read into a new variable, and written again. *)
Definition through (n : nat) (t : gty) (j : json) : outcome json :=
  v <- dec n t (zero n t) j ;; enc n t v.
End Types.

(** *** The types after the passes *)

(** [decorators.go:14-39] on trees; GoJsonProofs.v compares it with the model of
    the pass in Gocode.v. *)
Definition unptr_field (all : bool) (t : gty) : gty :=
  match t with
  | GPtr u =>
      if all then u else match u with GSlice _ | GMap _ => u | _ => t end
  | _ => t
  end.
Fixpoint unptr (all : bool) (t : gty) : gty :=
  match t with
  | GId n => GId n
  | GAs n t => GAs n t
  | GPtr t => GPtr (unptr all t)
  | GSlice t => GSlice (unptr all t)
  | GMap t => GMap (unptr all t)
  | GStruct fs addl un =>
      GStruct (map (fun f => (fst f, unptr_field all (unptr all (snd f)))) fs) (option_map (unptr all) addl) un
  end.
