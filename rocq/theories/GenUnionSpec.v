(** Unions in generated Go code: what they should become.

    A specification for GenFile.v, in terms of documents only: the declarations
    that are left should be those of the document in which every union was
    replaced by a schema that allows anything. *)
From Verif Require Import Prelude Strings Version Util GenName GenNameProofs GenType GenTypeSpec GenTypeProofs GenDeclProofs.
Local Open Scope string_scope.
Local Open Scope list_scope.

(** A schema with elements. *)
Definition is_union (s : schema) : bool := objectlike (s_base s) && union_of s.

(** A schema that allows anything, documented as the one it stands for. *)
Definition any_base (b : base) : base :=
  mkBase "" (b_format b) (b_desc b) (b_enum b) (b_required b) false
    (b_nullable b) (b_readonly b) (b_writeonly b) (b_deprecated b) (b_default b) (b_unique b)
    (b_exmin b) (b_exmax b) (b_allowempty b).
Definition any_of (b : base) : schema := Sch (any_base b) [] None None None None None.

(** The lists of elements that do not make a union are empty or do not matter. *)
Definition hollow (l : option (list sref)) : option (list sref) :=
  match l with Some _ => Some [] | None => None end.

Section Blur.
Variable env : string -> schema.

(** The schema with all unions replaced, and references to them. *)
Fixpoint blur (s : schema) : schema :=
  match s with
  | Sch b props items addl allOf anyOf oneOf =>
      if is_union s then any_of b
      else Sch b (map (fun p => (fst p, blur_ref (snd p))) props)
             (match items with Some r => Some (blur_ref r) | None => None end)
             (match addl with Some r => Some (blur_ref r) | None => None end) allOf (hollow anyOf) (hollow oneOf)
  end
with blur_ref (r : sref) : sref :=
  match r with
  | Ref q => if is_union (env q) then Inl (any_of (s_base (env q))) else Ref q
  | Inl s => Inl (blur s)
  end.

Definition blur_env (q : string) : schema := blur (env q).

(** Components that are unions are gone. *)
Definition stays (p : string * sref) : bool :=
  match snd p with Inl s => negb (is_union s) | Ref _ => true end.
Definition blur_doc (l : list (string * sref)) : list (string * sref) :=
  map (fun p => (fst p, blur_ref (snd p))) (filter stays l).

(** Whether there is a union in a schema, or a reference to one. *)
Fixpoint within (s : schema) : bool :=
  match s with
  | Sch b props items addl _ anyOf oneOf =>
      if objectlike b then
        nonempty (elements anyOf ++ elements oneOf)
        || existsb (fun p => within_ref (snd p)) props
        || match addl with Some r => within_ref r | None => false end
      else arraylike b && match items with Some r => within_ref r | None => false end
  end
with within_ref (r : sref) : bool :=
  match r with Ref q => is_union (env q) | Inl s => within s end.

(** An element that is not a union or an enum, and has no description. *)
Definition plain_element (r : sref) : Prop :=
  match r with Ref _ => True | Inl s => b_desc (s_base s) = "" /\ is_union s = false /\ enum_of r = false end.

(** Where a type is written: as the type of a field or a declaration, of the
    elements of a list, or of the values of a map. *)
Inductive spot := Field | Elem | Value.

(** The documents the claim holds for. A union has elements only. There is none
    in a map in a list, nor in a struct in a map. Inside additional properties
    ([inside]), objects have no properties that need declarations. *)
Fixpoint fits (inside : bool) (at_ : spot) (s : schema) : Prop :=
  match s with
  | Sch b props items addl _ anyOf oneOf =>
      if objectlike b then
        if nonempty (elements anyOf ++ elements oneOf) then
          props = [] /\ b_has b = false /\ addl = None /\
          forall r, In r (elements anyOf ++ elements oneOf) -> plain_element r
        else
          (inside = true -> forall p, In p props -> needs_ref (snd p) = false) /\
          (at_ = Value -> structlike s = true -> more_of s = false -> forall p, In p props -> within_ref (snd p) = false) /\
          (at_ = Elem -> structlike s = false -> match addl with Some r => within_ref r = false | None => True end) /\
          (fix go (l : list (string * sref)) : Prop :=
             match l with [] => True | p :: r => fits_ref inside Field (snd p) /\ go r end) props /\
          match addl with Some r => fits_ref true Value r | None => True end
      else if arraylike b then match items with Some r => fits_ref inside Elem r | None => True end
      else True
  end
with fits_ref (inside : bool) (at_ : spot) (r : sref) : Prop :=
  match r with Ref _ => True | Inl s => fits inside at_ s end.

Lemma fits_props inside l :
  (fix go (l : list (string * sref)) : Prop :=
     match l with [] => True | p :: r => fits_ref inside Field (snd p) /\ go r end) l
  <-> forall p, In p l -> fits_ref inside Field (snd p).
Proof.
  induction l as [|p l IH]; [split; [intros _ p []|exact (fun _ => I)]|]. rewrite IH. split.
  - intros [A B] q [<-|I]; auto.
  - intros H. split; [apply H; left; reflexivity|]. intros q I. apply H. right. exact I.
Qed.

(** A component is not only a reference to a union. *)
Definition fits_component (p : string * sref) : Prop :=
  match snd p with Ref q => is_union (env q) = false | Inl s => fits false Field s end.
End Blur.
