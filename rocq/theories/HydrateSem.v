(** What removing defaults means: specification only. *)
From Verif Require Import Prelude CueFrag CueSem.
Local Open Scope string_scope.
Local Open Scope list_scope.

(** The schema value has a default, and [d] is it: the two denote the same data,
    defaults inside the default counting. *)
Definition is_default (v : val) (d : data) : Prop :=
  exists m, default v = (m, true)
    /\ (forall x, inst (embed d) x = true -> inst m x = true)
    /\ (forall x, inst (strip m) x = true -> inst (embed d) x = true).

(** [trims s d d']: [d'] is [d] without some of the defaults of [s]. Nothing is
    added or changed, whatever is gone was the default of its field, and elements
    of lists stay where they are. *)
Inductive trims : val -> data -> data -> Prop :=
| trims_same : forall s d, trims s d d
| trims_struct : forall fs rest df df',
    (forall k d', lookup k df' = Some d' ->
       exists d, lookup k df = Some d
         /\ (d' = d \/ exists f, field_of k fs = Some f /\ trims (fval f) d d')) ->
    (forall k d, lookup k df = Some d -> lookup k df' = None ->
       exists f, field_of k fs = Some f /\ is_default (fval f) d) ->
    trims (VStruct fs rest) (DStruct df) (DStruct df')
| trims_list : forall es u l l',
    Forall2 (fun d d' => d' = d \/ exists b, (b = u \/ In b (snd (expr u))) /\ trims b d d') l l' ->
    trims (VList es (Some u)) (DList l) (DList l').

(** The type of the further elements of an open list is not an error. *)
Fixpoint live (v : val) : bool :=
  match v with
  | VOr ds => forallb (fun d : bool * val => live (snd d)) ds
  | VList es r =>
      forallb live es && match r with Some u => negb (k_eqb (kind u) k_bottom) && live u | None => true end
  | VStruct fs rest =>
      forallb (fun f : string * bool * val => live (snd f)) fs
      && match rest with Some u => live u | None => true end
  | _ => true
  end.

(** Open lists have no elements of their own: [[...T]] rather than
    [[A, ...T]]. *)
Fixpoint plain_lists (v : val) : bool :=
  match v with
  | VOr ds => forallb (fun d : bool * val => plain_lists (snd d)) ds
  | VList es (Some u) => match es with [] => plain_lists u | _ => false end
  | VList es None => forallb plain_lists es
  | VStruct fs rest =>
      forallb (fun f : string * bool * val => plain_lists (snd f)) fs
      && match rest with Some u => plain_lists u | None => true end
  | _ => true
  end.

(** Data with distinct labels, as structs have. *)
Fixpoint dwf (d : data) : Prop :=
  match d with
  | DAtom _ => True
  | DList l => (fix go (l : list data) : Prop := match l with [] => True | x :: t => dwf x /\ go t end) l
  | DStruct l =>
      NoDup (map fst l)
      /\ (fix go (l : list (string * data)) : Prop :=
            match l with [] => True | kx :: t => dwf (snd kx) /\ go t end) l
  end.

Definition no_label (k : string) (df : list (string * data)) : Prop := ~ In k (map fst df).

(** Values that keep data as it is: scalars, disjunctions of scalars, and [_]. *)
Definition shallow (v : val) : bool :=
  match v with
  | VTop => true
  | VOr ds => forallb (fun d : bool * val => scalar_val (snd d)) ds
  | _ => scalar_val v
  end.

Definition opt_shallow (o : option val) : bool := match o with Some u => shallow u | None => true end.

(** The struct schemas that [doHydrate] completes. It swaps its arguments at each
    level, so the conditions alternate: a struct at an odd level ([here]) may have
    only scalars under its pattern, and an open list there has no elements of its
    own; at an even level optional fields, patterns and lists are free. *)
Fixpoint hydrates (here : bool) (v : val) : bool :=
  match v with
  | VStruct fs rest =>
      if here then forallb (fun f : string * bool * val => hydrates false (snd f)) fs && opt_shallow rest
      else forallb (fun f : string * bool * val => snd (fst f) || hydrates true (snd f)) fs
  | VList es (Some u) =>
      if here then match es with [] => negb (k_eqb (kind u) k_bottom) && hydrates false u | _ => false end
      else true
  | _ => true
  end.

(** *** Exactly *)

(** Disjunctions have at most one default, and it is a scalar. *)
Definition at_most_one (ds : list (bool * val)) : bool :=
  match filter fst ds with
  | [] => true
  | [(_, VAtom _)] => true
  | _ => false
  end.
Fixpoint one_default (v : val) : bool :=
  match v with
  | VOr ds => at_most_one ds
  | VList _ (Some u) => one_default u
  | VStruct fs _ => forallb (fun f : string * bool * val => one_default (snd f)) fs
  | _ => true
  end.

(** Whether data is the default of a disjunction. *)
Definition the_default (ds : list (bool * val)) (d : data) : bool :=
  match filter fst ds, d with
  | [(_, VAtom a)], DAtom b => atom_eqb a b
  | _, _ => false
  end.

(** [trim v d]: [d] without the defaults of [v]; [None] if it is a default
    itself. Fields of the schema come first; elements of lists are not removed. *)
Fixpoint trim (v : val) (d : data) {struct v} : option data :=
  match v, d with
  | VOr ds, _ => if the_default ds d then None else Some d
  | VList _ (Some u), DList l =>
      Some (DList (map (fun x => match trim u x with Some y => y | None => x end) l))
  | VStruct fs _, DStruct df =>
      Some (DStruct
        (flat_map (fun f : string * bool * val =>
           match lookup (fst (fst f)) df with
           | Some x => match trim (snd f) x with Some y => [(fst (fst f), y)] | None => [] end
           | None => []
           end) fs
         ++ filter (fun kx => negb (existsb (String.eqb (fst kx)) (map flabel fs))) df))
  | _, _ => Some d
  end.
