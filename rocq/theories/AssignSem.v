(** The documented rules of Go assignability (docs/invariants.md, "Go
    Assignability") and what a Go type can hold. Specification only. *)
From Verif Require Import Prelude CueFrag CueSem Assign.
Local Open Scope string_scope.
Local Open Scope list_scope.

(** A variable of the type can hold the scalar. *)
Fixpoint holds (g : gty) (a : atom) : bool :=
  match g with
  | GAny => true
  | GString => match a with AString _ => true | _ => false end
  | GBool => match a with ABool _ => true | _ => false end
  | GBytes => match a with ABytes _ => true | _ => false end
  | GInt lo hi => match a with AInt z => (lo <=? z)%Z && (z <=? hi)%Z | _ => false end
  | GBigInt => match a with AInt _ => true | _ => false end
  | GNumber => match a with AInt _ | AFloat _ => true | _ => false end
  | GPtr g => match a with ANull => true | _ => holds g a end
  | GSlice _ | GMap _ => match a with ANull => true | _ => false end
  | GStruct _ | GArray _ _ => false
  end.

(** A variable of the type can hold the data. *)
Fixpoint rep (g : gty) (d : data) {struct g} : bool :=
  match d with
  | DAtom a => holds g a
  | DList l =>
      match g with
      | GAny => true
      | GPtr g => rep g d
      | GSlice g => forallb (rep g) l
      | GArray n g => Nat.eqb (List.length l) n && forallb (rep g) l
      | _ => false
      end
  | DStruct df =>
      match g with
      | GAny => true
      | GPtr g => rep g d
      | GMap g => forallb (fun kx : string * data => rep g (snd kx)) df
      | GStruct fs =>
          forallb (fun kx : string * data =>
            existsb (fun f : string * gty => String.eqb (fst kx) (fst f) && rep (snd f) (snd kx)) fs) df
      | _ => false
      end
  end.

(** A scalar type or value, or a disjunction of such. *)
Definition scalar_part (v : val) : bool :=
  match v with
  | VAtom _ | VType _ => true
  | VRange (Some lo) (Some hi) => (lo <=? hi)%Z
  | VRange _ _ => true
  | _ => false
  end.

Definition parts (s : val) : list val :=
  match s with VOr ds => map snd ds | _ => [s] end.

Definition scalar_sch (s : val) : bool :=
  forallb scalar_part (parts s) && match parts s with [] => false | _ => true end.

(** Neighbours in the list impose the same constraint: each subsumes the other. *)
Fixpoint same_type (l : list val) : Prop :=
  match l with
  | a :: ((b :: _) as t) => subs_default a b = true /\ subs_default b a = true /\ same_type t
  | _ => True
  end.

(** The rules. [nul]: the Go type stands behind a pointer, and so can be nil. *)
Fixpoint rules (nul : bool) (g : gty) (s : val) {struct g} : Prop :=
  match g with
  | GAny => True
  | GPtr g => rules true g s
  | GString | GBool | GBytes | GInt _ _ | GBigInt =>
      scalar_sch s = true
      /\ (exists a, a <> ANull /\ inst s (DAtom a) = true)
      /\ forall a, inst s (DAtom a) = true -> holds g a = true \/ (nul = true /\ a = ANull)
  | GStruct fs =>
      exists sfs rest, s = VStruct sfs rest
      /\ (forall l, In l (map fst fs) <-> In l (map flabel sfs))
      /\ (fix go (fs : list (string * gty)) : Prop :=
            match fs with
            | [] => True
            | f :: t => (forall o v, In (fst f, o, v) sfs -> rules false (snd f) v) /\ go t
            end) fs
  | GSlice g =>
      exists es u, s = VList es (Some u) /\ same_type (es ++ [u]) /\ rules false g u
  | GArray n g =>
      exists es, s = VList es None /\ List.length es = n /\ same_type es
      /\ (n = 0 \/ rules false g (last es VBot))
  | GMap _ | GNumber => False
  end.

(** The Go types the rules speak about: no maps (struct types only correspond to
    Go structs), no [big.Float] ([number] is not permitted). *)
Fixpoint doc_go (g : gty) : Prop :=
  match g with
  | GMap _ | GNumber => False
  | GInt lo hi => (lo <= hi)%Z
  | GPtr g | GSlice g | GArray _ g => doc_go g
  | GStruct fs =>
      NoDup (map fst fs)
      /\ (fix go (fs : list (string * gty)) : Prop :=
            match fs with [] => True | f :: t => doc_go (snd f) /\ go t end) fs
  | _ => True
  end.

Definition unmarked (ds : list (bool * val)) : bool := forallb (fun d => negb (fst d)) ds.

(** Schemas for which the code follows the rules: scalars without defaults, or with
    defaults but neither integers nor null; no closed list of exactly one element;
    disjunctions with a struct among them have no default and no list. *)
Inductive plain : val -> Prop :=
| PTop : plain VTop
| PScal : forall s, scalar_sch s = true ->
    (match s with VOr ds => unmarked ds = true \/ (k_int (kind s) = false /\ k_null (kind s) = false)
             | _ => True end) -> plain s
| PStruct : forall fs rest, NoDup (map flabel fs) -> Forall (fun f => plain (fval f)) fs ->
    plain (VStruct fs rest)
| PList : forall es r, Forall plain es -> (forall u, r = Some u -> plain u) ->
    (r = None -> List.length es <> 1) -> plain (VList es r)
| PUnion : forall ds, unmarked ds = true -> 2 <= List.length ds ->
    k_list (kind (VOr ds)) = false -> existsb (fun d => match snd d with VStruct _ _ => true | _ => false end) ds = true ->
    plain (VOr ds).

(** Schemas without the features that let values escape: closed structs, and lists
    with several constraints only over values without defaults or open lists. *)
Inductive tight : val -> Prop :=
| TTop : tight VTop
| TScal : forall s, scalar_sch s = true -> tight s
| TStruct : forall fs, Forall (fun f => tight (fval f)) fs -> tight (VStruct fs None)
| TList : forall es r, Forall tight es -> (forall u, r = Some u -> tight u) ->
    (es <> [] -> Forall (fun e => strip e = e) es /\ (forall u, r = Some u -> strip u = u)) ->
    tight (VList es r).
