(** What data a CUE value admits: specification only, nothing here is code of
    /repo. [inst] is plain membership of complete data; [eval] is what
    [schema.Unify(data)] followed by [Validate(cue.Concrete(true))] makes of data,
    filling in what the schema fixes or defaults. *)
From Verif Require Import Prelude CueFrag.
Local Open Scope string_scope.
Local Open Scope list_scope.

Fixpoint inst (v : val) (d : data) {struct v} : bool :=
  match v with
  | VBot => false
  | VTop => true
  | VAtom a => match d with DAtom b => atom_eqb a b | _ => false end
  | VType t => match d with DAtom b => type_has t b | _ => false end
  | VRange lo hi => match d with DAtom (AInt z) => in_lo lo z && in_hi hi z | _ => false end
  | VOr ds => existsb (fun x : bool * val => inst (snd x) d) ds
  | VList es r =>
      match d with
      | DList l =>
          (fix go (es : list val) (l : list data) : bool :=
             match es, l with
             | [], _ => match r with Some u => forallb (inst u) l
                                | None => match l with [] => true | _ => false end end
             | _ :: _, [] => false
             | e :: t, x :: l' => inst e x && go t l'
             end) es l
      | _ => false
      end
  | VStruct fs rest =>
      match d with
      | DStruct df =>
          forallb (fun kx : string * data =>
            (fix look (fs : list (string * bool * val)) : bool :=
               match fs with
               | [] => match rest with Some u => inst u (snd kx) | None => false end
               | f :: t => if String.eqb (fst kx) (fst (fst f)) then inst (snd f) (snd kx) else look t
               end) fs) df
          && forallb (fun f : string * bool * val => snd (fst f) || has_label (fst (fst f)) df) fs
      | _ => false
      end
  end.

(** Data equality up to the order of fields. *)
Fixpoint deq (a b : data) {struct a} : bool :=
  match a, b with
  | DAtom x, DAtom y => atom_eqb x y
  | DList l, DList m =>
      (fix go (l m : list data) : bool :=
         match l, m with
         | [], [] => true
         | x :: l', y :: m' => deq x y && go l' m'
         | _, _ => false
         end) l m
  | DStruct l, DStruct m =>
      Nat.eqb (List.length l) (List.length m)
      && forallb (fun kx : string * data =>
           match lookup (fst kx) m with Some y => deq (snd kx) y | None => false end) l
  | _, _ => false
  end.

(** The outcome of evaluating a schema against data: a conflict, a value that is
    not concrete, or concrete data. *)
Inductive res := Bot | Inc | Con (d : data).

Definition not_bot (r : res) : bool := match r with Bot => false | _ => true end.

(** A disjunction: failed disjuncts go; the marked ones among the rest win if
    there are any; equal results count once; more than one result is ambiguous. *)
Definition same_as (r : res) (s : res) : bool :=
  match r, s with Con x, Con y => deq x y | _, _ => false end.

Definition pick (l : list (bool * res)) : res :=
  let l1 := filter (fun x => not_bot (snd x)) l in
  let l2 := if existsb fst l1 then filter fst l1 else l1 in
  match l2 with
  | [] => Bot
  | [x] => snd x
  | x :: r => if forallb (fun y => same_as (snd x) (snd y)) r then snd x else Inc
  end.

(** All parts of a struct or list: conflicts win over incompleteness. *)
Fixpoint all_con {A} (l : list (A * res)) : option (option (list (A * data))) :=
  match l with
  | [] => Some (Some [])
  | (a, r) :: t =>
      match r, all_con t with
      | Bot, _ | _, None => None
      | Inc, _ | _, Some None => Some None
      | Con d, Some (Some ds) => Some (Some ((a, d) :: ds))
      end
  end.

Definition of_struct (l : list (string * res)) : res :=
  match all_con l with
  | None => Bot
  | Some None => Inc
  | Some (Some ds) => Con (DStruct ds)
  end.

Definition of_list (l : list res) : res :=
  match all_con (map (fun r => (tt, r)) l) with
  | None => Bot
  | Some None => Inc
  | Some (Some ds) => Con (DList (map snd ds))
  end.

(** [eval v (Some d)]: schema [v] against data [d]; [eval v None]: the value of a
    regular field of schema [v] that the data does not mention. *)
Fixpoint eval (v : val) (o : option data) {struct v} : res :=
  match v with
  | VBot => Bot
  | VTop => match o with Some d => Con d | None => Inc end
  | VAtom a =>
      match o with
      | None => Con (DAtom a)
      | Some (DAtom b) => if atom_eqb a b then Con (DAtom b) else Bot
      | Some _ => Bot
      end
  | VType t =>
      match o with
      | None => Inc
      | Some (DAtom b) => if type_has t b then Con (DAtom b) else Bot
      | Some _ => Bot
      end
  | VRange lo hi =>
      match o with
      | None => Inc
      | Some (DAtom (AInt z)) => if in_lo lo z && in_hi hi z then Con (DAtom (AInt z)) else Bot
      | Some _ => Bot
      end
  | VOr ds => pick (map (fun x : bool * val => (fst x, eval (snd x) o)) ds)
  | VList es r =>
      match o with
      | None => of_list (map (fun e => eval e None) es)
      | Some (DList l) =>
          match (fix go (es : list val) (l : list data) : option (list res) :=
                   match es, l with
                   | [], _ => match r with
                              | Some u => Some (map (fun x => eval u (Some x)) l)
                              | None => match l with [] => Some [] | _ => None end
                              end
                   | _ :: _, [] => None
                   | e :: t, x :: l' =>
                       match go t l' with
                       | Some rs => Some (eval e (Some x) :: rs)
                       | None => None
                       end
                   end) es l with
          | Some rs => of_list rs
          | None => Bot
          end
      | Some _ => Bot
      end
  | VStruct fs rest =>
      match o with
      | None =>
          of_struct (flat_map (fun f : string * bool * val =>
            if snd (fst f) then [] else [(fst (fst f), eval (snd f) None)]) fs)
      | Some (DStruct df) =>
          of_struct
            (map (fun kx : string * data =>
               (fst kx,
                (fix look (fs : list (string * bool * val)) : res :=
                   match fs with
                   | [] => match rest with Some u => eval u (Some (snd kx)) | None => Bot end
                   | f :: t => if String.eqb (fst kx) (fst (fst f)) then eval (snd f) (Some (snd kx))
                               else look t
                   end) fs)) df
             ++ flat_map (fun f : string * bool * val =>
                  if snd (fst f) || has_label (fst (fst f)) df then []
                  else [(fst (fst f), eval (snd f) None)]) fs)
      | Some _ => Bot
      end
  end.

(** The data validates against the schema. *)
Definition valid (v : val) (d : data) : Prop := exists r, eval v (Some d) = Con r.

(** Disjunctions range over scalars only: no disjunct is a struct or a list. *)
Definition scalar_val (v : val) : bool :=
  match v with VAtom _ | VType _ | VRange _ _ | VBot => true | _ => false end.

Fixpoint simple (v : val) : bool :=
  match v with
  | VOr ds => forallb (fun d : bool * val => scalar_val (snd d)) ds
  | VList es r => forallb simple es && match r with Some u => simple u | None => true end
  | VStruct fs rest =>
      forallb (fun f : string * bool * val => simple (snd f)) fs
      && match rest with Some u => simple u | None => true end
  | _ => true
  end.

(** Every struct has distinct labels, as CUE structs do. *)
Fixpoint wf (v : val) : Prop :=
  match v with
  | VOr ds =>
      (fix go (l : list (bool * val)) : Prop :=
         match l with [] => True | d :: t => wf (snd d) /\ go t end) ds
  | VList es r =>
      (fix go (l : list val) : Prop :=
         match l with [] => True | e :: t => wf e /\ go t end) es
      /\ match r with Some u => wf u | None => True end
  | VStruct fs rest =>
      NoDup (map flabel fs)
      /\ (fix go (l : list (string * bool * val)) : Prop :=
            match l with [] => True | f :: t => wf (snd f) /\ go t end) fs
      /\ match rest with Some u => wf u | None => True end
  | _ => True
  end.

(** A regular field of this value needs no data. *)
Definition fillable (v : val) : bool := match eval v None with Con _ => true | _ => false end.

(** The new schema [s] still fills every field that the old one [p] fills and
    [s] requires. *)
Fixpoint keeps (s p : val) {struct s} : bool :=
  match s, p with
  | VList es r, VList es' r' =>
      (fix go (es es' : list val) : bool :=
         match es, es' with
         | [], _ =>
             match r with
             | Some u => forallb (keeps u) es' && match r' with Some w => keeps u w | None => true end
             | None => true
             end
         | _ :: _, [] => true
         | e :: t, e' :: t' => keeps e e' && go t t'
         end) es es'
  | VStruct fs rest, VStruct fs' rest' =>
      forallb (fun f : string * bool * val =>
        match field_of (fst (fst f)) fs' with
        | Some f' => (snd (fst f) || negb (fillable (fval f')) || fillable (snd f))
                     && keeps (snd f) (fval f')
        | None => match rest' with Some w => keeps (snd f) w | None => true end
        end) fs
      && forallb (fun f' =>
           match field_of (flabel f') fs, rest with
           | None, Some u => keeps u (fval f')
           | _, _ => true
           end) fs'
      && match rest, rest' with Some u, Some w => keeps u w | _, _ => true end
  | _, _ => true
  end.
