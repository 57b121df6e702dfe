(** A small concrete evaluator, used only to show that the hypotheses of the
    theorems can be met and as witness for refutations. Data are numbers
    (100 stands for a value that is not concrete), a schema is the finite list of
    the numbers it accepts, a lens is a finite table, a lineage is a record. It does not model CUE; see [CueFrag.v] for a CUE
    fragment. *)
From Verif Require Import Prelude Version ValidateErr Split Lineage.
Local Open Scope string_scope.
Local Open Scope list_scope.

Inductive tv :=
| TBot
| TDat (n : N)
| TSet (ns : list N)
| TRef (body : list N) (join_ : list N)
| TLens (tbl : list (N * N)) (lac : list N)
| TLinDef
| TLin (name : string) (ss : list ((option N * option N) * (list N * list N)))
       (ls : list ((option version * option version) * (list (N * N) * list N))).

Definition memN (n : N) (l : list N) : bool := existsb (N.eqb n) l.
Definition subset (a b : list N) : bool := forallb (fun x => memN x b) a.
Definition inter (a b : list N) : list N := filter (fun x => memN x b) a.

Definition t_unify (a b : tv) : tv :=
  match a, b with
  | TLinDef, TLin _ _ _ => b
  | TLin _ _ _, TLinDef => a
  | TSet ns, TDat n | TDat n, TSet ns => if memN n ns then TDat n else TBot
  | TSet x, TSet y => TSet (inter x y)
  | TDat x, TDat y => if N.eqb x y then a else TBot
  | _, _ => TBot
  end.

Definition t_subsumes (a b : tv) : bool :=
  match a, b with
  | TSet x, TSet y => subset y x
  | TSet x, TDat n => memN n x
  | TLin _ _ _, TLin _ _ _ => false
  | TDat x, TDat y => N.eqb x y
  | TLinDef, TLinDef => true
  | _, TBot => true
  | _, _ => false
  end.

Definition t_err : cue_err := mkCueErr [] ["#Lineage"; "f"] "conflicting values" [AStr "int"; AStr "x"].

Definition t_validate (a : tv) : option verr :=
  match a with
  | TDat n => if N.eqb n 100 then Some (VCue [t_err]) else None
  | _ => Some (VCue [t_err])
  end.

Fixpoint assocN (n : N) (l : list (N * N)) : option N :=
  match l with
  | [] => None
  | (a, b) :: r => if N.eqb n a then Some b else assocN n r
  end.

Definition toy : evaluator tv := {|
  ev_unify := t_unify;
  ev_embed := t_unify;
  ev_subsumes := t_subsumes;
  ev_subsumes_raw := t_subsumes;
  ev_validate := t_validate;
  ev_schdef := fun a => match a with TRef b j => TSet (inter b j) | _ => TBot end;
  ev_sch := fun a => match a with TRef b _ => TSet b | _ => TBot end;
  ev_exists := fun a => match a with TBot => false | _ => true end;
  ev_path := fun _ => "";
  ev_refpath := fun a => match a with TLinDef => "#Lineage" | _ => "" end;
  ev_field := fun a f => match a with TLin _ _ _ => FConcrete | _ => FAbsent end;
  ev_name := fun a => match a with TLin n _ _ => n | _ => "" end;
  ev_final := fun a => match a with TLin _ _ _ => true | _ => false end;
  ev_valid := fun a => match a with TLin _ _ _ => true | _ => false end;
  ev_schemas := fun a =>
    match a with
    | TLin _ ss _ =>
        Some (map (fun s => mkEntry (fst (fst s)) (snd (fst s)) (TRef (fst (snd s)) (snd (snd s)))) ss)
    | _ => None
    end;
  ev_lenses := fun a =>
    match a with
    | TLin _ _ ls =>
        Some (map (fun s => mkLens (fst (fst s)) (snd (fst s)) (TLens (fst (snd s)) (snd (snd s)))) ls)
    | _ => None
    end;
  ev_lens_result := fun l i =>
    match l, i with
    | TLens tbl _, TDat n => match assocN n tbl with Some m => TDat m | None => TBot end
    | _, _ => TBot
    end;
  ev_lacunas := fun l i => match l with TLens _ lac => lac | _ => [] end;
  ev_bottom := fun a => match a with TBot => true | _ => false end;
  ev_default := fun a => a;
  ev_json_ok := fun a => match a with TDat n => negb (N.eqb n 100) | _ => false end;
  ev_struct := fun a => match a with TDat _ => true | _ => false end
|}.

(** Shorthand: a lineage from a list of (major, minor, accepted data). *)
Definition tlin (ss : list (N * N * list N))
    (ls : list (version * version * list (N * N))) : tv :=
  TLin "toy"
    (map (fun s => ((Some (fst (fst s)), Some (snd (fst s))), (snd s, snd s))) ss)
    (map (fun s => ((Some (fst (fst s)), Some (snd (fst s))), (snd s, []))) ls).

(** Binding such a lineage. *)
Definition tbind (t : tv) (opts : list bindOption) : outcome (lineage tv) :=
  BindLineage toy 7 false TLinDef (Atom t) opts.
