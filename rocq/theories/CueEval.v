(** The evaluator of Lineage.v on the CUE fragment of CueFrag.v: schemas and data
    are values of the fragment. *)
From Verif Require Import Prelude Version ValidateErr Split Lineage CueFrag CueSem.
Local Open Scope string_scope.
Local Open Scope list_scope.

(** A lineage as the fragment sees it. A schema entry holds the value of its
    [_#schema] definition (closedness included) and of its [schema] field; the
    body of a lens is a function on values, as CUE expressions over [input] are. *)
Inductive cval :=
| CBot
| CV (v : val)
| CEntry (def body : val)
| CLens (f : val -> val) (lac : val -> list N)
| CLinDef
| CLin (name : string)
       (ss : list ((option N * option N) * (val * val)))
       (ls : list ((option version * option version) * ((val -> val) * (val -> list N)))).

(** Inside a struct that embeds it, a closed struct does not reject the fields of
    the other embedded values ([{prior.result, schdef._#schema}],
    translate.cue:56-72, 84-121). *)
Fixpoint opened (v : val) : val :=
  match v with
  | VOr ds => VOr (map (fun d : bool * val => (fst d, opened (snd d))) ds)
  | VList es r => VList (map opened es) (match r with Some u => Some (opened u) | None => None end)
  | VStruct fs rest =>
      VStruct (map (fun f : string * bool * val => (fst f, opened (snd f))) fs)
              (match rest with Some u => Some (opened u) | None => Some VTop end)
  | _ => v
  end.

Definition c_unify (a b : cval) : cval :=
  match a, b with
  | CLinDef, CLin _ _ _ => b
  | CLin _ _ _, CLinDef => a
  | CV x, CV y => CV (unify x y)
  | _, _ => CBot
  end.

Definition c_embed (a b : cval) : cval :=
  match a, b with
  | CV x, CV y => CV (unify (opened x) (opened y))
  | _, _ => CBot
  end.

Definition c_subsumes (a b : cval) : bool :=
  match a, b with
  | CV x, CV y => subs x y
  | CLinDef, CLinDef => true
  | _, CBot => true
  | _, _ => false
  end.

Section Eval.
(** The errors reported for a value that is not concrete data. *)
Variable errs : cval -> verr.

Definition c_validate (a : cval) : option verr :=
  match a with
  | CV v => match eval v None with Con _ => None | _ => Some (errs a) end
  | _ => Some (errs a)
  end.

(** [Validate(cue.Concrete(true))] and [json.Marshal] succeed on concrete data;
    [Err] reports conflicts, not incompleteness. *)
Definition cue_fragment : evaluator cval := {|
  ev_unify := c_unify;
  ev_embed := c_embed;
  ev_subsumes := c_subsumes;
  ev_subsumes_raw := c_subsumes;
  ev_validate := c_validate;
  ev_schdef := fun a => match a with CEntry d _ => CV d | _ => CBot end;
  ev_sch := fun a => match a with CEntry _ b => CV b | _ => CBot end;
  ev_exists := fun a => match a with CBot => false | _ => true end;
  ev_path := fun _ => "";
  ev_refpath := fun a => match a with CLinDef => "#Lineage" | _ => "" end;
  ev_field := fun a f => match a with CLin _ _ _ => FConcrete | _ => FAbsent end;
  ev_name := fun a => match a with CLin n _ _ => n | _ => "" end;
  ev_final := fun a => match a with CLin _ _ _ => true | _ => false end;
  ev_valid := fun a => match a with CLin _ _ _ => true | _ => false end;
  ev_schemas := fun a =>
    match a with
    | CLin _ ss _ =>
        Some (map (fun s => mkEntry (fst (fst s)) (snd (fst s)) (CEntry (fst (snd s)) (snd (snd s)))) ss)
    | _ => None
    end;
  ev_lenses := fun a =>
    match a with
    | CLin _ _ ls =>
        Some (map (fun s => mkLens (fst (fst s)) (snd (fst s)) (CLens (fst (snd s)) (snd (snd s)))) ls)
    | _ => None
    end;
  ev_lens_result := fun l i =>
    match l, i with CLens f _, CV v => CV (f v) | _, _ => CBot end;
  ev_lacunas := fun l i => match l, i with CLens _ g, CV v => g v | _, _ => [] end;
  ev_bottom := fun a =>
    match a with
    | CV v => match eval v None with Bot => true | _ => false end
    | CBot => true
    | _ => false
    end;
  ev_default := fun a => match a with CV v => CV (fst (default v)) | _ => a end;
  ev_json_ok := fun a =>
    match a with CV v => match eval v None with Con _ => true | _ => false end | _ => false end;
  ev_struct := fun a => match a with CV (VStruct _ _) => true | _ => false end
|}.

End Eval.
