(** What the authoring guide says about changes to a schema: specification only,
    nothing here is code of /repo. [docs/authoring.md:74-200] and
    [testdata/invalidlineage/compat/] name the kinds of change and say whether they
    are backward compatible. Both relations lead from the old schema to the new
    one. *)
From Verif Require Import Prelude CueFrag CueSem.
Local Open Scope string_scope.
Local Open Scope list_scope.

Definition lo_wider (lo lo' : option Z) : Prop :=
  lo' = None \/ exists x y, lo = Some x /\ lo' = Some y /\ (y <= x)%Z.
Definition hi_wider (hi hi' : option Z) : Prop :=
  hi' = None \/ exists x y, hi = Some x /\ hi' = Some y /\ (x <= y)%Z.

(** Compatible changes: nothing changes; a constant becomes its type; a type or a
    range becomes a wider one; a value becomes one alternative among others, or
    alternatives are added ([testdata/invalidlineage/compat/union-reduction.txtar]
    read backwards); the elements of a list widen; in a closed struct, optional
    fields are added ([add-optional.txtar]), required fields become optional and
    the values of fields widen. *)
Inductive widens : val -> val -> Prop :=
| w_same v : wf v -> widens v v
| w_any v : widens v VTop
| w_const t a : type_has t a = true -> widens (VAtom a) (VType t)
| w_type t t' : (forall a, type_has t a = true -> type_has t' a = true) -> widens (VType t) (VType t')
| w_range lo hi lo' hi' : lo_wider lo lo' -> hi_wider hi hi' -> widens (VRange lo hi) (VRange lo' hi')
| w_int lo hi : widens (VRange lo hi) (VType TInt)
| w_alternative v m ds : wf v -> (forall ds', v <> VOr ds') -> In (m, v) ds -> widens v (VOr ds)
| w_alternatives ds more : wf (VOr ds) -> widens (VOr ds) (VOr (ds ++ more))
| w_elements u u' : widens u u' -> widens (VList [] (Some u)) (VList [] (Some u'))
| w_struct fs fs' : NoDup (map flabel fs') -> fields_widen fs fs' ->
    widens (VStruct fs None) (VStruct fs' None)
with fields_widen : list (string * bool * val) -> list (string * bool * val) -> Prop :=
| fw_nil : fields_widen [] []
| fw_field l o o' v v' fs fs' : (o = true -> o' = true) -> widens v v' -> fields_widen fs fs' ->
    fields_widen ((l, o, v) :: fs) ((l, o', v') :: fs')
| fw_added l v fs fs' : fields_widen fs fs' -> fields_widen fs ((l, true, v) :: fs').

Definition has_field (l : string) (fs : list (string * bool * val)) : Prop :=
  exists o v, In (l, o, v) fs.

(** Breaking changes, whatever else changes: some data is no longer admitted (a
    union loses an alternative, a range shrinks); a required field is added
    ([add-required.txtar]); an optional field becomes required
    ([optional-to-required.txtar]); a field is removed ([remove-optional.txtar],
    [remove-required.txtar]); a default is replaced ([change-default.txtar]); and
    any of these inside a field or in the elements of a list. *)
Inductive breaks : val -> val -> Prop :=
| b_data v v' d : inst v d = true -> inst v' d = false -> breaks v v'
| b_added l v fs rest fs' rest' : ~ has_field l fs -> In (l, false, v) fs' ->
    breaks (VStruct fs rest) (VStruct fs' rest')
| b_required l v v' fs rest fs' rest' : NoDup (map flabel fs) -> In (l, true, v) fs -> In (l, false, v') fs' ->
    breaks (VStruct fs rest) (VStruct fs' rest')
| b_removed l o v fs rest fs' : In (l, o, v) fs -> ~ has_field l fs' ->
    breaks (VStruct fs rest) (VStruct fs' None)
| b_default d ds ds' : In (true, VAtom d) ds -> (exists v, In (true, v) ds') ->
    (forall v, In (true, v) ds' -> inst v (DAtom d) = false) -> breaks (VOr ds) (VOr ds')
| b_field l o v o' v' fs rest fs' rest' : NoDup (map flabel fs) -> In (l, o, v) fs -> In (l, o', v') fs' ->
    breaks v v' -> breaks (VStruct fs rest) (VStruct fs' rest')
| b_elements u u' : breaks u u' -> breaks (VList [] (Some u)) (VList [] (Some u')).
