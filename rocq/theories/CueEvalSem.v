(** What it means for data to be kept: specification only. *)
From Verif Require Import Prelude CueFrag CueSem.
Local Open Scope string_scope.
Local Open Scope list_scope.

(** [extends d x]: [x] has everything [d] has, with the same values; it may have
    further fields, at any depth. Lists have the same length. *)
Inductive extends : data -> data -> Prop :=
| ext_atom : forall a, extends (DAtom a) (DAtom a)
| ext_list : forall l m, Forall2 extends l m -> extends (DList l) (DList m)
| ext_struct : forall l m,
    (forall k x, In (k, x) l -> exists y, In (k, y) m /\ extends x y) ->
    extends (DStruct l) (DStruct m).

(** Is a struct. *)
Definition is_struct (v : val) : bool := match v with VStruct _ _ => true | _ => false end.
