(** Which fields a joinSchema and a schema together name: specification only. *)
From Verif Require Import Prelude CueFrag CueSem.
Local Open Scope string_scope.
Local Open Scope list_scope.

Definition is_top (v : val) : bool := match v with VTop => true | _ => false end.

(** The value names the field [k], or has a pattern for fields. *)
Definition names (k : string) (v : val) : bool :=
  match v with
  | VStruct fs rest =>
      existsb (fun f => String.eqb k (flabel f)) fs
      || match rest with Some u => negb (is_top u) | None => false end
  | _ => false
  end.

(** What the value says of the field [k]; top if nothing. *)
Definition at_field (k : string) (v : val) : val :=
  match v with
  | VStruct fs rest =>
      match field_of k fs, rest with
      | Some f, _ => fval f
      | None, Some u => u
      | None, None => VTop
      end
  | _ => VTop
  end.

(** What the value says of the element [i]. *)
Definition at_index (i : nat) (v : val) : val :=
  match v with
  | VList es r =>
      match nth_error es i, r with
      | Some e, _ => e
      | None, Some u => u
      | None, None => VTop
      end
  | _ => VTop
  end.

(** Every field of the data, at any depth, is named by one of the two values, unless
    neither says anything about the place it is at. *)
Inductive known : val -> val -> data -> Prop :=
| known_top : forall d, known VTop VTop d
| known_atom : forall u w a, known u w (DAtom a)
| known_list : forall u w l,
    (forall i x, nth_error l i = Some x -> known (at_index i u) (at_index i w) x) ->
    known u w (DList l)
| known_struct : forall u w df,
    (forall k x, In (k, x) df ->
       names k u || names k w = true /\ known (at_field k u) (at_field k w) x) ->
    known u w (DStruct df).
