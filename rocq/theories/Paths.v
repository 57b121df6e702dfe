(** CUE paths and the helpers on them. *)
From Verif Require Import Prelude.
Local Open Scope string_scope.
Local Open Scope list_scope.

(** [cue.Selector]: a label (with its kind, as printed) and whether it is
    marked optional. [==] on selectors compares both. *)
Record sel := mkSel { sel_label : string; sel_opt : bool }.

Definition sel_eqb (a b : sel) : bool :=
  String.eqb (sel_label a) (sel_label b) && Bool.eqb (sel_opt a) (sel_opt b).

(** [cue.Selector.Optional]. *)
Definition optional (a : sel) : sel := mkSel (sel_label a) true.

(** A [cue.Path] is its list of selectors ([cue.MakePath], [Selectors]). *)
Definition cpath := list sel.

(** [internal/cuetil/path.go:79-81] [SelEq]. *)
Definition selEq (a b : sel) : bool := sel_eqb a b || sel_eqb (optional a) (optional b).

(** [path.go:15-20]: the loop; the number of leading selectors in common. *)
Fixpoint common (psels sels : list sel) : nat :=
  match psels, sels with
  | p :: pr, s :: sr => if negb (selEq p s) then 0 else S (common pr sr)
  | _, _ => 0
  end.

(** [path.go:10-22] [TrimPathPrefix]. *)
Definition trimPathPrefix (path prefix : cpath) : cpath :=
  if Nat.eqb (length path) 1 then path else skipn (common prefix path) path.

(** [path.go:43-57] [PathsAreEq], [pathsAreEq]. *)
Fixpoint sels_eq (p1 p2 : list sel) : bool :=
  match p1, p2 with
  | a :: r, b :: s => if negb (selEq b a) then false else sels_eq r s
  | _, _ => true
  end.
Definition pathsAreEq (p1 p2 : cpath) : bool :=
  if negb (Nat.eqb (length p1) (length p2)) then false else sels_eq p1 p2.

(** [path.go:25-39] [ReplacePathPrefix]. *)
Definition replacePathPrefix (p oldprefix newprefix : cpath) : cpath :=
  if Nat.leb (length p) (length oldprefix) then p
  else if negb (pathsAreEq (firstn (length oldprefix) p) oldprefix) then p
  else newprefix ++ skipn (length oldprefix) p.

(** [path.go:60-66] [PathHasPrefix]. *)
Definition pathHasPrefix (p prefix : cpath) : bool :=
  if Nat.ltb (length p) (length prefix) then false
  else pathsAreEq (firstn (length prefix) p) prefix.

(** [path.go:71-75] [LastSelectorEq]; indexing panics on the empty path. *)
Definition lastSelectorEq (p : cpath) (s : sel) : outcome bool :=
  l <- indexZ p (Z.of_nat (length p) - 1) ;; Ok (selEq l s).
