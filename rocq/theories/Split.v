(** Splitting a CUE value into the operands of an operator. *)
From Verif Require Import Prelude.

(** The operators [cue.Value.Expr] distinguishes here. *)
Inductive cop := NoOp | AndOp | OrOp | OtherOp (n : N).
Definition cop_eqb (a b : cop) : bool :=
  match a, b with
  | NoOp, NoOp | AndOp, AndOp | OrOp, OrOp => true
  | OtherOp x, OtherOp y => N.eqb x y
  | _, _ => false
  end.

Section Split.
Context {V : Type}.

(** A CUE value together with the tree that repeated [Expr] calls reveal.
    [Absent]: [Exists] is false. [Atom v]: [Expr] answers [(NoOp, [v])].
    [Oper v op args]: [Expr] of [v] answers [(op, args)]. *)
Inductive cexpr :=
| Absent (v : V)
| Atom (v : V)
| Oper (v : V) (op : cop) (args : list cexpr).

Definition cval (e : cexpr) : V :=
  match e with Absent v | Atom v | Oper v _ _ => v end.

(** [a.Subsume(b, cue.Raw()) == nil]. *)
Variable subs : V -> V -> bool.

(** [internal/cuetil/split.go:24-35]: keep each argument unless it is equal
    (mutually subsuming) to one kept before. The first is kept always. [kept] is
    [args[:k]]. *)
Fixpoint dedup_from (kept rest : list cexpr) : list cexpr :=
  match rest with
  | [] => kept
  | x :: r =>
      if existsb (fun y => subs (cval x) (cval y) && subs (cval y) (cval x)) kept
      then dedup_from kept r
      else dedup_from (kept ++ [x]) r
  end.
Definition dedup (args : list cexpr) : list cexpr :=
  match args with
  | [] => []
  | x :: r => dedup_from [x] r
  end.

(** [internal/cuetil/split.go:16-48] [AppendSplit]. Simplified: with no
    arguments the code's [args[:1]] panics; [Expr] never returns none and
    [Oper] with no arguments is excluded by the theorems. The recursion of the
    code is on values; here on the revealed tree, with [fuel] at least its
    depth. *)
Fixpoint appendSplit (fuel : nat) (e : cexpr) (by_ : cop) (a : list V) : outcome (list V) :=
  match fuel with
  | O => OutOfFuel
  | S f =>
      match e with
      | Absent _ => Ok a
      | Atom v => Ok (a ++ [v])
      | Oper v op args =>
          match dedup args with
          | [] => Panic
          | [x] =>
              match op with
              | NoOp => Ok (a ++ [cval x])
              | _ => if cop_eqb op by_ then appendSplit f x by_ a else Ok (a ++ [v])
              end
          | args' =>
              if cop_eqb op by_ then
                (fix go (l : list cexpr) (a : list V) : outcome (list V) :=
                   match l with
                   | [] => Ok a
                   | y :: r => a' <- appendSplit f y by_ a ;; go r a'
                   end) args' a
              else Ok (a ++ [v])
          end
      end
  end.

Fixpoint depth (e : cexpr) : nat :=
  match e with
  | Oper _ _ args => S (fold_right (fun x n => Nat.max (depth x) n) 0 args)
  | _ => 1
  end.

Definition AppendSplit (e : cexpr) (by_ : cop) : outcome (list V) :=
  appendSplit (depth e) e by_ [].
End Split.
Arguments cexpr V : clear implicits.
