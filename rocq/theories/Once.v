(** Making Runtimes from several goroutines ([runtime.go], cited as such). *)
From Verif Require Import Prelude.
Local Open Scope string_scope.
Local Open Scope list_scope.

Section Once.
(** Loaded instances of the thema package, and what is found when one is
    validated ([runtime.go:40]); why the embedded files cannot be made an overlay,
    if so ([runtime.go:23]). *)
Variable inst : Type.
Variable invalid : inst -> option string.
Variable overlay : option string.

(** How a call ended: with a Runtime for its context and an instance, or in a
    panic: for a nil context, while loading, or for a nil instance, which
    [ctx.BuildInstance] does not take. *)
Inductive ended := Made (ctx : nat) (x : inst) | NilContext | LoadFailed (e : string) | NilInstance.

(** Where a goroutine is in [NewRuntime] ([runtime.go:78-88]) and the
    [loadRuntime] it calls ([runtime.go:19-54]); [rtOnce.Do] as Go's [sync]
    implements it: a look at the flag, then the mutex, the flag again, the
    function, the flag set and the mutex released even if the function panics. *)
Inductive at_ :=
| Start (ctx : option nat)         (* :79 *)
| Look (ctx : nat)                 (* :20, the flag without the mutex *)
| Lock (ctx : nat)                 (* waits for the mutex *)
| Check (ctx : nat)                (* the flag again *)
| Overlay (ctx : nat)              (* :24 *)
| Load (ctx : nat)                 (* :38 *)
| Validate (ctx : nat)             (* :41-42 *)
| SetDone (ctx : nat) (p : option string)
| Unlock (ctx : nat) (p : option string)
| Return (ctx : nat)               (* :53 *)
| Build (ctx : nat) (b : option inst)  (* :82 *)
| Ended (r : ended).

(** [rtOnce], [themaBI] and how often it was written. *)
Record world := mkWorld { calls : list at_; done_ : bool; mutex : option nat; themaBI : option inst; loads : nat }.

Definition start (ctxs : list (option nat)) : world :=
  mkWorld (map Start ctxs) false None None 0.

Fixpoint set_at (i : nat) (p : at_) (l : list at_) : list at_ :=
  match l, i with
  | [], _ => []
  | _ :: r, O => p :: r
  | q :: r, S j => q :: set_at j p r
  end.
Definition move (i : nat) (p : at_) (w : world) : world :=
  mkWorld (set_at i p (calls w)) (done_ w) (mutex w) (themaBI w) (loads w).

(** One step of goroutine [i]; [x] is what is loaded if it loads. [None] if it has
    ended or waits. *)
Definition step (i : nat) (x : inst) (w : world) : option world :=
  match nth_error (calls w) i with
  | None | Some (Ended _) => None
  | Some (Start None) => Some (move i (Ended NilContext) w)
  | Some (Start (Some c)) => Some (move i (Look c) w)
  | Some (Look c) => Some (move i (if done_ w then Return c else Lock c) w)
  | Some (Lock c) =>
      match mutex w with
      | Some _ => None
      | None => let w' := move i (Check c) w in Some (mkWorld (calls w') (done_ w') (Some i) (themaBI w') (loads w'))
      end
  | Some (Check c) => Some (move i (if done_ w then Unlock c None else Overlay c) w)
  | Some (Overlay c) => Some (move i (match overlay with Some e => SetDone c (Some e) | None => Load c end) w)
  | Some (Load c) =>
      let w' := move i (Validate c) w in
      Some (mkWorld (calls w') (done_ w') (mutex w') (Some x) (S (loads w')))
  | Some (Validate c) =>
      Some (move i (SetDone c (match themaBI w with Some y => invalid y | None => None end)) w)
  | Some (SetDone c p) =>
      let w' := move i (Unlock c p) w in Some (mkWorld (calls w') true (mutex w') (themaBI w') (loads w'))
  | Some (Unlock c p) =>
      let w' := move i (match p with None => Return c | Some e => Ended (LoadFailed e) end) w in
      Some (mkWorld (calls w') (done_ w') None (themaBI w') (loads w'))
  | Some (Return c) => Some (move i (Build c (themaBI w)) w)
  | Some (Build c b) =>
      Some (move i (Ended (match b with Some y => Made c y | None => NilInstance end)) w)
  end.

(** Any steps of any goroutines in any order. *)
Fixpoint run (tr : list (nat * inst)) (w : world) : option world :=
  match tr with
  | [] => Some w
  | (i, x) :: r => match step i x w with Some w' => run r w' | None => None end
  end.

End Once.
