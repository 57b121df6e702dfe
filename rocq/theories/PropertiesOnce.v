(** Making Runtimes from several goroutines (C127). *)
From Verif Require Import Prelude Once OnceProofs.
Local Open Scope string_scope.
Local Open Scope list_scope.

(** *** C127 *)

(** However the steps of any number of calls of NewRuntime interleave: the package
    is loaded at most once. *)
Theorem C127_once : forall inst invalid overlay ctxs tr (w : world inst),
  run invalid overlay tr (start ctxs) = Some w -> loads w <= 1.
Proof. exact once. Qed.
Print Assumptions C127_once.

(** All Runtimes are built from the same instance, each in the context that its
    call was given. *)
Theorem C127_same : forall inst invalid overlay ctxs tr (w : world inst),
  run invalid overlay tr (start ctxs) = Some w -> forall i j c d x y,
  nth_error (calls w) i = Some (Ended (Made c x)) -> nth_error (calls w) j = Some (Ended (Made d y)) ->
  nth_error ctxs i = Some (Some c) /\ x = y /\ themaBI w = Some x.
Proof. exact made_same. Qed.
Print Assumptions C127_same.

(** If the embedded package can be read and is valid, only calls without a context
    panic. *)
Theorem C127_good : forall inst invalid overlay ctxs tr (w : world inst),
  run invalid overlay tr (start ctxs) = Some w -> overlay = None ->
  (forall x, themaBI w = Some x -> invalid x = None) -> forall i r,
  nth_error (calls w) i = Some (Ended r) ->
  (exists c x, nth_error ctxs i = Some (Some c) /\ r = Made c x) \/ (nth_error ctxs i = Some None /\ r = NilContext).
Proof. exact good. Qed.
Print Assumptions C127_good.

(** Some call can go on until all have ended, and every execution is finite. *)
Theorem C127_progress : forall inst invalid overlay ctxs tr (w : world inst),
  run invalid overlay tr (start ctxs) = Some w -> forall x,
  (forall i p, nth_error (calls w) i = Some p -> exists r, p = Ended r) \/ exists i w', step invalid overlay i x w = Some w'.
Proof. exact progress. Qed.
Print Assumptions C127_progress.

Theorem C127_ends : forall inst invalid overlay ctxs tr (w : world inst),
  run invalid overlay tr (start ctxs) = Some w -> length tr <= 11 * length ctxs.
Proof. exact ends. Qed.
Print Assumptions C127_ends.

(** What a call reads after rtOnce.Do does not change any more: no other call
    writes it. *)
Theorem C127_settled : forall inst invalid overlay ctxs tr tr' (w w' : world inst) i p,
  run invalid overlay tr (start ctxs) = Some w -> nth_error (calls w) i = Some p -> past inst p ->
  run invalid overlay tr' w = Some w' -> themaBI w' = themaBI w.
Proof. exact settled. Qed.
Print Assumptions C127_settled.

(** At most one call tells that loading failed, and why. *)
Theorem C127_failed_once : forall inst invalid overlay ctxs tr (w : world inst),
  run invalid overlay tr (start ctxs) = Some w -> forall i j e e',
  nth_error (calls w) i = Some (Ended (LoadFailed e)) -> nth_error (calls w) j = Some (Ended (LoadFailed e')) -> i = j.
Proof. exact failed_once. Qed.
Print Assumptions C127_failed_once.

Theorem C127_failed_why : forall inst invalid overlay ctxs tr (w : world inst),
  run invalid overlay tr (start ctxs) = Some w -> forall i e,
  nth_error (calls w) i = Some (Ended (LoadFailed e)) ->
  (overlay = Some e /\ loads w = 0 /\ forall j c x, nth_error (calls w) j <> Some (Ended (Made c x))) \/
  (exists x, themaBI w = Some x /\ invalid x = Some e /\ forall j, nth_error (calls w) j <> Some (Ended NilInstance)).
Proof. exact failed_why. Qed.
Print Assumptions C127_failed_why.

(** The panic of the first call is the only check: the next call makes a Runtime of
    the instance that was found invalid, or panics for another reason. *)
Theorem C127_invalid_refuted : forall inst invalid c d (x : inst) e, invalid x = Some e ->
  exists tr (w : world inst), run invalid None tr (start [Some c; Some d]) = Some w /\
    calls w = [Ended (LoadFailed e); Ended (Made d x)].
Proof. intros inst invalid c d x e X. exists (first_then_second inst x). exact (invalid_used inst invalid None c d x e eq_refl X). Qed.
Print Assumptions C127_invalid_refuted.

Theorem C127_overlay_refuted : forall inst invalid c d (x : inst) e,
  exists tr (w : world inst), run invalid (Some e) tr (start [Some c; Some d]) = Some w /\
    calls w = [Ended (LoadFailed e); Ended NilInstance].
Proof. intros inst invalid c d x e. eexists. exact (overlay_lost inst invalid (Some e) c d x e eq_refl). Qed.
Print Assumptions C127_overlay_refuted.

(** Two calls at once and one without a context; the second waits for the first. *)
Example C127_cases :
  let valid := fun _ : nat => @None string in
  let tr := [(0, 7); (1, 8); (0, 7); (1, 8); (0, 7); (2, 9); (0, 7); (0, 7); (0, 7)] in
  option_map calls (run valid None tr (start [Some 1; Some 2; None]))
    = Some [Validate 1; Lock 2; Ended NilContext] /\
  run valid None (tr ++ [(1, 8)]) (start [Some 1; Some 2; None]) = None /\
  option_map (fun w => (calls w, loads w))
    (run valid None (tr ++ repeat (0, 7) 5 ++ repeat (1, 8) 5) (start [Some 1; Some 2; None]))
    = Some ([Ended (Made 1 7); Ended (Made 2 7); Ended NilContext], 1).
Proof. vm_compute. auto. Qed.
