(** C42, C43: the mutex of a runtime. *)
From Verif Require Import Prelude Locks LockProofs.
Local Open Scope list_scope.

(** *** C42 *)

(** [Forall prog ps]: any number of goroutines that make any calls. While a
    goroutine holds the write lock no other holds the lock in any way. *)
Theorem C42_writer_excludes_partial :
  forall ps ts, Forall prog ps -> reachable ps ts ->
    forall i j t u, i <> j -> nth_error ts i = Some t -> nth_error ts j = Some u ->
      t_w t = true -> ~ holds_any u.
Proof. exact exclusion. Qed.
Print Assumptions C42_writer_excludes_partial.

(** Nothing is unlocked that is not locked; locks are not nested; finished
    goroutines hold nothing. *)
Theorem C42_balanced_partial :
  forall ps ts, Forall prog ps -> reachable ps ts -> forall t, In t ts ->
    ~ fatal t /\
    (forall p, t_prog t = ARLock :: p \/ t_prog t = ALock :: p -> ~ holds_any t) /\
    (finished t -> ~ holds_any t).
Proof. exact sane. Qed.
Print Assumptions C42_balanced_partial.

(** No deadlock, and under every schedule all calls finish: runs are bounded
    and only end when all are finished. *)
Theorem C42_all_finish_partial :
  forall ps, Forall prog ps ->
    (forall ts n, nsteps n (map start ps) ts -> n <= weights (map start ps)) /\
    (forall ts, reachable ps ts -> Forall finished ts \/ exists ts', step ts ts').
Proof. exact all_finish. Qed.
Print Assumptions C42_all_finish_partial.

(** A decode that panics in NewT keeps the read lock; the next BindLineage waits
    forever. *)
Theorem C42_panic_leaks_refuted :
  exists ts, reachable [newt_panics 1; ALock :: uses true 1 ++ [AUnlock]] ts /\
    ~ (exists ts', step ts ts') /\ exists t, In t ts /\ ~ finished t.
Proof. exact panic_deadlock. Qed.
Print Assumptions C42_panic_leaks_refuted.

(** A reader inside, a writer announced, a reader waiting for it. *)
Example C42_discipline_ex :
  let v := ARLock :: uses false 2 ++ [ARUnlock] in
  Forall prog [v; bind_run; v] /\
  reachable [v; bind_run; v]
    [mkT (uses false 2 ++ [ARUnlock]) 1 false Ready; mkT bind_run 0 false WWait; mkT v 0 false RWait].
Proof.
  assert (V : prog (ARLock :: uses false 2 ++ [ARUnlock])).
  { rewrite <- (app_nil_r (_ :: _)). eapply p_call; [apply (r_validate 2)|apply p_nil]. }
  assert (B : prog bind_run).
  { unfold bind_run. rewrite <- (app_nil_r (_ :: _)). eapply p_call; [apply (r_bind 1)|apply p_nil]. }
  split; [repeat constructor; assumption|]. unfold reachable.
  set (v := ARLock :: uses false 2 ++ [ARUnlock]).
  eapply ss_step; [eapply ss_step; [eapply ss_step; [apply ss_refl|]|]|].
  - apply (s_rlock [] [start bind_run; start v]). intros [t [K1 K2]]. destruct K1 as [<-|[<-|[<-|[]]]]; discriminate.
  - apply (s_announce [mkT (uses false 2 ++ [ARUnlock]) 1 false Ready] [start v]).
    intros [t [K1 K2]]. destruct K1 as [<-|[<-|[<-|[]]]]; discriminate.
  - apply (s_rwait [mkT (uses false 2 ++ [ARUnlock]) 1 false Ready; mkT bind_run 0 false WWait] []).
    exists (mkT bind_run 0 false WWait). split; [right; left; reflexivity|reflexivity].
Qed.

(** *** C43 *)

(** Each of the other calls races with BindLineage: BindType, Value, Translate,
    Hydrate, Dehydrate, Examples, IsAppendOnly, the muxes, the generators. *)
Theorem C43_unguarded_calls_refuted :
  forall c, ~ guarded_call c -> exists p ts, runs c p /\ reachable [p; bind_run] ts /\ race ts.
Proof. exact every_other_call_races. Qed.
Print Assumptions C43_unguarded_calls_refuted.

Example C43_unguarded_calls_ex : ~ guarded_call CHydrate /\ ~ guarded_call CTranslate /\ ~ guarded_call CBindType.
Proof. unfold guarded_call. repeat split; intros [H|[H|[H|[H|H]]]]; discriminate. Qed.

(** Muxes used by two goroutines race with one another, and so do generators. *)
Theorem C43_builders_refuted : forall c d, (c = CMux \/ c = CGenerate) -> (d = CMux \/ d = CGenerate) ->
  exists p q ts, runs c p /\ runs d q /\ reachable [p; q] ts /\ race ts.
Proof. exact builders_race. Qed.
Print Assumptions C43_builders_refuted.

(** Goroutines that only use BindLineage, Validate, ValidateAny, AssignableTo
    and NewT never race. *)
Theorem C43_guarded_calls_partial :
  forall ps ts, Forall guarded_prog ps -> reachable ps ts -> ~ race ts.
Proof. exact guarded_progs_no_race. Qed.
Print Assumptions C43_guarded_calls_partial.

Example C43_guarded_calls_ex : Forall guarded_prog [bind_run; ARLock :: uses false 2 ++ [ARUnlock]].
Proof.
  constructor; [|constructor; [|constructor]].
  - unfold bind_run. rewrite <- (app_nil_r (_ :: _)). eapply gp_call; [|apply (r_bind 1)|apply gp_nil]. left. reflexivity.
  - rewrite <- (app_nil_r (_ :: _)). eapply gp_call; [|apply (r_validate 2)|apply gp_nil]. right. left. reflexivity.
Qed.
