(** The mutex of a [Runtime] and the calls that use it. *)
From Verif Require Import Prelude.
Local Open Scope list_scope.

(** *** Actions of a call on one [Runtime] *)

(** [AUse true]: building or filling CUE values of the shared context;
    [AUse false]: evaluating shared CUE values (lookup, unify, validate,
    decode). *)
Inductive act := ARLock | ARUnlock | ALock | AUnlock | AUse (writes : bool).

(** What matters of calls: their lock operations and uses, in order. Loops and
    early returns are covered by arbitrary numbers of uses. *)
Definition uses (w : bool) (n : nat) : list act := repeat (AUse w) n.

Inductive api :=
| CBindLineage | CValidate | CValidateAny | CAssignableTo | CNewT
| CBindType | CValue | CTranslate | CTranslateGo | CHydrate | CDehydrate | CExamples | CIsAppendOnly
| CMux | CGenerate.

(** [runs c p]: the call [c] may perform [p]. [prog p]: a goroutine may perform
    [p], by calls and by its own evaluation of values it got from
    [Underlying()]. Panics in sections with a deferred unlock are covered, as
    the unlock is performed; sections without ([runtime.go:179-181],
    [schema.go:215-217]) are supposed not to panic, see [panics] below. *)
Inductive runs : api -> list act -> Prop :=
(** [lineage.go:53-153]: [rt.l(); defer rt.u()]. *)
| r_bind n : runs CBindLineage (ALock :: uses true n ++ [AUnlock])
(** [schema.go:74-100]. *)
| r_validate n : runs CValidate (ARLock :: uses false n ++ [ARUnlock])
(** [lineage.go:242-251]: one [Validate] after the other. *)
| r_any_nil : runs CValidateAny []
| r_any_cons p q : runs CValidate p -> runs CValidateAny q -> runs CValidateAny (p ++ q)
(** [assignable.go:28-33]. *)
| r_assignable n : runs CAssignableTo (ARLock :: uses false n ++ [ARUnlock])
(** [schema.go:213-219]: [newfn]. *)
| r_newt n : runs CNewT (ARLock :: uses false n ++ [ARUnlock])
(** [schema.go:172-227]: [AssignableTo], then a decode without the lock. *)
| r_bindtype_err p : runs CAssignableTo p -> runs CBindType p
| r_bindtype p n : runs CAssignableTo p -> runs CBindType (p ++ uses false n)
(** [instance.go:163-170]: [NewT], then a decode without the lock. *)
| r_value p n : runs CNewT p -> runs CValue (p ++ uses false n)
(** [instance.go:207-254] with [cueArgs.call] ([runtime.go:129-183]): [make]
    under the write lock; unless it fails, a lookup under the read lock, then
    evaluation of the result without the lock, then perhaps [Validate]. *)
| r_translate_err n : runs CTranslate (ALock :: uses true n ++ [AUnlock])
| r_translate n m k : runs CTranslate ((ALock :: uses true n ++ [AUnlock]) ++ (ARLock :: uses false m ++ [ARUnlock]) ++ uses false k)
| r_translate_valid n m k p : runs CValidate p ->
    runs CTranslate ((ALock :: uses true n ++ [AUnlock]) ++ (ARLock :: uses false m ++ [ARUnlock]) ++ uses false k ++ p)
(** [instance.go:256-305]: mappers are arbitrary code. *)
| r_translatego p : prog p -> runs CTranslateGo p
(** [instance.go:59-75, 82-97]: no lock. *)
| r_hydrate n : runs CHydrate (uses false n)
| r_dehydrate n : runs CDehydrate (uses false n)
(** [schema.go:40-59], [lineage.go:296-318]: no lock. *)
| r_examples n : runs CExamples (uses false n)
| r_append n : runs CIsAppendOnly (uses false n)
(** [vmux/untyped.go:28-58], [typed.go:28-70]: decoding builds the data in the
    context ([mux.go:63-69, 90-96]) without the lock; then one [Validate] after the
    other, perhaps [Translate]; [value.go] then takes the [Value], [byte.go] encodes
    the instance without the lock ([mux.go:71-73, 98-101]). *)
| r_mux n p : runs CValidateAny p -> runs CMux (uses true n ++ p)
| r_mux_translate p q : runs CMux p -> runs CTranslate q -> runs CMux (p ++ q)
| r_mux_translatego p q : runs CMux p -> runs CTranslateGo q -> runs CMux (p ++ q)
| r_mux_value p q : runs CMux p -> runs CValue q -> runs CMux (p ++ q)
| r_mux_encode p n : runs CMux p -> runs CMux (p ++ uses false n)
(** [encoding/openapi/oapi.go:126, 194], [encoding/gocode/gen.go:87],
    [cmd/thema/lineage_subgen.go:176-221]: generators evaluate the schema and build
    values without the lock. *)
| r_generate n : runs CGenerate (uses true n)
with prog : list act -> Prop :=
| p_nil : prog []
| p_use q : prog q -> prog (AUse false :: q)
| p_call c p q : runs c p -> prog q -> prog (p ++ q).

Scheme runs_ind2 := Minimality for runs Sort Prop
with prog_ind2 := Minimality for prog Sort Prop.
Combined Scheme runs_prog_ind from runs_ind2, prog_ind2.

(** A decode that panics ([T] may have its own [UnmarshalJSON]) leaves [newfn]
    without unlocking. *)
Definition newt_panics (n : nat) : list act := ARLock :: uses false n.

(** *** [sync.RWMutex] *)

(** [RWait]: has called [RLock] and waits for the writer. [WWait]: has announced
    itself in [Lock] and waits for the readers. A thread that waits for another
    writer has not moved. *)
Inductive wait := Ready | RWait | WWait.
Record thread := mkT { t_prog : list act; t_r : nat; t_w : bool; t_wait : wait }.

(** A writer is active or announced. *)
Definition writing (t : thread) : bool :=
  t_w t || match t_wait t with WWait => true | _ => false end.
Definition busy (ts : list thread) : Prop := exists t, In t ts /\ writing t = true.
Definition no_readers (ts : list thread) : Prop := forall t, In t ts -> t_r t = 0.

(** [Unlock] lets all waiting readers in. *)
Definition wake (t : thread) : thread :=
  match t_wait t, t_prog t with
  | RWait, ARLock :: p => mkT p (S (t_r t)) (t_w t) Ready
  | _, _ => t
  end.

Inductive step : list thread -> list thread -> Prop :=
| s_use a b u p r w : step (a ++ mkT (AUse u :: p) r w Ready :: b) (a ++ mkT p r w Ready :: b)
| s_rlock a b p r w : ~ busy (a ++ mkT (ARLock :: p) r w Ready :: b) ->
    step (a ++ mkT (ARLock :: p) r w Ready :: b) (a ++ mkT p (S r) w Ready :: b)
| s_rwait a b p r w : busy (a ++ mkT (ARLock :: p) r w Ready :: b) ->
    step (a ++ mkT (ARLock :: p) r w Ready :: b) (a ++ mkT (ARLock :: p) r w RWait :: b)
| s_runlock a b p r w :
    step (a ++ mkT (ARUnlock :: p) (S r) w Ready :: b) (a ++ mkT p r w Ready :: b)
| s_announce a b p r w : ~ busy (a ++ mkT (ALock :: p) r w Ready :: b) ->
    step (a ++ mkT (ALock :: p) r w Ready :: b) (a ++ mkT (ALock :: p) r w WWait :: b)
| s_acquire a b p r w : no_readers (a ++ mkT (ALock :: p) r w WWait :: b) ->
    step (a ++ mkT (ALock :: p) r w WWait :: b) (a ++ mkT p r true Ready :: b)
| s_unlock a b p r :
    step (a ++ mkT (AUnlock :: p) r true Ready :: b) (map wake a ++ mkT p r false Ready :: map wake b).

Inductive steps : list thread -> list thread -> Prop :=
| ss_refl ts : steps ts ts
| ss_step a b c : steps a b -> step b c -> steps a c.

(** Goroutines before they start. *)
Definition start (p : list act) : thread := mkT p 0 false Ready.

(** Unlocking what is not locked is a fatal error. *)
Definition fatal (t : thread) : Prop :=
  t_wait t = Ready /\
  ((exists p, t_prog t = ARUnlock :: p /\ t_r t = 0) \/ (exists p, t_prog t = AUnlock :: p /\ t_w t = false)).

Definition holds_any (t : thread) : Prop := 0 < t_r t \/ t_w t = true.
Definition finished (t : thread) : Prop := t_prog t = [] /\ t_wait t = Ready.
Definition next_use (t : thread) (w : bool) : Prop := exists p, t_prog t = AUse w :: p /\ t_wait t = Ready.

(** Two goroutines that use CUE values at the same time, one of them writing. *)
Definition race (ts : list thread) : Prop :=
  exists i j t u w, i <> j /\ nth_error ts i = Some t /\ nth_error ts j = Some u /\ next_use t true /\ next_use u w.
