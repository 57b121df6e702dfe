(** Proofs about splitting values into operands. *)
From Verif Require Import Prelude Split.

Lemma cop_eqb_eq a b : cop_eqb a b = true <-> a = b.
Proof.
  destruct a, b; cbn; split; intros H; try discriminate; try reflexivity.
  - apply N.eqb_eq in H. congruence.
  - injection H as ->. apply N.eqb_refl.
Qed.

Section SplitProofs.
Context {V : Type}.
Variable subs : V -> V -> bool.

(** Two values are taken for equal when they subsume each other. *)
Definition same (x y : cexpr V) : Prop :=
  subs (cval x) (cval y) = true /\ subs (cval y) (cval x) = true.

(** [kept] are the arguments without those the same as one kept before. *)
Inductive keeps : list (cexpr V) -> list (cexpr V) -> Prop :=
| k_nil : keeps [] []
| k_new l kept x : keeps l kept -> (forall y, In y kept -> ~ same x y) -> keeps (l ++ [x]) (kept ++ [x])
| k_old l kept x y : keeps l kept -> In y kept -> same x y -> keeps (l ++ [x]) kept.

(** [splits by e out]: the leaves of the tree of [by] operations at [e]. *)
Inductive splits (by_ : cop) : cexpr V -> list V -> Prop :=
| s_absent v : splits by_ (Absent v) []
| s_atom v : splits by_ (Atom v) [v]
| s_noop v args x : keeps args [x] -> splits by_ (Oper v NoOp args) [cval x]
| s_other v op args kept : keeps args kept -> kept <> [] -> op <> by_ ->
    (op = NoOp -> 1 < length kept) -> splits by_ (Oper v op args) [v]
| s_by v args kept outs : keeps args kept -> kept <> [] -> (by_ = NoOp -> 1 < length kept) ->
    Forall2 (splits by_) kept outs -> splits by_ (Oper v by_ args) (concat outs).

(** No operation without arguments. *)
Fixpoint wf (e : cexpr V) : Prop :=
  match e with
  | Oper _ _ args => args <> [] /\ fold_right (fun x P => wf x /\ P) True args
  | _ => True
  end.

Lemma dedup_from_keeps rest : forall l kept, keeps l kept -> keeps (l ++ rest) (dedup_from subs kept rest).
Proof.
  induction rest as [|x rest IH]; intros l kept K; cbn [dedup_from].
  - rewrite app_nil_r. exact K.
  - replace (l ++ x :: rest) with ((l ++ [x]) ++ rest) by (rewrite <- app_assoc; reflexivity).
    destruct (existsb _ kept) eqn:E.
    + apply IH. apply existsb_exists in E as [y [Hy E]]. apply andb_prop in E.
      eapply k_old; eauto.
    + apply IH. apply k_new; [exact K|]. intros y Hy [S1 S2].
      assert (C : existsb (fun y => subs (cval x) (cval y) && subs (cval y) (cval x)) kept = true).
      { apply existsb_exists. exists y. split; [exact Hy|]. rewrite S1, S2. reflexivity. }
      congruence.
Qed.

Lemma dedup_keeps args : keeps args (dedup subs args).
Proof.
  destruct args as [|x r]; [constructor|]. unfold dedup.
  apply (dedup_from_keeps r [x] [x]). apply (k_new [] [] x); [constructor|intros y []].
Qed.

Lemma dedup_from_ne rest : forall kept, kept <> [] -> dedup_from subs kept rest <> [].
Proof.
  induction rest as [|x rest IH]; intros kept K; cbn [dedup_from]; [exact K|].
  destruct (existsb _ _); [auto|]. apply IH. destruct kept; discriminate.
Qed.

Lemma dedup_ne args : args <> [] -> dedup subs args <> [].
Proof. destruct args as [|x r]; [contradiction|]. intros _. apply dedup_from_ne. discriminate. Qed.

Lemma keeps_in args kept : keeps args kept -> forall x, In x kept -> In x args.
Proof.
  induction 1 as [|l k x K IH N|l k x y K IH I S]; intros z H; [destruct H| |].
  - apply in_app_or in H as [H|H]; apply in_or_app; [left; auto|right; exact H].
  - apply in_or_app. left. auto.
Qed.

Lemma keeps_fun args kept : keeps args kept -> forall kept', keeps args kept' -> kept = kept'.
Proof.
  induction 1 as [|l k x K IH N|l k x y K IH I S]; intros k' K'.
  - inversion K' as [|l' ? x' ? ? E|l' ? x' ? ? ? ? E]; [reflexivity| |]; destruct l'; discriminate.
  - inversion K' as [E|l' k2 x' K2 N2 E|l' k2 x' y' K2 I2 S2 E]; [destruct l; discriminate| |].
    + apply app_inj_tail in E as [-> ->]. rewrite (IH _ K2). reflexivity.
    + apply app_inj_tail in E as [-> ->]. rewrite <- (IH _ K2) in I2. destruct (N _ I2 S2).
  - inversion K' as [E|l' k2 x' K2 N2 E|l' k2 x' y' K2 I2 S2 E]; [destruct l; discriminate| |].
    + apply app_inj_tail in E as [-> ->]. rewrite (IH _ K2) in I. destruct (N2 _ I S).
    + apply app_inj_tail in E as [-> ->]. rewrite (IH _ K2). reflexivity.
Qed.

Lemma wf_in v op args : wf (Oper v op args) -> forall x, In x args -> wf x.
Proof.
  cbn [wf]. intros [_ H]. induction args as [|y r IH]; intros x Hx; [destruct Hx|].
  cbn in H. destruct H as [H1 H2]. destruct Hx as [<-|Hx]; auto.
Qed.

Lemma depth_in v op args (x : cexpr V) : In x args -> depth x < depth (Oper v op args).
Proof.
  cbn [depth]. induction args as [|y r IH]; intros Hx; [destruct Hx|]. cbn [fold_right].
  destruct Hx as [->|Hx]; [lia|]. specialize (IH Hx). lia.
Qed.

(** The inner loop of [appendSplit]. *)
Definition go (f : nat) (by_ : cop) : list (cexpr V) -> list V -> outcome (list V) :=
  fix go (l : list (cexpr V)) (a : list V) : outcome (list V) :=
    match l with
    | [] => Ok a
    | y :: r => a' <- appendSplit subs f y by_ a ;; go r a'
    end.

Lemma appendSplit_oper f v op args by_ a :
  appendSplit subs (S f) (Oper v op args) by_ a =
  match dedup subs args with
  | [] => Panic
  | [x] =>
      match op with
      | NoOp => Ok (a ++ [cval x])
      | _ => if cop_eqb op by_ then appendSplit subs f x by_ a else Ok (a ++ [v])
      end
  | args' => if cop_eqb op by_ then go f by_ args' a else Ok (a ++ [v])
  end.
Proof. reflexivity. Qed.

Lemma go_spec f by_ :
  (forall e a, depth e <= f -> wf e -> exists out, appendSplit subs f e by_ a = Ok (a ++ out) /\ splits by_ e out) ->
  forall l a, (forall x, In x l -> depth x <= f /\ wf x) ->
    exists outs, go f by_ l a = Ok (a ++ concat outs) /\ Forall2 (splits by_) l outs.
Proof.
  intros IH. induction l as [|y r IHr]; intros a H.
  - exists []. cbn. rewrite app_nil_r. split; [reflexivity|constructor].
  - destruct (H y (or_introl eq_refl)) as [D W]. destruct (IH y a D W) as [out [E S]].
    change (go f by_ (y :: r) a) with (a' <- appendSplit subs f y by_ a ;; go f by_ r a').
    rewrite E. cbn [bind]. destruct (IHr (a ++ out)) as [outs [E2 F]].
    { intros x Hx. apply H. right. exact Hx. }
    exists (out :: outs). rewrite E2. cbn [concat]. rewrite app_assoc. split; [reflexivity|].
    constructor; assumption.
Qed.

Lemma appendSplit_spec by_ : forall f e a, depth e <= f -> wf e ->
  exists out, appendSplit subs f e by_ a = Ok (a ++ out) /\ splits by_ e out.
Proof.
  induction f as [|f IH]; intros e a D W; [destruct e; cbn in D; lia|].
  destruct e as [v|v|v op args].
  - exists []. cbn. rewrite app_nil_r. split; [reflexivity|constructor].
  - exists [v]. split; [reflexivity|constructor].
  - rewrite appendSplit_oper. pose proof (dedup_keeps args) as K.
    assert (NE : dedup subs args <> []) by (apply dedup_ne; apply W).
    assert (In' : forall x, In x (dedup subs args) -> depth x <= f /\ wf x).
    { intros x Hx. apply (keeps_in _ _ K) in Hx. split; [|eapply wf_in; eauto].
      pose proof (depth_in v op args x Hx). lia. }
    destruct (dedup subs args) as [|x [|y r]]; [contradiction| |].
    + destruct (IH x a) as [out [E S]]; [apply In'; left; reflexivity|apply In'; left; reflexivity|].
      assert (one : forall o : cop, o <> NoOp -> (if cop_eqb o by_ then appendSplit subs f x by_ a else Ok (a ++ [v]))
        = (if cop_eqb o by_ then Ok (a ++ out) else Ok (a ++ [v]))) by (intros o _; rewrite E; reflexivity).
      assert (G : op <> NoOp -> exists out0,
        (if cop_eqb op by_ then appendSplit subs f x by_ a else Ok (a ++ [v])) = Ok (a ++ out0) /\
        splits by_ (Oper v op args) out0).
      { intros N. rewrite (one op N). destruct (cop_eqb op by_) eqn:C.
        - apply cop_eqb_eq in C. subst op. exists (concat [out]). cbn [concat]. rewrite app_nil_r.
          split; [reflexivity|]. replace out with (concat [out]) by (cbn; apply app_nil_r).
          apply (s_by _ v args [x]); [exact K|discriminate|contradiction|constructor; [exact S|constructor]].
        - exists [v]. split; [reflexivity|]. apply (s_other _ v op args [x]); [exact K|discriminate| |contradiction].
          intros ->. assert (cop_eqb by_ by_ = true) by (apply cop_eqb_eq; reflexivity). congruence. }
      destruct op; [|apply G; discriminate|apply G; discriminate|apply G; discriminate].
      exists [cval x]. split; [reflexivity|]. apply s_noop. exact K.
    + destruct (cop_eqb op by_) eqn:C.
      * apply cop_eqb_eq in C. subst op. destruct (go_spec f by_ IH (x :: y :: r) a In') as [outs [E F]].
        exists (concat outs). split; [exact E|].
        apply (s_by _ v args (x :: y :: r)); [exact K|discriminate|intros _; cbn; lia|exact F].
      * exists [v]. split; [reflexivity|].
        apply (s_other _ v op args (x :: y :: r)); [exact K|discriminate| |intros _; cbn; lia].
        intros ->. assert (cop_eqb by_ by_ = true) by (apply cop_eqb_eq; reflexivity). congruence.
Qed.

Lemma split_total e by_ : wf e -> exists out, AppendSplit subs e by_ = Ok out /\ splits by_ e out.
Proof. intros W. destruct (appendSplit_spec by_ (depth e) e [] (le_n _) W) as [out H]. exists out. exact H. Qed.

(** [splits] determines its result. *)
Lemma splits_fun by_ : forall n e out out', depth e <= n -> splits by_ e out -> splits by_ e out' -> out = out'.
Proof.
  induction n as [|n IH]; intros e out out' D S S'; [destruct e; cbn in D; lia|].
  inversion S as [v|v|v args x K|v op args kept K NE N1 N2|v args kept outs K NE N2 F]; subst;
  inversion S' as [v'|v'|v' args' x' K'|v' op' args' kept' K' NE' N1' N2'|v' args' kept' outs' K' NE' N2' F']; subst;
  try reflexivity; try (exfalso; congruence).
  - pose proof (keeps_fun _ _ K _ K') as E. injection E as ->. reflexivity.
  - pose proof (keeps_fun _ _ K _ K') as E. subst kept'. specialize (N2' eq_refl). cbn in N2'. lia.
  - pose proof (keeps_fun _ _ K _ K') as E. subst kept'. specialize (N2' eq_refl). cbn in N2'. lia.
  - pose proof (keeps_fun _ _ K _ K') as E. subst kept. specialize (N2 eq_refl). cbn in N2. lia.
  - pose proof (keeps_fun _ _ K _ K') as E. subst kept. specialize (N2 eq_refl). cbn in N2. lia.
  - pose proof (keeps_fun _ _ K _ K') as E. subst kept'. f_equal.
    assert (Dk : forall x, In x kept -> depth x <= n).
    { intros x Hx. apply (keeps_in _ _ K) in Hx. pose proof (depth_in v by_ args x Hx). lia. }
    clear - IH F F' Dk. revert outs' F'. induction F as [|x o l os S F IHF]; intros os' F'; inversion F'; subst; [reflexivity|].
    f_equal.
    + eapply IH; eauto. apply Dk. left. reflexivity.
    + apply IHF; [|assumption]. intros z Hz. apply Dk. right. exact Hz.
Qed.

(** *** Meaning *)
Section Meaning.
Context {D : Type}.
Variable accepts : V -> D -> Prop.
Hypothesis same_accepts : forall a b, subs a b = true -> subs b a = true -> forall d, accepts a d <-> accepts b d.

(** The tree tells what its value accepts. *)
Fixpoint means_and (e : cexpr V) : Prop :=
  match e with
  | Absent _ => False
  | Atom _ => True
  | Oper v op args =>
      (op = AndOp -> forall d, accepts v d <-> Forall (fun x => accepts (cval x) d) args) /\
      (op = NoOp -> forall d x, In x args -> (accepts v d <-> accepts (cval x) d)) /\
      fold_right (fun x P => means_and x /\ P) True args
  end.

Fixpoint means_or (e : cexpr V) : Prop :=
  match e with
  | Absent v => forall d, ~ accepts v d
  | Atom _ => True
  | Oper v op args =>
      (op = OrOp -> forall d, accepts v d <-> Exists (fun x => accepts (cval x) d) args) /\
      (op = NoOp -> forall d x, In x args -> (accepts v d <-> accepts (cval x) d)) /\
      fold_right (fun x P => means_or x /\ P) True args
  end.

Lemma fold_all {A} (P : A -> Prop) l : fold_right (fun x Q => P x /\ Q) True l -> forall x, In x l -> P x.
Proof. induction l as [|y r IH]; intros H x Hx; [destruct Hx|]. destruct H. destruct Hx as [<-|Hx]; auto. Qed.

Lemma keeps_forall args kept d : keeps args kept ->
  (Forall (fun x => accepts (cval x) d) args <-> Forall (fun x => accepts (cval x) d) kept).
Proof.
  induction 1 as [|l k x K IH N|l k x y K IH I [S1 S2]]; [reflexivity| |].
  - rewrite !Forall_app, IH. reflexivity.
  - rewrite Forall_app, IH. split; [tauto|]. intros H. split; [exact H|]. constructor; [|constructor].
    rewrite Forall_forall in H. apply (same_accepts _ _ S1 S2). auto.
Qed.

Lemma keeps_exists args kept d : keeps args kept ->
  (Exists (fun x => accepts (cval x) d) args <-> Exists (fun x => accepts (cval x) d) kept).
Proof.
  induction 1 as [|l k x K IH N|l k x y K IH I [S1 S2]]; [reflexivity| |].
  - rewrite !Exists_app, IH. reflexivity.
  - rewrite Exists_app, IH. split; [|tauto]. intros [H|H]; [exact H|].
    inversion H as [? ? Hx|? ? Hx]; subst; [|inversion Hx]. apply Exists_exists. exists y. split; [exact I|].
    apply (same_accepts _ _ S1 S2). exact Hx.
Qed.

Lemma split_and : forall n e out, depth e <= n -> splits AndOp e out -> means_and e ->
  forall d, accepts (cval e) d <-> Forall (fun v => accepts v d) out.
Proof.
  induction n as [|n IH]; intros e out Dp S M d; [destruct e; cbn in Dp; lia|].
  inversion S as [v|v|v args x K|v op args kept K NE N1 N2|v args kept outs K NE N2 F]; subst.
  - destruct M.
  - cbn. split; [repeat constructor; assumption|]. intros H. inversion H; assumption.
  - destruct M as [_ [M2 _]]. cbn [cval]. rewrite (M2 eq_refl d x).
    + split; [repeat constructor; assumption|]. intros H. inversion H; assumption.
    + apply (keeps_in _ _ K). left. reflexivity.
  - cbn [cval]. split; [repeat constructor; assumption|]. intros H. inversion H; assumption.
  - destruct M as [M1 [_ M3]]. cbn [cval]. rewrite (M1 eq_refl d), (keeps_forall _ _ d K).
    assert (Dk : forall x, In x kept -> depth x <= n /\ means_and x).
    { intros x Hx. apply (keeps_in _ _ K) in Hx. split; [|exact (fold_all _ _ M3 x Hx)].
      pose proof (depth_in v AndOp args x Hx). lia. }
    clear - IH F Dk. induction F as [|x o l os S F IHF]; cbn [concat]; [split; constructor|].
    rewrite Forall_app, <- IHF by (intros z Hz; apply Dk; right; exact Hz).
    destruct (Dk x (or_introl eq_refl)) as [D1 D2]. rewrite <- (IH x o D1 S D2 d).
    split; [intros H; inversion H; auto|intros [H1 H2]; constructor; auto].
Qed.

Lemma split_or : forall n e out, depth e <= n -> splits OrOp e out -> means_or e ->
  forall d, accepts (cval e) d <-> Exists (fun v => accepts v d) out.
Proof.
  assert (one : forall v d, accepts v d <-> Exists (fun v => accepts v d) [v]).
  { intros v d. split; [intros H; constructor; exact H|]. intros H. inversion H as [? ? X|? ? X]; subst; [exact X|inversion X]. }
  induction n as [|n IH]; intros e out Dp S M d; [destruct e; cbn in Dp; lia|].
  inversion S as [v|v|v args x K|v op args kept K NE N1 N2|v args kept outs K NE N2 F]; subst.
  - cbn in *. split; [intros H; destruct (M d H)|intros H; inversion H].
  - apply one.
  - destruct M as [_ [M2 _]]. cbn [cval]. rewrite (M2 eq_refl d x); [apply one|].
    apply (keeps_in _ _ K). left. reflexivity.
  - apply one.
  - destruct M as [M1 [_ M3]]. cbn [cval]. rewrite (M1 eq_refl d), (keeps_exists _ _ d K).
    assert (Dk : forall x, In x kept -> depth x <= n /\ means_or x).
    { intros x Hx. apply (keeps_in _ _ K) in Hx. split; [|exact (fold_all _ _ M3 x Hx)].
      pose proof (depth_in v OrOp args x Hx). lia. }
    clear - IH F Dk. induction F as [|x o l os S F IHF]; cbn [concat]; [split; intros H; inversion H|].
    rewrite Exists_app, <- IHF by (intros z Hz; apply Dk; right; exact Hz).
    destruct (Dk x (or_introl eq_refl)) as [D1 D2]. rewrite <- (IH x o D1 S D2 d).
    split; [intros H; inversion H; auto|intros [H|H]; [constructor|constructor 2]; auto].
Qed.
End Meaning.
End SplitProofs.

Lemma split_meaning (V D : Type) (subs : V -> V -> bool) (accepts : V -> D -> Prop) e :
  (forall a b, subs a b = true -> subs b a = true -> forall d, accepts a d <-> accepts b d) ->
  wf e ->
  (means_and accepts e -> exists out, AppendSplit subs e AndOp = Ok out /\
     forall d, accepts (cval e) d <-> Forall (fun v => accepts v d) out) /\
  (means_or accepts e -> exists out, AppendSplit subs e OrOp = Ok out /\
     forall d, accepts (cval e) d <-> Exists (fun v => accepts v d) out).
Proof.
  intros H W. split; intros M.
  - destruct (split_total subs e AndOp W) as [out [E S]]. exists out. split; [exact E|].
    intros d. eapply split_and; eauto.
  - destruct (split_total subs e OrOp W) as [out [E S]]. exists out. split; [exact E|].
    intros d. eapply split_or; eauto.
Qed.

(** Adequacy of [splits]: at a value that exists, each result is a leaf and each
    omitted argument equals one kept before it. *)
Lemma keeps_complete (V : Type) (subs : V -> V -> bool) args kept :
  keeps subs args kept ->
  (forall x, In x args -> In x kept \/ exists y, In y kept /\ same subs x y) /\
  (forall x, In x kept -> In x args).
Proof.
  intros K. split; [|exact (keeps_in _ _ _ K)].
  induction K as [|l k x K IH N|l k x y K IH I S]; intros z H; [destruct H| |].
  - apply in_app_or in H as [H|H].
    + destruct (IH z H) as [H1|[y [H1 H2]]]; [left|right; exists y; split; [|exact H2]]; apply in_or_app; left; assumption.
    + left. apply in_or_app. right. exact H.
  - apply in_app_or in H as [H|[<-|[]]]; [apply IH; exact H|]. right. exists y. split; assumption.
Qed.
