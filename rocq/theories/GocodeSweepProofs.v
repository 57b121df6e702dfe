(** What fixRawData does to any file, also when a declaration goes for more than
    one reason. *)
From Verif Require Import Prelude Strings Gocode GocodeProofs GocodeFacts.
Local Open Scope string_scope.
Local Open Scope list_scope.

(** How many types of a declaration are unions. *)
Inductive unions_in (u : string -> Prop) : list spec -> nat -> Prop :=
| un_nil : unions_in u [] 0
| un_hit : forall n t r k, u n -> unions_in u r k -> unions_in u (SType n t :: r) (S k)
| un_miss : forall s r k, (forall n t, s = SType n t -> ~ u n) -> unions_in u r k -> unions_in u (s :: r) k.

(** For how many reasons a declaration goes. *)
Inductive reasons (u : string -> Prop) : decl -> nat -> Prop :=
| rs_func : forall c l m s, reasons u (DFunc c l m s) 1
| rs_nameless : forall p cs ss k, unions_in u ss k ->
    reasons u (DGen ((p ++ "defines model for .")%string :: cs) ss) (S k)
| rs_other : forall c ss k, (forall p cs, c <> (p ++ "defines model for .")%string :: cs) ->
    unions_in u ss k -> reasons u (DGen c ss) k.

(** A declaration that goes takes one more along for every further reason, and
    there must be as many before it that stay; [a] is what stays so far, [None]
    is a panic. *)
Inductive swept (u : string -> Prop) (rw : decl -> decl) : list decl -> list decl -> option (list decl) -> Prop :=
| sw_end : forall a, swept u rw a [] (Some a)
| sw_stay : forall a d r o, reasons u d 0 -> swept u rw (a ++ [rw d]) r o -> swept u rw a (d :: r) o
| sw_go : forall a d x r o, reasons u d (S (length x)) -> length x <= length a ->
    swept u rw a r o -> swept u rw a (d :: x ++ r) o
| sw_few_after : forall a d r k, reasons u d (S k) -> length r < k -> swept u rw a (d :: r) None
| sw_few_before : forall a d r k, reasons u d (S k) -> length a < k -> swept u rw a (d :: r) None.

Lemma unions_count ex ss : unions_in (fun n => In n ex) ss (length (filter (raw_dead_spec ex) ss)).
Proof.
  induction ss as [|s ss IH]; [constructor|]. cbn [filter]. destruct (raw_dead_spec ex s) eqn:D.
  - destruct s; try discriminate. apply un_hit; [apply mem_in, D|exact IH].
  - apply un_miss; [|exact IH]. intros n t -> I. apply mem_in in I. cbn in D. congruence.
Qed.

Lemma reasons_deletes ex d : reasons (fun n => In n ex) d (deletes ex d).
Proof.
  destruct d as [c ss|c l m s]; [|constructor]. cbn [deletes]. destruct (nameless c) eqn:N.
  - apply nameless_spec in N. destruct N as (c0 & cs & p & -> & ->). apply rs_nameless, unions_count.
  - apply rs_other; [|apply unions_count]. intros p cs ->.
    assert (X : nameless ((p ++ "defines model for .")%string :: cs) = true) by (apply nameless_spec; eauto). congruence.
Qed.

(** Rewriting twice is rewriting once. *)
Lemma any_again ex n : withoutRawData ex (withoutRawData ex n) = withoutRawData ex n.
Proof.
  unfold withoutRawData. destruct (mem n ex) eqn:E; [|rewrite E; reflexivity]. destruct (mem "any" ex); reflexivity.
Qed.

Lemma iterate_again ex : forall t p,
  iterate (withoutRawData ex) p (iterate (withoutRawData ex) p t) = iterate (withoutRawData ex) p t.
Proof.
  fix IH 1. intros t p. destruct t; cbn [iterate]; try reflexivity.
  - rewrite any_again. reflexivity.
  - destruct p; cbn [iterate]; try reflexivity. rewrite IH. reflexivity.
  - rewrite IH. reflexivity.
  - destruct p; cbn [iterate]; try reflexivity; rewrite IH; reflexivity.
  - assert (M : forall l : list (list string * gtype),
      map (fun f => (fst f, iterate (withoutRawData ex) PField (snd f)))
        (map (fun f => (fst f, iterate (withoutRawData ex) PField (snd f))) l)
      = map (fun f => (fst f, iterate (withoutRawData ex) PField (snd f))) l).
    { induction l as [|[ns x] l IHl]; [reflexivity|]. cbn [map fst snd]. rewrite IH, IHl. reflexivity. }
    destruct p; cbn [iterate]; try reflexivity; rewrite M; reflexivity.
Qed.

Lemma spec_again ex s : raw_rewrite_spec ex (raw_rewrite_spec ex s) = raw_rewrite_spec ex s.
Proof.
  destruct s; try reflexivity. cbn [raw_rewrite_spec]. destruct (mem name ex) eqn:E; cbn [raw_rewrite_spec]; rewrite E; [reflexivity|].
  f_equal. destruct t; cbn [iterate_spec]; try reflexivity;
    (match goal with |- iterate_spec _ (iterate ?f ?p ?t) = _ =>
       assert (X := iterate_again ex t p); destruct (iterate f p t) eqn:Y; cbn [iterate_spec]; try reflexivity; exact X end).
Qed.

Lemma rewrite_again ex d : raw_rewrite ex (raw_rewrite ex d) = raw_rewrite ex d.
Proof.
  destruct d as [c ss|]; [|reflexivity]. cbn [raw_rewrite]. f_equal. rewrite map_map. apply map_ext.
  intros s. apply spec_again.
Qed.

Lemma rewrite_deletes ex d : deletes ex (raw_rewrite ex d) = deletes ex d.
Proof.
  destruct d as [c ss|]; [|reflexivity]. cbn [raw_rewrite deletes]. f_equal.
  induction ss as [|s ss IH]; [reflexivity|]. cbn [map filter].
  replace (raw_dead_spec ex (raw_rewrite_spec ex s)) with (raw_dead_spec ex s).
  - destruct (raw_dead_spec ex s); cbn [length]; rewrite IH; reflexivity.
  - destruct s; try reflexivity. cbn [raw_rewrite_spec]. destruct (mem name ex) eqn:E; reflexivity.
Qed.

(** A declaration that was visited and stays. *)
Definition settled (ex : list string) (d : decl) : Prop := deletes ex d = 0 /\ raw_rewrite ex d = d.

Lemma loop_settled ex b : forall fuel a r, Forall (settled ex) b ->
  raw_loop (length b + fuel) ex (a ++ b ++ r) (length a) = raw_loop fuel ex ((a ++ b) ++ r) (length (a ++ b)).
Proof.
  induction b as [|d b IH]; intros fuel a r F; [rewrite app_nil_r; reflexivity|].
  inversion F as [|? ? [D W] F']; subst. cbn [length app plus raw_loop].
  rewrite nth_error_mid, set_at_mid, D, W. cbn [remove_n Nat.ltb Nat.leb]. rewrite Nat.sub_0_r.
  replace (a ++ d :: b ++ r) with ((a ++ [d]) ++ b ++ r) by (rewrite <- app_assoc; reflexivity).
  replace (S (length a)) with (length (a ++ [d])) by (rewrite app_length; cbn; lia).
  rewrite IH by exact F'. rewrite <- !app_assoc. reflexivity.
Qed.

Lemma remove_n_mid {A} (a : list A) x : forall r, remove_n (length x) (length a) (a ++ x ++ r) = Some (a ++ r).
Proof. induction x as [|y x IH]; intros r; [reflexivity|]. cbn [length app remove_n]. rewrite remove_at_mid. apply IH. Qed.

Lemma remove_n_few {A} (a : list A) : forall r k, length r < k -> remove_n k (length a) (a ++ r) = None.
Proof.
  induction r as [|y r IH]; intros k H; (destruct k as [|k]; [cbn in H; lia|]); cbn [remove_n].
  - rewrite app_nil_r, remove_at_end. reflexivity.
  - rewrite remove_at_mid. apply IH. cbn in H. lia.
Qed.

Definition opt_out (o : option (list decl)) : outcome (list decl) :=
  match o with Some l => Ok l | None => Panic end.

Lemma loop_swept ex : forall n rest a fuel, length rest <= n -> length rest < fuel -> Forall (settled ex) a ->
  exists o, swept (fun n => In n ex) (raw_rewrite ex) a rest o /\
    raw_loop fuel ex (a ++ rest) (length a) = opt_out o.
Proof.
  induction n as [|n IH]; intros rest a fuel L F A; (destruct fuel as [|fuel]; [lia|]);
    (destruct rest as [|d rest];
     [exists (Some a); split; [constructor|]; cbn [raw_loop]; rewrite app_nil_r;
      replace (nth_error a (length a)) with (@None decl) by (symmetry; apply nth_error_None; lia); reflexivity|]);
    [cbn in L; lia|].
  cbn [length] in L, F. cbn [raw_loop]. rewrite nth_error_mid, set_at_mid.
  assert (R := reasons_deletes ex d). destruct (deletes ex d) as [|k] eqn:D.
  - cbn [remove_n Nat.ltb Nat.leb]. rewrite Nat.sub_0_r.
    destruct (IH rest (a ++ [raw_rewrite ex d]) fuel) as (o & O1 & O2); [lia|lia| |].
    { apply Forall_app. split; [exact A|]. constructor; [|constructor]. split; [rewrite rewrite_deletes; exact D|apply rewrite_again]. }
    exists o. split; [apply sw_stay; assumption|].
    rewrite <- app_assoc, app_length in O2. cbn [app length] in O2. rewrite Nat.add_1_r in O2. exact O2.
  - destruct (Nat.lt_ge_cases (length rest) k) as [H|H].
    { exists None. split; [exact (sw_few_after _ _ a d rest k R H)|].
      rewrite remove_n_few by (cbn [length]; lia). reflexivity. }
    set (x := firstn k rest). set (r := skipn k rest).
    assert (E : rest = x ++ r) by (symmetry; apply firstn_skipn).
    assert (K : length x = k) by (apply firstn_length_le; exact H).
    replace (remove_n (S k) (length a) (a ++ raw_rewrite ex d :: rest)) with (Some (a ++ r)).
    2:{ symmetry. rewrite E, <- K. exact (remove_n_mid a (raw_rewrite ex d :: x) r). }
    destruct (Nat.ltb (S (length a)) (S k)) eqn:T.
    { exists None. split; [|reflexivity]. apply Nat.ltb_lt in T. apply (sw_few_before _ _ a d rest k R). lia. }
    apply Nat.ltb_ge in T. 
    assert (Lr : length r + k = length rest) by (rewrite E, app_length; lia).
    destruct (IH r a (fuel - k)) as (o & O1 & O2); [lia|lia|exact A|].
    exists o. split; [rewrite E; apply sw_go; [rewrite K; exact R|lia|exact O1]|].
    rewrite <- O2. set (i := length a - k).
    assert (Ea : a = firstn i a ++ skipn i a) by (symmetry; apply firstn_skipn).
    assert (Li : length (firstn i a) = i) by (apply firstn_length_le; lia).
    assert (Lb : length (skipn i a) = k) by (rewrite skipn_length; lia).
    replace (S (length a) - S k) with (length (firstn i a)) by lia.
    replace fuel with (length (skipn i a) + (fuel - k)) at 1 by lia.
    replace (a ++ r) with (firstn i a ++ skipn i a ++ r) at 1 by (rewrite app_assoc, <- Ea; reflexivity).
    rewrite loop_settled.
    + rewrite <- Ea. reflexivity.
    + rewrite Ea in A. apply Forall_app in A. tauto.
Qed.

Lemma unions_ext (u v : string -> Prop) ss k : (forall n, u n <-> v n) -> unions_in u ss k -> unions_in v ss k.
Proof.
  intros H U. induction U; [constructor|apply un_hit; [apply H|]; assumption|].
  apply un_miss; [|assumption]. intros n t E V. apply (H0 n t E), H, V.
Qed.

Lemma reasons_ext (u v : string -> Prop) d k : (forall n, u n <-> v n) -> reasons u d k -> reasons v d k.
Proof.
  intros H R. destruct R; [constructor|apply rs_nameless|apply rs_other; [assumption|]]; eapply unions_ext; eauto.
Qed.

Lemma swept_ext (u v : string -> Prop) rw a f o : (forall n, u n <-> v n) -> swept u rw a f o -> swept v rw a f o.
Proof.
  intros H S. induction S.
  - constructor.
  - apply sw_stay; [eapply reasons_ext; eauto|assumption].
  - apply sw_go; [eapply reasons_ext; eauto|assumption|assumption].
  - eapply sw_few_after; [eapply reasons_ext; eauto|assumption].
  - eapply sw_few_before; [eapply reasons_ext; eauto|assumption].
Qed.

Lemma raw_exact f : Forall plain_func f ->
  exists ex o, (forall n, In n ex <-> union f n) /\ swept (union f) (raw_rewrite ex) [] f o /\
    fixRawData f = match o with Some f' => Ok f' | None => Panic end.
Proof.
  intros P. destruct (raw_collect_ok f [] [] P) as (ex & E & S).
  assert (S' : forall n, In n ex <-> union f n) by (intros n; rewrite S; cbn; tauto).
  destruct (loop_swept ex (length f) f [] (Datatypes.S (length f))) as (o & O1 & O2); [lia|lia|constructor|].
  exists ex, o. split; [exact S'|]. split; [exact (swept_ext _ _ _ _ _ _ S' O1)|].
  unfold fixRawData. rewrite E. cbn [bind]. exact O2.
Qed.

(** The rule leaves nothing open. *)
Lemma unions_fun u ss : forall k k', unions_in u ss k -> unions_in u ss k' -> k = k'.
Proof.
  induction ss as [|s ss IH]; intros k k' H H'.
  - inversion H; inversion H'; reflexivity.
  - inversion H as [|n t r j U J|s' r j M J]; subst; inversion H' as [|n' t' r' j' U' J'|s' r' j' M' J']; subst.
    + f_equal. exact (IH _ _ J J').
    + destruct (M' n t eq_refl U).
    + destruct (M n' t' eq_refl U').
    + exact (IH _ _ J J').
Qed.

Lemma reasons_fun u d k k' : reasons u d k -> reasons u d k' -> k = k'.
Proof.
  intros H H'. inversion H; subst; inversion H'; subst; try reflexivity;
    try (f_equal; eapply unions_fun; eassumption); try (eapply unions_fun; eassumption);
    exfalso; match goal with X : forall p cs, _ <> _ |- _ => eapply X; reflexivity end.
Qed.

Lemma swept_fun u rw a f o : swept u rw a f o -> forall o', swept u rw a f o' -> o = o'.
Proof.
  assert (app_same : forall (x y r s : list decl), length x = length y -> x ++ r = y ++ s -> r = s).
  { induction x as [|z x IH]; intros [|z' y] r s L E; try discriminate; [exact E|].
    injection L as L. injection E as _ E. eauto. }
  induction 1 as [a|a d r o R W IH|a d x r o R L W IH|a d r k R L|a d r k R L]; intros o' H'.
  - inversion H'. reflexivity.
  - inversion H'; subst; auto;
      match goal with X : reasons _ _ (S _) |- _ => assert (Q := reasons_fun _ _ _ _ R X); discriminate end.
  - inversion H'; subst.
    + match goal with X : reasons _ _ 0 |- _ => assert (Q := reasons_fun _ _ _ _ R X); discriminate end.
    + match goal with X : reasons _ _ (S (length ?y)), Y : ?y ++ ?s = x ++ r |- _ =>
        assert (Q := reasons_fun _ _ _ _ R X); injection Q as Q; assert (Z := app_same y x s r (eq_sym Q) Y); subst s end.
      apply IH. assumption.
    + match goal with X : reasons _ _ (S ?k), Y : length (x ++ r) < ?k |- _ =>
        assert (Q := reasons_fun _ _ _ _ R X); injection Q as Q; rewrite app_length in Y; lia end.
    + match goal with X : reasons _ _ (S ?k), Y : length a < ?k |- _ =>
        assert (Q := reasons_fun _ _ _ _ R X); injection Q as Q; lia end.
  - inversion H'; subst; try reflexivity.
    + match goal with X : reasons _ _ 0 |- _ => assert (Q := reasons_fun _ _ _ _ R X); discriminate end.
    + match goal with X : reasons _ _ (S (length _)) |- _ => assert (Q := reasons_fun _ _ _ _ R X); injection Q as Q end.
      rewrite app_length in L. lia.
  - inversion H'; subst; try reflexivity.
    + match goal with X : reasons _ _ 0 |- _ => assert (Q := reasons_fun _ _ _ _ R X); discriminate end.
    + match goal with X : reasons _ _ (S (length _)) |- _ => assert (Q := reasons_fun _ _ _ _ R X); injection Q as Q end.
      lia.
Qed.

Lemma raw_exact_one f : Forall plain_func f ->
  exists ex o, (forall n, In n ex <-> union f n) /\ swept (union f) (raw_rewrite ex) [] f o /\
    (forall o', swept (union f) (raw_rewrite ex) [] f o' -> o' = o) /\
    fixRawData f = match o with Some f' => Ok f' | None => Panic end.
Proof.
  intros P. destruct (raw_exact f P) as (ex & o & A & B & C). exists ex, o. split; [exact A|]. split; [exact B|].
  split; [|exact C]. intros o' W. symmetry. exact (swept_fun _ _ _ _ _ B o' W).
Qed.
