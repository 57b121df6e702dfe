(** Correctness of the binary search. *)
From Verif Require Import Prelude Version VersionProofs Search.
From Coq Require Import Sorting.Sorted Arith ZifyBool ZifyN ZifyNat.
Ltac Zify.zify_post_hook ::= Z.div_mod_to_equations.

(** A list of versions in non-decreasing order. *)
Definition sorted_vs (l : list version) : Prop := StronglySorted vle l.
(** A list of versions in strictly increasing order. *)
Definition strict_vs (l : list version) : Prop := StronglySorted vlt l.

Lemma strict_sorted l : strict_vs l -> sorted_vs l.
Proof.
  unfold strict_vs, sorted_vs; induction 1 as [|a l H IH F]; constructor; auto.
  eapply Forall_impl; [|exact F]. intros; apply vlt_vle; assumption.
Qed.

Lemma sorted_nth l : sorted_vs l -> forall i j a b,
  i <= j -> nth_error l i = Some a -> nth_error l j = Some b -> vle a b.
Proof.
  unfold sorted_vs; induction 1 as [|x l H IH F]; intros i j a b Hij Ha Hb.
  - destruct i; discriminate.
  - destruct i as [|i], j as [|j]; cbn in *; try lia.
    + inversion Ha; inversion Hb; subst; apply vle_refl.
    + inversion Ha; subst. apply nth_error_In in Hb. rewrite Forall_forall in F; auto.
    + eapply (IH i j); eauto; lia.
Qed.

Lemma strict_nth l : strict_vs l -> forall i j a b,
  i < j -> nth_error l i = Some a -> nth_error l j = Some b -> vlt a b.
Proof.
  unfold strict_vs; induction 1 as [|x l H IH F]; intros i j a b Hij Ha Hb.
  - destruct i; discriminate.
  - destruct i as [|i], j as [|j]; cbn in *; try lia.
    + inversion Ha; subst. apply nth_error_In in Hb. rewrite Forall_forall in F; auto.
    + eapply (IH i j); eauto; lia.
Qed.

Lemma strict_NoDup l : strict_vs l -> NoDup l.
Proof.
  unfold strict_vs; induction 1 as [|x l H IH F]; constructor; auto.
  intros Hin. rewrite Forall_forall in F. exact (vlt_irrefl _ (F _ Hin)).
Qed.

(** Number of leading elements satisfying [p]. *)
Fixpoint count {A} (p : A -> bool) (l : list A) : nat :=
  match l with
  | [] => 0
  | x :: r => (if p x then 1 else 0) + count p r
  end.

(** The rank of [x] in [l]: how many elements are strictly smaller. *)
Definition rank (l : list version) (x : version) : nat := count (fun a => vless a x) l.

Lemma rank_le l x : rank l x <= length l.
Proof. unfold rank; induction l as [|a l IH]; cbn; [lia|]. destruct (vless a x); lia. Qed.

Lemma rank_split l : sorted_vs l -> forall x i a,
  nth_error l i = Some a -> (i < rank l x <-> vless a x = true).
Proof.
  unfold sorted_vs, rank; induction 1 as [|y l H IH F]; intros x i a Ha; [destruct i; discriminate|].
  cbn [count]. destruct (vless y x) eqn:E.
  - destruct i as [|i]; cbn in Ha.
    + inversion Ha; subst. split; [intros; exact E|intros; lia].
    + rewrite <- (IH x i a Ha). lia.
  - assert (Hall : forall b, In b l -> vless b x = false).
    { intros b Hb. apply vless_false. apply vless_false in E.
      eapply vle_trans; [exact E|]. rewrite Forall_forall in F; auto. }
    assert (Hc : count (fun b => vless b x) l = 0).
    { clear -Hall. induction l as [|b l IH]; [reflexivity|]. cbn [count].
      rewrite (Hall b) by (left; reflexivity). apply IH. intros; apply Hall; right; assumption. }
    rewrite Hc. split; [lia|]. destruct i as [|i]; cbn in Ha.
    + inversion Ha; subst; congruence.
    + apply nth_error_In in Ha. rewrite Hall by assumption. discriminate.
Qed.

Lemma search_loop_rank l x : sorted_vs l -> forall fuel i j,
  j - i < fuel -> i <= rank l x -> rank l x <= j -> j <= length l ->
  search_loop fuel (fun i => ai <- index l i ;; Ok (negb (vless ai x))) i j = Ok (rank l x).
Proof.
  intros Hs; induction fuel as [|k IH]; intros i j Hf Hi Hr Hj; [lia|].
  cbn [search_loop]. destruct (Nat.ltb_spec i j) as [Hlt|Hge]; [|f_equal; lia].
  cbv zeta. set (h := (i + j) / 2).
  assert (Hh : i <= h < j) by (unfold h; lia).
  assert (Hn : exists a, nth_error l h = Some a).
  { destruct (nth_error l h) eqn:E; [eauto|]. apply nth_error_None in E. lia. }
  destruct Hn as [a Ha]. unfold index; rewrite Ha. cbn [bind].
  rewrite negb_involutive.
  pose proof (rank_split l Hs x h a Ha) as R.
  destruct (vless a x) eqn:E.
  - assert (h < rank l x) by (apply R; reflexivity). apply IH; lia.
  - assert (~ h < rank l x) by (rewrite R; congruence). apply IH; lia.
Qed.

Lemma searchSynv_rank l x : sorted_vs l -> searchSynv l x = Ok (rank l x).
Proof.
  intros Hs. unfold searchSynv, sort_search. apply search_loop_rank; auto; try lia.
  apply rank_le.
Qed.

(** In a strictly increasing list, the rank of the i-th element is i. *)
Lemma rank_strict l i a : strict_vs l -> nth_error l i = Some a -> rank l a = i.
Proof.
  intros Hs Ha. pose proof (strict_sorted _ Hs) as Hs'.
  assert (~ i < rank l a).
  { rewrite (rank_split l Hs' a i a Ha). rewrite vless_spec. apply vlt_irrefl. }
  destruct (Nat.eq_dec (rank l a) i) as [E|E]; [exact E|exfalso].
  assert (Hlt : rank l a < i) by lia.
  assert (Hn : exists b, nth_error l (rank l a) = Some b).
  { destruct (nth_error l (rank l a)) eqn:E2; [eauto|]. apply nth_error_None in E2.
    assert (i < length l) by (apply nth_error_Some; congruence). lia. }
  destruct Hn as [b Hb].
  assert (vless b a = true) by (apply vless_spec; eapply strict_nth; eauto).
  apply (rank_split l Hs' a _ b Hb) in H0. lia.
Qed.

Lemma rank_in l x : sorted_vs l -> In x l -> nth_error l (rank l x) = Some x.
Proof.
  intros Hs Hin. apply In_nth_error in Hin as [i Hi].
  assert (Hle : rank l x <= i).
  { assert (~ i < rank l x); [|lia]. rewrite (rank_split l Hs x i x Hi).
    rewrite vless_spec; apply vlt_irrefl. }
  destruct (nth_error l (rank l x)) as [b|] eqn:Hb.
  - f_equal. apply vle_antisym.
    + eapply sorted_nth; eauto.
    + apply vless_false. destruct (vless b x) eqn:E; [|reflexivity].
      apply (rank_split l Hs x _ b Hb) in E. lia.
  - apply nth_error_None in Hb. assert (i < length l) by (apply nth_error_Some; congruence). lia.
Qed.

Lemma rank_zero l : rank l synv0 = 0.
Proof.
  unfold rank; induction l as [|a l IH]; [reflexivity|]. cbn [count]. rewrite IH.
  destruct (vless a synv0) eqn:E; [|reflexivity].
  apply vless_spec in E. exfalso. apply (vle_not_vlt _ _ (synv0_min a) E).
Qed.

Lemma synvExists_spec l x : sorted_vs l ->
  exists b, synvExists l x = Ok b /\ (b = true <-> In x l).
Proof.
  intros Hs. unfold synvExists. rewrite searchSynv_rank by exact Hs. cbn [bind].
  destruct (Nat.ltb_spec (rank l x) (length l)) as [H|H].
  - unfold index. destruct (nth_error l (rank l x)) as [a|] eqn:Ha.
    + cbn [bind]. exists (veqb a x). split; [reflexivity|]. split.
      * intros E. apply veqb_spec in E. subst. eapply nth_error_In; eauto.
      * intros Hin. rewrite (rank_in l x Hs Hin) in Ha. inversion Ha. apply veqb_refl.
    + apply nth_error_None in Ha; lia.
  - exists false. split; [reflexivity|]. split; [discriminate|].
    intros Hin. pose proof (rank_in l x Hs Hin) as E.
    assert (rank l x < length l) by (apply nth_error_Some; congruence). lia.
Qed.

Lemma synvExists_true l x : sorted_vs l -> (synvExists l x = Ok true <-> In x l).
Proof.
  intros Hs. destruct (synvExists_spec l x Hs) as [b [E H]]. rewrite E. rewrite <- H.
  split; [intros K; inversion K; reflexivity|intros ->; reflexivity].
Qed.
Lemma synvExists_false l x : sorted_vs l -> (synvExists l x = Ok false <-> ~ In x l).
Proof.
  intros Hs. destruct (synvExists_spec l x Hs) as [b [E H]]. rewrite E. rewrite <- H.
  split; [intros K; inversion K; discriminate|destruct b; [congruence|reflexivity]].
Qed.

(** Decides order goals on literal version lists. *)
Ltac solve_sorted :=
  repeat match goal with
  | |- sorted_vs _ => unfold sorted_vs
  | |- strict_vs _ => unfold strict_vs
  | |- StronglySorted _ _ => constructor
  | |- Forall _ _ => constructor
  | |- vle _ _ => first [right; reflexivity | left]
  | |- vlt _ _ => unfold vlt; cbn; lia
  end.
